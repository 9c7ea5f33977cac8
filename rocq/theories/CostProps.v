(** C58: cost functions evaluate the estimation pipeline; finite differences. *)
From Coq Require Import List ZArith String Bool Reals Lra Lia Permutation Sorted.
From Verif Require Import Base BaseFacts UtilsModel EvModel EstModel CostModel CostSpec CostProofs SmallProps.
Import ListNotations.
Open Scope nat_scope.
Open Scope list_scope.

Section C58.
  Context {W G Op Circ : Type}.
  Notation tk := (task Op Circ).
  Notation st := (state W G).
  Notation it := (iterable W G).
  Context (seeded : Z -> G) (entropy : W -> W * G) (normal : G -> R -> R -> nat -> G * list R).

  (** the preprocessors that a call applies *)
  Definition pending (i : it) : list (preprocessor W G) := match i with INone => [] | IList l => l | IIterator l => l end.
  (** what is left of the argument parameter_preprocessors after all of them were applied *)
  Definition after (i : it) : it := match i with IIterator _ => IIterator [] | _ => i end.

  (** A call applies the preprocessors in order, each to the result of the one before, gives the result to the factory, its tasks
      to the estimation method, and returns the sum of the real parts of all values, with the square root of the sum of all
      covariances as precision (none without covariances).  Exceptions of any stage are passed on, and later stages do not run. *)
  Theorem C58_pipeline (factory : list R -> M st (list tk)) (method : list tk -> M st evs) i p s :
    (forall q s1, applied (pending i) p s q s1 ->
      match factory q s1 with
      | (s2, Err e) => cost_function factory method p (s, i) = ((s2, after i), Err e)
      | (s2, Ok tasks) =>
          match method tasks s2 with
          | (s3, Err e) => cost_function factory method p (s, i) = ((s3, after i), Err e)
          | (s3, Ok e) => exists v, cost_function factory method p (s, i) = ((s3, after i), Ok v) /\
                                    (Forall (proper (fst e)) (snd e) -> estimates e v)
          end
      end) /\
    (forall l1 f l2 q s1 s2 e, pending i = l1 ++ f :: l2 -> applied l1 p s q s1 -> f q s1 = (s2, Err e) ->
      exists i', cost_function factory method p (s, i) = ((s2, i'), Err e) /\ match i with IIterator _ => i' = IIterator l2 | _ => i' = i end).
  Proof.
    split.
    - intros q s1 H.
      assert (P : preprocess p (s, i) = ((s1, after i), Ok q)).
      { destruct i as [|l|l]; cbn [pending preprocess after] in *.
        - inversion H; subst. reflexivity.
        - rewrite (chainM_applied _ _ _ _ _ H). reflexivity.
        - rewrite (consume_applied _ _ _ _ _ H). reflexivity. }
      unfold cost_function, bindM, inner. rewrite P. destruct (factory q s1) as [s2 [tasks|e]]; [|reflexivity].
      destruct (method tasks s2) as [s3 [e|e]]; [|reflexivity]. eexists. split; [reflexivity|]. apply combine_and_sum_spec.
    - intros l1 f l2 q s1 s2 e Ei H F. unfold cost_function, bindM.
      destruct i as [|l|l]; cbn [pending preprocess] in *.
      + destruct l1; discriminate.
      + subst l. rewrite (chainM_fails _ _ _ _ _ _ _ _ _ H F). exists (IList (l1 ++ f :: l2)). split; reflexivity.
      + subst l. rewrite (consume_fails _ _ _ _ _ _ _ _ _ H F). exists (IIterator l2). split; reflexivity.
  Qed.
  (** With None or a list of preprocessors every call applies all of them; with an iterator only the first call does. *)
  Theorem C58_every_call (factory : list R -> M st (list tk)) (method : list tk -> M st evs) i p s s' i' v :
    cost_function factory method p (s, i) = ((s', i'), Ok v) ->
    pending i' = match i with IIterator _ => [] | _ => pending i end.
  Proof.
    unfold cost_function, bindM. destruct (preprocess p (s, i)) as [[s1 i1] [q|e]] eqn:P; [|discriminate].
    unfold inner. destruct (factory q s1) as [s2 [tasks|e]]; [|discriminate]. destruct (method tasks s2) as [s3 [e|e]]; [|discriminate].
    intros [= <- <- <-]. destruct i as [|l|l]; cbn [preprocess] in P.
    - inversion P; subst. reflexivity.
    - destruct (chainM l p s). inversion P; subst. reflexivity.
    - destruct (consume l p s) as [l' [s4 r]] eqn:C. inversion P; subst. cbn [pending]. clear P.
      revert p s C. induction l as [|f l IH]; intros p s C; cbn [consume] in C; [now injection C as <- _ _|].
      destruct (f p s) as [s5 [b|x]]; [|discriminate]. eapply IH, C.
  Qed.
  (** The gradient of a cost function is the given gradient of that very function, by default finite differences with step 1e-5. *)
  Theorem C58_gradient_attribute (factory : list R -> M st (list tk)) (method : list tk -> M st evs) gf :
    let c := create_cost_function factory method gf in
    wg_gradient c = gf (wg_function c) /\
    forall f p, default_gradient (W := W) (G := G) f p = finite_differences_gradient (as_float f) (1 / 10 ^ 5) p.
  Proof. cbv zeta. split; [reflexivity|]. intros f p. unfold default_gradient. f_equal. lra. Qed.

  (** fix_parameters puts the fixed parameters before the others. *)
  Theorem C58_fix_parameters fixed p (s : st) : exists q, fix_parameters fixed p s = (s, Ok q) /\
    length q = length fixed + length p /\
    (forall i, i < length fixed -> nth i q 0%R = nth i fixed 0%R) /\ (forall i, nth (length fixed + i) q 0%R = nth i p 0%R).
  Proof.
    exists (fixed ++ p). split; [reflexivity|]. split; [apply app_length|]. split; intros i; [intros H; apply app_nth1, H|].
    rewrite app_nth2 by lia. f_equal. lia.
  Qed.

  (** ** Noise *)
  (** add_normal_noise makes one generator for the new preprocessor, from the seed if there is one. *)
  Theorem C58_noise_creation sd seed (s : st) : exists g s', 
    add_normal_noise seeded entropy normal sd seed s = (s', Ok (noise_preprocessor normal (length (gens s)) sd)) /\
    gens s' = gens s ++ [g] /\ (forall z, seed = Some z -> g = seeded z /\ world s' = world s).
  Proof.
    unfold add_normal_noise, bindM, default_rng. destruct seed as [z|].
    - exists (seeded z). eexists. split; [reflexivity|]. cbn [gens world]. split; [reflexivity|]. intros z' [= <-]. split; reflexivity.
    - destruct (entropy (world s)) as [w g]. exists g. eexists. split; [reflexivity|]. cbn [gens world]. split; [reflexivity|]. discriminate.
  Qed.
  (** Calls of one preprocessor, with other things happening in between that do not use its generator *)
  Inductive calls (slot : nat) (f : preprocessor W G) : list (list R) -> st -> list (list R) -> st -> Prop :=
  | cl_nil s : calls slot f [] s [] s
  | cl_call p ps s q s1 qs s2 : f p s = (s1, Ok q) -> calls slot f ps s1 qs s2 -> calls slot f (p :: ps) s (q :: qs) s2
  | cl_other ps s s1 qs s2 : nth_error (gens s1) slot = nth_error (gens s) slot -> calls slot f ps s1 qs s2 -> calls slot f ps s qs s2.
  Lemma set_gen_same i g (l : list G) : i < length l -> nth_error (set_gen i g l) i = Some g.
  Proof. revert i. induction l as [|x l IH]; intros [|i] H; cbn [length set_gen nth_error] in *; try lia; [reflexivity|]. apply IH. lia. Qed.
  Lemma set_gen_other i j g (l : list G) : i <> j -> nth_error (set_gen i g l) j = nth_error l j.
  Proof. revert i j. induction l as [|x l IH]; intros [|i] [|j] H; cbn [set_gen nth_error]; try reflexivity; try congruence. apply IH. congruence. Qed.
  (** Every call adds the next numbers of the generator, one to each parameter.  Other noise preprocessors do not use it. *)
  Theorem C58_noise sd slot g : (0 <= sd)%R -> (forall g m d n, length (snd (normal g m d n)) = n) ->
    (forall ps s qs s', nth_error (gens s) slot = Some g -> calls slot (noise_preprocessor normal slot sd) ps s qs s' ->
      length qs = length ps /\ forall k p noise, nth_error ps k = Some p -> nth_error (stream normal g sd (map (@length R) ps)) k = Some noise ->
        exists q, nth_error qs k = Some q /\ length q = length p /\ forall j, j < length p -> nth j q 0%R = (nth j p 0 + nth j noise 0)%R) /\
    (forall other sd' p (s : st) s' r, other <> slot -> noise_preprocessor normal other sd' p s = (s', r) -> nth_error (gens s') slot = nth_error (gens s) slot).
  Proof.
    intros Hsd HN. split.
    - intros ps s qs s' Hg H. revert g Hg. induction H as [s|p ps s q s1 qs s2 E H IH|ps s s1 qs s2 E H IH]; intros g Hg.
      + split; [reflexivity|]. intros [|k] p noise; discriminate.
      + unfold noise_preprocessor in E. rewrite Hg in E. unfold draw in E. destruct (Rlt_dec sd 0) as [L|_]; [lra|].
        destruct (normal g 0 sd (length p)) as [g' noise0] eqn:EN. injection E as <- <-.
        assert (Ls : slot < length (gens s)) by (apply nth_error_Some; congruence).
        destruct (IH g') as [L1 L2]; [cbn [gens]; apply set_gen_same, Ls|].
        split; [cbn [length]; congruence|]. intros [|k] p1 noise; cbn [nth_error map stream].
        * rewrite EN. intros [= <-] [= <-]. eexists. split; [reflexivity|]. pose proof (HN g 0%R sd (length p)) as Ln. rewrite EN in Ln. cbn [snd] in Ln.
          split; [unfold vplus; rewrite map_length, combine_length; lia|]. intros j Hj. apply vplus_nth; lia.
        * rewrite EN. cbn [nth_error]. apply L2.
      + apply IH. rewrite E. exact Hg.
    - intros other sd' p s s' r N E. unfold noise_preprocessor in E. destruct (nth_error (gens s) other) as [g0|]; [|injection E as <- <-; reflexivity].
      destruct (draw normal g0 sd' (length p)) as [[g' noise]|e]; injection E as <- <-; [|reflexivity]. cbn [gens]. apply set_gen_other, N.
  Qed.
  (** So two preprocessors made from the same seed, anywhere, add the same noise to the same sequence of parameters. *)
  Theorem C58_same_seed sd z ps sa sa1 fa sa2 qa sa3 sb sb1 fb sb2 qb sb3 : (0 <= sd)%R -> (forall g m d n, length (snd (normal g m d n)) = n) ->
    add_normal_noise seeded entropy normal sd (Some z) sa = (sa1, Ok fa) -> nth_error (gens sa2) (length (gens sa)) = nth_error (gens sa1) (length (gens sa)) ->
    calls (length (gens sa)) fa ps sa2 qa sa3 ->
    add_normal_noise seeded entropy normal sd (Some z) sb = (sb1, Ok fb) -> nth_error (gens sb2) (length (gens sb)) = nth_error (gens sb1) (length (gens sb)) ->
    calls (length (gens sb)) fb ps sb2 qb sb3 -> qa = qb.
  Proof.
    intros Hsd HN A1 A2 A3 B1 B2 B3.
    destruct (C58_noise_creation sd (Some z) sa) as (ga & sa' & EA & GA & SA). rewrite EA in A1. injection A1 as <- <-.
    destruct (C58_noise_creation sd (Some z) sb) as (gb & sb' & EB & GB & SB). rewrite EB in B1. injection B1 as <- <-.
    destruct (SA z eq_refl) as [-> _]. destruct (SB z eq_refl) as [-> _].
    rewrite GA, nth_error_app2, Nat.sub_diag in A2 by lia. rewrite GB, nth_error_app2, Nat.sub_diag in B2 by lia. cbn [nth_error] in A2, B2.
    destruct (C58_noise sd (length (gens sa)) (seeded z) Hsd HN) as [NA _]. destruct (NA _ _ _ _ A2 A3) as [LA PA].
    destruct (C58_noise sd (length (gens sb)) (seeded z) Hsd HN) as [NB _]. destruct (NB _ _ _ _ B2 B3) as [LB PB].
    clear - LA PA LB PB.
    assert (LS : forall g l, length (stream normal g sd l) = length l).
    { intros g l. revert g. induction l as [|n l IH]; intros g; [reflexivity|]. cbn [stream]. destruct (normal g 0%R sd n). cbn [length]. rewrite IH. reflexivity. }
    apply nth_ext with (d := []) (d' := []); [congruence|]. intros k Hk.
    destruct (nth_error ps k) as [p|] eqn:Ep; [|apply nth_error_None in Ep; lia].
    destruct (nth_error (stream normal (seeded z) sd (map (@length R) ps)) k) as [noise|] eqn:En; [|apply nth_error_None in En; rewrite LS, map_length in En; lia].
    destruct (PA _ _ _ Ep En) as (q1 & E1 & L1 & V1). destruct (PB _ _ _ Ep En) as (q2 & E2 & L2 & V2).
    rewrite (nth_error_nth _ _ _ E1), (nth_error_nth _ _ _ E2). apply nth_ext with (d := 0%R) (d' := 0%R); [congruence|].
    intros j Hj. rewrite V1, V2 by lia. reflexivity.
  Qed.
  (** The deprecated cost functions make a new generator in every call: with a seed every call adds the same noise. *)
  Theorem C58_deprecated_noise fixed sd z p (s : st) : (0 <= sd)%R ->
    fixed_and_noise seeded entropy normal fixed (Some sd) (Some z) p s =
    (s, Ok (let q := match fixed with Some f => f ++ p | None => p end in vplus q (snd (normal (seeded z) 0 sd (length q))))).
  Proof.
    intros Hsd. unfold fixed_and_noise, bindM, default_rng, liftM, draw, combine_ansatz_params, retM.
    destruct (Rlt_dec sd 0); [lra|]. destruct fixed; reflexivity.
  Qed.

  (** ** Factories of estimation tasks *)
  Context (free_symbols : Circ -> list string) (bind : Circ -> list (string * R) -> result Circ)
          (set_order : list string -> list string) (key_leb : string -> string -> bool).
  Notation start op c := [Build_task op c None : tk].
  Notation preprocessors o := (match o with None => [] | Some l => l end).
  (** the same task with the circuit bound to the values of a map *)
  Definition bound (m : list (string * R)) (t t' : tk) : Prop := t_op t' = t_op t /\ t_shots t' = t_shots t /\ bind (t_circ t) m = Ok (t_circ t').
  Lemma evaluate_bound m tasks new : evaluate_estimation_circuits bind tasks (map (fun _ => m) tasks) = Ok new <-> Forall2 (bound m) tasks new.
  Proof.
    unfold evaluate_estimation_circuits. revert new. induction tasks as [|t tasks IH]; intros new; cbn [map combine mapM].
    - split; [intros [= <-]; constructor|]. intros H. inversion H. reflexivity.
    - cbn [fst snd rbind]. destruct (bind (t_circ t) m) as [c|e] eqn:B; cbn [rbind].
      + destruct (mapM _ _) as [l|e] eqn:E; cbn [rbind].
        * split.
          -- intros [= <-]. constructor; [split; [reflexivity|]; split; [reflexivity|exact B]|]. now apply IH.
          -- intros H. inversion H as [|? t' ? l' Hb Hl]; subst. apply IH in Hl. injection Hl as <-. destruct Hb as (H1 & H2 & H3). rewrite B in H3. injection H3 as ->.
             destruct t'; cbn in *; subst; reflexivity.
        * split; [discriminate|]. intros H. inversion H as [|? t' ? l' Hb Hl]; subst. apply IH in Hl. discriminate.
      + split; [discriminate|]. intros H. inversion H as [|? t' ? l' Hb Hl]; subst. destruct Hb as (_ & _ & Hb). congruence.
  Qed.
  (** The preprocessors of the tasks run once, in order, when the factory is made.  The factory binds the circuits of the resulting
      tasks: the i-th parameter is the value of the i-th of their free symbols in the order of the sort key.  A wrong number of
      parameters is a ValueError. *)
  Theorem C58_factory op c (pre : option (list (@task_preprocessor W G Op Circ))) (s : st) tasks s1 :
    (forall l, Permutation (set_order l) l) -> (forall a b, key_leb a b = true \/ key_leb b a = true) ->
    (forall a b d, key_leb a b = true -> key_leb b d = true -> key_leb a d = true) ->
    applied (preprocessors pre) (start op c) s tasks s1 ->
    exists F symbols,
      expectation_value_estimation_tasks_factory free_symbols bind set_order key_leb op c pre s = (s1, Ok F) /\
      NoDup symbols /\ (forall x, In x symbols <-> exists t, In t tasks /\ In x (free_symbols (t_circ t))) /\
      StronglySorted (fun a b => key_leb a b = true) symbols /\
      forall p s2,
        (length p <> length symbols -> F p s2 = (s2, Err ValueError)) /\
        (length p = length symbols -> exists m, dkeys m = symbols /\
          (forall i, i < length p -> dget String.eqb (nth i symbols EmptyString) m = Some (nth i p 0%R)) /\
          fst (F p s2) = s2 /\ forall new, F p s2 = (s2, Ok new) <-> Forall2 (bound m) tasks new).
  Proof.
    intros HP HT HTr H. set (symbols := sorted_circuit_symbols free_symbols set_order key_leb tasks).
    assert (PS : Permutation symbols (uniq String.eqb (flat_map (fun t : tk => free_symbols (t_circ t)) tasks))).
    { unfold symbols, sorted_circuit_symbols. rewrite sort_by_perm. apply HP. }
    assert (ND : NoDup symbols) by (eapply Permutation_NoDup; [symmetry; exact PS|apply (uniq_NoDup String.eqb String.eqb_eq)]).
    exists (fun parameters => liftM (bind_tasks bind tasks symbols parameters)), symbols.
    split; [unfold expectation_value_estimation_tasks_factory, bindM; rewrite (chainM_applied _ _ _ _ _ H); reflexivity|].
    split; [exact ND|]. split.
    { intros x. split.
      - intros Hx. apply (Permutation_in x PS) in Hx. rewrite (uniq_In String.eqb String.eqb_eq) in Hx. apply in_flat_map in Hx. exact Hx.
      - intros Hx. apply (Permutation_in x (Permutation_sym PS)). apply (uniq_In String.eqb String.eqb_eq). apply in_flat_map. exact Hx. }
    split; [apply sort_by_sorted; auto|]. intros p s2. unfold liftM, bind_tasks.
    destruct (C65_symbols_map R symbols p ND) as [C1 C2]. split.
    - intros N. rewrite C1 by congruence. reflexivity.
    - intros E. destruct (C2 (eq_sym E)) as (m & Em & Km & Vm). exists m. split; [exact Km|]. split; [|rewrite Em; cbn [rbind]; split; [reflexivity|]].
      + intros i Hi. apply (Vm i); apply nth_error_nth'; lia.
      + intros new. rewrite <- evaluate_bound. split; [intros [= X]; exact X|]. intros ->. reflexivity.
  Qed.
  (** A factory from an ansatz binds the parametrized circuit that the ansatz has when the factory is made. *)
  Theorem C58_substitution op (ansatz : M st Circ) (pre : option (list (@task_preprocessor W G Op Circ))) (s : st) c s1 : ansatz s = (s1, Ok c) ->
    substitution_based_estimation_tasks_factory free_symbols bind set_order key_leb op ansatz pre s =
    expectation_value_estimation_tasks_factory free_symbols bind set_order key_leb op c pre s1.
  Proof. intros E. unfold substitution_based_estimation_tasks_factory, bindM. rewrite E. reflexivity. Qed.
  (** The dynamic factory generates the circuit for the parameters and runs all preprocessors, in every call. *)
  Theorem C58_dynamic op (generate : list R -> M st Circ) (pre : option (list (@task_preprocessor W G Op Circ))) p (s : st) c s1 tasks s2 :
    generate p s = (s1, Ok c) -> applied (preprocessors pre) (start op c) s1 tasks s2 ->
    dynamic_circuit_estimation_tasks_factory op generate pre p s = (s2, Ok tasks).
  Proof. intros E H. unfold dynamic_circuit_estimation_tasks_factory, bindM. rewrite E. apply chainM_applied, H. Qed.
  (** A preprocessor that does not look into circuits (such as the allocation of shots) treats bound tasks alike. *)
  Definition ignores_binding (f : @task_preprocessor W G Op Circ) : Prop :=
    forall m tasks tasks' s out s1, Forall2 (bound m) tasks tasks' -> f tasks s = (s1, Ok out) ->
      forall s', exists out' s1', f tasks' s' = (s1', Ok out') /\ Forall2 (bound m) out out'.
  (** If the ansatz generates for parameters the circuit that binding its parametrized circuit gives, both factories give the same
      tasks. *)
  Theorem C58_factories_agree op c (generate : list R -> M st Circ) (pre : option (list (@task_preprocessor W G Op Circ))) (s : st) tasks s1 :
    (forall l, Permutation (set_order l) l) -> (forall a b, key_leb a b = true \/ key_leb b a = true) ->
    (forall a b d, key_leb a b = true -> key_leb b d = true -> key_leb a d = true) ->
    Forall ignores_binding (preprocessors pre) -> applied (preprocessors pre) (start op c) s tasks s1 ->
    (forall m p s, dkeys m = sort_by key_leb (set_order (uniq String.eqb (flat_map (fun t : tk => free_symbols (t_circ t)) tasks))) ->
       (forall i, i < length p -> dget String.eqb (nth i (dkeys m) EmptyString) m = Some (nth i p 0%R)) -> length p = length (dkeys m) ->
       exists c' s', bind c m = Ok c' /\ generate p s = (s', Ok c')) ->
    exists F, expectation_value_estimation_tasks_factory free_symbols bind set_order key_leb op c pre s = (s1, Ok F) /\
      forall p s2 s3, length p = length (sort_by key_leb (set_order (uniq String.eqb (flat_map (fun t : tk => free_symbols (t_circ t)) tasks)))) ->
        exists new s3', F p s2 = (s2, Ok new) /\ dynamic_circuit_estimation_tasks_factory op generate pre p s3 = (s3', Ok new).
  Proof.
    intros HP HT HTr HI H HG. set (symbols := sort_by key_leb _) in *.
    exists (fun parameters => liftM (bind_tasks bind tasks symbols parameters)). split.
    { unfold expectation_value_estimation_tasks_factory, bindM. rewrite (chainM_applied _ _ _ _ _ H). reflexivity. }
    intros p s2 s3 Lp.
    assert (ND : NoDup symbols).
    { eapply Permutation_NoDup; [|apply (uniq_NoDup String.eqb String.eqb_eq)]. symmetry. unfold symbols. rewrite sort_by_perm. apply HP. }
    destruct (C65_symbols_map R symbols p ND) as [_ C2]. destruct (C2 (eq_sym Lp)) as (m & Em & Km & Vm).
    destruct (HG m p s3) as (c' & s4 & Bc & Gc); [exact Km|rewrite Km; intros i Hi; apply (Vm i); apply nth_error_nth'; lia|rewrite Km; exact Lp|].
    assert (A : forall fs a s b s1 a' s', Forall ignores_binding fs -> applied fs a s b s1 -> Forall2 (bound m) a a' ->
                exists b' s1', applied fs a' s' b' s1' /\ Forall2 (bound m) b b').
    { clear. intros fs a s b s1 a' s' HI H. revert a' s'. induction H as [|f fs a s b s1 d s2 E H IH]; intros a' s' HB.
      - exists a', s'. split; [constructor|exact HB].
      - inversion HI as [|? ? Hf Hfs]; subst. destruct (Hf m _ _ _ _ _ HB E s') as (b' & s1' & E' & HB').
        destruct (IH Hfs b' s1' HB') as (d' & s2' & H' & HB''). exists d', s2'. split; [econstructor; eauto|exact HB'']. }
    destruct (A _ _ _ _ _ (start op c') s4 HI H) as (new & s5 & H' & HB).
    { repeat constructor. exact Bc. }
    exists new, s5. split.
    - unfold liftM, bind_tasks. rewrite Em. cbn [rbind]. f_equal. apply evaluate_bound. exact HB.
    - eapply C58_dynamic; eassumption.
  Qed.
  Theorem C58_shot_allocation_ignores_binding n : ignores_binding (fun tasks => liftM (allocate_shots_uniformly tasks n)).
  Proof.
    intros m tasks tasks' s out s1 HB. unfold liftM, allocate_shots_uniformly. destruct (n <=? 0)%Z; [discriminate|]. intros [= <- <-] s'.
    eexists. eexists. split; [reflexivity|]. induction HB as [|t t' l l' (B1 & B2 & B3) HB IH]; cbn [map]; constructor; [|exact IH].
    split; [exact B1|]. split; [reflexivity|exact B3].
  Qed.

  (** ** The deprecated cost functions *)
  (** Without noise, AnsatzBasedCostFunction is the cost function made by create_cost_function with the fixed parameters as
      preprocessor. *)
  Theorem C58_ansatz_based op c (pre : option (list (@task_preprocessor W G Op Circ))) (s : st) (method : list tk -> M st evs) fixed seed tasks symbols s1 F p s2 :
    prepare_tasks free_symbols set_order key_leb op c pre s = (s1, Ok (tasks, symbols)) ->
    expectation_value_estimation_tasks_factory free_symbols bind set_order key_leb op c pre s = (s1, Ok F) ->
    let i := match fixed with Some f => IList [fix_parameters f] | None => INone end in
    ansatz_based_cost_function seeded entropy normal bind tasks symbols fixed None seed method p s2 =
    (let '((s3, _), r) := cost_function F method p (s2, i) in (s3, r)).
  Proof.
    unfold prepare_tasks, expectation_value_estimation_tasks_factory, bindM. destruct (chainM _ _ s) as [s3 [ts|e]]; [|discriminate].
    intros [= -> <- <-] [= <-]. cbv zeta. unfold ansatz_based_cost_function, cost_function, bindM, fixed_and_noise, inner, retM, liftM, preprocess.
    destruct fixed as [f|]; cbn [chainM fix_parameters retM bindM].
    - unfold bindM, fix_parameters, retM. destruct (bind_tasks bind ts _ _) as [new|e]; [|reflexivity]. destruct (method new s2) as [s4 [e|e]]; reflexivity.
    - destruct (bind_tasks bind ts _ _) as [new|e]; [|reflexivity]. destruct (method new s2) as [s4 [e|e]]; reflexivity.
  Qed.
  (** get_ground_state_cost_function returns the sum of the values without precision; complex values are a ValueError. *)
  Theorem C58_ground_state is_complex tasks symbols fixed sd seed (method : list tk -> M st evs) p s q s1 new s2 e :
    fixed_and_noise seeded entropy normal fixed sd seed p s = (s1, Ok q) -> bind_tasks bind tasks symbols q = Ok new -> method new s1 = (s2, Ok e) ->
    exists r, ground_state_cost_function seeded entropy normal bind is_complex tasks symbols fixed sd seed method p s = (s2, r) /\
      ((forall ev, In ev (snd e) -> is_complex (er_values ev) = false) -> exists v, r = Ok v /\ est_value v = total_value real_part (snd e) /\ est_precision v = NoPrecision) /\
      ((exists ev, In ev (snd e) /\ is_complex (er_values ev) = true) -> r = Err ValueError).
  Proof.
    intros E1 E2 E3. unfold ground_state_cost_function, bindM, liftM. rewrite E1, E2, E3.
    destruct (existsb (fun ev => is_complex (er_values ev)) (snd e)) eqn:X.
    - eexists. split; [reflexivity|]. split; [|reflexivity]. intros H. apply existsb_exists in X. destruct X as (ev & I1 & I2). rewrite H in I2 by exact I1. discriminate.
    - eexists. split; [reflexivity|]. split.
      + intros _. eexists. split; [reflexivity|]. cbn [est_value est_precision]. split; [|reflexivity]. unfold total_value.
        clear. induction (snd e) as [|ev l IH]; [reflexivity|]. cbn [map flat_map rsum]. rewrite map_app, rsum_app, IH. reflexivity.
      + intros (ev & I1 & I2). assert (Y : existsb (fun ev => is_complex (er_values ev)) (snd e) = true) by (apply existsb_exists; eauto). congruence.
  Qed.
End C58.

(** The docstring of fix_parameters says that the fixed parameters are appended to the other ones. *)
Theorem C58_fixed_appended_refuted : ~ (forall fixed p (s : state unit unit), exists q, fix_parameters fixed p s = (s, Ok q) /\
  forall i, i < length p -> nth i q 0%R = nth i p 0%R).
Proof.
  intros H. destruct (H [1%R] [0%R] {| gens := []; world := tt |}) as (q & E & P). cbn in E. injection E as <-. specialize (P 0 ltac:(cbn; lia)). cbn in P. lra.
Qed.
(** An iterator of preprocessors is used up by the first call: the same call gives another result afterwards. *)
Theorem C58_iterator_refuted : exists (factory : list R -> M (state unit unit) (list (task unit (list R)))) method pre p s' i' v s'' i'' v',
  (forall q s s1, applied pre p s q s1 -> s1 = s) /\ (forall q s, fst (factory q s) = s) /\ (forall t s, fst (method t s) = s) /\
  cost_function factory method p ({| gens := []; world := tt |}, IIterator pre) = ((s', i'), Ok v) /\
  cost_function factory method p (s', i') = ((s'', i''), Ok v') /\ s' = {| gens := []; world := tt |} /\ est_value v <> est_value v'.
Proof.
  exists (fun p => retM [Build_task tt p None]).
  exists (fun tasks => retM ([], [{| er_values := map (fun x => SReal x) (flat_map t_circ tasks); er_correlations := None; er_covariances := None |}])).
  exists [fix_parameters [1%R]], [0%R]. do 6 eexists.
  split; [intros q s s1 H; inversion H as [|? ? ? ? ? ? ? ? E H1]; subst; inversion H1; subst; cbn in E; injection E; auto|].
  split; [reflexivity|]. split; [reflexivity|]. split; [reflexivity|]. split; [reflexivity|]. split; [reflexivity|]. cbn. lra.
Qed.

(** ** Finite differences *)
(** The gradient evaluates the function at p + h e_i and p - h e_i for every coordinate in order, on fresh arrays, and its i-th
    component is the difference of the two values divided by 2 h. *)
Theorem C58_gradient {S} (f : list R -> M S R) step p s vs s' : step <> 0%R -> evaluations f (gradient_points step p) s vs s' ->
  exists g, finite_differences_gradient f step p s = (s', Ok g) /\ length g = length p /\
    forall i, i < length p -> nth i g 0%R = ((nth (2 * i) vs 0 - nth (2 * i + 1) vs 0) / (2 * step))%R.
Proof.
  intros Hs H. exists (quotients step vs). pose proof (evaluations_length _ _ _ _ _ H) as L. rewrite gradient_points_length in L.
  split; [exact (gradient_loop_spec f step p (seq 0 (length p)) s vs s' [] Hs H)|]. split; [apply quotients_length, L|]. intros i Hi. apply quotients_nth. lia.
Qed.
(** An exception of the function is passed on at once. *)
Theorem C58_gradient_raises {S} (f : list R -> M S R) step p s ps q qs vs s1 s2 e : step <> 0%R ->
  gradient_points step p = ps ++ q :: qs -> evaluations f ps s vs s1 -> f q s1 = (s2, Err e) -> finite_differences_gradient f step p s = (s2, Err e).
Proof.
  intros Hs. unfold finite_differences_gradient, gradient_points. generalize (seq 0 (length p)) as idx. intros idx. generalize (@nil R) as acc.
  intros acc E H F. revert acc ps s vs E H. induction idx as [|i idx IH]; intros acc ps s vs E H; [destruct ps; discriminate|].
  cbn [flat_map app] in E. cbn [gradient_loop]. unfold bindM. rewrite !bump_shifted.
  destruct ps as [|a [|b ps]]; cbn [app] in E.
  - injection E as <- _. inversion H; subst. rewrite F. reflexivity.
  - injection E as <- <- _. inversion H as [|? ? ? v1 s3 vs1 ? E1 H1]; subst. inversion H1; subst. rewrite E1, F. reflexivity.
  - injection E as <- <- E. inversion H as [|? ? ? v1 s3 vs1 ? E1 H1]; subst. inversion H1 as [|? ? ? v2 s4 vs2 ? E2 H2]; subst.
    rewrite E1, E2. unfold liftM, difference_quotient. destruct (Req_EM_T (2 * step) 0); [exfalso; lra|]. eapply IH; eassumption.
Qed.
(** For a function without side effects *)
Theorem C58_gradient_quotient {S} (f : list R -> R) step p (s : S) : step <> 0%R ->
  exists g, finite_differences_gradient (fun p => retM (f p)) step p s = (s, Ok g) /\ length g = length p /\
    forall i, i < length p -> nth i g 0%R = ((f (shifted i step p) - f (shifted i (- step) p)) / (2 * step))%R.
Proof.
  intros Hs. destruct (C58_gradient (fun p => retM (f p)) step p s _ s Hs (evaluations_pure f (gradient_points step p) s)) as (g & E & L & V).
  exists g. split; [exact E|]. split; [exact L|]. intros i Hi. rewrite V by exact Hi.
  destruct (gradient_points_nth step p i Hi) as [G1 G2]. pose proof (gradient_points_length step p) as GL.
  assert (N : forall k, k < 2 * length p -> nth k (map f (gradient_points step p)) 0%R = f (nth k (gradient_points step p) [])).
  { intros k Hk. rewrite nth_indep with (d' := f []) by (rewrite map_length; lia). apply map_nth. }
  rewrite !N, G1, G2 by lia. reflexivity.
Qed.
(** A step of zero is an error. *)
Theorem C58_zero_step {S} (f : list R -> R) p (s : S) : p <> [] -> finite_differences_gradient (fun p => retM (f p)) 0 p s = (s, Err ZeroDivisionError).
Proof.
  destruct p as [|x p]; [congruence|]. intros _. unfold finite_differences_gradient. cbn [length seq gradient_loop]. unfold bindM, retM, liftM, difference_quotient.
  destruct (Req_EM_T (2 * 0) 0); [reflexivity|lra].
Qed.
(** It is exact for quadratic functions, ... *)
Theorem C58_quadratic {S} c b A step p (s : S) : step <> 0%R -> let n := length p in
  exists g, finite_differences_gradient (fun p => retM (quadratic n c b A p)) step p s = (s, Ok g) /\ length g = n /\
    forall i, i < n -> nth i g 0%R = (b i + sum_over n (fun j => (A i j + A j i) * nth j p 0))%R.
Proof.
  intros Hs n. destruct (C58_gradient_quotient (quadratic n c b A) step p s Hs) as (g & E & L & V). exists g. split; [exact E|]. split; [exact L|].
  intros i Hi. rewrite V by exact Hi. rewrite !quadratic_shift by (auto; exact Hi). field. exact Hs.
Qed.
(** ... and for functions whose third derivative in each coordinate is at most B it is off by at most B h^2 / 6. *)
Theorem C58_gradient_error {S} (f : list R -> R) step B p (s : S) : (0 < step)%R ->
  (forall i, i < length p -> exists f1 f2 f3, forall t, (- step <= t <= step)%R ->
     derivable_pt_lim (fun t => f (shifted i t p)) t (f1 t) /\ derivable_pt_lim f1 t (f2 t) /\
     derivable_pt_lim f2 t (f3 t) /\ (Rabs (f3 t) <= B)%R) ->
  exists g, finite_differences_gradient (fun p => retM (f p)) step p s = (s, Ok g) /\ length g = length p /\
    forall i d, i < length p -> derivable_pt_lim (fun t => f (shifted i t p)) 0 d -> (Rabs (nth i g 0 - d) <= B * step ^ 2 / 6)%R.
Proof.
  intros Hs HD. destruct (C58_gradient_quotient f step p s ltac:(lra)) as (g & E & L & V). exists g. split; [exact E|]. split; [exact L|].
  intros i d Hi Hd. rewrite V by exact Hi. destruct (HD i Hi) as (f1 & f2 & f3 & D).
  replace d with (f1 0%R).
  - apply (central_difference (fun t => f (shifted i t p)) f1 f2 f3 step B Hs D).
  - eapply uniqueness_limite; [|exact Hd]. apply (D 0%R). lra.
Qed.

(** ** Concrete cases *)
(** A backend that counts its calls, circuits that are lists of symbols and numbers, two preprocessors, covariances. *)
Definition ex_factory (q : list R) : M (state nat unit) (list (task unit (list R))) := retM [Build_task tt q None].
Definition ex_method (tasks : list (task unit (list R))) : M (state nat unit) evs :=
  fun s => ({| gens := gens s; world := S (world s) |},
            Ok ([[[[1; 2]; [2; 5]]; [[6]]]], [{| er_values := map (fun x => SCplx x 7) (flat_map t_circ tasks); er_correlations := None; er_covariances := Some 0%nat |};
                                             {| er_values := [SReal 10]; er_correlations := None; er_covariances := None |}])%R).
Definition ex_double : preprocessor nat unit := fun p => retM (map (fun x => 2 * x)%R p).
Example C58_pipeline_example : let s := {| gens := []; world := 3 |} in
  applied (pending (IList [fix_parameters [1%R]; ex_double])) [5%R] s [2 * 1; 2 * 5]%R s /\
  (exists s3 e, ex_method [Build_task tt [2; 10]%R None] s = (s3, Ok e) /\ Forall (proper (fst e)) (snd e)) /\
  exists v, cost_function ex_factory ex_method [5%R] (s, IList [fix_parameters [1%R]; ex_double]) =
            (({| gens := []; world := 4 |}, IList [fix_parameters [1%R]; ex_double]), Ok v) /\ est_value v = 22%R /\ est_precision v = Precision 4.
Proof.
  cbv zeta. split; [econstructor; [reflexivity|]; econstructor; [reflexivity|]; constructor|]. split.
  - do 2 eexists. split; [reflexivity|]. cbn [fst snd]. apply Forall_cons; [|apply Forall_cons; [|apply Forall_nil]]; split; cbn; intros r0 E; try discriminate E. injection E as <-. lia.
  - eexists. split; [reflexivity|]. cbn. split; [lra|]. unfold np_sqrt, frame_sum. cbn [fold_left map rsum].
    match goal with |- (if Rlt_dec ?x 0 then _ else _) = _ => replace x with (4 * 4)%R by lra end. destruct (Rlt_dec (4 * 4) 0); [lra|]. rewrite sqrt_square by lra. reflexivity.
Qed.
(** A generator that counts the numbers it has given out *)
Definition ex_normal (g : nat) (m sd : R) (n : nat) : nat * list R := (g + n, map (fun i => m + sd * INR (g + i))%R (seq 0 n)).
Example C58_noise_example : let s := {| gens := [100]; world := tt |} in
  (forall g m d n, length (snd (ex_normal g m d n)) = n) /\
  exists s1 f s2 q1 s3 q2, add_normal_noise Z.to_nat (fun w => (w, 0)) ex_normal 1 (Some 4%Z) s = (s1, Ok f) /\
    f [0; 0]%R s1 = (s2, Ok q1) /\ f [1]%R s2 = (s3, Ok q2) /\ gens s3 = [100; 7] /\ calls 1 f [[0; 0]; [1]]%R s1 [q1; q2] s3 /\
    stream ex_normal 4 1%R [2; 1] = [snd (ex_normal 4 0 1 2); snd (ex_normal 6 0 1 1)].
Proof.
  cbv zeta. split; [intros; unfold ex_normal; cbn [snd]; rewrite map_length, seq_length; reflexivity|].
  set (s := {| gens := [100]; world := tt |}).
  destruct (add_normal_noise Z.to_nat (fun w : unit => (w, 0)) ex_normal 1 (Some 4%Z) s) as [s1 [f|e]] eqn:E; cbn in E; [|discriminate].
  injection E as <- <-.
  assert (S1 : forall p (s : state unit nat) g, nth_error (gens s) 1 = Some g -> noise_preprocessor ex_normal 1 1 p s =
     ({| gens := set_gen 1 (g + length p) (gens s); world := world s |}, Ok (vplus p (snd (ex_normal g 0 1 (length p)))))).
  { intros p s' g Hg. unfold noise_preprocessor. rewrite Hg. unfold draw. destruct (Rlt_dec 1 0); [lra|]. reflexivity. }
  do 6 eexists. split; [reflexivity|]. split; [rewrite (S1 _ _ 4) by reflexivity; reflexivity|]. split; [rewrite (S1 _ _ 6) by reflexivity; reflexivity|].
  split; [reflexivity|]. split; [|reflexivity].
  eapply cl_call; [rewrite (S1 _ _ 4) by reflexivity; reflexivity|]. eapply cl_call; [rewrite (S1 _ _ 6) by reflexivity; reflexivity|]. constructor.
Qed.
(** Circuits with the free symbols b and a; shots are allocated; the parameters are bound in the order a, b. *)
Definition ex_bind (c : list (string + R)) (m : list (string * R)) : result (list (string + R)) :=
  Ok (map (fun x => match x with inl y => match dget String.eqb y m with Some v => inr v | None => inl y end | inr v => inr v end) c).
Definition ex_free (c : list (string + R)) : list string := flat_map (fun x => match x with inl y => [y] | inr _ => [] end) c.
Definition ex_circuit : list (string + R) := [inl "b"%string; inr 3%R; inl "a"%string; inl "b"%string].
Definition ex_pre : option (list (@task_preprocessor unit unit unit (list (string + R)))) :=
  Some [fun tasks => liftM (allocate_shots_uniformly tasks 10%Z)].
Example C58_factory_example : let s := {| gens := []; world := tt |} in
  applied (match ex_pre with None => [] | Some l => l end) [Build_task tt ex_circuit None] s [Build_task tt ex_circuit (Some 10%Z)] s /\
  Forall (ignores_binding ex_bind) (match ex_pre with None => [] | Some l => l end) /\
  exists F, expectation_value_estimation_tasks_factory ex_free ex_bind (fun l => rev l) String.leb tt ex_circuit ex_pre s = (s, Ok F) /\
    F [1; 2]%R s = (s, Ok [Build_task tt [inr 2; inr 3; inr 1; inr 2]%R (Some 10%Z)]) /\ F [1%R] s = (s, Err ValueError) /\
    dynamic_circuit_estimation_tasks_factory tt (fun p => liftM (ex_bind ex_circuit (combine ["a"; "b"]%string p))) ex_pre [1; 2]%R s = F [1; 2]%R s.
Proof.
  cbv zeta. split; [econstructor; [reflexivity|constructor]|]. split; [constructor; [apply C58_shot_allocation_ignores_binding|constructor]|].
  exists (fun parameters => liftM (bind_tasks ex_bind [Build_task tt ex_circuit (Some 10%Z)] ["a"; "b"]%string parameters)).
  split; [reflexivity|]. split; [reflexivity|]. split; [reflexivity|]. reflexivity.
Qed.
(** The gradient of 1 + x + 3 x y at (2, 5), and the error for sin *)
Example C58_quadratic_example (s : unit) : exists g,
  finite_differences_gradient (fun p => retM (quadratic 2 1 (fun j => if Nat.eqb j 0 then 1 else 0) (fun j k => if Nat.eqb j 0 then if Nat.eqb k 1 then 3 else 0 else 0) p)%R) (1 / 10) [2; 5]%R s = (s, Ok g) /\
  nth 0 g 0%R = 16%R /\ nth 1 g 0%R = 6%R.
Proof.
  destruct (C58_quadratic 1%R (fun j => if Nat.eqb j 0 then 1%R else 0%R) (fun j k => if Nat.eqb j 0 then if Nat.eqb k 1 then 3%R else 0%R else 0%R) (1 / 10)%R [2; 5]%R s) as (g & E & L & V); [lra|].
  exists g. split; [exact E|]. rewrite !V by (cbn; lia). cbn. split; lra.
Qed.
Example C58_gradient_error_example (x : R) (s : unit) : exists g,
  finite_differences_gradient (fun p => retM (sin (nth 0 p 0%R))) (/ 100000) [x] s = (s, Ok g) /\ (Rabs (nth 0 g 0 - cos x) <= 1 * (/ 100000) ^ 2 / 6)%R.
Proof.
  assert (D : forall c t, derivable_pt_lim (fun t => c + t)%R t 1%R).
  { intros c t. replace 1%R with (0 + 1)%R by lra. apply derivable_pt_lim_plus; [apply derivable_pt_lim_const|apply derivable_pt_lim_id]. }
  assert (DS : forall t, derivable_pt_lim (fun t => sin (x + t)) t (cos (x + t))).
  { intros t. replace (cos (x + t)) with (cos (x + t) * 1)%R by lra. apply (derivable_pt_lim_comp (fun t => x + t)%R sin t); [apply D|apply derivable_pt_lim_sin]. }
  assert (DC : forall t, derivable_pt_lim (fun t => cos (x + t)) t (- sin (x + t))%R).
  { intros t. replace (- sin (x + t))%R with (- sin (x + t) * 1)%R by lra. apply (derivable_pt_lim_comp (fun t => x + t)%R cos t); [apply D|apply derivable_pt_lim_cos]. }
  destruct (C58_gradient_error (fun p => sin (nth 0 p 0%R)) (/ 100000) 1 [x] s) as (g & E & L & V).
  - lra.
  - intros i Hi. cbn [length] in Hi. assert (i = 0) by lia. subst i. cbn.
    exists (fun t => cos (x + t)), (fun t => - sin (x + t))%R, (fun t => - cos (x + t))%R. intros t _. split; [apply DS|]. split; [apply DC|].
    split; [apply derivable_pt_lim_opp, DS|]. rewrite Rabs_Ropp. apply Rabs_le. apply COS_bound.
  - exists g. split; [exact E|]. apply (V 0); [cbn; lia|]. cbn. replace (cos x) with (cos (x + 0)) by (f_equal; lra). apply DS.
Qed.
Print Assumptions C58_pipeline. Print Assumptions C58_noise. Print Assumptions C58_factory. Print Assumptions C58_factories_agree.
Print Assumptions C58_gradient. Print Assumptions C58_quadratic. Print Assumptions C58_gradient_error.
