(** C101, part 2: expectation values of an operator, tracked backends, and concrete cases; stated over RunStepModel.v and RunStepSpec.v. *)
From Coq Require Import String ZArith QArith Lia Sorted.
From Verif Require Import Base BaseFacts Json MatModel CircuitModel SerdeModel CostModel OpModel OpSpec OpProofs RevJWSpec DiagSpec RunStepModel RunStepSpec RunStepProps.
From Verif Require MeasModel MeasSpec MeasProps DistModel EstModel EstProofs3 BackendModel BackendSpec BackendProps.
Open Scope list_scope.
Local Open Scope nat_scope.

Section C101b.
  Context {Num : Type} (T : text_oracle Num) {K : cring} (small : K -> bool) (real : K -> Q) (setorder : list nat -> list nat).
  Add Ring Kring_c101 : (kth K).
  Notation Circ := (circuit Num).
  Notation disk := (disk (K := K)).
  Implicit Types (d : disk).

  (** ** From Pauli operators to Ising operators *)
  Definition only_z (a : qop K) : Prop := forall t c f, In (t, c) a -> In f t -> snd f = Pz.
  Lemma to_ising_term (t : term pauli) : (forall f, In f t -> snd f = Pz) ->
    mapM (fun f : factor pauli => match z_of_pauli (snd f) with Some z => Ok (fst f, z) | None => Err ValueError end) t = Ok (EstProofs3.zterm t).
  Proof. induction t as [|f t IH]; intros H; [reflexivity|]. cbn [mapM]. rewrite (H f) by (left; reflexivity). cbn [z_of_pauli rbind]. rewrite IH by (intros; apply H; right; auto). reflexivity. Qed.
  Lemma zterm_inj (t u : term pauli) : (forall f, In f t -> snd f = Pz) -> (forall f, In f u -> snd f = Pz) -> EstProofs3.zterm t = EstProofs3.zterm u -> t = u.
  Proof.
    revert u. induction t as [|[i p] t IH]; intros [|[j q] u] Ht Hu E; try discriminate; [reflexivity|]. cbn in E. injection E as -> E. f_equal.
    - f_equal. transitivity Pz; [exact (Ht (j, p) (or_introl eq_refl))|symmetry; exact (Hu (j, q) (or_introl eq_refl))].
    - apply IH; auto; intros f Hf; [apply Ht|apply Hu]; right; exact Hf.
  Qed.
  Definition ising_form (a : qop K) : isop K := map (fun tc => (EstProofs3.zterm (fst tc), snd tc)) a.
  Theorem C101_to_ising (a : qop K) : stored_form a -> only_z a -> (forall t c, In (t, c) a -> small c = false) -> EstModel.change_operator_type small z_of_pauli a = Ok (ising_form a).
  Proof.
    intros [W C] Z Sm. unfold EstModel.change_operator_type.
    assert (G : forall b pre, a = pre ++ b -> foldM (fun new (tc : term pauli * K) =>
        let! t := mapM (fun f : factor pauli => match z_of_pauli (snd f) with Some z => Ok (fst f, z) | None => Err ValueError end) (fst tc) in
        Ok (op_add zact_eqb small new (mk_op ising_simplify t (snd tc)))) b (ising_form pre) = Ok (ising_form (pre ++ b))).
    { induction b as [|[t c] b IH]; intros pre E; [rewrite app_nil_r; reflexivity|]. assert (Hin : In (t, c) a) by (rewrite E; apply in_or_app; right; left; reflexivity).
      cbn [foldM fst snd]. rewrite to_ising_term by (intros f Hf; exact (Z t c f Hin Hf)). cbn [rbind]. unfold mk_op. rewrite (EstProofs3.ising_simplify_sorted small).
      2:{ unfold EstProofs3.zterm. rewrite map_map. cbn. apply EstProofs3.canonical_sorted_fst. exact (C t c Hin). }
      unfold op_add. cbn [fold_left]. unfold merge_term. cbn [fst snd].
      assert (Fr : ~ In (EstProofs3.zterm t) (dkeys (ising_form pre))).
      { intros X. apply in_map_iff in X as (z & Ez & X). apply in_map_iff in X as ([u cu] & Eu & Hu). subst z. cbn in Ez. rename Ez into Eu. assert (Hu' : In (u, cu) a) by (rewrite E; apply in_or_app; auto).
        apply zterm_inj in Eu; [|intros f Hf; exact (Z u cu f Hu' Hf)|intros f Hf; exact (Z t c f Hin Hf)]. subst u. unfold wf_op in W. rewrite E in W. unfold dkeys in W. rewrite map_app in W. cbn in W.
        apply NoDup_remove_2 in W. apply W. apply in_or_app. left. apply in_map_iff. now exists (t, cu). }
      rewrite (proj2 (dget_None _ (term_eqb_spec _ zact_eqb_spec) _ _) Fr).
      replace (kadd k0 c) with c by ring. rewrite (Sm t c Hin). rewrite (dset_app_new _ (term_eqb_spec _ zact_eqb_spec)) by exact Fr.
      specialize (IH (pre ++ [(t, c)])). rewrite <- app_assoc in IH. cbn [app] in IH. specialize (IH E). unfold ising_form in IH at 1. rewrite map_app in IH. exact IH. }
    exact (G a [] eq_refl).
  Qed.

  (** ** Expectation values *)
  Notation step := (get_expectation_values_for_qubit_operator T).
  Definition means_operator d (x : string + qop K) (a : qop K) : Prop := match x with inl name => holds d name (Operator a) | inr b => b = a end.
  Definition given_circuit d (x : string + Circ) (c : Circ) : Prop := match x with inl name => has_circuit T d name c | inr b => b = c end.
  Notation averaged s dev a c n :=
    (EstModel.estimate_by_averaging pauli_eqb small (exact_value real) z_of_pauli
                (fun s cs ns => match run_set _ dev cs ns s with (s', Ok ms) => Ok (s', ms) | (_, Err e) => Err e end)
                (fun m o => MeasModel.get_expectation_values setorder (outcomes m) (ising_of real o) false) s [EstModel.Build_task a c n]).
  Lemma step_reads {S} (dev : device (Num := Num) S) d s x y c a : given_circuit d x c -> means_operator d y a ->
    step dev small real setorder x y (d, s) =
    (do! n := liftM (n_samples S dev) in
     do! evs := on_device (fun s => match averaged s dev a c n with Ok (s', l) => (s', Ok l)
        | Err e => ((if EstModel.not_measured pauli_eqb (EstModel.Build_task a c n) then s else fst (run_set S dev [c] [n] s)), Err e) end) in
     match evs with Some e :: _ => on_disk (save "expectation-values.json" (Ok (Expectations e))) | _ => liftM (Err AttributeError) end) (d, s).
  Proof.
    intros Hc Ha. unfold get_expectation_values_for_qubit_operator.
    rewrite (run_ok _ _ (d, s) (d, s) c) by (destruct x as [name|b]; [apply loaded, Hc|cbn in Hc; subst b; reflexivity]).
    rewrite (run_ok _ _ (d, s) (d, s) a); [reflexivity|]. destruct y as [name|b]; [|cbn in Ha; subst b; reflexivity].
    unfold on_disk, load_qubit_operator, read. cbn [fst snd]. cbn in Ha. unfold holds in Ha. now rewrite Ha.
  Qed.
  (** The step reads the attribute n_samples of the backend.  No class of the library has it, so it fails, and nothing is run, for every circuit and operator, unless a
      backend brings it along, and then also if its measurements are tracked. *)
  Theorem C101_expectation_refuted d x y c a : given_circuit d x c -> means_operator d y a ->
    (forall exec s, step (plain exec None) small real setorder x y (d, s) = ((d, s), Err AttributeError)) /\
    (forall S (probabilities : Circ -> M S (list Q)) sample s, step (simulator probabilities sample) small real setorder x y (d, s) = ((d, s), Err AttributeError)) /\
    (forall S (inner : device S) record t, step (tracked T inner record) small real setorder x y (d, t) = ((d, t), Err AttributeError)).
  Proof. intros Hc Ha. split; [|split]; intros; rewrite (step_reads _ d _ x y c a Hc Ha); reflexivity. Qed.

  Lemma one_run exec attribute (s : BackendModel.backend_state Circ) c n m : (1 <= n)%Z -> exec c n = Ok m ->
    exists s', run_set _ (plain exec attribute) [c] [Some n] s = (s', Ok [m]) /\ BackendModel.b_log s' = BackendModel.b_log s ++ [[c]].
  Proof.
    intros Hn E. destruct (each_ok exec attribute n Hn [c] [m] s eq_refl) as (s' & E' & L); [|now exists s'].
    intros [|i] c' m' H1 H2; [injection H1 as <-; injection H2 as <-; exact E|destruct i; discriminate].
  Qed.
  Lemma measured_task (a : qop K) (c : Circ) n : (1 <= n)%Z -> (forall b, a <> [([], b)]) -> EstModel.not_measured pauli_eqb (EstModel.Build_task a c (Some n : option Z)) = false.
  Proof.
    intros Hn Ha. unfold EstModel.not_measured. cbn [EstModel.t_op EstModel.t_shots]. destruct (Z.eqb_spec n 0); [lia|]. rewrite Bool.orb_false_r.
    destruct a as [|[[|f t] b] [|x a]]; try reflexivity. exfalso. now apply (Ha b).
  Qed.
  (** A backend with that attribute: a stored operator of Z factors on N qubits is measured with one run of the circuit, and the values written are, term by term, the coefficient
      times the mean over the samples of the product of the signs of the qubits of the term. *)
  Theorem C101_expectation exec d s x y c a n m N : MeasProps.enumerates setorder -> given_circuit d x c -> means_operator d y a ->
    (1 <= n)%Z -> exec c n = Ok m -> m <> [] -> 1 <= N -> (forall t, In t (outcomes m) -> length t = N) -> MeasSpec.digits_only (outcomes m) ->
    stored_form a -> only_z a -> (forall t b, In (t, b) a -> small b = false) -> on_qubits N a -> (forall b, a <> [([], b)]) ->
    exists d' s' e, step (plain exec (Some (Some n))) small real setorder x y (d, s) = ((d', s'), Ok tt) /\ BackendModel.b_log s' = BackendModel.b_log s ++ [[c]] /\
      holds d' "expectation-values.json" (Expectations e) /\ only_file "expectation-values.json" d d' /\ length (MeasModel.ev_values e) = length a /\
      forall i t b, nth_error a i = Some (t, b) ->
        (nth i (MeasModel.ev_values e) 0 == real b * MeasSpec.mean (fun o => inject_Z (MeasSpec.z_sign (map fst t) o)) (outcomes m))%Q.
  Proof.
    intros Hso Hc Ha Hn He Hne HN HL HD Sf Z Sm Oq Nc. rewrite (step_reads _ d _ x y c a Hc Ha). rewrite (run_ok _ _ (d, s) (d, s) (Some n)) by reflexivity.
    destruct (one_run exec (Some (Some n)) s c n m Hn He) as (s' & Er & Lg).
    destruct (MeasProps.C29_expectation_values setorder (outcomes m) N (ising_of real (ising_form a)) false Hso) as (values & corr & cov & Ev & Lv & Hv & _).
    { unfold outcomes. destruct m; [congruence|discriminate]. } { exact HN. } { exact HL. } { exact HD. }
    { intros t b Hin. apply in_map_iff in Hin as ([u e] & E & Hu). injection E as <- <-. apply in_map_iff in Hu as ([w f] & E & Hw). injection E as <- <-. cbn [fst].
      assert (Ez : map fst (EstProofs3.zterm w) = map fst w) by (unfold EstProofs3.zterm; rewrite map_map; reflexivity). rewrite Ez. split.
      - pose proof (EstProofs3.canonical_sorted_fst w (proj2 Sf w f Hw)) as Ss. clear - Ss. induction Ss as [|q l H IH F]; constructor; auto. intros Hin. rewrite Forall_forall in F. specialize (F _ Hin). lia.
      - intros q Hq. apply in_map_iff in Hq as (g & <- & Hg). exact (Oq w f Hw g Hg). }
    set (e := {| MeasModel.ev_values := values; MeasModel.ev_correlations := Some [corr]; MeasModel.ev_covariances := Some [cov] |}) in *.
    assert (Eavg : averaged s (plain exec (Some (Some n))) a c (Some n) = Ok (s', [Some e])).
    { unfold EstModel.estimate_by_averaging, EstModel.split_estimation_tasks_to_measure. cbn [length seq combine fold_left snd]. rewrite (measured_task a c n Hn Nc). cbn [app EstModel.evaluate_non_measured mapM rbind map EstModel.t_circ EstModel.t_shots EstModel.t_op].
      cbn beta. rewrite Er. cbn [rbind snd fst combine mapM]. rewrite (C101_to_ising a Sf Z Sm). cbn [rbind]. rewrite Ev. reflexivity. }
    rewrite (run_ok _ _ (d, s) (d, s') [Some e]) by (apply device_ok; cbn beta; rewrite Eavg; reflexivity).
    destruct (saved d s' "expectation-values.json" (Expectations e)) as (d' & E1 & E2 & E3). exists d', s', e. split; [exact E1|]. split; [exact Lg|]. split; [exact E2|]. split; [exact E3|].
    unfold ising_of, ising_form in Lv, Hv. rewrite !map_length in Lv. split; [exact Lv|]. intros i t b Hi.
    assert (Hlt : i < length a) by (apply nth_error_Some; congruence). specialize (Hv i). rewrite !map_length in Hv. specialize (Hv Hlt). cbn [e MeasModel.ev_values]. rewrite Hv.
    unfold MeasProps.the_coef, MeasProps.the_term. rewrite !map_map.
    assert (Hn2 : nth_error (map (fun tc : term pauli * K => (map fst (EstProofs3.zterm (fst tc)), real (snd tc))) a) i = Some (map fst t, real b)).
    { rewrite (map_nth_error _ _ _ Hi). cbn. unfold EstProofs3.zterm. rewrite map_map. reflexivity. }
    pose proof (nth_error_nth _ _ ([], 0%Q) Hn2) as Hn3. cbn [fst snd]. rewrite Hn3. reflexivity.
  Qed.
  (** An operator with another factor than Z is refused, though only after the circuit was run; nothing is written. *)
  Theorem C101_expectation_other exec d s x y c a n m t b f : given_circuit d x c -> means_operator d y a -> (1 <= n)%Z -> exec c n = Ok m ->
    In (t, b) a -> In f t -> snd f <> Pz ->
    exists s', step (plain exec (Some (Some n))) small real setorder x y (d, s) = ((d, s'), Err ValueError) /\ BackendModel.b_log s' = BackendModel.b_log s ++ [[c]].
  Proof.
    intros Hc Ha Hn He Hin Hf Nz. rewrite (step_reads _ d _ x y c a Hc Ha). rewrite (run_ok _ _ (d, s) (d, s) (Some n)) by reflexivity.
    destruct (one_run exec (Some (Some n)) s c n m Hn He) as (s' & Er & Lg).
    assert (Nc : forall b, a <> [([], b)]) by (intros b' ->; destruct Hin as [E|[]]; injection E as <- _; destruct Hf).
    assert (Em : forall u, In f u -> mapM (fun f : factor pauli => match z_of_pauli (snd f) with Some z => Ok (fst f, z) | None => Err ValueError end) u = Err ValueError).
    { induction u as [|g u IH]; intros Hu; [destruct Hu|]. cbn [mapM]. destruct (z_of_pauli (snd g)) as [z|] eqn:Eg; [|reflexivity]. cbn [rbind]. destruct Hu as [->|Hu]; [|rewrite IH by exact Hu; reflexivity].
      exfalso. apply Nz. destruct (snd f); try discriminate. reflexivity. }
    assert (Ei : EstModel.change_operator_type small z_of_pauli a = Err ValueError).
    { unfold EstModel.change_operator_type. generalize (@nil (term zact * K)). clear - Hin Hf Em. induction a as [|[u cu] a IH]; intros acc; [destruct Hin|]. cbn [foldM fst snd]. destruct Hin as [E|Hin].
      - injection E as <- <-. rewrite Em by exact Hf. reflexivity.
      - destruct (mapM _ u) as [z|e] eqn:Eu; cbn [rbind]; [apply IH, Hin|]. f_equal. clear - Eu. revert e Eu. induction u as [|g u IHu]; intros e Eu; [discriminate|]. cbn [mapM] in Eu.
        destruct (z_of_pauli (snd g)); cbn [rbind] in Eu; [|congruence]. destruct (mapM _ u); cbn [rbind] in Eu; [discriminate|]. injection Eu as ->. now apply IHu. }
    assert (Eavg : averaged s (plain exec (Some (Some n))) a c (Some n) = Err ValueError).
    { unfold EstModel.estimate_by_averaging, EstModel.split_estimation_tasks_to_measure. cbn [length seq combine fold_left snd]. rewrite (measured_task a c n Hn Nc). cbn [app EstModel.evaluate_non_measured mapM rbind map EstModel.t_circ EstModel.t_shots EstModel.t_op].
      cbn beta. rewrite Er. cbn [rbind snd fst combine mapM]. rewrite Ei. reflexivity. }
    exists s'. split; [|exact Lg]. apply run_err, device_err. cbn beta. rewrite Eavg, (measured_task a c n Hn Nc), Er. reflexivity.
  Qed.
End C101b.

Print Assumptions C101_to_ising.
Print Assumptions C101_expectation.
Print Assumptions C101_expectation_other.
Print Assumptions C101_expectation_refuted.
