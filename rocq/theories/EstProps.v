(** Properties C36 and C37: grouping and context selection. *)
From Coq Require Import Permutation Sorted Lia Ring Reals Lra String.
From Verif Require Import Base BaseFacts MatModel MatFacts LiftModel LiftSpec LiftProofs Cplx CmpModel CmpProofs CircuitModel CircuitSpec CircuitProofs GateMatModel GateMatProofs
  DecompModel OpModel OpSpec OpProofs PauliProofs OpProofs2 EstModel EstSpec EstProofs EstProofs2 ConjProofs EstProofs3 EstProofs4 EstProofs5.
Open Scope list_scope.
Local Open Scope nat_scope.

(** ** C36 *)
Section C36.
  Context {K : cring} (im : K) (small : K -> bool) (absle : K -> K -> bool).
  Notation greedy := (group_comeasureable_terms_greedy im small absle).

  (** The groups, in either sort mode: every term of the operator with its coefficient lies in exactly one group, except for terms with a
      coefficient below the tolerance ([lost]); all terms in a group are co-measurable; the constant is alone and comes last; a group is only
      opened for terms that do not fit into an earlier group; the groups add up to the operator without the lost terms. *)
  Theorem C36_greedy_groups n (a : qop K) sort : wf_op a -> (forall t c, In (t, c) a -> canonical t) ->
    exists groups const lost, greedy a sort = groups ++ const /\
      (const = [] \/ exists c, const = [[([], c)]]) /\ (forall g c, In g groups -> ~ In ([], c) g) /\
      (forall g, In g (greedy a sort) -> g <> [] /\ comeasurable_group g) /\
      (forall i j g h, i < j -> nth_error groups i = Some g -> nth_error groups j = Some h ->
         forall t c, In (t, c) h -> exists u d, In (u, d) g /\ ~ comeasurable t u) /\
      Permutation (concat (greedy a sort) ++ lost) a /\ Forall (fun tc => small (snd tc) = true) lost /\
      meq (madd (sum_matrices im n (greedy a sort)) (qop_matrix im n lost)) (qop_matrix im n a).
  Proof.
    intros W C. destruct (greedy_spec im small absle a sort W C) as (groups & const & lost & E & [G1 G2] & G3 & G4 & G5 & G6).
    exists groups, (const_groups const), lost. split; [exact E|].
    assert (P : Permutation (concat (greedy a sort) ++ lost) a) by (rewrite E, concat_app, <- app_assoc; exact G6).
    split. { destruct const as [g|]; [right|left; reflexivity]. destruct G4 as [c ->]. exists c. reflexivity. }
    split; [intros g c Hg; apply (G3 g Hg c)|]. split.
    - intros g Hg. rewrite E in Hg. apply in_app_or in Hg as [Hg|Hg]; [auto|]. destruct const as [g'|]; [|destruct Hg]. destruct Hg as [<-|[]]. destruct G4 as [c ->].
      split; [discriminate|]. intros t x u y [T|[]] [U|[]]. injection T as <- <-. intros q p p' [].
    - split; [exact G2|]. split; [exact P|]. split; [exact G5|]. apply sum_groups, P.
  Qed.
  (** Without coefficients below the tolerance, nothing is lost: every term is in exactly one group. *)
  Theorem C36_exact_partition n (a : qop K) sort : wf_op a -> (forall t c, In (t, c) a -> canonical t /\ small c = false) ->
    Permutation (concat (greedy a sort)) a /\ meq (sum_matrices im n (greedy a sort)) (qop_matrix im n a) /\
    (forall g t c, In g (greedy a sort) -> In (t, c) g -> forall g' c', In g' (greedy a sort) -> In (t, c') g' -> g = g' /\ c = c').
  Proof.
    intros W H. destruct (C36_greedy_groups n a sort W (fun t c X => proj1 (H t c X))) as (gs & cs & lost & _ & _ & _ & _ & _ & P & L & M).
    assert (E : lost = []).
    { destruct lost as [|[t c] lost]; [reflexivity|]. inversion L as [|x l L1 L2]. cbn in L1. destruct (H t c) as [_ F]; [eapply Permutation_in; [exact P|apply in_or_app; right; left; reflexivity]|]. congruence. }
    subst lost. rewrite app_nil_r in P. split; [exact P|]. split.
    - etransitivity; [|exact M]. destruct (sum_matrices_shape im n (greedy a sort)) as [S1 S2]. split; [reflexivity|]. split; [reflexivity|]. intros i j _ _. cbn [ent madd].
      rewrite qop_matrix_ent. cbn [lval]. pose proof (kth K) as R. rewrite (Radd_comm R). symmetry. apply (Radd_0_l R).
    - assert (ND : NoDup (map fst (concat (greedy a sort)))). { eapply Permutation_NoDup; [apply Permutation_map, Permutation_sym, P|exact W]. }
      revert ND. generalize (greedy a sort). clear. intros l. induction l as [|g0 l IH]; intros ND g t c Hg Ht g' c' Hg' Ht'; [destruct Hg|].
      cbn [concat] in ND. rewrite map_app in ND. pose proof (NoDup_app_l' _ _ ND) as ND1. pose proof (NoDup_app_r' _ _ ND) as ND2.
      assert (X : forall h d, In h l -> In (t, d) h -> In t (map fst (concat l))).
      { intros h d Hh Hd. apply in_map_iff. exists (t, d). split; [reflexivity|]. apply in_concat. exists h. auto. }
      assert (Y : forall d, In (t, d) g0 -> In t (map fst g0)) by (intros d Hd; apply in_map_iff; exists (t, d); auto).
      assert (Z : In t (map fst g0) -> ~ In t (map fst (concat l))).
      { clear -ND. intros H1 H2. induction (map fst g0) as [|x xs IHx]; [destruct H1|]. inversion ND as [|y ys N1 N2]. destruct H1 as [->|H1]; [apply N1, in_or_app; auto|auto]. }
      destruct Hg as [E|Hg], Hg' as [E'|Hg'].
      + subst g g'. split; [reflexivity|]. clear -ND1 Ht Ht'. induction g0 as [|[u d] g0 IHg]; [destruct Ht|]. cbn in ND1. inversion ND1 as [|x xs N1 N2].
        destruct Ht as [E1|Ht], Ht' as [E2|Ht'].
        * congruence.
        * exfalso. injection E1 as -> ->. apply N1, in_map_iff. exists (t, c'). auto.
        * exfalso. injection E2 as -> ->. apply N1, in_map_iff. exists (t, c). auto.
        * auto.
      + subst g. exfalso. eapply Z; eauto.
      + subst g'. exfalso. eapply Z; eauto.
      + eapply IH; eauto.
  Qed.

  (** Estimation tasks: each task is replaced, in place, by one task per group with the circuit and the shots of the task. *)
  Theorem C36_tasks {Circ} n (tasks : list (task (qop K) Circ)) sort :
    (forall e, In e tasks -> wf_op (t_op e) /\ forall t c, In (t, c) (t_op e) -> canonical t /\ small c = false) ->
    exists parts, group_greedily im small absle tasks sort = concat parts /\
      Forall2 (fun e part => (forall p, In p part -> t_circ p = t_circ e /\ t_shots p = t_shots e /\ comeasurable_group (t_op p)) /\
                 Permutation (concat (map t_op part)) (t_op e) /\
                 meq (sum_matrices im n (map t_op part)) (qop_matrix im n (t_op e))) tasks parts.
  Proof.
    intros H. unfold group_greedily. induction tasks as [|e tasks IH]; [exists []; split; [reflexivity|constructor]|].
    destruct IH as (parts & E & F); [intros; apply H; right; auto|]. destruct (H e (or_introl eq_refl)) as [W C].
    set (f := fun g : qop K => Build_task g (t_circ e) (t_shots e)). exists (map f (greedy (t_op e) sort) :: parts). split.
    - cbn [flat_map concat]. rewrite E. reflexivity.
    - constructor; [|exact F]. destruct (C36_exact_partition n (t_op e) sort W C) as (P & M & _). destruct (C36_greedy_groups n (t_op e) sort W (fun t c X => proj1 (C t c X))) as (? & ? & ? & _ & _ & _ & G & _).
      rewrite map_map. cbn [t_op f]. rewrite map_id. split; [|split; [exact P|exact M]].
      intros p Hp. apply in_map_iff in Hp as (g & <- & Hg). split; [reflexivity|]. split; [reflexivity|]. apply G, Hg.
  Qed.
  (** group_individually: one task per term. *)
  Theorem C36_individually {Circ} n (tasks : list (task (qop K) Circ)) :
    (forall e, In e tasks -> forall t c, In (t, c) (t_op e) -> canonical t) ->
    exists parts, group_individually im tasks = concat parts /\
      Forall2 (fun e part => length part = length (t_op e) /\
                 (forall i t c, nth_error (t_op e) i = Some (t, c) -> nth_error part i = Some (Build_task ([(t, c)] : qop K) (t_circ e) (t_shots e))) /\
                 meq (sum_matrices im n (map t_op part)) (qop_matrix im n (t_op e))) tasks parts.
  Proof.
    intros H. unfold group_individually. induction tasks as [|e tasks IH]; [exists []; split; [reflexivity|constructor]|].
    destruct IH as (parts & E & F); [intros; eapply H; [right|]; eauto|]. specialize (H e (or_introl eq_refl)).
    assert (G : get_operators (qubit_simplify im) (t_op e) = map (fun tc => [tc]) (t_op e)).
    { unfold get_operators. apply map_ext_in. intros [t c] Hi. cbn [fst snd]. unfold mk_op. rewrite canonical_simplify by eauto. reflexivity. }
    exists (map (fun tc : term pauli * K => Build_task ([tc] : qop K) (t_circ e) (t_shots e)) (t_op e) :: parts). split.
    - cbn [flat_map concat]. rewrite E. apply (f_equal (fun l => l ++ concat parts)).
      etransitivity; [apply (f_equal (map (fun g : qop K => Build_task g (t_circ e) (t_shots e))) G)|]. rewrite map_map. reflexivity.
    - constructor; [|exact F]. split; [apply map_length|]. split.
      + intros i t c Hi. exact (map_nth_error (fun tc : term pauli * K => Build_task ([tc] : qop K) (t_circ e) (t_shots e)) i (t_op e) Hi).
      + rewrite map_map. cbn [t_op]. assert (P : Permutation (concat (map (fun tc => [tc]) (t_op e)) ++ []) (t_op e)).
        { rewrite app_nil_r. clear. induction (t_op e) as [|x l IH]; cbn; auto. }
        etransitivity; [|exact (sum_groups im n _ [] _ P)]. destruct (sum_matrices_shape im n (map (fun tc => [tc]) (t_op e))) as [S1 S2].
        split; [reflexivity|]. split; [reflexivity|]. intros i j _ _. cbn [ent madd]. rewrite qop_matrix_ent. cbn [lval].
        pose proof (kth K) as R. rewrite (Radd_comm R). symmetry. apply (Radd_0_l R).
  Qed.
  (** The decomposition function by name. *)
  Theorem C36_names (a : qop K) name :
    (name = "greedy"%string /\ exists f, get_decomposition_function im small absle name = Ok f /\ f a = greedy a false) \/
    (name = "greedy-sorted"%string /\ exists f, get_decomposition_function im small absle name = Ok f /\ f a = greedy a true) \/
    (name <> "greedy"%string /\ name <> "greedy-sorted"%string /\ get_decomposition_function im small absle name = Err ValueError).
  Proof.
    unfold get_decomposition_function. destruct (String.eqb_spec name "greedy") as [->|N1]; [left; split; [reflexivity|eauto]|].
    destruct (String.eqb_spec name "greedy-sorted") as [->|N2]; [right; left; split; [reflexivity|eauto]|]. right; right. auto.
  Qed.
End C36.

(** A term with a coefficient below 1e-8 that joins an existing group is dropped: the groups need not add up to the operator. *)
Theorem C36_small_terms_lost_refuted : exists (a : qop CC) absle, wf_op a /\ (forall t c, In (t, c) a -> canonical t) /\
  (forall t c, In (t, c) a -> c <> c0) /\
  exists t c, In (t, c) a /\ forall g, In g (group_comeasureable_terms_greedy (K := CC) ci (is_small (1 / 10 ^ 8)) absle a false) -> ~ In t (map fst g).
Proof.
  set (e := (1 / 10 ^ 9)%R). exists [([(0, Px)], c1 : car CC); ([(1, Px)], (e, 0%R) : car CC)], (fun _ _ => true). split.
  { unfold wf_op. cbn. repeat constructor; cbn; intuition discriminate. }
  split. { intros t c [X|[X|[]]]; injection X as <- <-; cbn; repeat split; auto; discriminate. }
  split. { intros t c [X|[X|[]]]; injection X as <- <-; unfold c1, c0, e; intros X; injection X; intros; lra. }
  exists [(1, Px)], ((e, 0%R) : car CC). split; [right; left; reflexivity|].
  assert (Hs : is_small (1 / 10 ^ 8) ((e, 0%R) : CC) = true).
  { unfold is_small, Rlt_bool. destruct (Rlt_dec _ _) as [|N]; [reflexivity|]. exfalso. apply N. unfold cmod, cabs2. cbn [fst snd].
    replace (e * e + 0 * 0)%R with (Rsqr e) by (unfold Rsqr; ring). rewrite sqrt_Rsqr; unfold e; lra. }
  unfold group_comeasureable_terms_greedy. cbn [fold_left fst snd]. cbn [assign_term].
  intros g Hg. set (big := mk_op (qubit_simplify (K := CC) ci) [(0, Px)] c1) in Hg.
  assert (EB : big = [([(0, Px)], c1)]) by (unfold big, mk_op; rewrite canonical_simplify; [reflexivity|cbn; repeat split; auto; discriminate]).
  rewrite EB in Hg. cbn [assign_term dkeys map fst forallb] in Hg.
  replace (is_comeasureable [(1, Px)] [(0, Px)]) with true in Hg by reflexivity. cbn [andb] in Hg.
  rewrite (add_one (K := CC)) in Hg; [|cbn; repeat split; auto; discriminate|cbn; intuition discriminate]. rewrite Hs in Hg.
  destruct Hg as [<-|[]]. cbn. intuition discriminate.
Qed.
Print Assumptions C36_greedy_groups.
Print Assumptions C36_exact_partition.
Print Assumptions C36_tasks.
Print Assumptions C36_individually.
Print Assumptions C36_names.
Print Assumptions C36_small_terms_lost_refuted.

(** ** C37 *)
Section C37.
  Context {Num : Type} (angle : R -> Num) (O : sympy_oracle Num) (IR : interp (Num := Num) R) (IC : interp (Num := Num) C) (rho : sym -> R).
  Context (Hangle : forall r, i_num _ IR (angle r) = r).
  Context (small : CC -> bool).
  Notation run := (apply_ops O IR IC rho).
  Notation select := (get_context_selection_circuit_for_group small angle).

  (** For a co-measurable group: a circuit and an Ising operator D such that running the circuit is applying a unitary U with U^dagger D U the group. *)
  Theorem C37_context_selection (a : qop CC) n : wf_op a -> (forall t x, In (t, x) a -> canonical t /\ small x = false) -> on_qubits n a -> comeasurable_group a ->
    exists c D U, select a = Ok (c, D) /\ valid_circuit c /\ nr U = (2 ^ n)%nat /\ nc U = (2 ^ n)%nat /\ unitary U /\
      (forall v, vlen v = (2 ^ n)%nat -> exists w, run (c_ops c) v = Ok w /\ veq w (mvmul U v)) /\
      meq (mmul (adjoint U) (mmul (diagonal_of n D) U)) (qop_matrix (K := CC) ci n a).
  Proof.
    intros W H On Co. destruct (context_selection_total small angle a Co) as (c & D & E & V).
    destruct (context_selection angle O IR IC rho Hangle small a c D n W H On E) as (U & [S1 S2] & UU & R & M). exists c, D, U. auto 8.
  Qed.
  (** The expectation value of the group in a state is the average of D over the measurement outcomes of the state after the circuit. *)
  Theorem C37_expectation (a : qop CC) n c D v : wf_op a -> (forall t x, In (t, x) a -> canonical t /\ small x = false) -> on_qubits n a ->
    select a = Ok (c, D) -> vlen v = (2 ^ n)%nat ->
    exists w, run (c_ops c) v = Ok w /\ vlen w = (2 ^ n)%nat /\
      expectation (qop_matrix (K := CC) ci n a) v =
      bigsum (K := CC) (2 ^ n) (fun b => kmul (kmul (kconj (vent w b)) (vent w b)) (isop_value (fun q => nth q (bits n b) false) D)).
  Proof.
    intros W H On E Hv. destruct (context_selection angle O IR IC rho Hangle small a c D n W H On E) as (U & SU & UU & R & M). destruct (R v Hv) as (w & Rw & [L Ew]).
    destruct SU as [S1 S2]. exists w. split; [exact Rw|]. assert (Lw : vlen w = (2 ^ n)%nat) by (rewrite L; exact S1). split; [exact Lw|].
    assert (SD : sq (2 ^ n) (diagonal_of n D)) by (split; reflexivity).
    rewrite <- (expectation_ext (conj_by U (diagonal_of n D)) (qop_matrix (K := CC) ci n a)); [|cbn; congruence|cbn; congruence|exact M].
    rewrite (expectation_conj (2 ^ n)); [|split; auto|exact SD|exact Hv]. rewrite expectation_diagonal by exact S1.
    apply bigsum_ext. intros b Hb. rewrite Ew by lia. reflexivity.
  Qed.
  Theorem C37_rejected (a : qop CC) : ~ comeasurable_group a -> select a = Err ValueError.
  Proof. apply context_selection_err. Qed.
  (** Only co-measurable groups are accepted. *)
  Theorem C37_accepted (a : qop CC) r : select a = Ok r -> comeasurable_group a.
  Proof.
    intros E. unfold get_context_selection_circuit_for_group in E. cbn [mk_circuit circuit_size_by_operations rbind] in E.
    destruct (build_context small a) as [x|] eqn:E2; [|discriminate]. eapply build_comeasurable; eauto.
  Qed.
  (** The task version: every task keeps its shots, the basis change runs after the task's circuit, and the new operator averaged over the outcomes of the
      new circuit is the expectation value of the old operator after the old circuit. *)
  Theorem C37_tasks n (tasks : list (task (qop CC) (circuit Num))) :
    (forall e, In e tasks -> wf_op (t_op e) /\ (forall t x, In (t, x) (t_op e) -> canonical t /\ small x = false) /\ on_qubits n (t_op e) /\
       comeasurable_group (t_op e) /\ valid_circuit (t_circ e)) ->
    exists tasks', perform_context_selection small angle tasks = Ok tasks' /\
      Forall2 (fun e e' => t_shots e' = t_shots e /\ (exists basis, c_ops (t_circ e') = c_ops (t_circ e) ++ basis) /\
        forall v0 v, run (c_ops (t_circ e)) v0 = Ok v -> vlen v = (2 ^ n)%nat ->
          exists w, run (c_ops (t_circ e')) v0 = Ok w /\ vlen w = (2 ^ n)%nat /\
            expectation (qop_matrix (K := CC) ci n (t_op e)) v =
            bigsum (K := CC) (2 ^ n) (fun b => kmul (kmul (kconj (vent w b)) (vent w b)) (isop_value (fun q => nth q (bits n b) false) (t_op e')))) tasks tasks'.
  Proof.
    unfold perform_context_selection. induction tasks as [|e tasks IH]; intros H; [exists []; split; [reflexivity|constructor]|].
    destruct IH as (tasks' & E & F); [intros; apply H; right; auto|]. destruct (H e (or_introl eq_refl)) as (W & C & On & Co & V). cbn [mapM].
    destruct (context_selection_total small angle (t_op e) Co) as (c & D & Es & Vc).
    pose proof (add_circuits (t_circ e) c V Vc) as Ea. rewrite Es. cbn [rbind fst snd]. rewrite Ea. cbn [rbind]. rewrite E. cbn [rbind]. eexists. split; [reflexivity|].
    constructor; [|exact F]. cbn [t_shots t_circ t_op c_ops]. split; [reflexivity|]. split; [eauto|]. intros v0 v Hr Hv.
    destruct (C37_expectation (t_op e) n c D v W C On Es Hv) as (w & Rw & Lw & X). exists w. split; [|auto].
    clear -Hr Rw. unfold apply_ops in *. revert v0 Hr. induction (c_ops (t_circ e)) as [|o l IH]; intros v0 Hr; cbn [app foldM] in *; [congruence|].
    destruct (op_apply O IR IC rho o v0) as [v1|]; cbn [rbind] in *; [auto|discriminate].
  Qed.
End C37.
(** Concrete cases: {XX, ZZ}-like clashes are rejected, {X0 Y1, X0, Y1} is accepted. *)
Example C37_hyps : exists a : qop CC, wf_op a /\ (forall t x, In (t, x) a -> canonical t /\ is_small (1 / 10 ^ 8) x = false) /\ on_qubits 2 a /\ comeasurable_group a /\ length a = 3.
Proof.
  exists [([(0, Px); (1, Py)], c1 : car CC); ([(0, Px)], c1 : car CC); ([(1, Py)], c1 : car CC)]. split; [unfold wf_op; cbn; repeat constructor; cbn; intuition discriminate|].
  assert (Hs : is_small (1 / 10 ^ 8) (c1 : CC) = false).
  { unfold is_small, Rlt_bool. destruct (Rlt_dec _ _) as [N|]; [|reflexivity]. exfalso. pose proof cmod_1. lra. }
  split; [intros t x [X|[X|[X|[]]]]; injection X as <- <-; (split; [cbn; repeat split; auto; discriminate|exact Hs])|].
  split. { intros t x [X|[X|[X|[]]]] f; injection X as <- <-; cbn; intuition (subst; cbn; lia). }
  split; [|reflexivity]. intros t c u d Ht Hu q p p' Hp Hp'.
  destruct Ht as [X|[X|[X|[]]]]; injection X as <- <-; destruct Hu as [X|[X|[X|[]]]]; injection X as <- <-; cbn in Hp, Hp'; intuition congruence.
Qed.
Example C37_clash : get_context_selection_circuit_for_group (K := CC) (fun _ => false) (fun r : R => r) [([(0, Px)], c1 : car CC); ([(0, Pz)], c1 : car CC)] = Err ValueError.
Proof. apply C37_rejected. intros H. specialize (H [(0, Px)] c1 [(0, Pz)] c1 (or_introl eq_refl) (or_intror (or_introl eq_refl)) 0 Px Pz (or_introl eq_refl) (or_introl eq_refl)). discriminate. Qed.
Print Assumptions C37_context_selection.
Print Assumptions C37_expectation.
Print Assumptions C37_rejected.
Print Assumptions C37_accepted.
Print Assumptions C37_tasks.
