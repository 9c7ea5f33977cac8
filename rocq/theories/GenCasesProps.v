(** C109: the generated expected values of the backend tests are what the library's own gates give, at every angle. *)
From Coq Require Import String Reals Lra.
From Verif Require Import Base BaseFacts MatModel MatFacts LiftModel LiftSpec LiftProofs CircuitModel CircuitSpec Cplx
  GateMatModel GateMatSpec GateMatProofs GenCasesModel GenCasesSpec GenCasesProofs.
Open Scope list_scope.

Section P.
  Context {Num : Type} (O : sympy_oracle Num) (IR : interp (Num := Num) R) (IC : interp (Num := Num) C) (rho : sym -> R).
  Notation row1' := (row1 O IR IC rho).
  Notation row2' := (row2 O IR IC rho).

  Lemma has_named name k ps qs :
    (match find (fun b => String.eqb (b_name b) name) builtins with Some b => b_arity b = k | None => False end) ->
    length ps = k -> exists o, op_named (Num := Num) name ps qs o.
  Proof.
    destruct (find _ builtins) as [b|] eqn:E; [|intros []]. intros H1 H2. pose proof E as E'. apply find_some in E as [Hb Hn].
    apply String.eqb_eq in Hn. subst name. apply named_exists; congruence.
  Qed.

  (** a gate of the script and the library's gate of the same name *)
  Definition matched (w : nat) (gm : mat CC) (name : string) (ps : list (param Num)) : Prop :=
    (exists lm, named_matrix name (map (eval_param IR rho) ps) = Ok lm /\ meq gm lm /\ nr gm = w /\ nc gm = w) /\
    forall qs, exists o, op_named (Num := Num) name ps qs o.

  Ltac tab H := repeat (destruct H as [E|H]; [injection E as <- <-; split;
      [eexists; split; [reflexivity|]; split; [eauto using same_I, same_H, same_X, same_Y, same_Z, same_S, same_T, same_CNOT, same_CZ,
         same_SWAP, same_ISWAP, same_RX, same_RY, same_RZ, same_PHASE, same_RH, same_CPHASE, same_XX, same_YY, same_ZZ, same_XY|split; reflexivity]
      |intros qs; eapply has_named; cbn; reflexivity]|]); destruct H.
  Lemma init_matched gi name : In (gi, name) single_qubit_initial_states -> matched 2 gi name [].
  Proof. intros H. tab H. Qed.
  Lemma one_matched gm name : In (gm, name) one_qubit_gates -> matched 2 gm name [].
  Proof. intros H. tab H. Qed.
  Lemma two_matched gm name : In (gm, name) two_qubit_gates -> matched 4 gm name [].
  Proof. intros H. tab H. Qed.
  Lemma one_angle_matched gm name p : In (gm, name) one_qubit_gates_with_angle -> matched 2 (gm (eval_param IR rho p)) name [p].
  Proof. intros H. tab H. Qed.
  Lemma two_angle_matched gm name p : In (gm, name) two_qubit_gates_with_angle -> matched 4 (gm (eval_param IR rho p)) name [p].
  Proof. intros H. tab H. Qed.

  Lemma row1_of gi iname gm name ps (P : vec CC -> Prop) : In (gi, iname) single_qubit_initial_states -> matched 2 gm name ps ->
    (forall v, vlen v = 2 -> (forall i, i < 2 -> vent v i = ent (mmul (mmul gm gi) ket1) i 0) -> P v) -> row1' iname name ps P.
  Proof.
    intros Hi [(B & HB & MB & RB & CB) NB] HP. destruct (init_matched _ _ Hi) as [(A & HA & MA & RA & CA) NA]. split.
    { destruct (NA [0]) as [a Ha], (NB [0]) as [b Hb]. eauto. }
    intros a b Ha Hb. apply (named_gate O IR IC rho) in Ha as (g1 & -> & G1). apply (named_gate O IR IC rho) in Hb as (g2 & -> & G2).
    rewrite HA in G1. rewrite HB in G2. destruct MA as (MA1 & MA2 & MA3), MB as (MB1 & MB2 & MB3).
    destruct (run1 O IR IC rho g1 g2 A B G1 G2) as (v & E & L & V); try congruence.
    exists v. split; [exact E|]. split; [exact L|]. apply HP; [exact L|]. intros i Hi'. rewrite V by exact Hi'.
    assert (Q : meq (mmul (mmul gm gi) ket1) (mmul (mmul B A) ket1)).
    { apply mmul_ext; [cbn; exact CA| |repeat split]. apply mmul_ext; [congruence|repeat split; auto|repeat split; auto]. }
    destruct Q as (_ & _ & Q). symmetry. apply Q; cbn; [rewrite RB; exact Hi'|lia].
  Qed.

  Lemma init2_matched gi n1 n2 : In (gi, (n1, n2)) two_qubit_initial_states ->
    exists g1 g2, gi = kron g1 g2 /\ In (g1, n1) single_qubit_initial_states /\ In (g2, n2) single_qubit_initial_states.
  Proof.
    intros H. repeat (destruct H as [E|H]; [injection E as <- <- <-; eexists _, _; split; [reflexivity|]; split; cbn; auto|]). destruct H.
  Qed.
  Lemma row2_of gi n1 n2 gm name ps (P : vec CC -> Prop) : In (gi, (n1, n2)) two_qubit_initial_states -> matched 4 gm name ps ->
    (forall v, vlen v = 4 -> (forall i, i < 4 -> vent v i = ent (mmul (mmul gm gi) ket2) i 0) -> P v) -> row2' (n1, n2) name ps P.
  Proof.
    intros Hi [(U & HU & MU & RU & CU) NU] HP. destruct (init2_matched _ _ _ Hi) as (ga & gb & -> & Hi1 & Hi2).
    destruct (init_matched _ _ Hi1) as [(A & HA & MA & RA & CA) NA], (init_matched _ _ Hi2) as [(B & HB & MB & RB & CB) NB]. split.
    { destruct (NA [0]) as [a Ha], (NB [1]) as [b Hb], (NU [0; 1]) as [c Hc]. eauto 7. }
    intros a b c Ha Hb Hc. cbn [fst snd] in Ha, Hb. apply (named_gate O IR IC rho) in Ha as (g1 & -> & G1).
    apply (named_gate O IR IC rho) in Hb as (g2 & -> & G2). apply (named_gate O IR IC rho) in Hc as (g3 & -> & G3).
    rewrite HA in G1. rewrite HB in G2. rewrite HU in G3.
    pose proof (kron_ext _ _ _ _ MA MB) as MK.
    destruct MA as (MA1 & MA2 & MA3), MB as (MB1 & MB2 & MB3), MU as (MU1 & MU2 & MU3).
    destruct (run2 O IR IC rho g1 g2 g3 A B U G1 G2 G3) as (v & E & L & V); try congruence.
    exists v. split; [exact E|]. split; [exact L|]. apply HP; [exact L|]. intros i Hi'. rewrite V by exact Hi'.
    assert (Q : meq (mmul (mmul gm (kron ga gb)) ket2) (mmul (mmul U (kron A B)) ket2)).
    { apply mmul_ext; [cbn; rewrite CA, CB; reflexivity| |repeat split]. apply mmul_ext; [cbn; rewrite RA, RB; exact CU|repeat split; auto|exact MK]. }
    destruct Q as (_ & _ & Q). symmetry. apply Q; cbn; [rewrite RU; exact Hi'|lia].
  Qed.

  Lemma column_list (m : mat CC) (v : vec CC) n : nr m = n -> vlen v = n -> (forall i, i < n -> vent v i = ent m i 0) -> to_list v = column m.
  Proof.
    intros H1 H2 H. unfold to_list, column. rewrite H1, H2. apply map_ext_in. intros i Hi. apply in_seq in Hi. apply H. lia.
  Qed.

  (** Amplitudes.  Every row printed for any list of angles says what the circuit of the row gives, whatever parameter
      stands for the angle. *)
  Theorem C109_amplitudes_one_qubit angles init gate a amplitudes p :
    In (init, gate, a, amplitudes) (wavefunction_rows_1 angles) -> eval_param IR rho p = a ->
    row1' init gate [p] (fun v => to_list v = amplitudes).
  Proof.
    intros H <-. apply in_flat_map in H as ([gm gname] & Hg & H). cbn [fst snd] in H. unfold generate_cases_1_qubit_wavefunction in H.
    apply in_flat_map in H as ([gi iname] & Hi & H). apply in_map_iff in H as (a & E & Ha). injection E as <- <- Ea <-. subst a.
    apply (row1_of gi iname (gm (eval_param IR rho p)) gname [p] _ Hi); [apply one_angle_matched; exact Hg|].
    intros v L V. pose proof (one_angle_matched gm gname p Hg) as [(lm & _ & _ & R & _) _]. apply (column_list _ v 2); auto.
  Qed.
  Theorem C109_amplitudes_two_qubits angles init gate a amplitudes p :
    In (init, gate, a, amplitudes) (wavefunction_rows_2 angles) -> eval_param IR rho p = a ->
    row2' init gate [p] (fun v => to_list v = amplitudes).
  Proof.
    intros H <-. apply in_flat_map in H as ([gm gname] & Hg & H). cbn [fst snd] in H. unfold generate_cases_2_qubits_wavefunction in H.
    apply in_flat_map in H as ([gi [n1 n2]] & Hi & H). apply in_map_iff in H as (a & E & Ha). injection E as <- <- Ea <-. subst a.
    apply (row2_of gi n1 n2 (gm (eval_param IR rho p)) gname [p] _ Hi); [apply two_angle_matched; exact Hg|].
    intros v L V. pose proof (two_angle_matched gm gname p Hg) as [(lm & _ & _ & R & _) _]. apply (column_list _ v 4); auto.
  Qed.

  (** The four operators the tests with one qubit use, in their order (backend_test.py:228-233, 262-267). *)
  Definition operators1 : list string := ["[]"; "[X0]"; "[Y0]"; "[Z0]"]%string.

  Lemma exps1 gm gi v : vlen v = 2 -> nr gm = 2 -> (forall i, i < 2 -> vent v i = ent (mmul (mmul gm gi) ket1) i 0) ->
    Forall2 (is_expectation O IR IC rho v) operators1
      (map (fun op => expectation_value op (mmul (mmul gm gi) ket1)) single_qubit_operators).
  Proof. intros L R V. unfold operators1. cbn [map single_qubit_operators]. repeat (apply Forall2_cons; [apply exp1; auto; cbn; auto 6|]). apply Forall2_nil. Qed.
  Lemma exps2 gm gi v : vlen v = 4 -> nr gm = 4 -> (forall i, i < 4 -> vent v i = ent (mmul (mmul gm gi) ket2) i 0) ->
    Forall2 (is_expectation O IR IC rho v) (map snd two_qubit_operators)
      (map (fun op => expectation_value (fst op) (mmul (mmul gm gi) ket2)) two_qubit_operators).
  Proof.
    intros L R V. assert (H : forall l, incl l two_qubit_operators -> Forall2 (is_expectation O IR IC rho v) (map snd l)
      (map (fun op => expectation_value (fst op) (mmul (mmul gm gi) ket2)) l)).
    { induction l as [|[P n] l IH]; intros Hl; cbn [map]; constructor; [|apply IH; intros x Hx; apply Hl; right; exact Hx].
      apply exp2; auto. apply Hl. left. reflexivity. }
    apply H. apply incl_refl.
  Qed.

  (** Expectation values. *)
  Theorem C109_expectations_one_qubit init gate values :
    In (init, gate, values) exp_val_rows_1 ->
    row1' init gate [] (fun v => Forall2 (is_expectation O IR IC rho v) operators1 values).
  Proof.
    intros H. apply in_flat_map in H as ([gm gname] & Hg & H). cbn [fst snd] in H.
    apply in_map_iff in H as ([gi iname] & E & Hi). injection E as <- <- <-.
    pose proof (one_matched gm gname Hg) as HM. apply (row1_of gi iname gm gname [] _ Hi HM). intros v L V.
    destruct HM as [(lm & _ & _ & R & _) _]. apply exps1; auto.
  Qed.
  Theorem C109_expectations_two_qubits init gate operators values :
    In (init, gate, operators, values) exp_val_rows_2 ->
    row2' init gate [] (fun v => Forall2 (is_expectation O IR IC rho v) operators values).
  Proof.
    intros H. apply in_flat_map in H as ([gm gname] & Hg & H). cbn [fst snd] in H.
    apply in_map_iff in H as ([gi [n1 n2]] & E & Hi). injection E as <- <- <- <-.
    pose proof (two_matched gm gname Hg) as HM. apply (row2_of gi n1 n2 gm gname [] _ Hi HM). intros v L V.
    destruct HM as [(lm & _ & _ & R & _) _]. apply exps2; auto.
  Qed.
  Theorem C109_expectations_one_qubit_angles angles init gate a values p :
    In (init, gate, a, values) (exp_val_rows_1_angles angles) -> eval_param IR rho p = a ->
    row1' init gate [p] (fun v => Forall2 (is_expectation O IR IC rho v) operators1 values).
  Proof.
    intros H <-. apply in_flat_map in H as ([gm gname] & Hg & H). cbn [fst snd] in H.
    apply in_flat_map in H as ([gi iname] & Hi & H). apply in_map_iff in H as (a & E & Ha). injection E as <- <- Ea <-. subst a.
    pose proof (one_angle_matched gm gname p Hg) as HM. apply (row1_of gi iname _ gname [p] _ Hi HM). intros v L V.
    destruct HM as [(lm & _ & _ & R & _) _]. apply exps1; auto.
  Qed.
  Theorem C109_expectations_two_qubits_angles angles init gate a operators values p :
    In (init, gate, a, operators, values) (exp_val_rows_2_angles angles) -> eval_param IR rho p = a ->
    row2' init gate [p] (fun v => Forall2 (is_expectation O IR IC rho v) operators values).
  Proof.
    intros H <-. apply in_flat_map in H as ([gm gname] & Hg & H). cbn [fst snd] in H.
    apply in_flat_map in H as ([gi [n1 n2]] & Hi & H). apply in_map_iff in H as (a & E & Ha). injection E as <- <- Ea <- <-. subst a.
    pose proof (two_angle_matched gm gname p Hg) as HM. apply (row2_of gi n1 n2 _ gname [p] _ Hi HM). intros v L V.
    destruct HM as [(lm & _ & _ & R & _) _]. apply exps2; auto.
  Qed.
End P.

(** The rows cover every angle of the list, every initial state and every gate named in the script. *)
Theorem C109_covers angles a : In a angles ->
  (forall init gate, In init ["I"; "H"]%string -> In gate ["RX"; "RY"; "RZ"; "PHASE"; "RH"]%string ->
     (exists amps, In (init, gate, a, amps) (wavefunction_rows_1 angles) /\ length amps = 2) /\
     (exists vals, In (init, gate, a, vals) (exp_val_rows_1_angles angles) /\ length vals = 4)) /\
  (forall i j gate, In i ["I"; "H"]%string -> In j ["I"; "H"]%string -> In gate ["CPHASE"; "XX"; "YY"; "ZZ"; "XY"]%string ->
     (exists amps, In ((i, j), gate, a, amps) (wavefunction_rows_2 angles) /\ length amps = 4) /\
     (exists ops vals, In ((i, j), gate, a, ops, vals) (exp_val_rows_2_angles angles) /\
        ops = ["[]"; "[X0 X1]"; "[Y0 Y1]"; "[Z0 Z1]"; "[X1]"; "[Z0]"]%string /\ length vals = 6)).
Proof.
  intros Ha. split.
  - intros init gate Hi Hg.
    assert (exists gi, In (gi, init) single_qubit_initial_states) as [gi Gi].
    { repeat (destruct Hi as [<-|Hi]; [eexists; cbn; eauto|]). destruct Hi. }
    assert (exists gm, In (gm, gate) one_qubit_gates_with_angle /\ forall a, nr (gm a) = 2) as (gm & Gm & Rm).
    { repeat (destruct Hg as [<-|Hg]; [eexists; split; [cbn; eauto 7|reflexivity]|]). destruct Hg. }
    split; eexists; (split; [apply in_flat_map; exists (gm, gate); split; [exact Gm|]; cbn [fst snd];
      apply in_flat_map; exists (gi, init); split; [exact Gi|]; apply in_map_iff; exists a; split; [reflexivity|exact Ha]|]).
    + cbn [fst snd]. unfold column. rewrite map_length, seq_length. cbn [nr mmul]. apply Rm.
    + reflexivity.
  - intros i j gate Hi Hj Hg.
    assert (exists gi, In (gi, (i, j)) two_qubit_initial_states) as [gi Gi].
    { repeat (destruct Hi as [<-|Hi]; [|]); try destruct Hi;
        (repeat (destruct Hj as [<-|Hj]; [eexists; cbn; eauto 6|]); destruct Hj). }
    assert (exists gm, In (gm, gate) two_qubit_gates_with_angle /\ forall a, nr (gm a) = 4) as (gm & Gm & Rm).
    { repeat (destruct Hg as [<-|Hg]; [eexists; split; [cbn; eauto 7|reflexivity]|]). destruct Hg. }
    split.
    + eexists; (split; [apply in_flat_map; exists (gm, gate); split; [exact Gm|]; cbn [fst snd];
        apply in_flat_map; exists (gi, (i, j)); split; [exact Gi|]; apply in_map_iff; exists a; split; [reflexivity|exact Ha]|]).
      cbn [fst snd]. unfold column. rewrite map_length, seq_length. cbn [nr mmul]. apply Rm.
    + eexists _, _; (split; [apply in_flat_map; exists (gm, gate); split; [exact Gm|]; cbn [fst snd];
        apply in_flat_map; exists (gi, (i, j)); split; [exact Gi|]; apply in_map_iff; exists a; split; [reflexivity|exact Ha]|]).
      split; reflexivity.
Qed.

(** The same for the gates without an angle. *)
Theorem C109_covers_fixed :
  (forall init gate, In init ["I"; "H"]%string -> In gate ["X"; "Y"; "Z"; "H"; "S"; "T"]%string ->
     exists vals, In (init, gate, vals) exp_val_rows_1 /\ length vals = 4) /\
  (forall i j gate, In i ["I"; "H"]%string -> In j ["I"; "H"]%string -> In gate ["CNOT"; "SWAP"; "ISWAP"; "CZ"]%string ->
     exists ops vals, In ((i, j), gate, ops, vals) exp_val_rows_2 /\
       ops = ["[]"; "[X0 X1]"; "[Y0 Y1]"; "[Z0 Z1]"; "[X1]"; "[Z0]"]%string /\ length vals = 6).
Proof.
  split.
  - intros init gate Hi Hg.
    assert (exists gi, In (gi, init) single_qubit_initial_states) as [gi Gi].
    { repeat (destruct Hi as [<-|Hi]; [eexists; cbn; eauto|]). destruct Hi. }
    assert (exists gm, In (gm, gate) one_qubit_gates) as (gm & Gm).
    { repeat (destruct Hg as [<-|Hg]; [eexists; cbn; eauto 8|]). destruct Hg. }
    eexists; (split; [apply in_flat_map; exists (gm, gate); split; [exact Gm|]; cbn [fst snd];
      apply in_map_iff; exists (gi, init); split; [reflexivity|exact Gi]|reflexivity]).
  - intros i j gate Hi Hj Hg.
    assert (exists gi, In (gi, (i, j)) two_qubit_initial_states) as [gi Gi].
    { repeat (destruct Hi as [<-|Hi]; [|]); try destruct Hi;
        (repeat (destruct Hj as [<-|Hj]; [eexists; cbn; eauto 6|]); destruct Hj). }
    assert (exists gm, In (gm, gate) two_qubit_gates) as (gm & Gm).
    { repeat (destruct Hg as [<-|Hg]; [eexists; cbn; eauto 7|]). destruct Hg. }
    eexists _, _; (split; [apply in_flat_map; exists (gm, gate); split; [exact Gm|]; cbn [fst snd];
        apply in_map_iff; exists (gi, (i, j)); split; [reflexivity|exact Gi]|split; reflexivity]).
Qed.

(** A concrete row: RX(pi) on |0> is -i|1>. *)
Example C109_ex : In ("I", "RX", PI, [c0; (0, -1)%R])%string (wavefunction_rows_1 [0%R; PI]).
Proof.
  unfold wavefunction_rows_1. cbn [one_qubit_gates_with_angle flat_map fst snd]. apply in_or_app. left.
  unfold generate_cases_1_qubit_wavefunction. cbn [flat_map single_qubit_initial_states map app]. right. left.
  cbn [fst snd]. f_equal. unfold column. cbn. rewrite sin_PI2, cos_PI2.
  f_equal; [|f_equal]; apply c_eq; cbn; rewrite ?sin_PI2, ?cos_PI2; ring.
Qed.
Print Assumptions C109_amplitudes_one_qubit.
Print Assumptions C109_amplitudes_two_qubits.
Print Assumptions C109_expectations_one_qubit.
Print Assumptions C109_expectations_two_qubits.
Print Assumptions C109_expectations_one_qubit_angles.
Print Assumptions C109_expectations_two_qubits_angles.
Print Assumptions C109_covers.
Print Assumptions C109_covers_fixed.
