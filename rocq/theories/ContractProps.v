(** C98: what the contracts of estimators accept and reject. *)
From Coq Require Import String ZArith Reals Lra Lia.
From Verif Require Import Base BaseFacts MatModel MatFacts LiftModel LiftSpec LiftProofs Cplx CircuitModel CircuitSpec CircuitProofs GateMatModel GateMatProofs
  OpModel OpSpec OpProofs PauliProofs EstModel ConjProofs EstProofs EstProofs3 EstProofs4 EvolModel EvolSpec EvolProofs EvolProofs2 EvolProofs3 EvolProofs4 EvolProofs5
  CostModel ContractModel ContractSpec.
Open Scope list_scope.
Local Open Scope nat_scope.

Section C98.
  Context {Num V S : Type} (angle : R -> Num) (array_equal : V -> V -> bool) (aok : forall v w, array_equal v w = true <-> v = w).
  Notation tk := (task (isop CC) (circuit Num)).
  Notation estimator := (estimator (Num := Num) (V := V) (S := S)).
  Notation tasks := (_estimation_tasks angle).
  Notation count := (each_task_returns_one_expectation_value (V := V) (S := S) angle).
  Notation order := (order_of_outputs_matches_order_of_inputs (S := S) angle array_equal).
  Notation coefficients := (expectation_value_includes_coefficients (S := S) angle array_equal).
  Notation constants := (constant_terms_are_included_in_output (Num := Num) (S := S) array_equal).

  (** The number of results: the contract holds exactly if there is one for each task. *)
  Theorem C98_count (e : estimator) s s' values : e tasks s = (s', Ok values) -> count e s = (s', Ok (Nat.eqb (length values) 3)).
  Proof. intros H. unfold each_task_returns_one_expectation_value, bindM. rewrite H. reflexivity. Qed.
  (** The order: for an estimator whose answer to a single task is always the same, the contract holds exactly if each result is that of its own task. *)
  Theorem C98_order (e : estimator) (f : tk -> V) s s' values :
    (forall t s, In t tasks -> exists s', e [t] s = (s', Ok [f t])) -> e tasks s = (s', Ok values) -> length values = 3 ->
    exists s2 b, order e s = (s2, Ok b) /\ (b = true <-> values = map f tasks).
  Proof.
    intros H1 H2 L. unfold order_of_outputs_matches_order_of_inputs, bindM. rewrite H2. destruct values as [|v0 [|v1 [|v2 [|v3 values]]]]; try discriminate. clear H2 L.
    unfold _estimation_tasks in *. set (t0 := a_task _ _ 1) in *. set (t1 := a_task _ _ 3) in *. set (t2 := a_task _ _ 2) in *. clearbody t0 t1 t2.
    cbn [compare_outputs]. unfold bindM, liftM, retM. cbn [item nth_error].
    destruct (H1 t0 s' ltac:(cbn; auto)) as (sa & Ea). rewrite Ea. cbn [item nth_error]. destruct (H1 t1 sa ltac:(cbn; auto)) as (sb & Eb). rewrite Eb. cbn [item nth_error]. destruct (H1 t2 sb ltac:(cbn; auto)) as (sc & Ec). rewrite Ec. cbn [item nth_error].
    eexists. eexists. split; [reflexivity|]. rewrite !andb_true_iff, !aok. cbn [map]. split; [intros (-> & -> & -> & _); reflexivity|intros [= -> -> ->]; auto].
  Qed.
  (** The coefficients and the constants: the contracts hold exactly if the two values differ. *)
  Lemma differ_taskwise (P : tk -> Prop) (e : estimator) f t0 t1 s : taskwise P e f -> P t0 -> P t1 -> exists s', results_differ array_equal e [t0; t1] s = (s', Ok (negb (array_equal (f t0) (f t1)))).
  Proof. intros H P0 P1. unfold results_differ, bindM. destruct (H [t0; t1] s) as (s' & ->); [intros t [<-|[<-|[]]]; assumption|]. exists s'. reflexivity. Qed.
  (** Every estimator that works task by task, with values that differ where they should, meets the contracts. *)
  Theorem C98_accepts (e : estimator) f : taskwise (contract_task angle) e f ->
    (forall t0 t1, coefficient_tasks angle = [t0; t1] -> f t0 <> f t1) -> (forall t0 t1, constant_tasks = [t0; t1] -> f t0 <> f t1) ->
    forall contract s, In contract (ESTIMATOR_CONTRACTS angle array_equal) -> exists s', contract e s = (s', Ok true).
  Proof.
    intros T H1 H2 contract s. assert (T1 : forall t, In t tasks -> contract_task angle t) by (intros t I; apply in_or_app; now left). intros [<-|[<-|[<-|[<-|[]]]]].
    - destruct (T tasks s T1) as (s' & E). exists s'. rewrite (C98_count e s s' _ E). reflexivity.
    - destruct (T tasks s T1) as (s' & E). destruct (C98_order e f s s' (map f tasks)) as (s2 & b & E2 & B); [intros t s0 I; apply (T [t]); intros t' [<-|[]]; now apply T1|exact E|reflexivity|].
      exists s2. rewrite E2. now rewrite (proj2 B eq_refl).
    - unfold expectation_value_includes_coefficients. destruct (coefficient_tasks angle) as [|t0 [|t1 [|]]] eqn:E; try discriminate.
      destruct (differ_taskwise _ e f t0 t1 s T) as (s' & D); [unfold contract_task; rewrite E, !in_app_iff; cbn; tauto..|]. exists s'. rewrite D.
      specialize (H1 t0 t1 eq_refl). rewrite <- aok in H1. destruct (array_equal (f t0) (f t1)); [contradiction|reflexivity].
    - unfold constant_terms_are_included_in_output. destruct constant_tasks as [|t0 [|t1 [|]]] eqn:E; try discriminate.
      destruct (differ_taskwise _ e f t0 t1 s T) as (s' & D); [unfold contract_task; rewrite E, !in_app_iff; cbn; tauto..|]. exists s'. rewrite D.
      specialize (H2 t0 t1 eq_refl). rewrite <- aok in H2. destruct (array_equal (f t0) (f t1)); [contradiction|reflexivity].
  Qed.
  (** An estimator that does not look at the coefficients, and one that does not look at constant terms, is rejected. *)
  Theorem C98_rejects_blind (e : estimator) f s : taskwise (contract_task angle) e f ->
    (blind_to_coefficients f -> exists s', coefficients e s = (s', Ok false)) /\ (blind_to_constants f -> exists s', constants e s = (s', Ok false)).
  Proof.
    intros T. split; intros B.
    - unfold expectation_value_includes_coefficients, coefficient_tasks. match goal with |- context [results_differ _ _ [?a; ?b] _] => destruct (differ_taskwise _ e f a b s T) as (s' & D) end; [unfold contract_task; rewrite !in_app_iff; cbn; tauto..|]. exists s'. rewrite D.
      rewrite (proj2 (aok _ _)); [reflexivity|]. apply B; reflexivity.
    - unfold constant_terms_are_included_in_output, constant_tasks. match goal with |- context [results_differ _ _ [?a; ?b] _] => destruct (differ_taskwise _ e f a b s T) as (s' & D) end; [unfold contract_task; rewrite !in_app_iff; cbn; tauto..|]. exists s'. rewrite D.
      rewrite (proj2 (aok _ _)); [reflexivity|]. apply B; try reflexivity. intros u c N. cbn. split; [tauto|]. intros [H|[H|[]]]; [auto|]. inversion H; subst. contradiction.
  Qed.
  (** A result that is missing makes the contracts fail or raise; an exception of the estimator is that of the contract. *)
  Theorem C98_missing (e : estimator) s s' values : e tasks s = (s', Ok values) -> length values < 3 ->
    count e s = (s', Ok false) /\ forall b, snd (order e s) <> Ok b.
  Proof.
    intros H L. split; [rewrite (C98_count e s s' values H); destruct values as [|? [|? [|]]]; cbn in L; try reflexivity; lia|].
    intros b. unfold order_of_outputs_matches_order_of_inputs, bindM. rewrite H. clear H. unfold _estimation_tasks. cbn [compare_outputs]. unfold bindM, liftM, retM.
    assert (N : nth_error values 2 = None) by (apply nth_error_None; lia). unfold item at 1. destruct (nth_error values 0); [|discriminate].
    destruct (e [_] s') as [sa [va|]]; [|discriminate]. destruct (item va 0); [|discriminate]. unfold item at 1. destruct (nth_error values 1); [|discriminate].
    destruct (e [_] sa) as [sb [vb|]]; [|discriminate]. destruct (item vb 0); [|discriminate]. unfold item at 1. rewrite N. discriminate.
  Qed.
  Theorem C98_exception (e : estimator) s s' x : (forall ts, e ts s = (s', Err x)) -> forall contract, In contract (ESTIMATOR_CONTRACTS angle array_equal) -> contract e s = (s', Err x).
  Proof.
    intros H contract [<-|[<-|[<-|[<-|[]]]]].
    - unfold each_task_returns_one_expectation_value, bindM. now rewrite H.
    - unfold order_of_outputs_matches_order_of_inputs, bindM. now rewrite H.
    - unfold expectation_value_includes_coefficients, results_differ, bindM. now rewrite H.
    - unfold constant_terms_are_included_in_output, results_differ, bindM. now rewrite H.
  Qed.
End C98.

(** ** Exact values *)
Definition C_eqb (x y : C) : bool := if Req_EM_T (fst x) (fst y) then if Req_EM_T (snd x) (snd y) then true else false else false.
Lemma C_eqb_ok x y : C_eqb x y = true <-> x = y.
Proof. unfold C_eqb. destruct x as [a b], y as [c d]; cbn. destruct (Req_EM_T a c), (Req_EM_T b d); split; congruence. Qed.
Section Exact.
  Context {Num S : Type} (angle : R -> Num) (O : sympy_oracle Num) (IR : interp (Num := Num) R) (IC : interp (Num := Num) C) (rho : sym -> R).
  Context (Hangle : forall r, i_num _ IR (angle r) = r).
  Notation run := (apply_ops O IR IC rho).
  Notation tk := (task (isop CC) (circuit Num)).
  (** an estimator that asks the simulator for exact values *)
  Definition exact_estimator : estimator (Num := Num) (V := list C) (S := S) := fun tasks s => (s, calculate_exact_expectation_values (quantum_values run) tasks).

  Lemma one_gate n g q A : gate_matrix O IR IC rho g = Ok A -> sq 2 A -> q < n -> implements O IR IC rho n [GateOp g [q]] (embed n [q] A).
  Proof. intros E Q L. apply implements_gate; [exact E|]. now apply wf_lift_one. Qed.
  Lemma rx_of a : gate_matrix O IR IC rho (g_RX angle a) = Ok (rx_matrix a). Proof. cbn. now rewrite Hangle. Qed.
  Lemma ry_of a : gate_matrix O IR IC rho (g_RY angle a) = Ok (ry_matrix a). Proof. cbn. now rewrite Hangle. Qed.
  Lemma rz_of a : gate_matrix O IR IC rho (g_RZ angle a) = Ok (rz_matrix a). Proof. cbn. now rewrite Hangle. Qed.
  Lemma h_of : gate_matrix O IR IC rho g_H = Ok h_matrix. Proof. reflexivity. Qed.
  Lemma runs n ops : Forall (fun o => exists g q A, o = GateOp g [q] /\ gate_matrix O IR IC rho g = Ok A /\ sq 2 A /\ q < n) ops -> exists w, run ops (all_zeros n) = Ok w.
  Proof.
    intros H. assert (I : exists A, implements O IR IC rho n ops A).
    { induction H as [|o ops (g & q & A & -> & E & Q & L) _ (B & IB)]; [eexists; apply implements_nil|]. eexists. apply (implements_app O IR IC rho n [GateOp g [q]] ops); [exact (one_gate n g q A E Q L)|exact IB]. }
    destruct I as (A & I). destruct (implements_run O IR IC rho n ops A (all_zeros n) I eq_refl) as (w & W & _). now exists w.
  Qed.
  Lemma sq_h : sq 2 h_matrix. Proof. split; reflexivity. Qed.
  Lemma sq_rx a : sq 2 (rx_matrix a). Proof. split; reflexivity. Qed.
  Lemma sq_ry a : sq 2 (ry_matrix a). Proof. split; reflexivity. Qed.
  Lemma sq_rz a : sq 2 (rz_matrix a). Proof. split; reflexivity. Qed.
  Ltac gates := repeat (constructor; [first
    [ do 3 eexists; split; [reflexivity|split; [apply h_of|split; [apply sq_h|lia]]]
    | do 3 eexists; split; [reflexivity|split; [apply rx_of|split; [apply sq_rx|lia]]]
    | do 3 eexists; split; [reflexivity|split; [apply ry_of|split; [apply sq_ry|lia]]]
    | do 3 eexists; split; [reflexivity|split; [apply rz_of|split; [apply sq_rz|lia]]] ]|]); constructor.
  (** The mean of Z after a rotation about X. *)
  Lemma rotated a c : quantum_values run {| c_ops := [GateOp (g_RX angle a) [0]]; c_nq := 1 |} [(Z_ 0, c)] = Ok [cmul c (rc (cos a))].
  Proof.
    destruct (implements_run O IR IC rho 1 _ _ (all_zeros 1) (one_gate 1 (g_RX angle a) 0 (rx_matrix a) (rx_of a) (sq_rx a) ltac:(lia)) eq_refl) as (w & W & Q).
    unfold quantum_values. cbn [c_ops c_nq]. change (Z.to_nat 1) with 1. rewrite W. cbn [rbind map fst snd]. do 3 f_equal.
    destruct Q as [L Q]. cbn in L. assert (Q0 := Q 0 ltac:(rewrite L; lia)). assert (Q1 := Q 1 ltac:(rewrite L; lia)). clear Q W.
    cbn [Nat.pow Nat.mul Nat.add bigsum]. rewrite Q0, Q1. clear Q0 Q1.
    replace (cos a) with (cos (a / 2) * cos (a / 2) - sin (a / 2) * sin (a / 2))%R by (rewrite <- cos_plus; f_equal; field).
    cbn. apply c_eq; cbn; ring.
  Qed.
  Definition values_of (change : isop CC -> isop CC) (t : tk) : list C := match quantum_values run (t_circ t) (change (t_op t)) with Ok l => l | Err _ => [] end.
  Lemma circuits_run (t : tk) : contract_task angle t -> exists w, run (c_ops (t_circ t)) (all_zeros (Z.to_nat (c_nq (t_circ t)))) = Ok w.
  Proof.
    unfold contract_task, _estimation_tasks, coefficient_tasks, constant_tasks. cbn [app In]. intros [<-|[<-|[<-|[<-|[<-|[<-|[<-|[]]]]]]]]; cbn [t_circ a_task c_ops c_nq]; apply runs.
    - change (Z.to_nat 1) with 1. gates.
    - change (Z.to_nat 3) with 3. gates.
    - change (Z.to_nat 2) with 2. gates.
    - change (Z.to_nat 1) with 1. gates.
    - change (Z.to_nat 1) with 1. gates.
    - change (Z.to_nat 1) with 1. gates.
    - change (Z.to_nat 1) with 1. gates.
  Qed.
  Lemma values_exist change (t : tk) : contract_task angle t -> quantum_values run (t_circ t) (change (t_op t)) = Ok (values_of change t).
  Proof. intros I. unfold values_of, quantum_values. destruct (circuits_run t I) as (w & W). cbv zeta. rewrite W. reflexivity. Qed.
  Lemma exact_taskwise change : taskwise (contract_task angle) (fun tasks (s : S) => (s, calculate_exact_expectation_values (fun c o => quantum_values run c (change o)) tasks)) (values_of change).
  Proof.
    intros tasks s H. exists s. f_equal. unfold calculate_exact_expectation_values. apply mapM_Ok_map. intros t I. exact (values_exist change t (H t I)).
  Qed.
  Lemma third_turn : cos (PI / 3) <> 0%R. Proof. rewrite cos_PI3. lra. Qed.
  Notation same := (list_eqb C_eqb).
  Lemma same_ok a b : same a b = true <-> a = b. Proof. apply list_eqb_spec. exact C_eqb_ok. Qed.
  Lemma constants_differ change : (forall c d, length (change [(Z_ 0, c)]) = 1 /\ length (change [(Z_ 0, c); ([], d)]) = 2) ->
    forall t0 t1, constant_tasks (Num := Num) = [t0; t1] -> values_of change t0 <> values_of change t1.
  Proof.
    intros H t0 t1 E D. unfold constant_tasks in E. injection E as E0 E1. apply (f_equal (@length C)) in D.
    assert (L : forall t, contract_task angle t -> length (values_of change t) = length (change (t_op t))).
    { intros t I. unfold values_of, quantum_values. destruct (circuits_run t I) as (w & ->). cbn [rbind]. now rewrite map_length. }
    rewrite !L in D.
    - subst t0 t1. cbn [t_op a_task] in D. destruct (H (real 1) (real factor_19)) as [H1 H2]. assert (X : 1 = 2) by (etransitivity; [symmetry; exact H1|]; etransitivity; [exact D|exact H2]). discriminate X.
    - subst t1. unfold contract_task. rewrite !in_app_iff. right. right. right. left. reflexivity.
    - subst t0. unfold contract_task. rewrite !in_app_iff. right. right. left. reflexivity.
  Qed.
  (** The exact values of the simulator meet all contracts. *)
  Theorem C98_exact : forall contract s, In contract (ESTIMATOR_CONTRACTS angle same) -> exists s', contract exact_estimator s = (s', Ok true).
  Proof.
    apply (C98_accepts angle same same_ok exact_estimator (values_of (fun o => o))).
    - exact (exact_taskwise (fun o => o)).
    - intros t0 t1 E. unfold coefficient_tasks in E. injection E as E0 E1. subst t0 t1. unfold values_of. cbn [t_circ t_op a_task]. rewrite !rotated. intros X. injection X as X.
      unfold factor_19 in X. assert (T := third_turn). cbn in X. assert (cos (PI / 3) = 0)%R by nra. contradiction.
    - apply constants_differ. intros c d. split; reflexivity.
  Qed.
  (** The contracts do not check the values: squared coefficients and constants that count as zero are accepted as well. *)
  Definition distorted (o : isop CC) : isop CC := map (fun tc => (fst tc, match fst tc with [] => c0 | _ => cmul (snd tc) (snd tc) end)) o.
  Theorem C98_values_refuted : forall contract s, In contract (ESTIMATOR_CONTRACTS angle same) ->
    exists s', contract (fun tasks (s : S) => (s, calculate_exact_expectation_values (fun c o => quantum_values run c (distorted o)) tasks)) s = (s', Ok true).
  Proof.
    apply (C98_accepts angle same same_ok _ (values_of distorted)).
    - exact (exact_taskwise distorted).
    - intros t0 t1 E. unfold coefficient_tasks in E. injection E as E0 E1. subst t0 t1. unfold values_of. cbn [t_circ t_op a_task distorted map fst snd Z_].
      change [(0, ZZ)] with (Z_ 0). rewrite !rotated. intros X. injection X as X.
      unfold factor_19 in X. assert (T := third_turn). cbn in X. assert (cos (PI / 3) = 0)%R by nra. contradiction.
    - apply constants_differ. intros c d. split; reflexivity.
  Qed.
End Exact.

(** An estimator that samples is rejected unless the second sample gives exactly the same values as the first, however good its values are. *)
Theorem C98_sampling_refuted {Num V} (angle : R -> Num) (array_equal : V -> V -> bool) (aok : forall v w, array_equal v w = true <-> v = w) (draw : nat -> task (isop CC) (circuit Num) -> V) :
  (forall t, draw 0 t <> draw 1 t) ->
  exists s, order_of_outputs_matches_order_of_inputs angle array_equal (fun tasks (s : nat) => (Datatypes.S s, Ok (map (draw s) tasks))) 0 = (s, Ok false).
Proof.
  intros H. exists 4. unfold order_of_outputs_matches_order_of_inputs, _estimation_tasks, bindM. cbn [map compare_outputs]. unfold bindM, liftM, retM. cbn [item nth_error map].
  match goal with |- context [array_equal (draw 0 ?t) (draw 1 ?t)] => destruct (array_equal (draw 0 t) (draw 1 t)) eqn:E; [apply aok in E; now apply H in E|] end. reflexivity.
Qed.
Print Assumptions C98_exact.
