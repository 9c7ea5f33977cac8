(** Theorems for C51 (expansion of a matrix in the Pauli basis), stated over PauliExpModel.v, OpSpec.v and FermiSpec.v. *)
From Coq Require Import ZArith Permutation Ring.
From Verif Require Import Base BaseFacts MatModel MatFacts LiftSpec LiftProofs OpModel OpSpec OpProofs PauliProofs OpProofs2 FermiSpec PauliBasis FermiProofs7 GaussQ PauliExpModel PauliExpProofs.
Open Scope list_scope.
Local Open Scope nat_scope.

(** A list of rows is a square matrix on [n] qubits. *)
Definition square_rows {K : cring} (n : nat) (operator : list (list K)) : Prop :=
  length operator = 2 ^ n /\ forall row, In row operator -> length row = 2 ^ n.

Section C51.
  Context {K : cring} (im half : K) (small : K -> bool) (Him : kmul im im = kopp k1) (Hhalf : kadd half half = (k1 : K)).
  Add Ring Kring_c51 : (kth K).
  Open Scope K_scope.
  Notation expand := (get_qubitop_from_matrix im half small).

  Lemma filter_split (a : qop K) : forall phi, lval phi (filter (fun tc => negb (small (snd tc))) a) + lval phi (filter (fun tc => small (snd tc)) a) = lval phi a.
  Proof. intros phi. unfold lval. induction a as [|tc a IH]; cbn [filter fold_right]; [ring|]. rewrite <- IH. destruct (small (snd tc)); cbn [negb fold_right]; ring. Qed.
  Lemma filter_perm (a : qop K) : Permutation (filter (fun tc => negb (small (snd tc))) a ++ filter (fun tc => small (snd tc)) a) a.
  Proof.
    induction a as [|tc a IH]; cbn [filter]; [auto|]. destruct (small (snd tc)); cbn [negb app]; [|constructor; exact IH].
    etransitivity; [symmetry; apply Permutation_middle|]. constructor. exact IH.
  Qed.
  (** For every matrix on at least one qubit: an operator is returned, and the matrix is the operator's matrix plus that of terms [r] the tolerance
      dropped; operator and dropped terms have together each Pauli term at most once, so the error is at most 4^n small coefficients. *)
  Theorem C51_matrix_recovered n operator : square_rows n operator -> (1 <= n)%nat ->
    exists a r, expand operator = Ok a /\ meq (madd (qop_matrix im n a) (qop_matrix im n r)) (of_rows operator) /\
      all_small small r /\ (forall t c, In (t, c) a -> small c = false) /\ wf_op (a ++ r) /\ on_qubits n (a ++ r) /\ (forall t c, In (t, c) (a ++ r) -> canonical t).
  Proof.
    intros [Hl Hr] Hn. set (E := expansion im half n (ent (of_rows operator))).
    exists (filter (fun tc => negb (small (snd tc))) E), (filter (fun tc => small (snd tc)) E).
    assert (P := filter_perm E).
    assert (T : forall t c, In (t, c) (filter (fun tc => negb (small (snd tc))) E ++ filter (fun tc => small (snd tc)) E) -> In (t, c) E) by (intros t c; apply Permutation_in; exact P).
    split; [apply of_matrix_ok; auto|]. split; [|split; [|split; [|split; [|split]]]].
    - assert (X : meq (qop_matrix im n E) (of_rows operator)).
      { apply expansion_matrix; auto; cbn [of_rows nr nc]. destruct operator as [|row0 rows]; [pose proof (Nat.pow_nonzero 2 n); cbn in Hl; lia|]. apply Hr. left. reflexivity. }
      etransitivity; [|exact X]. destruct (qop_matrix_shape im n E) as [S1 S2]. 
      split; [cbn [nr madd]; rewrite (proj1 (qop_matrix_shape im n _)); congruence|]. split; [cbn [nc madd]; rewrite (proj2 (qop_matrix_shape im n _)); congruence|].
      intros i j _ _. cbn [madd ent]. rewrite !qop_matrix_ent. apply filter_split.
    - apply Forall_forall. intros tc H. apply filter_In in H. apply H.
    - intros t c H. apply filter_In in H as [_ H]. apply negb_true_iff in H. exact H.
    - unfold wf_op, dkeys. eapply Permutation_NoDup; [symmetry; apply Permutation_map; exact P|]. apply expansion_wf; auto.
    - intros t c H. apply T in H. apply expansion_term in H; auto; apply H.
    - intros t c H. apply T in H. apply expansion_term in H; auto; apply H.
  Qed.
  (** When only zero is dropped the matrix is recovered exactly. *)
  Theorem C51_matrix_recovered_exactly n operator : only_zero small -> square_rows n operator -> (1 <= n)%nat ->
    exists a, expand operator = Ok a /\ meq (qop_matrix im n a) (of_rows operator) /\ wf_op a /\ on_qubits n a /\ (forall t c, In (t, c) a -> canonical t).
  Proof.
    intros Hz Hsq Hn. destruct (C51_matrix_recovered n operator Hsq Hn) as (a & r & E & X & Hr & _ & W & On & Can). exists a. split; [exact E|].
    destruct (qop_matrix_shape im n a) as [S1 S2].
    split; [apply (qop_exact small n im _ _ r); auto|]. split; [|split].
    - unfold wf_op, dkeys in *. rewrite map_app in W. revert W. generalize (map fst a) (map fst r). clear. intros l l'. induction l as [|x l IH]; cbn [app]; intros W; constructor; inversion W as [|? ? N1 N2]; subst; [|auto]. intros H. apply N1, in_or_app. left. exact H.
    - intros t c H. apply (On t c), in_or_app. left. exact H.
    - intros t c H. apply (Can t c), in_or_app. left. exact H.
  Qed.
  (** The expansion of an operator's own matrix gives back the operator, coefficient by coefficient. *)
  Theorem C51_operator_recovered n (a : qop K) operator : only_zero small -> square_rows n operator -> (1 <= n)%nat ->
    wf_op a -> on_qubits n a -> (forall t c, In (t, c) a -> canonical t) -> meq (of_rows operator) (qop_matrix im n a) ->
    exists b, expand operator = Ok b /\ forall t, coef pauli_eqb b t = coef pauli_eqb a t.
  Proof.
    intros Hz Hsq Hn W On Can X. destruct (C51_matrix_recovered_exactly n operator Hz Hsq Hn) as (b & E & M & Wb & Ob & Cb). exists b. split; [exact E|].
    intros t. apply (pauli_independent im Him half Hhalf n); auto. etransitivity; eauto.
  Qed.
  (** Matrices that are not square, or whose size is not a power of two, are rejected. *)
  Theorem C51_rejects_shapes (row0 : list K) rows : length (row0 :: rows) <> length row0 \/ ~ (exists n, length (row0 :: rows) = 2 ^ n)%nat ->
    expand (row0 :: rows) = Err GenericException.
  Proof.
    intros H. unfold get_qubitop_from_matrix. destruct (Nat.eqb_spec (length (row0 :: rows)) (length row0)) as [E|Ne]; cbn [negb]; [|reflexivity].
    destruct H as [H|H]; [contradiction|]. destruct (is_power_of_two (length (row0 :: rows))) eqn:P; cbn [negb]; [|reflexivity].
    exfalso. apply H, power_of_two_spec, P.
  Qed.
  Theorem C51_rejects_empty : expand [] = Err IndexError.
  Proof. reflexivity. Qed.
  (** The claim does not extend to n = 0: no 1 by 1 matrix is accepted, because zero is written with one digit and not with none. *)
  Theorem C51_one_by_one_refuted c : expand [[c]] = Err GenericException.
  Proof. reflexivity. Qed.
End C51.

(** Non-vacuity: a matrix that is neither Hermitian nor diagonal, on one and on two qubits. *)
Definition c51_rows : list (list GQ) := [[gq 4 0; gq 2 2]; [gq 0 1; gq 0 0]].
Definition c51_rows2 : list (list GQ) :=
  [[gq 1 0; gq 0 0; gq 0 0; gq 0 3]; [gq 0 0; gq 2 0; gq 0 1; gq 0 0]; [gq 0 0; gq 5 0; gq 0 0; gq 0 0]; [gq 4 4; gq 0 0; gq 0 0; gq 1 1]].
Example C51_example_shape : square_rows 1 c51_rows /\ square_rows 2 c51_rows2.
Proof. split; (split; [reflexivity|]); intros row H; cbn in H; repeat (destruct H as [<-|H]; [reflexivity|]); destruct H. Qed.
Example C51_example_result : exists a, get_qubitop_from_matrix qi qhalf gq_zero c51_rows = Ok a /\ length a = 4.
Proof. eexists. split; [vm_compute; reflexivity|reflexivity]. Qed.
Example C51_example_result2 : exists a, get_qubitop_from_matrix qi qhalf gq_zero c51_rows2 = Ok a /\ length a = 8.
Proof. eexists. split; [vm_compute; reflexivity|reflexivity]. Qed.
Example C51_example_applied : exists a, get_qubitop_from_matrix qi qhalf gq_zero c51_rows2 = Ok a /\ meq (qop_matrix qi 2 a) (of_rows c51_rows2).
Proof.
  destruct (C51_matrix_recovered_exactly qi qhalf gq_zero qi_sq qhalf_two 2 c51_rows2 gq_zero_spec (proj2 C51_example_shape)) as (a & E & M & _); [lia|]. eauto.
Qed.
Example C51_example_rejected : get_qubitop_from_matrix qi qhalf gq_zero [[gq 1 0; gq 0 0; gq 0 0]; [gq 1 0; gq 0 0; gq 0 0]; [gq 1 0; gq 0 0; gq 0 0]] = Err GenericException.
Proof. reflexivity. Qed.
Print Assumptions C51_matrix_recovered.
Print Assumptions C51_matrix_recovered_exactly.
Print Assumptions C51_operator_recovered.
Print Assumptions C51_rejects_shapes.
