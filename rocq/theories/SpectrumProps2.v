(** C104, cases: the hypotheses of SpectrumProps.v are met, by a solver for diagonal matrices over the Gaussian rationals with the order of numpy.sort; and a refuted variant. *)
From Coq Require Import List Arith Lia Sorted QArith Qcanon Lqa.
From Verif Require Import Base BaseFacts MatModel MatFacts OpModel OpSpec FermiModel FermiSpec FermiProps2 TensorModel TensorSpec SectorSpec SparseModel SparseProps SpectrumModel SpectrumSpec SpectrumProps GaussQ.
Import ListNotations.
Open Scope list_scope.
Local Open Scope nat_scope.

Section R.
  Context {K : cring}.
  Add Ring Kring_c104b : (kth K).
  Lemma c_mul_0_l (a : K) : kmul k0 a = k0. Proof. ring. Qed.
  Lemma c_mul_0_r (a : K) : kmul a k0 = k0. Proof. ring. Qed.
  Lemma c_mul_1_r (a : K) : kmul a k1 = a. Proof. ring. Qed.
  Lemma c_diff (a v x : K) : kmul a v = kmul x v -> kmul v (ksub a x) = k0.
  Proof. intros E. transitivity (ksub (kmul a v) (kmul x v)); [ring|]. rewrite E. ring. Qed.
  Lemma c_sub0 (a x : K) : ksub a x = k0 -> a = x.
  Proof. intros E. transitivity (kadd (ksub a x) x); [ring|]. rewrite E. ring. Qed.
End R.
Definition glex (a b : GQ) : bool := negb (Qle_bool (this (fst b)) (this (fst a))) || (Qle_bool (this (fst a)) (this (fst b)) && Qle_bool (this (snd a)) (this (snd b))).
Lemma glex_iff a b : glex a b = true <-> (this (fst a) < this (fst b) \/ (this (fst a) <= this (fst b) /\ this (snd a) <= this (snd b)))%Q.
Proof.
  unfold glex. rewrite Bool.orb_true_iff, Bool.andb_true_iff, Bool.negb_true_iff, !Qle_bool_iff. split; (intros [H|H]; [left|right; exact H]).
  - apply Qnot_le_lt. intros L. apply Qle_bool_iff in L. congruence.
  - apply Bool.not_true_iff_false. intros L. apply Qle_bool_iff in L. revert H. now apply Qle_not_lt.
Qed.
Lemma glex_total a b : glex a b = true \/ glex b a = true.
Proof.
  rewrite !glex_iff. destruct (Qlt_le_dec (this (fst a)) (this (fst b))) as [L|L]; [left; now left|]. destruct (Qlt_le_dec (this (fst b)) (this (fst a))) as [L'|L']; [right; now left|].
  destruct (Qlt_le_dec (this (snd a)) (this (snd b))) as [M|M]; [left|right]; right; split; auto using Qlt_le_weak.
Qed.
Lemma glex_trans a b c : glex a b = true -> glex b c = true -> glex a c = true.
Proof.
  rewrite !glex_iff. intros [H|(H & H2)] [G|(G & G2)]; [left; lra|left; lra|left; lra|right; split; lra].
Qed.
Lemma glex_anti a b : glex a b = true -> glex b a = true -> a = b.
Proof.
  rewrite !glex_iff. intros [H|(H & H2)] [G|(G & G2)]; try (exfalso; lra). destruct a, b. cbn in *. f_equal; apply Qc_is_canon; lra.
Qed.
Lemma this_plus a b : (this (a + b)%Qc == this a + this b)%Q. Proof. apply Qred_correct. Qed.
Lemma this_mult a b : (this (a * b)%Qc == this a * this b)%Q. Proof. apply Qred_correct. Qed.
Lemma gq_domain (a b : GQ) : kmul a b = k0 -> a <> k0 -> b = k0.
Proof.
  destruct a as [a1 a2], b as [b1 b2]. intros E N. pose proof (f_equal fst E : (a1 * b1 - a2 * b2)%Qc = 0%Qc) as E1. pose proof (f_equal snd E : (a1 * b2 + a2 * b1)%Qc = 0%Qc) as E2.
  assert (Pos : (a1 * a1 + a2 * a2)%Qc <> 0%Qc).
  { intros Z. apply N. assert (Q0 : (this a1 * this a1 + this a2 * this a2 == 0)%Q).
    { rewrite <- !this_mult, <- this_plus, Z. reflexivity. }
    assert (S1 : (0 <= this a1 * this a1)%Q) by nra. assert (S2 : (0 <= this a2 * this a2)%Q) by nra. apply (f_equal2 (@pair Qc Qc) (y1 := 0%Qc) (y2 := 0%Qc)); apply Qc_is_canon.
    - assert (Y : (this a1 * this a1 == 0)%Q) by lra. destruct (Qmult_integral _ _ Y); assumption.
    - assert (Y : (this a2 * this a2 == 0)%Q) by lra. destruct (Qmult_integral _ _ Y); assumption. }
  assert (X1 : (b1 * (a1 * a1 + a2 * a2) = 0)%Qc).
  { transitivity (a1 * (a1 * b1 - a2 * b2) + a2 * (a1 * b2 + a2 * b1))%Qc; [ring|]. rewrite E1, E2. ring. }
  assert (X2 : (b2 * (a1 * a1 + a2 * a2) = 0)%Qc).
  { transitivity (a1 * (a1 * b2 + a2 * b1) - a2 * (a1 * b1 - a2 * b2))%Qc; [ring|]. rewrite E1, E2. ring. }
  apply (f_equal2 (@pair Qc Qc) (y1 := 0%Qc) (y2 := 0%Qc)); [destruct (Qcmult_integral _ _ X1)|destruct (Qcmult_integral _ _ X2)]; auto; contradiction.
Qed.
Definition is_diagonal (A : mat GQ) : bool := Nat.eqb (nr A) (nc A) && forallb (fun i => forallb (fun j => Nat.eqb i j || gq_zero (ent A i j)) (seq 0 (nc A))) (seq 0 (nr A)).
Definition diagonal (A : mat GQ) : list GQ := map (fun i => ent A i i) (seq 0 (nr A)).
Definition diag_solver (A : mat GQ) : result (list GQ) := if is_diagonal A then Ok (diagonal A) else Err ValueError.
Definition diag_eigsh (A : mat GQ) (guess : option (MatModel.vec GQ)) : result (list GQ * mat GQ) :=
  if is_diagonal A && negb (Nat.eqb (nr A) 0) then Ok (diagonal A, eye (nr A)) else Err ValueError.
Lemma is_diagonal_iff A : is_diagonal A = true -> nr A = nc A /\ forall i j, (i < nr A)%nat -> (j < nc A)%nat -> i <> j -> ent A i j = k0.
Proof.
  unfold is_diagonal. rewrite Bool.andb_true_iff, Nat.eqb_eq, forallb_forall. intros (E & H). split; [exact E|]. intros i j Hi Hj N. specialize (H i (proj2 (in_seq _ _ _) (conj (Nat.le_0_l _) Hi))).
  rewrite forallb_forall in H. specialize (H j (proj2 (in_seq _ _ _) (conj (Nat.le_0_l _) Hj))). apply Bool.orb_true_iff in H. destruct H as [H|H]; [apply Nat.eqb_eq in H; contradiction|now apply gq_zero_spec].
Qed.
Lemma diag_entry A i v : is_diagonal A = true -> (i < nr A)%nat -> bigsum (nc A) (fun j => kmul (ent A i j) (vent v j)) = kmul (ent A i i) (vent v i).
Proof.
  intros D Hi. destruct (is_diagonal_iff A D) as (Sq & Z). rewrite (bigsum_single _ i); [reflexivity|lia|]. intros j Hj N. rewrite Z by auto. apply c_mul_0_l.
Qed.
Lemma diag_unit A i : is_diagonal A = true -> (i < nr A)%nat -> let v := Build_vec (nr A) (fun j => ent (eye (K := GQ) (nr A)) j i) in nonzero v /\ eigenpair A (ent A i i) v.
Proof.
  intros D Hi v. destruct (is_diagonal_iff A D) as (Sq & Z). split.
  - exists i. split; [exact Hi|]. cbn. rewrite Nat.eqb_refl. intros H. discriminate H.
  - split; [cbn; congruence|]. intros k Hk. rewrite (diag_entry A k v D Hk). cbn [vent v eye ent]. unfold v. cbn [vent eye ent]. destruct (Nat.eqb_spec k i) as [->|N]; [reflexivity|]. unfold delta. rewrite !c_mul_0_r. reflexivity.
Qed.
Lemma diag_all A : is_diagonal A = true -> forall x, In x (diagonal A) <-> eigenvalue A x.
Proof.
  intros D x. unfold diagonal. rewrite in_map_iff. split.
  - intros (i & <- & Hi). apply in_seq in Hi. exists (Build_vec (nr A) (fun j => ent (eye (K := GQ) (nr A)) j i)). apply diag_unit; [exact D|lia].
  - intros (v & (i & Hi & N) & P1 & P2). destruct (is_diagonal_iff A D) as (Sq & Z). exists i. split; [|apply in_seq; lia].
    assert (Hi' : (i < nr A)%nat) by lia. specialize (P2 i Hi'). rewrite (diag_entry A i v D Hi') in P2.
    assert (W : kmul (vent v i) (ksub (ent A i i) x) = k0). { apply c_diff. exact P2. }
    apply gq_domain in W; [|exact N]. now apply c_sub0.
Qed.

Lemma diag_solver_all kind : finds_all kind diag_solver.
Proof.
  intros A l _ E. unfold diag_solver in E. destruct (is_diagonal A) eqn:D; [|discriminate]. injection E as <-. split; [unfold diagonal; now rewrite map_length, seq_length|now apply diag_all].
Qed.
Lemma lowest_in (l : list GQ) : l <> [] -> exists x, In x l /\ forall y, In y l -> glex x y = true.
Proof.
  induction l as [|a l IH]; [contradiction|]. intros _. destruct l as [|b l]; [exists a; split; [now left|]; intros y [->|[]]; destruct (glex_total y y); assumption|].
  destruct IH as (x & Hx & Low); [discriminate|]. destruct (glex_total a x) as [L|L].
  - exists a. split; [now left|]. intros y [->|Hy]; [destruct (glex_total y y); assumption|]. apply (glex_trans a x y L), Low, Hy.
  - exists x. split; [now right|]. intros y [->|Hy]; [exact L|now apply Low].
Qed.
Lemma diag_eigsh_lowest : finds_lowest (fun a b => glex a b = true) diag_eigsh.
Proof.
  intros A guess values vectors E. unfold diag_eigsh in E. destruct (is_diagonal A) eqn:D; [|discriminate]. destruct (Nat.eqb_spec (nr A) 0) as [|N]; [discriminate|]. cbn [andb negb] in E. injection E as <- <-.
  destruct (is_diagonal_iff A D) as (Sq & _). split; [unfold diagonal; now rewrite map_length, seq_length|]. split; [exact Sq|]. split.
  - intros i x Ex v. assert (Hi : (i < nr A)%nat) by (assert (X : (i < length (diagonal A))%nat) by (apply nth_error_Some; congruence); unfold diagonal in X; now rewrite map_length, seq_length in X).
    assert (x = ent A i i) as ->. { unfold diagonal in Ex. rewrite nth_error_map in Ex. rewrite (nth_error_nth' _ 0%nat) in Ex by (now rewrite seq_length). rewrite seq_nth in Ex by exact Hi. cbn in Ex. congruence. }
    exact (diag_unit A i D Hi).
  - destruct (lowest_in (diagonal A)) as (x & Hx & Low); [unfold diagonal; destruct (nr A); [contradiction|discriminate]|]. exists x. split; [exact Hx|]. intros y Hy. apply Low, (diag_all A D y), Hy.
Qed.
Lemma gq_zero_iff (c : GQ) : gq_zero c = true <-> c = k0.
Proof. split; [apply gq_zero_spec|]. intros ->. reflexivity. Qed.

Definition gq_spectrum (o : operand) n := eigenspectrum qi qhalf gq_zero gq_zero gq_zero glex diag_solver diag_solver o n.
(** 1/4 - a*_1 a_1 + 2 a*_0 a_0 *)
Definition c104_op : fop GQ := [([], gq 1 0); ([(1, true); (1, false)], gq (-4) 0); ([(0, true); (0, false)], gq 8 0)].
Definition gq_list_eqb (a b : list GQ) := list_eqb gq_eqb a b.
Example C104_case :
  match gq_spectrum (OFermion c104_op) (Some 2) with Ok l => gq_list_eqb l [gq (-3) 0; gq 1 0; gq 5 0; gq 9 0] | Err _ => false end = true /\
  match gq_spectrum (OQubit (jordan_wigner qi qhalf gq_zero c104_op)) (Some 2) with Ok l => gq_list_eqb l [gq (-3) 0; gq 1 0; gq 5 0; gq 9 0] | Err _ => false end = true /\
  match bravyi_kitaev qi qhalf gq_zero (fun l => l) c104_op (Some 2) with Ok b => match gq_spectrum (OQubit b) (Some 2) with Ok l => gq_list_eqb l [gq (-3) 0; gq 1 0; gq 5 0; gq 9 0] | Err _ => false end | Err _ => false end = true /\
  match get_sparse_operator qi qhalf gq_zero gq_zero (OFermion c104_op) (Some 2) with
  | Ok A => match get_ground_state glex diag_eigsh A None with Ok (e, v) => gq_eqb e (gq (-3) 0) && gq_list_eqb (map (vent v) (seq 0 4)) [k0; k1; k0; k0] | Err _ => false end
  | Err _ => false end = true.
Proof. repeat split; vm_compute; reflexivity. Qed.
(** The theorems apply to this solver. *)
Example C104_instance (a : fop GQ) n l : on_qubits n a -> gq_spectrum (OFermion a) (Some n) = Ok l -> StronglySorted (fun a b => glex a b = true) l /\ length l = (2 ^ n)%nat /\ forall x, In x l <-> eigenvalue (fop_matrix n a) x.
Proof. apply (C104_fermion qi qhalf qi_sq qhalf_two gq_zero gq_zero gq_zero_iff gq_zero gq_zero_spec glex glex_total glex_trans diag_solver diag_solver (diag_solver_all _) (diag_solver_all _)). Qed.
Example C104_first_instance A guess l value v : nr A = nc A -> sparse_eigenspectrum gq_zero gq_zero glex diag_solver diag_solver A = Ok l -> get_ground_state glex diag_eigsh A guess = Ok (value, v) -> hd_error l = Some value.
Proof. apply (C104_first qhalf gq_zero gq_zero gq_zero_iff gq_zero gq_zero_spec glex glex_total glex_trans diag_solver diag_solver (diag_solver_all _) (diag_solver_all _) diag_eigsh diag_eigsh_lowest A guess l value v glex_anti). Qed.

(** Without the number of qubits the spectra of an operator and of its transform can differ in their multiplicities: the image of a*_1 a_1 + a_1 a*_1 is the number 1, on no qubits. *)
Definition c104_const : fop GQ := [([(1, true); (1, false)], gq 4 0); ([(1, false); (1, true)], gq 4 0)].
Theorem C104_default_refuted : exists (solver : mat GQ -> result (list GQ)) (a : fop GQ) l1 l2, finds_all (fun A => nr A = nc A) solver /\
  eigenspectrum qi qhalf gq_zero gq_zero gq_zero glex solver solver (OFermion a) None = Ok l1 /\ eigenspectrum qi qhalf gq_zero gq_zero gq_zero glex solver solver (OQubit (jordan_wigner qi qhalf gq_zero a)) None = Ok l2 /\
  length l1 = 4%nat /\ length l2 = 1%nat.
Proof.
  assert (B1 : match gq_spectrum (OFermion c104_const) None with Ok l => Nat.eqb (length l) 4 | Err _ => false end = true) by (vm_compute; reflexivity).
  assert (B2 : match gq_spectrum (OQubit (jordan_wigner qi qhalf gq_zero c104_const)) None with Ok l => Nat.eqb (length l) 1 | Err _ => false end = true) by (vm_compute; reflexivity).
  destruct (gq_spectrum (OFermion c104_const) None) as [l1|] eqn:E1; [|discriminate B1]. destruct (gq_spectrum (OQubit (jordan_wigner qi qhalf gq_zero c104_const)) None) as [l2|] eqn:E2; [|discriminate B2].
  exists diag_solver, c104_const, l1, l2. split; [apply diag_solver_all|]. split; [exact E1|]. split; [exact E2|]. apply Nat.eqb_eq in B1, B2. auto.
Qed.
Print Assumptions C104_default_refuted.
