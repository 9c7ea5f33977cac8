(** Theorems for C47 (Jordan-Wigner) and C48 (Bravyi-Kitaev), stated over FermiModel.v, OpSpec.v and FermiSpec.v. *)
From Coq Require Import NArith Nnat Permutation Sorted Ring.
From Verif Require Import Base BaseFacts MatModel MatFacts LiftSpec LiftProofs OpModel OpSpec OpProofs PauliProofs OpProofs2 ConjProofs
  FermiModel FermiSpec FermiProofs FermiProofs2 FermiProofs3 BKProofs FermiProofs4 FermiProofs5 PauliBasis FermiProofs6 FermiProofs7 GaussQ ReindexProofs2.
Open Scope list_scope.
Local Open Scope nat_scope.

Section Scalars.
  (** scalars with an imaginary unit and a half, none of the coefficients of the images of ladder operators being small *)
  Context {K : cring} (im half : K) (Him : kmul im im = kopp k1) (Hhalf : kadd half half = k1) (small : K -> bool).
  Context (Hs1 : small half = false) (Hs2 : small (kmul half im) = false) (Hs3 : small (kopp (kmul half im)) = false).
  Add Ring Kring_fp3 : (kth K).
  Open Scope K_scope.
  (** 1 for the creation and the annihilation operator of one mode, 0 otherwise: the right-hand side of the anticommutation relations *)
  Definition anticommutator_value (f g : factor bool) : K := if Nat.eqb (fst f) (fst g) && negb (Bool.eqb (snd f) (snd g)) then 1 else 0.
  Notation qmul := (op_mul pauli_eqb (qubit_simplify im)).
  Notation qadd := (op_add pauli_eqb small).
  Lemma pair_length f (t u : term pauli) (c d : K) : (length (fold_left (merge_term pauli_eqb small f) (mk_op (qubit_simplify im) u d) (mk_op (qubit_simplify im) t c)) <= 2)%nat.
  Proof. etransitivity; [apply (merge_length pauli_eqb)|]. unfold mk_op. destruct (qubit_simplify im t c), (qubit_simplify im u d). cbn. lia. Qed.
  Section Width.
    Context (n : nat).
    Notation M := (qop_matrix im n).
    Notation F := (fop_matrix (K := K) n).

    (** ** C47 *)
    Notation jw := (jordan_wigner im half small).
    Notation jwl := (jw_ladder im half small).
    Lemma jw_twist f : (fst f < n)%nat -> on_qubits n (jwl f) /\ meq (mmul (M (jwl f)) (eye (2 ^ n))) (mmul (eye (2 ^ n)) (ladder_matrix n f)).
    Proof.
      intros Hf. destruct (jw_ladder_matrix im half Him Hhalf small Hs1 Hs2 Hs3 n f Hf) as [H1 H2]. split; [auto|].
      etransitivity; [apply eye_r_sq, sq_qop|]. etransitivity; [exact H2|]. symmetry. apply eye_l_sq. split; reflexivity.
    Qed.
    Let HE : sq (2 ^ n) (eye (K := K) (2 ^ n)) := sq_eye _.
    (** The image of a creation or annihilation operator acts on occupation-number states as that operator. *)
    Theorem C47_ladder f : (fst f < n)%nat -> on_qubits n (jwl f) /\ meq (M (jwl f)) (ladder_matrix n f).
    Proof. apply (jw_ladder_matrix im half Him Hhalf small Hs1 Hs2 Hs3). Qed.
    (** So the images satisfy the canonical anticommutation relations. *)
    Theorem C47_anticommute f g : (fst f < n)%nat -> (fst g < n)%nat ->
      meq (madd (mmul (M (jwl f)) (M (jwl g))) (mmul (M (jwl g)) (M (jwl f)))) (mscale (anticommutator_value f g) (eye (2 ^ n))).
    Proof. apply (ladder_images_car im n (eye (2 ^ n)) HE (unitary_eye _) jwl jw_twist). Qed.
    (** The transform of any operator acts as the operator, up to pruned terms, and exactly when only 0 is pruned. *)
    Theorem C47_acts (a : fop K) : on_qubits n a ->
      on_qubits n (jw a) /\ exists r : qop K, all_small small r /\ (length r <= image_bound a)%nat /\ meq (madd (M (jw a)) (M r)) (F a).
    Proof.
      intros Ha. split; [exact (image_on im small n jwl (eye (2 ^ n)) jw_twist a Ha)|].
      destruct (image_matrix im Him small n jwl (eye (2 ^ n)) HE jw_twist a Ha) as (r & R & Rl & X). exists r. split; [exact R|].
      split; [etransitivity; [exact Rl|]; apply (image_size_bound im small); intros f; apply (pair_length kadd)|].
      etransitivity; [symmetry; apply eye_r_sq, sq_madd; apply sq_qop|]. etransitivity; [exact X|]. apply eye_l_sq, sq_fop.
    Qed.
    Theorem C47_acts_exact (a : fop K) : on_qubits n a -> only_zero small -> meq (M (jw a)) (F a).
    Proof. intros Ha Hz. destruct (C47_acts a Ha) as (_ & r & R & _ & X). apply (qop_exact small n im _ _ r); auto; apply sq_qop. Qed.
    (** Products go to products and sums to sums, as operators and, exactly, coefficient by coefficient. *)
    Theorem C47_product (a b : fop K) : on_qubits n a -> on_qubits n b -> only_zero small ->
      meq (M (jw (fermion_mul a b))) (mmul (M (jw a)) (M (jw b))) /\ forall t, coef pauli_eqb (jw (fermion_mul a b)) t = coef pauli_eqb (qmul (jw a) (jw b)) t.
    Proof.
      intros Ha Hb Hz. split; [apply (image_mul im Him small n (eye (2 ^ n)) HE (unitary_eye _) jwl jw_twist); auto|].
      intros t. apply (image_mul_coef im Him small n (eye (2 ^ n)) HE (unitary_eye _) jwl jw_twist half Hhalf); auto.
    Qed.
    Theorem C47_sum (a b : fop K) : on_qubits n a -> on_qubits n b -> only_zero small ->
      meq (M (jw (fermion_add small a b))) (madd (M (jw a)) (M (jw b))) /\ forall t, coef pauli_eqb (jw (fermion_add small a b)) t = coef pauli_eqb (qadd (jw a) (jw b)) t.
    Proof.
      intros Ha Hb Hz. split; [apply (image_add im Him small n (eye (2 ^ n)) HE (unitary_eye _) jwl jw_twist); auto|].
      intros t. apply (image_add_coef im Him small n (eye (2 ^ n)) HE (unitary_eye _) jwl jw_twist half Hhalf); auto.
    Qed.
    (** The conjugate transforms to the conjugate. *)
    Theorem C47_conjugate (a : fop K) : kconj im = - im -> wf_op a -> on_qubits n a -> only_zero small ->
      forall t, coef pauli_eqb (jw (fermion_conjugated a)) t = coef pauli_eqb (qubit_conjugated (jw a)) t.
    Proof. intros Hc W Ha Hz t. apply (image_conj_coef im Him small n (eye (2 ^ n)) HE (unitary_eye _) jwl jw_twist half Hhalf); auto. Qed.

    (** ** C48 *)
    Context (order : list N -> list N) (Horder : forall l, Permutation (order l) l).
    Notation bkl := (bk_ladder im half small order (N.of_nat n)).
    Lemma bk_twist f : (fst f < n)%nat -> on_qubits n (bkl f) /\ meq (mmul (M (bkl f)) (bk_encoding n)) (mmul (bk_encoding n) (ladder_matrix n f)).
    Proof. destruct f as [p d]. apply (bk_ladder_matrix im half Him Hhalf small Hs1 Hs2 Hs3 order Horder n p d). Qed.
    Let HB : sq (2 ^ n) (bk_encoding (K := K) n) := conj eq_refl eq_refl.
    (** The encoding of occupation states is a unitary (a permutation of the basis states), and the image of a ladder operator acts on encoded
        states as the ladder operator on occupation states. *)
    Theorem C48_encoding : unitary (bk_encoding (K := K) n).
    Proof. apply bk_encoding_unitary. Qed.
    Theorem C48_ladder f : (fst f < n)%nat -> on_qubits n (bkl f) /\ meq (mmul (M (bkl f)) (bk_encoding n)) (mmul (bk_encoding n) (ladder_matrix n f)).
    Proof. apply bk_twist. Qed.
    Theorem C48_anticommute f g : (fst f < n)%nat -> (fst g < n)%nat ->
      meq (madd (mmul (M (bkl f)) (M (bkl g))) (mmul (M (bkl g)) (M (bkl f)))) (mscale (anticommutator_value f g) (eye (2 ^ n))).
    Proof. apply (ladder_images_car im n (bk_encoding n) HB (bk_encoding_unitary n) bkl bk_twist). Qed.
    (** The transform succeeds when there are enough qubits, is a ValueError otherwise, and by default takes one qubit per mode. *)
    Theorem C48_total (a : fop K) : (on_qubits n a <-> exists q, bravyi_kitaev im half small order a (Some n) = Ok q) /\
      (~ on_qubits n a -> bravyi_kitaev im half small order a (Some n) = Err ValueError).
    Proof.
      pose proof (fermion_count_spec a n) as C. unfold bravyi_kitaev. destruct (Nat.ltb_spec n (fermion_count_qubits a)) as [Lt|Lt].
      - split; [|auto]. split; [intros H; apply C in H; lia|intros [q H]; discriminate].
      - apply C in Lt. split; [|contradiction]. split; [eauto|auto].
    Qed.
    Theorem C48_acts (a : fop K) b : bravyi_kitaev im half small order a (Some n) = Ok b ->
      on_qubits n b /\ exists r : qop K, all_small small r /\ (length r <= image_bound a)%nat /\ meq (mmul (madd (M b) (M r)) (bk_encoding n)) (mmul (bk_encoding n) (F a)).
    Proof.
      unfold bravyi_kitaev. destruct (Nat.ltb_spec n (fermion_count_qubits a)) as [Lt|Lt]; [discriminate|]. apply fermion_count_spec in Lt. intros H. inversion H as [E]. clear H E b.
      split; [exact (image_on im small n bkl (bk_encoding n) bk_twist a Lt)|]. destruct (image_matrix im Him small n bkl (bk_encoding n) HB bk_twist a Lt) as (r & R & Rl & X).
      exists r. split; [exact R|]. split; [|exact X]. etransitivity; [exact Rl|]. apply (image_size_bound im small). intros f. unfold bk_ladder. destruct (snd f); [apply (pair_length kadd)|apply (pair_length ksub)].
    Qed.
    Theorem C48_acts_exact (a : fop K) b : bravyi_kitaev im half small order a (Some n) = Ok b -> only_zero small ->
      meq (mmul (M b) (bk_encoding n)) (mmul (bk_encoding n) (F a)).
    Proof.
      unfold bravyi_kitaev. destruct (Nat.ltb_spec n (fermion_count_qubits a)) as [Lt|Lt]; [discriminate|]. apply fermion_count_spec in Lt. intros H. inversion H as [E]. clear H E b.
      intros Hz. exact (image_exact im Him small n (bk_encoding n) HB bkl bk_twist a Lt Hz).
    Qed.
    Theorem C48_product (a b : fop K) qa qb : bravyi_kitaev im half small order a (Some n) = Ok qa -> bravyi_kitaev im half small order b (Some n) = Ok qb -> only_zero small ->
      exists q, bravyi_kitaev im half small order (fermion_mul a b) (Some n) = Ok q /\ meq (M q) (mmul (M qa) (M qb)) /\
        forall t, coef pauli_eqb q t = coef pauli_eqb (qmul qa qb) t.
    Proof.
      unfold bravyi_kitaev. destruct (Nat.ltb_spec n (fermion_count_qubits a)) as [La|La]; [discriminate|]. destruct (Nat.ltb_spec n (fermion_count_qubits b)) as [Lb|Lb]; [discriminate|].
      apply fermion_count_spec in La, Lb. intros Ha Hb Hz. inversion Ha as [Ea]. inversion Hb as [Eb]. clear Ha Hb Ea Eb qa qb.
      assert (L : on_qubits n (fermion_mul a b)) by (apply fmul_on; auto).
      destruct (Nat.ltb_spec n (fermion_count_qubits (fermion_mul a b))) as [Lc|Lc]; [apply (fermion_count_spec (fermion_mul a b) n) in L; lia|].
      eexists. split; [reflexivity|]. split.
      - exact (image_mul im Him small n (bk_encoding n) HB (bk_encoding_unitary n) bkl bk_twist a b La Lb Hz).
      - intros t. exact (image_mul_coef im Him small n (bk_encoding n) HB (bk_encoding_unitary n) bkl bk_twist half Hhalf a b t La Lb Hz).
    Qed.
    Theorem C48_sum (a b : fop K) qa qb : bravyi_kitaev im half small order a (Some n) = Ok qa -> bravyi_kitaev im half small order b (Some n) = Ok qb -> only_zero small ->
      exists q, bravyi_kitaev im half small order (fermion_add small a b) (Some n) = Ok q /\ meq (M q) (madd (M qa) (M qb)) /\
        forall t, coef pauli_eqb q t = coef pauli_eqb (qadd qa qb) t.
    Proof.
      unfold bravyi_kitaev. destruct (Nat.ltb_spec n (fermion_count_qubits a)) as [La|La]; [discriminate|]. destruct (Nat.ltb_spec n (fermion_count_qubits b)) as [Lb|Lb]; [discriminate|].
      apply fermion_count_spec in La, Lb. intros Ha Hb Hz. inversion Ha as [Ea]. inversion Hb as [Eb]. clear Ha Hb Ea Eb qa qb.
      assert (L : on_qubits n (fermion_add small a b)) by (apply fadd_on; auto).
      destruct (Nat.ltb_spec n (fermion_count_qubits (fermion_add small a b))) as [Lc|Lc]; [apply (fermion_count_spec (fermion_add small a b) n) in L; lia|].
      eexists. split; [reflexivity|]. split.
      - exact (image_add im Him small n (bk_encoding n) HB (bk_encoding_unitary n) bkl bk_twist a b La Lb Hz).
      - intros t. exact (image_add_coef im Him small n (bk_encoding n) HB (bk_encoding_unitary n) bkl bk_twist half Hhalf a b t La Lb Hz).
    Qed.
  End Width.
  Theorem C48_default (order : list N -> list N) (a : fop K) : bravyi_kitaev im half small order a None = bravyi_kitaev im half small order a (Some (fermion_count_qubits a)).
  Proof. reflexivity. Qed.
End Scalars.

(** ** The index sets of the Bravyi-Kitaev encoding.  Qubit x of the encoding of an occupation state c stores the parity of the modes
    bk_low x, ..., x (FermiSpec.v).  The update set of p: the other qubits that store mode p. *)
Theorem C48_update_set p n x : p < n ->
  (In (N.of_nat x) (update_set (N.of_nat p) (N.of_nat n)) <-> x < n /\ x <> p /\ bk_low x <= p <= x).
Proof.
  intros Hp. rewrite update_set_spec. unfold covers. rewrite andb_true_iff, N.ltb_lt, N.leb_le. pose proof (bk_low_clear x) as B. rewrite <- B. lia.
Qed.
(** ... that is, the other qubits that change when the occupation of mode p changes. *)
Theorem C48_update_set_changes p n x c d : p < n -> x < n -> length c = n -> length d = n -> nth p d false = negb (nth p c false) -> (forall q, q <> p -> nth q d false = nth q c false) ->
  (In (N.of_nat x) (update_set (N.of_nat p) (N.of_nat n)) <-> x <> p /\ nth x (bk_code n d) false <> nth x (bk_code n c) false).
Proof.
  intros Hp Hx Hc Hd H1 H2.
  assert (E : d = setb p (negb (nth p c false)) c).
  { apply bits_ext; [rewrite setb_length; congruence|]. intros i Hi. rewrite nth_setb by lia. destruct (Nat.eqb_spec i p) as [->|N]; auto. }
  subst d. rewrite (bk_code_flip n c p _ Hc Hp eq_refl x Hx), update_set_spec.
  assert (X : forall u v, xorb u v <> u <-> v = true) by (intros [] []; cbn; split; congruence). rewrite X. split.
  - intros (A & B & C). split; [lia|auto].
  - intros (A & B). split; [lia|]. split; [lia|auto].
Qed.
(** The parity set of p: the qubits whose parity is the parity of the modes before p.  The occupation set: those whose parity is mode p. *)
Theorem C48_parity_set n c p : length c = n -> p < n ->
  NoDup (parity_set (N.of_nat p)) /\ (forall x, In x (parity_set (N.of_nat p)) -> (x < N.of_nat p)%N) /\
  odd_count (map (fun x => nth (N.to_nat x) (bk_code n c) false) (parity_set (N.of_nat p))) = odd_count (firstn p c).
Proof.
  intros Hc Hp. destruct (parity_set_range (N.of_nat p)) as [R1 R2]. split; [exact R1|]. split; [exact R2|].
  pose proof (code_parity n c Hc (N.of_nat p) ltac:(lia)) as X. unfold bitat, Pf in X. rewrite Nat2N.id in X. exact X.
Qed.
Theorem C48_occupation_set n c p : length c = n -> p < n ->
  NoDup (occupation_set (N.of_nat p)) /\ (forall x, In x (occupation_set (N.of_nat p)) -> (x <= N.of_nat p)%N) /\
  odd_count (map (fun x => nth (N.to_nat x) (bk_code n c) false) (occupation_set (N.of_nat p))) = nth p c false.
Proof.
  intros Hc Hp. destruct (occupation_set_range (N.of_nat p)) as (R1 & R2 & R3). split; [exact R1|]. split; [exact R3|].
  pose proof (code_occupation n c Hc (N.of_nat p) ltac:(lia)) as X. unfold bitat in X. rewrite Nat2N.id in X. exact X.
Qed.

(** Concrete case: a_2^ a_0 *)
Definition hop : fop GQ := [([(2, true); (0, false)], gq 4 0)].
Example C47_case : gq_same pauli_eqb (jordan_wigner qi qhalf gq_zero hop)
  [([(0, Py); (1, Pz); (2, Px)], gq 0 1); ([(0, Px); (1, Pz); (2, Px)], gq 1 0); ([(0, Py); (1, Pz); (2, Py)], gq 1 0); ([(0, Px); (1, Pz); (2, Py)], gq 0 (-1))] = true.
Proof. vm_compute. reflexivity. Qed.
Example C48_case : match bravyi_kitaev qi qhalf gq_zero (fun l => l) hop (Some 4) with
  | Ok q => gq_same pauli_eqb q [([(0, Px); (1, Py); (2, Px)], gq 0 1); ([(0, Py); (1, Py); (2, Px)], gq (-1) 0); ([(0, Px); (1, Py); (2, Py)], gq 1 0); ([(0, Py); (1, Py); (2, Py)], gq 0 1)]
  | Err _ => false end = true /\ bravyi_kitaev qi qhalf gq_zero (fun l => l) hop (Some 2) = Err ValueError.
Proof. split; vm_compute; reflexivity. Qed.
Example C47_instance (a b : fop GQ) n : on_qubits n a -> on_qubits n b ->
  forall t, coef pauli_eqb (jordan_wigner qi qhalf gq_zero (fermion_mul a b)) t = coef pauli_eqb (op_mul pauli_eqb (qubit_simplify qi) (jordan_wigner qi qhalf gq_zero a) (jordan_wigner qi qhalf gq_zero b)) t.
Proof.
  destruct qhalf_not_small as (S1 & S2 & S3). intros Ha Hb. apply (C47_product qi qhalf qi_sq qhalf_two gq_zero S1 S2 S3 n a b Ha Hb gq_zero_spec).
Qed.

Print Assumptions C47_ladder.
Print Assumptions C47_anticommute.
Print Assumptions C47_acts.
Print Assumptions C47_acts_exact.
Print Assumptions C47_product.
Print Assumptions C47_sum.
Print Assumptions C47_conjugate.
Print Assumptions C48_encoding.
Print Assumptions C48_ladder.
Print Assumptions C48_anticommute.
Print Assumptions C48_total.
Print Assumptions C48_acts.
Print Assumptions C48_acts_exact.
Print Assumptions C48_product.
Print Assumptions C48_sum.
Print Assumptions C48_default.
Print Assumptions C48_update_set.
Print Assumptions C48_update_set_changes.
Print Assumptions C48_parity_set.
Print Assumptions C48_occupation_set.
