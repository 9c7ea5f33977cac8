(** C83: rotating the basis of the modes; stated over RotModel.v and RotSpec.v. *)
From Coq Require Import ZArith Ring Setoid Morphisms Ncring Ncring_tac.
From Verif Require Import Base BaseFacts MatModel MatFacts LiftSpec LiftProofs OpModel OpSpec PauliProofs FermiModel FermiSpec FermiProofs2 TensorModel TensorSpec DiagSpec ConvModel RotModel RotSpec RdmSpec
  MatRing UCCProofs RotProofs RotProofs2 RotProofs3 RotProofs4 RotProofs5.
Open Scope list_scope.
Local Open Scope nat_scope.

Section C83.
  Context {K : cring}.
  Add Ring Kring_c83 : (kth K).
  Open Scope K_scope.
  Lemma k_dr (a b c : K) : (a + b) * c = a * c + b * c. Proof. ring. Qed.
  Lemma k_dl (a b c : K) : c * (a + b) = c * a + c * b. Proof. ring. Qed.
  Lemma k_m1 (a b c : K) : a * b * c = a * (b * c). Proof. ring. Qed.
  Lemma k_m2 (a b c : K) : c * (a * b) = a * (c * b). Proof. ring. Qed.
  Lemma k_z1 (c : K) : 0 * c = 0. Proof. ring. Qed.
  Lemma k_z2 (c : K) : c * 0 = 0. Proof. ring. Qed.
  Lemma enlarged_spin n (R : mat K) : n = (2 * nr R)%nat -> nr (enlarged n R) = n /\ nc (enlarged n R) = (2 * nc R)%nat /\ forall i j, ent (enlarged n R) i j = ent (both_spins R) i j.
  Proof.
    intros ->. unfold enlarged. rewrite Nat.eqb_refl. cbn [kron eye nr nc ent both_spins]. split; [lia|]. split; [lia|]. intros i j. unfold MatModel.delta. destruct (Nat.eqb (i mod 2) (j mod 2)); ring.
  Qed.
  Lemma enlarged_ok n (R : mat K) : rotates n R -> nr (enlarged n R) = n /\ nc (enlarged n R) = n /\ forall i j, (i < n)%nat -> (j < n)%nat -> ent (enlarged n R) i j = ent (mode_rotation n R) i j.
  Proof.
    intros [Hc H]. unfold mode_rotation. destruct (Nat.eqb_spec n (2 * nr R)) as [E|E].
    - destruct (enlarged_spin n R E) as (A & B & C). split; [exact A|]. split; [rewrite B, Hc; auto|]. intros i j Hi Hj. destruct (Nat.eqb_spec n (nr R)); [lia|]. apply C.
    - destruct H as [H|H]; [|congruence]. unfold enlarged. destruct (Nat.eqb_spec n (2 * nr R)); [contradiction|]. destruct (Nat.eqb_spec n (nr R)); [|congruence]. repeat split; congruence.
  Qed.
  Lemma enlarged_unitary n (R : mat K) : unitary R -> unitary (enlarged n R).
  Proof. intros H. unfold enlarged. destruct (Nat.eqb n (2 * nr R)); [apply unitary_kron; [exact H|apply unitary_eye]|exact H]. Qed.
  Lemma replaced_term_ext n (Q R : mat K) : (forall i j, (i < n)%nat -> (j < n)%nat -> ent Q i j = ent R i j) -> forall t, on_modes n t -> forall i j, ent (replaced_term n (rotated_ladder n Q) t) i j = ent (replaced_term n (rotated_ladder n R) t) i j.
  Proof.
    intros E t. induction t as [|f t IH]; intros O i j; [reflexivity|]. cbn [replaced_term fold_right mmul ent rotated_ladder nc]. apply bigsum_ext. intros k _. f_equal; [|apply IH; intros g Hg; apply O; right; exact Hg].
    apply bigsum_ext. intros A HA. rewrite E; [reflexivity| |exact HA]. apply O. left; reflexivity.
  Qed.
  Lemma combine_on n l (k : key) : Forall (fun p => (p < n)%nat) l -> on_modes n (combine l k).
  Proof. intros F [p d] Hin. apply in_combine_l in Hin. rewrite Forall_forall in F. apply F, Hin. Qed.

  (** The operator of the rotated tensor is the operator in which each ladder operator is replaced by a combination of ladder operators; the arrays are new, and nothing else changes. *)
  Theorem C83_substitution h (a : ptensor K) R : tensor_ok h a -> rotates (n_qubits a) R -> (forall k, In k (dkeys (n_body_tensors a)) -> (length k <= 26)%nat) ->
    exists h' a', rotate_basis h a R = (h', a', Ok tt) /\ tensor_ok h' a' /\ n_qubits a' = n_qubits a /\ dkeys (n_body_tensors a') = dkeys (n_body_tensors a) /\ preserved h h' /\
      meq (tensor_matrix h' a') (replaced (n_qubits a) (rotated_ladder (n_qubits a) (mode_rotation (n_qubits a) R)) h a).
  Proof.
    intros (N & U & (k0 & r0 & V) & T) HR Hk. set (n := n_qubits a) in *. destruct (enlarged_ok n R HR) as (Er & Ec & Ee).
    destruct (rotate_loop n R Er Ec (n_body_tensors a) h) as (h' & d & E & [g G] & D & O & Un & Q).
    { intros k e Hin. specialize (T k e Hin). destruct e as [|r]; [exact T|]. destruct T as (X & Y & Z). repeat split; auto; lia. }
    { intros k e Hin. apply Hk. apply in_map_iff. exists (k, e). auto. }
    exists h', (with_tensors a d). unfold rotate_basis. rewrite E. split; [reflexivity|]. split.
    { split; [cbn [with_tensors n_body_tensors]; rewrite D; exact N|]. split; [exact Un|]. split.
      - assert (Hk0 : In k0 (dkeys d)) by (rewrite D; apply in_map_iff; exists (k0, Arr r0); auto). apply in_map_iff in Hk0 as ([k e] & Ek & Hin). cbn in Ek. subst k. pose proof (O k0 e Hin) as X. destruct e as [c|r]; [|exists k0, r; exact Hin].
        cbn in X. subst k0. destruct (T [] (Arr r0) V) as (X & _). congruence.
      - intros k e Hin. specialize (O k e Hin). destruct e as [|r]; [exact O|]. destruct O as (X1 & _ & X3 & X4). auto. }
    split; [reflexivity|]. split; [exact D|]. split; [intros r Hr; rewrite G; apply rd_app, Hr|].
    split; [reflexivity|]. split; [reflexivity|]. intros i j Hi Hj. cbn [nr nc tensor_matrix with_tensors n_qubits] in Hi, Hj. fold n in Hi, Hj. cbn [tensor_matrix replaced ent with_tensors n_qubits]. fold n. unfold tensor_entry. cbn [with_tensors n_qubits n_body_tensors].
    fold n. rewrite !bval_bits_small by auto. etransitivity; [exact (Q i j Hi Hj)|]. clear - Ee. induction (n_body_tensors a) as [|kv l IH]; [reflexivity|]. cbn [fold_right]. rewrite IH. f_equal.
    apply so_ext. intros q _ Fq. f_equal. apply replaced_term_ext; [exact Ee|]. apply combine_on, Fq.
  Qed.

  Section Unitary.
    Context (n : nat).
    Local Notation "A '==' B" := (sq_eq (K := K) (Nat.pow 2 n) A B) (at level 70, no associativity) : sq_scope.
    Local Notation "A '*' B" := (sq_mul (K := K) (Nat.pow 2 n) A B) : sq_scope.
    Lemma intertwine (R : mat K) t : nr R = n -> nc R = n -> unitary R -> on_modes n t ->
      (ent (replaced_term n (rotated_ladder n R) t) * built n (rl n R) == built n (rl n R) * ent (fterm_matrix n t))%sq.
    Proof.
      intros Hr Hc HU. induction t as [|f t IH]; intros O.
      - change (ent (replaced_term n (rotated_ladder n R) [])) with (sq1 (K := K) (2 ^ n)). change (ent (fterm_matrix (K := K) n [])) with (sq1 (K := K) (2 ^ n)). generalize (built n (rl n R)). intros X. transitivity X; [intros i j Hi Hj; apply (ring_mul_1_l (Ring := sq_ring (K := K) (2 ^ n)) X i j Hi Hj)|]. symmetry. intros i j Hi Hj. apply (ring_mul_1_r (Ring := sq_ring (K := K) (2 ^ n)) X i j Hi Hj).
      - specialize (IH (fun g Hg => O g (or_intror Hg))). destruct f as [p d]. pose proof (built_step n (rl n R) p d (rl_fock n R Hr Hc HU) (O (p, d) (or_introl eq_refl))) as E.
        change (ent (replaced_term n (rotated_ladder n R) ((p, d) :: t))) with (rl n R p d * ent (replaced_term n (rotated_ladder n R) t))%sq. 
        change (ent (fterm_matrix (K := K) n ((p, d) :: t))) with (lad n p d * ent (fterm_matrix n t))%sq.
        revert IH E. generalize (built n (rl n R)), (ent (replaced_term n (rotated_ladder n R) t)), (ent (fterm_matrix (K := K) n t)), (rl n R p d), (lad (K := K) n p d). intros X Y Z L L' IH E.
        transitivity (L * (Y * X))%sq; [non_commutative_ring|]. rewrite IH. transitivity ((L * X) * Z)%sq; [non_commutative_ring|]. rewrite <- E. non_commutative_ring.
    Qed.
  End Unitary.

  Lemma replaced_unitary h (a : ptensor K) R : nr R = n_qubits a -> nc R = n_qubits a -> unitary R -> unitarily_equivalent (tensor_matrix h a) (replaced (n_qubits a) (rotated_ladder (n_qubits a) R) h a).
  Proof.
    intros Er Ec EU. set (n := n_qubits a) in *.
    destruct (both n R Er Ec EU) as [B1 B2]. set (U := built n (rl n R)) in *. exists (Build_mat (2 ^ n) (2 ^ n) U). split; [reflexivity|]. split.
    { split; [reflexivity|]. split; (split; [reflexivity|]; split; [reflexivity|]); intros i j Hi Hj; [apply (B1 i j Hi Hj)|apply (B2 i j Hi Hj)]. }
    split; [reflexivity|]. split; [reflexivity|]. intros i j Hi Hj. cbn [nr nc replaced] in Hi, Hj.
    set (X := ent (replaced n (rotated_ladder n R) h a)). set (Y := ent (tensor_matrix h a)).
    assert (I : sq_eq (K := K) (2 ^ n) (sq_mul (2 ^ n) X U) (sq_mul (2 ^ n) U Y)).
    { intros x y Hx Hy. unfold X, Y, sq_mul. cbn [replaced tensor_matrix ent]. unfold tensor_entry. fold n. induction (n_body_tensors a) as [|kv l IH].
      - cbn [fold_right]. transitivity (0 : K); [apply bigsum_0; intros; apply k_z1|symmetry; apply bigsum_0; intros; apply k_z2].
      - cbn [fold_right]. transitivity (bigsum (2 ^ n) (fun k => sum_over n (length (fst kv)) (fun q => element h (snd kv) q * ent (replaced_term n (rotated_ladder n R) (combine q (fst kv))) x k) * U k y) +
          bigsum (2 ^ n) (fun k => fold_right (fun kv s => sum_over n (length (fst kv)) (fun q => element h (snd kv) q * ent (replaced_term n (rotated_ladder n R) (combine q (fst kv))) x k) + s) 0 l * U k y)).
        { rewrite <- bigsum_add. apply bigsum_ext. intros k _. apply k_dr. }
        rewrite IH. clear IH. transitivity (bigsum (2 ^ n) (fun k => U x k * sum_over n (length (fst kv)) (fun q => element h (snd kv) q * ent (fterm_matrix n (combine q (fst kv))) k y)) +
          bigsum (2 ^ n) (fun k => U x k * fold_right (fun kv s => sum_over n (length (fst kv)) (fun q => element h (snd kv) q * ent (fterm_matrix n (combine q (fst kv))) (bval (bits n k)) (bval (bits n y))) + s) 0 l)).
        2: { rewrite <- bigsum_add. apply bigsum_ext. intros k Hk. rewrite !bval_bits_small by auto. symmetry. apply k_dl. }
        f_equal. transitivity (sum_over n (length (fst kv)) (fun q => element h (snd kv) q * bigsum (2 ^ n) (fun k => ent (replaced_term n (rotated_ladder n R) (combine q (fst kv))) x k * U k y))).
        { transitivity (bigsum (2 ^ n) (fun k => sum_over n (length (fst kv)) (fun q => element h (snd kv) q * (ent (replaced_term n (rotated_ladder n R) (combine q (fst kv))) x k * U k y)))).
          - apply bigsum_ext. intros k _. rewrite so_mul_r. apply so_ext. intros q _ _. apply k_m1.
          - rewrite so_bigsum. apply so_ext. intros q _ _. symmetry. apply bigsum_mul_l. }
        transitivity (sum_over n (length (fst kv)) (fun q => element h (snd kv) q * bigsum (2 ^ n) (fun k => U x k * ent (fterm_matrix n (combine q (fst kv))) k y))).
        2: { symmetry. transitivity (bigsum (2 ^ n) (fun k => sum_over n (length (fst kv)) (fun q => element h (snd kv) q * (U x k * ent (fterm_matrix n (combine q (fst kv))) k y)))).
          - apply bigsum_ext. intros k _. rewrite so_mul_l. apply so_ext. intros q _ _. apply k_m2.
          - rewrite so_bigsum. apply so_ext. intros q _ _. symmetry. apply bigsum_mul_l. }
        apply so_ext. intros q _ Fq. f_equal. pose proof (intertwine n R (combine q (fst kv)) Er Ec EU (combine_on n q (fst kv) Fq) x y Hx Hy) as Z. unfold sq_mul in Z. fold U in Z. rewrite <- Z. reflexivity. }
    change (X i j = sq_mul (K := K) (2 ^ n) (sq_mul (2 ^ n) U Y) (sadj n U) i j). assert (W : sq_eq (K := K) (2 ^ n) X (sq_mul (2 ^ n) (sq_mul (2 ^ n) U Y) (sadj n U))); [|apply W; auto].
    rewrite <- I. clearbody X U. clear - B2. generalize dependent (sadj n U). intros V B2. symmetry. transitivity (sq_mul (K := K) (2 ^ n) X (sq_mul (2 ^ n) U V)); [non_commutative_ring|]. rewrite B2. non_commutative_ring.
  Qed.
  (** If the matrix is unitary, so is the change of the operator: it has the same spectrum, is Hermitian if the operator is, and so on. *)
  Theorem C83_unitary h (a : ptensor K) R : tensor_ok h a -> rotates (n_qubits a) R -> (forall k, In k (dkeys (n_body_tensors a)) -> (length k <= 26)%nat) -> unitary R ->
    exists h' a', rotate_basis h a R = (h', a', Ok tt) /\ tensor_ok h' a' /\ n_qubits a' = n_qubits a /\ unitarily_equivalent (tensor_matrix h a) (tensor_matrix h' a').
  Proof.
    intros Ha HR Hk HU. destruct (C83_substitution h a R Ha HR Hk) as (h' & a' & E & T & N & _ & _ & M). exists h', a'. split; [exact E|]. split; [exact T|]. split; [exact N|]. clear E T Ha Hk.
    set (n := n_qubits a) in *. destruct (enlarged_ok n R HR) as (Er & Ec & Ee). pose proof (enlarged_unitary n R HU) as EU.
    destruct (replaced_unitary h a (enlarged n R) Er Ec EU) as (U & Nu & HUu & Mu). exists U. split; [exact Nu|]. split; [exact HUu|].
    etransitivity; [exact M|]. etransitivity; [|exact Mu]. split; [reflexivity|]. split; [reflexivity|]. intros i j Hi Hj. cbn [replaced ent]. fold n. clear - Ee.
    induction (n_body_tensors a) as [|kv l IH]; [reflexivity|]. cbn [fold_right]. rewrite IH. f_equal. apply so_ext. intros q _ Fq. f_equal. symmetry. apply replaced_term_ext; [exact Ee|]. apply combine_on, Fq.
  Qed.
  (** Products of more than 26 operators, and matrices that have neither the size of the modes nor that of the orbitals, raise ValueError; the arrays that come first are rotated already. *)
  Theorem C83_errors h (a : ptensor K) R k r l : n_body_tensors a = (k, Arr r) :: l -> k <> [] ->
    (26 < length k \/ shape0 (read h r) <> nr R /\ shape0 (read h r) <> 2 * nr R)%nat -> rotate_basis h a R = (h, a, Err ValueError).
  Proof.
    intros E Hk H. assert (G : general_basis_change (read h r) R k = Err ValueError).
    { unfold general_basis_change, enlarged. destruct (Nat.ltb_spec 26 (length k)) as [L|L]; [reflexivity|]. destruct H as [H|[H1 H2]]; [lia|].
      destruct (Nat.eqb_spec (shape0 (read h r)) (2 * nr R)); [contradiction|]. destruct (Nat.eqb_spec (shape0 (read h r)) (nr R)); [contradiction|]. reflexivity. }
    unfold rotate_basis. rewrite E. cbn [rotate_entries]. destruct k as [|d k]; [contradiction|]. rewrite G. destruct a as [n t]. cbn in *. subst t. reflexivity.
  Qed.
End C83.

(** Two modes, energies 1 and 2: H = 1 + n_0 + 2 n_1, rotated with a complex matrix; then the same with one orbital. *)
From Verif Require Import GaussQ MolProps MolProps2 RdmProps3 JWInterProps.
Definition c83_R : mat GQ := Build_mat (K := GQ) 2 2 (fun i j => if Nat.eqb i j then (Qcanon.Q2Qc (QArith_base.Qmake 3 5), Qcanon.Q2Qc (QArith_base.Qmake 0 1)) else (Qcanon.Q2Qc (QArith_base.Qmake 0 1), Qcanon.Q2Qc (QArith_base.Qmake 4 5))).
Definition c83_S : mat GQ := Build_mat (K := GQ) 1 1 (fun _ _ => qi).
Lemma gq_meq (A B : mat GQ) : nr A = nr B -> nc A = nc B -> forallb (fun i => forallb (fun j => gq_eqb (ent A i j) (ent B i j)) (seq 0 (nc A))) (seq 0 (nr A)) = true -> meq A B.
Proof.
  intros H1 H2 H. split; [exact H1|]. split; [exact H2|]. intros i j Hi Hj. rewrite forallb_forall in H. specialize (H i). rewrite forallb_forall in H. apply gq_eqb_eq, H; apply in_seq; lia.
Qed.
Lemma c83_unitary : unitary c83_R /\ unitary c83_S.
Proof. split; (split; [reflexivity|]); (split; apply gq_meq; vm_compute; reflexivity). Qed.
Example C83_hypotheses : tensor_ok c79_heap c79_op /\ rotates (n_qubits c79_op) c83_R /\ rotates (n_qubits c79_op) c83_S /\ unitary c83_R /\ unitary c83_S /\
  (forall k, In k (dkeys (n_body_tensors c79_op)) -> (length k <= 26)%nat).
Proof.
  split; [apply (proj2 C79_hypotheses)|]. split; [split; [reflexivity|left; reflexivity]|]. split; [split; [reflexivity|right; reflexivity]|]. split; [apply c83_unitary|]. split; [apply c83_unitary|].
  intros k [<-|[<-|[<-|[]]]]; cbn; lia.
Qed.
Example C83_case : exists h a U, rotate_basis c79_heap c79_op c83_R = (h, a, Ok tt) /\ unitary U /\ meq (tensor_matrix h a) (mmul (mmul U (tensor_matrix c79_heap c79_op)) (adjoint U)) /\
  value h a [true; false] [0; 0]%nat = ((Qcanon.Q2Qc (QArith_base.Qmake 41 25), Qcanon.Q2Qc (QArith_base.Qmake 0 1)) : GQ) /\ value h a [true; false] [0; 1]%nat <> (k0 : GQ).
Proof.
  destruct C83_hypotheses as (A & B & _ & D & _ & F). destruct (C83_unitary c79_heap c79_op c83_R A B F D) as (h & a & E & _ & _ & U & _ & HU & M). exists h, a, U. split; [exact E|]. split; [exact HU|]. split; [exact M|].
  assert (Q : (let '(h, a, r) := rotate_basis c79_heap c79_op c83_R in gq_eqb (value h a [true; false] [0; 0]%nat) ((Qcanon.Q2Qc (QArith_base.Qmake 41 25), Qcanon.Q2Qc (QArith_base.Qmake 0 1)) : GQ) && negb (gq_zero (value h a [true; false] [0; 1]%nat))) = true) by (vm_compute; reflexivity).
  rewrite E in Q. apply andb_prop in Q. destruct Q as [Q1 Q2]. split; [apply gq_eqb_eq, Q1|]. intros Z. rewrite Z in Q2. discriminate Q2.
Qed.
Example C83_orbitals_case : exists h a, rotate_basis c79_heap c79_op c83_S = (h, a, Ok tt) /\ unitarily_equivalent (tensor_matrix c79_heap c79_op) (tensor_matrix h a).
Proof. destruct C83_hypotheses as (A & _ & B & _ & D & F). destruct (C83_unitary c79_heap c79_op c83_S A B F D) as (h & a & E & _ & _ & M). exists h, a. auto. Qed.

Print Assumptions C83_substitution.
Print Assumptions C83_unitary.
Print Assumptions C83_errors.
