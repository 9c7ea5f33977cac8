(** Proofs about complex moduli, sums and [isclose]. *)
From Coq Require Import Reals Lra Psatz.
From Verif Require Import Base BaseFacts MatModel MatFacts Cplx CmpModel.
Local Open Scope R_scope.

Lemma cmod_nonneg z : 0 <= cmod z. Proof. apply sqrt_pos. Qed.
Lemma cmod_sq z : cmod z * cmod z = cabs2 z. Proof. apply sqrt_sqrt, cabs2_nonneg. Qed.
Lemma cmod_0 : cmod c0 = 0.
Proof. unfold cmod, cabs2, c0; cbn. replace (0 * 0 + 0 * 0) with 0 by ring. apply sqrt_0. Qed.
Lemma cmod_1 : cmod c1 = 1.
Proof. unfold cmod, cabs2, c1; cbn. replace (1 * 1 + 0 * 0) with 1 by ring. apply sqrt_1. Qed.
Lemma cmod_mul a b : cmod (cmul a b) = cmod a * cmod b.
Proof. unfold cmod. rewrite cabs2_mul. apply sqrt_mult; apply cabs2_nonneg. Qed.
Lemma cabs2_zero z : cabs2 z = 0 -> z = c0.
Proof. unfold cabs2. intros H. destruct z as [x y]; cbn in *. unfold c0. f_equal; nra. Qed.
Lemma sq_le a b : 0 <= b -> a * a <= b * b -> a <= b. Proof. nra. Qed.
Lemma cmod_add a b : cmod (cadd a b) <= cmod a + cmod b.
Proof.
  pose proof (cmod_nonneg a). pose proof (cmod_nonneg b). pose proof (cmod_sq a) as A. pose proof (cmod_sq b) as B.
  apply sq_le; [lra|]. rewrite cmod_sq.
  assert (D : fst a * fst b + snd a * snd b <= cmod a * cmod b).
  { destruct (Rle_dec 0 (fst a * fst b + snd a * snd b)); [|nra].
    apply sq_le; [nra|]. replace (cmod a * cmod b * (cmod a * cmod b)) with (cabs2 a * cabs2 b) by (rewrite <- A, <- B; ring).
    unfold cabs2. pose proof (Rle_0_sqr (fst a * snd b - snd a * fst b)) as S. unfold Rsqr in S. nra. }
  unfold cabs2, cadd in *; cbn. nra.
Qed.
Lemma cmod_bigsum n (f : nat -> C) d : (forall i, (i < n)%nat -> cmod (f i) <= d) -> cmod (bigsum (K := CC) n f) <= INR n * d.
Proof.
  induction n; intros H; cbn [bigsum]; [cbn; change (cmod c0 <= 0 * d); rewrite cmod_0; lra|].
  rewrite S_INR. pose proof (cmod_add (bigsum (K := CC) n f) (f n)) as A. specialize (IHn (fun i Hi => H i (Nat.lt_lt_succ_r _ _ Hi))).
  pose proof (H n (Nat.lt_succ_diag_r n)). change (cmod (cadd (bigsum (K := CC) n f) (f n)) <= (INR n + 1) * d). lra.
Qed.
Lemma cinv_l z : cabs2 z <> 0 -> cmul (cinv z) z = c1.
Proof. intros H. unfold cinv, cabs2 in *. apply c_eq; cbn; field; exact H. Qed.
Lemma cinv_r z : cabs2 z <> 0 -> cmul z (cinv z) = c1.
Proof. intros H. unfold cinv, cabs2 in *. apply c_eq; cbn; field; exact H. Qed.
Lemma is_zero_spec z : is_zero z = true <-> z = c0.
Proof.
  unfold is_zero. destruct (Req_EM_T _ _) as [E|E]; split; intros H; auto; try discriminate.
  - apply cabs2_zero; auto.
  - subst. exfalso. apply E. unfold cabs2; cbn; ring.
Qed.
Lemma isclose_spec tol a b : isclose tol a b = true <-> cmod (csub a b) <= tol + 1 / 100000 * cmod b.
Proof. unfold isclose. destruct (Rle_dec _ _); split; auto; discriminate. Qed.
Lemma allclose_spec tol A B : allclose tol A B = true <->
  forall i j, (i < nr A)%nat -> (j < nc A)%nat -> cmod (csub (ent A i j) (ent B i j)) <= tol + 1 / 100000 * cmod (ent B i j).
Proof.
  unfold allclose. rewrite forallb_forall. split.
  - intros H i j Hi Hj. assert (Ii : In i (seq 0 (nr A))) by (apply in_seq; lia). pose proof (H i Ii) as Q. cbv beta in Q. rewrite forallb_forall in Q.
    apply isclose_spec, Q, in_seq. lia.
  - intros H i Hi. apply forallb_forall. intros j Hj. apply in_seq in Hi. apply in_seq in Hj. apply isclose_spec, H; lia.
Qed.
Lemma csub_diag z : csub z z = c0. Proof. c_ring. Qed.
