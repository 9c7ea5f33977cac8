(** Evolution circuits: series, rotations and the CNOT ladder. *)
From Coq Require Import Reals Lra Lia Ring Arith String.
From Verif Require Import Base BaseFacts MatModel MatFacts LiftModel LiftSpec LiftProofs Cplx CircuitModel CircuitSpec GateMatModel GateMatProofs
  DecompModel OpModel OpSpec OpProofs PauliProofs EstModel ConjProofs EstProofs EstProofs3 EstProofs4 EvolModel EvolSpec.
Open Scope list_scope.
Local Open Scope nat_scope.

(** ** Series *)
Section Series.
  Local Open Scope R_scope.
  Lemma half_cases n : (exists m, n = 2 * m)%nat \/ (exists m, n = 2 * m + 1)%nat.
  Proof. destruct (Nat.Even_or_Odd n) as [H|H]; [left|right]; exact H. Qed.
  Definition spread (e : bool) (a : nat -> R) (k : nat) : R := if Bool.eqb (Nat.even k) e then a (Nat.div2 k) else 0.
  Lemma even_double m : Nat.even (2 * m) = true. Proof. apply Nat.even_spec. exists m; auto. Qed.
  Lemma even_double1 m : Nat.even (2 * m + 1) = false.
  Proof. rewrite Nat.add_1_r, Nat.even_succ, <- Nat.negb_even, even_double. reflexivity. Qed.
  Lemma div2_double1 m : Nat.div2 (2 * m + 1) = m. Proof. rewrite Nat.add_1_r. apply Nat.div2_succ_double. Qed.
  Lemma sum_even a m : sum_f_R0 (spread true a) (2 * m) = sum_f_R0 a m /\ sum_f_R0 (spread true a) (2 * m + 1) = sum_f_R0 a m.
  Proof.
    induction m as [|m [IH1 IH2]].
    - cbn. unfold spread; cbn. split; lra.
    - replace (2 * S m)%nat with (S (2 * m + 1)) by lia. replace (S (2 * m + 1) + 1)%nat with (S (S (2 * m + 1))) by lia.
      rewrite tech5 with (N := S (2 * m + 1)). rewrite (tech5 (spread true a) (2 * m + 1)), IH2.
      assert (E1 : spread true a (S (2 * m + 1)) = a (S m)).
      { unfold spread. replace (S (2 * m + 1)) with (2 * S m)%nat by lia. rewrite even_double, Nat.div2_double. reflexivity. }
      assert (E2 : spread true a (S (S (2 * m + 1))) = 0).
      { unfold spread. replace (S (S (2 * m + 1))) with (2 * S m + 1)%nat by lia. rewrite even_double1. reflexivity. }
      rewrite E1, E2. rewrite tech5. split; lra.
  Qed.
  Lemma sum_odd a m : sum_f_R0 (spread false a) (2 * m + 1) = sum_f_R0 a m /\ sum_f_R0 (spread false a) (2 * m + 2) = sum_f_R0 a m.
  Proof.
    induction m as [|m [IH1 IH2]].
    - cbn. unfold spread; cbn. split; lra.
    - replace (2 * S m + 1)%nat with (S (2 * m + 2)) by lia. replace (2 * S m + 2)%nat with (S (S (2 * m + 2))) by lia.
      rewrite tech5 with (N := S (2 * m + 2)). rewrite (tech5 (spread false a) (2 * m + 2)), IH2.
      assert (E1 : spread false a (S (2 * m + 2)) = a (S m)).
      { unfold spread. replace (S (2 * m + 2)) with (2 * S m + 1)%nat by lia. rewrite even_double1, div2_double1. reflexivity. }
      assert (E2 : spread false a (S (S (2 * m + 2))) = 0).
      { unfold spread. replace (S (S (2 * m + 2))) with (2 * S (S m))%nat by lia. rewrite even_double. reflexivity. }
      rewrite E1, E2. rewrite tech5. split; lra.
  Qed.
  Lemma infinite_even a x : infinite_sum a x -> infinite_sum (spread true a) x.
  Proof.
    intros H eps He. destruct (H eps He) as [N HN]. exists (2 * N)%nat. intros n Hn. destruct (half_cases n) as [[m ->]|[m ->]].
    - rewrite (proj1 (sum_even a m)). apply HN. lia.
    - rewrite (proj2 (sum_even a m)). apply HN. lia.
  Qed.
  Lemma infinite_odd a x : infinite_sum a x -> infinite_sum (spread false a) x.
  Proof.
    intros H eps He. destruct (H eps He) as [N HN]. exists (2 * N + 2)%nat. intros n Hn. destruct (half_cases n) as [[m ->]|[m ->]].
    - replace (2 * m)%nat with (2 * (m - 1) + 2)%nat by lia. rewrite (proj2 (sum_odd a (m - 1))). apply HN. lia.
    - rewrite (proj1 (sum_odd a m)). apply HN. lia.
  Qed.
  Lemma infinite_plus a b x y : infinite_sum a x -> infinite_sum b y -> infinite_sum (fun k => a k + b k) (x + y).
  Proof.
    intros Ha Hb eps He. destruct (Ha (eps / 2)) as [N1 H1]; [lra|]. destruct (Hb (eps / 2)) as [N2 H2]; [lra|].
    exists (max N1 N2). intros n Hn. rewrite sum_plus. specialize (H1 n ltac:(lia)). specialize (H2 n ltac:(lia)). unfold R_dist in *.
    replace (sum_f_R0 a n + sum_f_R0 b n - (x + y)) with ((sum_f_R0 a n - x) + (sum_f_R0 b n - y)) by ring.
    eapply Rle_lt_trans; [apply Rabs_triang|]. lra.
  Qed.
  Lemma infinite_scale a x c : infinite_sum a x -> infinite_sum (fun k => a k * c) (x * c).
  Proof.
    intros Ha eps He. assert (Hc : 0 < Rabs c + 1) by (pose proof (Rabs_pos c); lra).
    destruct (Ha (eps / (Rabs c + 1))) as [N HN]. { apply Rdiv_lt_0_compat; lra. }
    exists N. intros n Hn. specialize (HN n Hn). unfold R_dist in *. rewrite <- scal_sum. replace (c * sum_f_R0 a n - x * c) with ((sum_f_R0 a n - x) * c) by ring. rewrite Rabs_mult.
    apply Rle_lt_trans with (Rabs (sum_f_R0 a n - x) * (Rabs c + 1)). { apply Rmult_le_compat_l; [apply Rabs_pos|lra]. }
    apply Rmult_lt_reg_r with (/ (Rabs c + 1)); [apply Rinv_0_lt_compat; lra|]. rewrite Rmult_assoc, Rinv_r, Rmult_1_r by lra. exact HN.
  Qed.
  Lemma infinite_ext a b x : (forall k, a k = b k) -> infinite_sum a x -> infinite_sum b x.
  Proof.
    intros E H eps He. destruct (H eps He) as [N HN]. exists N. intros n Hn. rewrite <- (sum_eq a b n) by (intros; apply E). auto.
  Qed.
  Lemma c_infinite_scale a x z : infinite_sum a x -> c_infinite_sum (fun k => cmul (rc (a k)) z) (cmul (rc x) z).
  Proof.
    intros H. split; unfold cmul, rc; cbn [fst snd].
    - eapply infinite_ext; [|replace (x * fst z - 0 * snd z) with (x * fst z) by ring; apply (infinite_scale a x (fst z) H)]. intros k; cbn. ring.
    - eapply infinite_ext; [|replace (x * snd z + 0 * fst z) with (x * snd z) by ring; apply (infinite_scale a x (snd z) H)]. intros k; cbn. ring.
  Qed.
  Lemma c_infinite_plus f g x y : c_infinite_sum f x -> c_infinite_sum g y -> c_infinite_sum (fun k => cadd (f k) (g k)) (cadd x y).
  Proof. intros [A1 A2] [B1 B2]. split; cbn [fst snd cadd]; apply infinite_plus; auto. Qed.
  Lemma c_infinite_ext f g x : (forall k, f k = g k) -> c_infinite_sum f x -> c_infinite_sum g x.
  Proof. intros E [A1 A2]. split; eapply infinite_ext; eauto; intros; cbn; rewrite E; reflexivity. Qed.

  Lemma cos_series t : infinite_sum (fun m => (-1) ^ m * t ^ (2 * m) / INR (fact (2 * m))) (cos t).
  Proof.
    unfold cos. destruct (exist_cos (Rsqr t)) as [l H]. unfold cos_in in H. eapply infinite_ext; [|exact H]. intros m. cbn beta.
    unfold cos_n. rewrite pow_Rsqr. unfold Rdiv. ring.
  Qed.
  Lemma sin_series t : infinite_sum (fun m => (-1) ^ m * t ^ (2 * m + 1) / INR (fact (2 * m + 1))) (sin t).
  Proof.
    unfold sin. destruct (exist_sin (Rsqr t)) as [l H]. unfold sin_in in H. rewrite Rmult_comm. eapply infinite_ext; [|exact (infinite_scale _ _ t H)].
    intros m. cbn beta. unfold sin_n. rewrite pow_add, pow_Rsqr, pow_1. unfold Rdiv. ring.
  Qed.
End Series.

(** ** Exponential of a multiple of an involution *)
(** cos x I - i sin x P *)
Definition rotation (N : nat) (P : mat CC) (x : R) : mat CC := madd (mscale (K := CC) (rc (cos x)) (eye (K := CC) N)) (mscale (K := CC) (0, - sin x)%R P).
Lemma rotation_ent N P x i j : ent (rotation N P x) i j = cadd (cmul (rc (cos x)) (delta (K := CC) (Nat.eqb i j))) (cmul (0, - sin x)%R (ent P i j)).
Proof. reflexivity. Qed.
Lemma rotation_sq N P x : sq N P -> sq N (rotation N P x).
Proof. intros _. split; reflexivity. Qed.
Lemma rotation_ext N P Q x : sq N P -> meq P Q -> meq (rotation N P x) (rotation N Q x).
Proof.
  intros S E. unfold rotation. apply madd_ext; [cbn; destruct S; auto..|reflexivity|]. apply mscale_ext. exact E.
Qed.
Section Exp.
  Context (N : nat) (P : mat CC) (SP : sq N P) (PP : meq (mmul P P) (eye N)).
  Notation A x := (mscale (K := CC) (0, - x)%R P).
  Lemma sqA x : sq N (A x). Proof. exact SP. Qed.
  Lemma mpow_sq (B : mat CC) k : sq N B -> sq N (mpow B k).
  Proof. intros S. induction k as [|k IH]; cbn [mpow]; [destruct S as [-> _]; apply sq_eye|apply sq_mmul; auto]. Qed.
  Lemma mmul_scale_eye (z : C) (B : mat CC) : sq N B -> meq (mmul (mscale (K := CC) z (eye N)) B) (mscale (K := CC) z B).
  Proof.
    intros S. split; [cbn; destruct S; auto|]. split; [reflexivity|]. intros i j Hi Hj. cbn [ent mmul mscale nc eye nr] in *.
    rewrite (bigsum_single _ i); [|auto|].
    - cbn [ent mscale eye]. rewrite Nat.eqb_refl. cbn. c_ring.
    - intros l Hl N'. cbn [ent mscale eye]. destruct (Nat.eqb_spec i l); [congruence|]. cbn. c_ring.
  Qed.
  Lemma mmul_scales (z w : C) (B D : mat CC) : meq (mmul (mscale (K := CC) z B) (mscale (K := CC) w D)) (mscale (K := CC) (cmul z w) (mmul B D)).
  Proof.
    split; [reflexivity|]. split; [reflexivity|]. intros i j Hi Hj. cbn [ent mmul mscale nc]. rewrite bigsum_mul_l. apply bigsum_ext.
    intros k Hk. cbn. c_ring.
  Qed.
  Lemma mpow_even x m : meq (mpow (A x) (2 * m)) (mscale (K := CC) (rc ((-1) ^ m * x ^ (2 * m))%R) (eye N)) /\
    meq (mpow (A x) (2 * m + 1)) (mscale (K := CC) (0, - ((-1) ^ m * x ^ (2 * m + 1)))%R P).
  Proof.
    assert (Odd : forall m, meq (mpow (A x) (2 * m)) (mscale (K := CC) (rc ((-1) ^ m * x ^ (2 * m))%R) (eye N)) ->
      meq (mpow (A x) (2 * m + 1)) (mscale (K := CC) (0, - ((-1) ^ m * x ^ (2 * m + 1)))%R P)).
    { intros k H. replace (2 * k + 1) with (S (2 * k)) by lia. cbn [mpow].
      transitivity (mmul (mscale (K := CC) (rc ((-1) ^ k * x ^ (2 * k))%R) (eye N)) (A x)).
      { apply (mmul_sq N); auto using mpow_sq, sqA. reflexivity. }
      rewrite mmul_scale_eye by apply sqA. split; [reflexivity|]. split; [reflexivity|]. intros i j Hi Hj. cbn [ent mscale].
      apply c_eq; cbn [fst snd kmul CC cmul rc]; cbn [pow]; ring. }
    split; [|apply Odd]; induction m as [|m IH].
    1, 3: (replace (2 * 0) with 0 by lia; cbn [mpow]; destruct SP as [E1 E2]; cbn [nr mscale]; rewrite E1;
       split; [reflexivity|]; split; [reflexivity|]; intros i j Hi Hj; cbn [ent mscale eye pow]; apply c_eq; cbn [fst snd kmul CC cmul rc]; ring).
    all: assert (H := Odd m IH); replace (2 * S m) with (S (2 * m + 1)) by lia; cbn [mpow];
       (transitivity (mmul (mscale (K := CC) (0, - ((-1) ^ m * x ^ (2 * m + 1)))%R P) (A x)); [apply (mmul_sq N); auto using mpow_sq, sqA; reflexivity|]);
       rewrite mmul_scales;
       (transitivity (mscale (K := CC) (cmul (0, - ((-1) ^ m * x ^ (2 * m + 1)))%R (0, - x)%R) (eye N)); [apply mscale_ext; exact PP|]);
       split; [reflexivity|]; split; [reflexivity|]; intros i j Hi Hj; cbn [ent mscale]; f_equal; apply c_eq; cbn [fst snd cmul rc]; cbn [pow]; ring.
  Qed.
  Theorem rotation_is_exp x : is_exp N (A x) (rotation N P x).
  Proof.
    split; [reflexivity|]. split; [reflexivity|]. intros i j Hi Hj. rewrite rotation_ent.
    assert (E : c_infinite_sum (fun k => cadd (cmul (rc (spread true (fun m => (-1) ^ m * x ^ (2 * m) / INR (fact (2 * m)))%R k)) (delta (K := CC) (Nat.eqb i j)))
        (cmul (rc (spread false (fun m => (-1) ^ m * x ^ (2 * m + 1) / INR (fact (2 * m + 1)))%R k)) (cmul (0, -1)%R (ent P i j))))
      (cadd (cmul (rc (cos x)) (delta (K := CC) (Nat.eqb i j))) (cmul (rc (sin x)) (cmul (0, -1)%R (ent P i j))))).
    { apply c_infinite_plus; apply c_infinite_scale; [apply infinite_even, cos_series|apply infinite_odd, sin_series]. }
    replace (cmul (0, - sin x)%R (ent P i j)) with (cmul (rc (sin x)) (cmul (0, -1)%R (ent P i j))) by c_ring.
    eapply c_infinite_ext; [|exact E]. intros k. unfold spread. destruct (half_cases k) as [[m ->]|[m ->]].
    - rewrite even_double, Nat.div2_double. cbn [Bool.eqb]. destruct (mpow_even x m) as [(_ & _ & Em) _]. rewrite Em; cycle 1.
      1, 2: rewrite ?(proj1 (mpow_sq (A x) (2 * m) (sqA x))), ?(proj2 (mpow_sq (A x) (2 * m) (sqA x))); auto.
      cbn [ent mscale eye]. unfold Rdiv. destruct (Nat.eqb i j); cbn [delta]; apply c_eq; cbn [fst snd CC kmul cmul cadd rc k0 k1 c0 c1]; ring.
    - rewrite even_double1, div2_double1. cbn [Bool.eqb]. destruct (mpow_even x m) as [_ (_ & _ & Em)]. rewrite Em; cycle 1.
      1, 2: rewrite ?(proj1 (mpow_sq (A x) (2 * m + 1) (sqA x))), ?(proj2 (mpow_sq (A x) (2 * m + 1) (sqA x))); auto.
      cbn [ent mscale eye]. unfold Rdiv. destruct (Nat.eqb i j); cbn [delta]; apply c_eq; cbn [fst snd CC kmul cmul cadd rc k0 k1 c0 c1]; ring.
  Qed.
End Exp.
