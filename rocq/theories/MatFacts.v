(** Linear algebra over [cring]. *)
From Coq Require Import Ring Setoid Morphisms.
From Verif Require Import Base BaseFacts MatModel.

Section F.
  Context {K : cring}.
  Add Ring Kring : (kth K).
  Open Scope K_scope.

  Lemma kconj_0 : kconj (0 : K) = 0.
  Proof.
    assert (H : kconj (0 : K) = kconj 0 + kconj 0) by (rewrite <- kconj_add; f_equal; ring).
    transitivity (kconj (0 : K) + kconj 0 - kconj 0); [ring|]. rewrite <- H. ring.
  Qed.
  Lemma kconj_1 : kconj (1 : K) = 1.
  Proof.
    transitivity (kconj (1 : K) * 1); [ring|]. rewrite <- (kconj_invol _ 1) at 2. rewrite <- kconj_mul.
    transitivity (kconj (kconj (1 : K))); [f_equal; ring|apply kconj_invol].
  Qed.
  Lemma kconj_opp (a : K) : kconj (- a) = - kconj a.
  Proof.
    assert (H : kconj (- a) + kconj a = 0) by (rewrite <- kconj_add, <- kconj_0; f_equal; ring).
    transitivity (kconj (- a) + kconj a - kconj a); [ring|]. rewrite H. ring.
  Qed.
  Lemma kconj_delta b : kconj (delta b : K) = delta b.
  Proof. destruct b; [apply kconj_1|apply kconj_0]. Qed.

  (** ** Sums *)
  Lemma bigsum_ext n f g : (forall i, i < n -> f i = g i) -> bigsum n f = bigsum n g :> K.
  Proof. induction n as [|n IH]; cbn; intros H; [auto|]. rewrite IH, H; auto. Qed.
  Lemma bigsum_0 n f : (forall i, i < n -> f i = 0) -> bigsum n f = 0 :> K.
  Proof. induction n as [|n IH]; cbn; intros H; [auto|]. rewrite IH, H; auto. ring. Qed.
  Lemma bigsum_add n f g : bigsum n (fun i => f i + g i) = bigsum n f + bigsum n g :> K.
  Proof. induction n as [|n IH]; cbn; [ring|]. rewrite IH. ring. Qed.
  Lemma bigsum_mul_l n a f : a * bigsum n f = bigsum n (fun i => a * f i) :> K.
  Proof. induction n as [|n IH]; cbn; [ring|]. rewrite <- IH. ring. Qed.
  Lemma bigsum_mul_r n a f : bigsum n f * a = bigsum n (fun i => f i * a) :> K.
  Proof. induction n as [|n IH]; cbn; [ring|]. rewrite <- IH. ring. Qed.
  Lemma bigsum_conj n f : kconj (bigsum n f) = bigsum n (fun i => kconj (f i)) :> K.
  Proof. induction n as [|n IH]; cbn; [apply kconj_0|]. rewrite kconj_add, IH. auto. Qed.
  Lemma bigsum_swap n m (f : nat -> nat -> K) :
    bigsum n (fun i => bigsum m (fun j => f i j)) = bigsum m (fun j => bigsum n (fun i => f i j)).
  Proof.
    induction n as [|n IH]; cbn.
    - symmetry; apply bigsum_0; auto.
    - rewrite IH, <- bigsum_add. reflexivity.
  Qed.
  (** only one non-zero term *)
  Lemma bigsum_single n k f : k < n -> (forall i, i < n -> i <> k -> f i = 0) -> bigsum n f = f k :> K.
  Proof.
    induction n as [|n IH]; cbn; intros Hk H; [lia|].
    destruct (Nat.eq_dec k n) as [->|].
    - rewrite bigsum_0; [ring|]. intros i Hi. apply H; lia.
    - rewrite IH, (H n); [ring|lia|lia|lia|]. intros i Hi Hn. apply H; lia.
  Qed.
  Lemma bigsum_split n m (f : nat -> K) : bigsum (n + m) f = bigsum n f + bigsum m (fun i => f (n + i)%nat).
  Proof.
    induction m as [|m IH]; cbn; [rewrite Nat.add_0_r; ring|].
    rewrite Nat.add_succ_r. cbn. rewrite IH. ring.
  Qed.
  (** sum over a product index *)
  Lemma bigsum_prod n m (f : nat -> K) :
    bigsum (n * m) f = bigsum n (fun i => bigsum m (fun j => f (i * m + j)%nat)).
  Proof.
    induction n as [|n IH]; cbn [bigsum]; [auto|].
    replace (S n * m)%nat with (n * m + m)%nat by lia. rewrite bigsum_split, IH. reflexivity.
  Qed.

  (** ** Matrix equality *)
  Global Instance meq_equiv : Equivalence (@meq K).
  Proof.
    split.
    - intros A. repeat split; auto.
    - intros A B (H1 & H2 & H3). split; [auto|]. split; [auto|]. intros. symmetry. apply H3; lia.
    - intros A B C (H1 & H2 & H3) (H4 & H5 & H6). split; [lia|]. split; [lia|]. intros. rewrite H3 by auto. apply H6; lia.
  Qed.
  Global Instance veq_equiv : Equivalence (@veq K).
  Proof.
    split.
    - intros A. split; auto.
    - intros A B (H1 & H3). split; [auto|]. intros. symmetry. apply H3; lia.
    - intros A B C (H1 & H3) (H4 & H6). split; [lia|]. intros. rewrite H3 by auto. apply H6; lia.
  Qed.

  Lemma mmul_ext A A' B B' : nc A = nr B -> meq A A' -> meq B B' -> meq (mmul A B) (mmul (K:=K) A' B').
  Proof.
    intros Hd (H1 & H2 & H3) (H4 & H5 & H6). repeat split; cbn; auto.
    intros i j Hi Hj. rewrite <- H2. apply bigsum_ext. intros l Hl. rewrite H3, H6; auto. lia.
  Qed.
  Lemma adjoint_ext A A' : meq A A' -> meq (adjoint A) (adjoint (K:=K) A').
  Proof. intros (H1 & H2 & H3). repeat split; cbn; auto. intros; rewrite H3; auto. Qed.
  Lemma kron_ext A A' B B' : meq A A' -> meq B B' -> meq (kron A B) (kron (K:=K) A' B').
  Proof.
    intros (H1 & H2 & H3) (H4 & H5 & H6). repeat split; cbn; auto.
    intros i j Hi Hj. rewrite <- H4, <- H5.
    assert (nr B <> 0)%nat by (intros E; rewrite E in Hi; lia). assert (nc B <> 0)%nat by (intros E; rewrite E in Hj; lia).
    rewrite H3, H6; auto; try apply Nat.mod_upper_bound; auto; apply Nat.div_lt_upper_bound; auto; lia.
  Qed.
  Lemma mvmul_ext A A' u u' : nc A = vlen u -> meq A A' -> veq u u' -> veq (mvmul A u) (mvmul (K:=K) A' u').
  Proof.
    intros Hd (H1 & H2 & H3) (H4 & H5). split; cbn; [auto|]. intros i Hi. rewrite <- H2.
    apply bigsum_ext. intros l Hl. rewrite H3, H5; auto. lia.
  Qed.
  Lemma mscale_ext a A A' : meq A A' -> meq (mscale a A) (mscale (K:=K) a A').
  Proof. intros (H1 & H2 & H3). repeat split; cbn; auto. intros; rewrite H3; auto. Qed.

  Lemma mmul_assoc A B C : nc A = nr B -> nc B = nr C -> meq (mmul (mmul A B) C) (mmul (K:=K) A (mmul B C)).
  Proof.
    intros H1 H2. repeat split; cbn. intros i j Hi Hj.
    rewrite (bigsum_ext _ _ (fun l => bigsum (nc A) (fun m => ent A i m * ent B m l * ent C l j)))
      by (intros; apply bigsum_mul_r).
    rewrite bigsum_swap. apply bigsum_ext. intros m Hm. rewrite bigsum_mul_l. apply bigsum_ext. intros; ring.
  Qed.
  Lemma mvmul_assoc A B v : nc A = nr B -> veq (mvmul (mmul A B) v) (mvmul (K:=K) A (mvmul B v)).
  Proof.
    intros H1. split; cbn; [auto|]. intros i Hi.
    rewrite (bigsum_ext _ _ (fun l => bigsum (nc A) (fun m => ent A i m * ent B m l * vent v l)))
      by (intros; apply bigsum_mul_r).
    rewrite bigsum_swap. apply bigsum_ext. intros m Hm. rewrite bigsum_mul_l. apply bigsum_ext. intros; ring.
  Qed.
  Lemma mmul_eye_l A n : n = nr A -> meq (mmul (eye n) A) (K:=K) A.
  Proof.
    intros ->. repeat split; cbn. intros i j Hi Hj. rewrite (bigsum_single _ i); auto.
    - rewrite Nat.eqb_refl. cbn. ring.
    - intros l Hl Hn. destruct (Nat.eqb_spec i l); [congruence|]. cbn; ring.
  Qed.
  Lemma mmul_eye_r A n : n = nc A -> meq (mmul A (eye n)) (K:=K) A.
  Proof.
    intros ->. repeat split; cbn. intros i j Hi Hj. rewrite (bigsum_single _ j); auto.
    - rewrite Nat.eqb_refl. cbn. ring.
    - intros l Hl Hn. destruct (Nat.eqb_spec l j); [congruence|]. cbn; ring.
  Qed.
  Lemma mvmul_eye v n : n = vlen v -> veq (mvmul (eye n) v) (K:=K) v.
  Proof.
    intros ->. split; cbn; [auto|]. intros i Hi. rewrite (bigsum_single _ i); auto.
    - rewrite Nat.eqb_refl. cbn. ring.
    - intros l Hl Hn. destruct (Nat.eqb_spec i l); [congruence|]. cbn; ring.
  Qed.
  Lemma adjoint_mmul A B : nc A = nr B -> meq (adjoint (mmul A B)) (mmul (adjoint (K:=K) B) (adjoint A)).
  Proof.
    intros H. repeat split; cbn. intros i j Hi Hj. rewrite bigsum_conj, H. apply bigsum_ext. intros l Hl.
    rewrite kconj_mul. ring.
  Qed.
  Lemma adjoint_invol A : meq (adjoint (adjoint A)) (K:=K) A.
  Proof. repeat split; cbn. intros. apply kconj_invol. Qed.
  Lemma adjoint_eye n : meq (adjoint (eye n)) (K:=K) (eye n).
  Proof. repeat split; cbn. intros. rewrite kconj_delta, Nat.eqb_sym. auto. Qed.

  Lemma divmod_lt i n m : (i < n * m -> i / m < n /\ i mod m < m)%nat.
  Proof.
    intros H. assert (m <> 0)%nat by (intros ->; lia). split; [apply Nat.div_lt_upper_bound; lia|apply Nat.mod_upper_bound; auto].
  Qed.
  Lemma div_mul_add a m b : (b < m -> (a * m + b) / m = a)%nat.
  Proof. intros. rewrite Nat.div_add_l by lia. rewrite (Nat.div_small b) by lia. lia. Qed.
  Lemma mod_mul_add a m b : (b < m -> (a * m + b) mod m = b)%nat.
  Proof. intros. rewrite Nat.add_comm, Nat.mod_add by lia. apply Nat.mod_small; lia. Qed.

  (** mixed product property *)
  Lemma kron_mmul A B C D : nc A = nr C -> nc B = nr D ->
    meq (mmul (kron A B) (kron C D)) (kron (K:=K) (mmul A C) (mmul B D)).
  Proof.
    intros H1 H2. repeat split; cbn. intros i j Hi Hj. rewrite bigsum_prod, bigsum_mul_r. apply bigsum_ext. intros a Ha.
    rewrite bigsum_mul_l. apply bigsum_ext. intros b Hb. rewrite <- H2.
    rewrite !div_mul_add, !mod_mul_add by auto. ring.
  Qed.
  Lemma adjoint_kron A B : meq (adjoint (kron A B)) (kron (K:=K) (adjoint A) (adjoint B)).
  Proof. repeat split; cbn. intros. apply kconj_mul. Qed.
  Lemma eqb_divmod i j m : (m <> 0 -> Nat.eqb i j = Nat.eqb (i / m) (j / m) && Nat.eqb (i mod m) (j mod m))%nat.
  Proof.
    intros Hm. pose proof (Nat.div_mod i m Hm). pose proof (Nat.div_mod j m Hm).
    destruct (Nat.eqb_spec i j) as [->|]; [now rewrite !Nat.eqb_refl|].
    destruct (Nat.eqb_spec (i / m) (j / m)) as [E1|]; [|auto]. destruct (Nat.eqb_spec (i mod m) (j mod m)) as [E2|]; [|auto].
    exfalso. rewrite E1, E2 in H. congruence.
  Qed.
  Lemma delta_andb a b : delta (a && b) = delta a * delta b :> K.
  Proof. destruct a, b; cbn; ring. Qed.
  Lemma kron_eye n m : meq (kron (eye n) (eye m)) (K:=K) (eye (n * m)).
  Proof.
    repeat split; cbn. intros i j Hi Hj. assert (m <> 0)%nat by (intros ->; lia).
    rewrite (eqb_divmod i j m), delta_andb by auto. ring.
  Qed.

  (** ** Unitary matrices *)
  Lemma unitary_ext A B : meq A B -> unitary A -> unitary (K:=K) B.
  Proof.
    intros E (H1 & H2 & H3). pose proof E as (E1 & E2 & _). split; [lia|]. rewrite <- E1, <- E2.
    split; [rewrite <- H2|rewrite <- H3]; symmetry; apply mmul_ext; cbn; auto using adjoint_ext.
  Qed.
  Lemma unitary_eye n : unitary (K:=K) (eye n).
  Proof.
    split; [auto|]. cbn [nc nr eye]. split.
    - transitivity (mmul (K:=K) (eye n) (eye n)); [apply mmul_ext; cbn; auto using adjoint_eye; reflexivity|apply mmul_eye_l; auto].
    - transitivity (mmul (K:=K) (eye n) (eye n)); [apply mmul_ext; cbn; auto using adjoint_eye; reflexivity|apply mmul_eye_l; auto].
  Qed.
  Lemma unitary_adjoint A : unitary A -> unitary (K:=K) (adjoint A).
  Proof.
    intros (H1 & H2 & H3). split; [cbn; auto|]. split; cbn [nc nr adjoint].
    - rewrite <- H3. apply mmul_ext; cbn; auto; [apply adjoint_invol|reflexivity].
    - rewrite <- H2. apply mmul_ext; cbn; auto; [reflexivity|apply adjoint_invol].
  Qed.
  Lemma unitary_mmul A B : nc A = nr B -> unitary A -> unitary B -> unitary (K:=K) (mmul A B).
  Proof.
    intros Hd (A1 & A2 & A3) (B1 & B2 & B3). split; [cbn; lia|]. cbn [nc nr mmul]. split.
    - transitivity (mmul (mmul (adjoint B) (adjoint A)) (mmul A B)).
      { apply mmul_ext; cbn; auto; [apply adjoint_mmul; auto|reflexivity]. }
      transitivity (mmul (adjoint B) (mmul (adjoint A) (mmul A B))); [apply mmul_assoc; cbn; auto|].
      transitivity (mmul (adjoint B) B); [|exact B2]. apply mmul_ext; cbn; [lia|reflexivity|].
      transitivity (mmul (mmul (adjoint A) A) B); [symmetry; apply mmul_assoc; cbn; auto|].
      transitivity (mmul (eye (nc A)) B); [apply mmul_ext; cbn; auto; reflexivity|]. apply mmul_eye_l; auto.
    - transitivity (mmul (mmul A B) (mmul (adjoint B) (adjoint A))).
      { apply mmul_ext; cbn; auto; [reflexivity|apply adjoint_mmul; auto]. }
      transitivity (mmul A (mmul B (mmul (adjoint B) (adjoint A)))); [apply mmul_assoc; cbn; auto|].
      transitivity (mmul A (adjoint A)); [|exact A3]. apply mmul_ext; cbn; [lia|reflexivity|].
      transitivity (mmul (mmul B (adjoint B)) (adjoint A)); [symmetry; apply mmul_assoc; cbn; auto|].
      transitivity (mmul (eye (nr B)) (adjoint A)); [apply mmul_ext; cbn; [lia|auto|reflexivity]|]. apply mmul_eye_l; cbn; auto.
  Qed.
  Lemma unitary_kron A B : unitary A -> unitary B -> unitary (K:=K) (kron A B).
  Proof.
    intros (A1 & A2 & A3) (B1 & B2 & B3). split; [cbn; congruence|]. cbn [nc nr kron]. split.
    - transitivity (mmul (kron (adjoint A) (adjoint B)) (kron A B)); [apply mmul_ext; cbn; auto; [apply adjoint_kron|reflexivity]|].
      transitivity (kron (mmul (adjoint A) A) (mmul (adjoint B) B)); [apply kron_mmul; auto|].
      transitivity (kron (eye (K:=K) (nc A)) (eye (nc B))); [apply kron_ext; auto|apply kron_eye].
    - transitivity (mmul (kron A B) (kron (adjoint A) (adjoint B))); [apply mmul_ext; cbn; auto; [reflexivity|apply adjoint_kron]|].
      transitivity (kron (mmul A (adjoint A)) (mmul B (adjoint B))); [apply kron_mmul; auto|].
      transitivity (kron (eye (K:=K) (nr A)) (eye (nr B))); [apply kron_ext; auto|apply kron_eye].
  Qed.
  Lemma unitary_mscale a A : kconj a * a = 1 -> unitary A -> unitary (K:=K) (mscale a A).
  Proof.
    intros Ha (H1 & H2 & H3). split; [auto|]. cbn [nr nc mscale]. split.
    - rewrite <- H2. repeat split; cbn. intros i j Hi Hj. apply bigsum_ext. intros l Hl. rewrite kconj_mul.
      transitivity (kconj a * a * (kconj (ent A l i) * ent A l j)); [ring|]. rewrite Ha; ring.
    - rewrite <- H3. repeat split; cbn. intros i j Hi Hj. apply bigsum_ext. intros l Hl. rewrite kconj_mul.
      transitivity (kconj a * a * (ent A i l * kconj (ent A j l))); [ring|]. rewrite Ha; ring.
  Qed.
  Lemma unitary_inner A u v : unitary A -> nc A = vlen u -> nc A = vlen v ->
    inner (mvmul A u) (mvmul A v) = inner (K:=K) u v.
  Proof.
    intros (H1 & (_ & _ & H2) & _) Hu Hv. unfold inner. cbn.
    rewrite (bigsum_ext _ _ (fun i => bigsum (nc A) (fun a => bigsum (nc A) (fun b => kconj (vent u a) * vent v b * (kconj (ent A i a) * ent A i b))))).
    2:{ intros i Hi. rewrite bigsum_conj, bigsum_mul_r. apply bigsum_ext. intros a Ha. rewrite bigsum_mul_l. apply bigsum_ext. intros b Hb.
        rewrite kconj_mul. ring. }
    rewrite bigsum_swap, <- Hu. apply bigsum_ext. intros a Ha. rewrite bigsum_swap.
    rewrite (bigsum_ext _ _ (fun b => kconj (vent u a) * vent v b * delta (Nat.eqb a b))).
    2:{ intros b Hb. rewrite <- bigsum_mul_l. f_equal. specialize (H2 a b). cbn in H2. rewrite <- H2; auto. }
    rewrite (bigsum_single _ a); auto; [rewrite Nat.eqb_refl; cbn; ring|].
    intros i Hi Hn. destruct (Nat.eqb_spec a i); [congruence|]. cbn; ring.
  Qed.

  (** block diagonal *)
  Lemma unitary_diag2 A B : unitary A -> unitary B -> unitary (K:=K) (diag2 A B).
  Proof.
    intros (A1 & (_ & _ & A2) & (_ & _ & A3)) (B1 & (_ & _ & B2) & (_ & _ & B3)). cbn in A2, A3, B2, B3. split; [cbn; congruence|].
    split; repeat split; cbn [nr nc adjoint diag2 mmul eye ent]; auto; intros i j Hi Hj.
    - rewrite bigsum_split. rewrite <- A1 in *. rewrite <- B1 in *.
      destruct (Nat.ltb_spec i (nr A)); destruct (Nat.ltb_spec j (nr A)).
      + rewrite (bigsum_0 (nr B)); [rewrite <- A2 by lia; ring_simplify; apply bigsum_ext|].
        * intros l Hl. destruct (Nat.ltb_spec l (nr A)); [|lia]. auto.
        * intros l Hl. destruct (Nat.ltb_spec (nr A + l) (nr A)); [lia|]. rewrite kconj_0. ring.
      + rewrite (bigsum_0 (nr A)), (bigsum_0 (nr B)); [destruct (Nat.eqb_spec i j); [lia|]; cbn; ring| |].
        * intros l Hl. destruct (Nat.ltb_spec (nr A + l) (nr A)); [lia|]. rewrite kconj_0. ring.
        * intros l Hl. destruct (Nat.ltb_spec l (nr A)); [|lia]. ring.
      + rewrite (bigsum_0 (nr A)), (bigsum_0 (nr B)); [destruct (Nat.eqb_spec i j); [lia|]; cbn; ring| |].
        * intros l Hl. destruct (Nat.ltb_spec (nr A + l) (nr A)); [lia|]. ring.
        * intros l Hl. destruct (Nat.ltb_spec l (nr A)); [|lia]. rewrite kconj_0. ring.
      + rewrite (bigsum_0 (nr A)).
        * transitivity (delta (K:=K) ((i - nr A) =? (j - nr A))%nat).
          { rewrite <- B2 by lia. ring_simplify. apply bigsum_ext. intros l Hl. destruct (Nat.ltb_spec (nr A + l) (nr A)); [lia|].
            replace (nr A + l - nr A)%nat with l by lia. auto. }
          f_equal. destruct (Nat.eqb_spec i j), (Nat.eqb_spec (i - nr A) (j - nr A)); auto; lia.
        * intros l Hl. destruct (Nat.ltb_spec l (nr A)); [|lia]. rewrite kconj_0. ring.
    - rewrite bigsum_split. rewrite <- A1 in *. rewrite <- B1 in *.
      destruct (Nat.ltb_spec i (nr A)); destruct (Nat.ltb_spec j (nr A)).
      + rewrite (bigsum_0 (nr B)); [rewrite <- A3 by lia; ring_simplify; apply bigsum_ext|].
        * intros l Hl. destruct (Nat.ltb_spec l (nr A)); [|lia]. auto.
        * intros l Hl. destruct (Nat.ltb_spec (nr A + l) (nr A)); [lia|]. rewrite kconj_0. ring.
      + rewrite (bigsum_0 (nr A)), (bigsum_0 (nr B)); [destruct (Nat.eqb_spec i j); [lia|]; cbn; ring| |].
        * intros l Hl. destruct (Nat.ltb_spec (nr A + l) (nr A)); [lia|]. ring.
        * intros l Hl. destruct (Nat.ltb_spec l (nr A)); [|lia]. rewrite kconj_0. ring.
      + rewrite (bigsum_0 (nr A)), (bigsum_0 (nr B)); [destruct (Nat.eqb_spec i j); [lia|]; cbn; ring| |].
        * intros l Hl. destruct (Nat.ltb_spec (nr A + l) (nr A)); [lia|]. rewrite kconj_0. ring.
        * intros l Hl. destruct (Nat.ltb_spec l (nr A)); [|lia]. ring.
      + rewrite (bigsum_0 (nr A)).
        * transitivity (delta (K:=K) ((i - nr A) =? (j - nr A))%nat).
          { rewrite <- B3 by lia. ring_simplify. apply bigsum_ext. intros l Hl. destruct (Nat.ltb_spec (nr A + l) (nr A)); [lia|].
            replace (nr A + l - nr A)%nat with l by lia. auto. }
          f_equal. destruct (Nat.eqb_spec i j), (Nat.eqb_spec (i - nr A) (j - nr A)); auto; lia.
        * intros l Hl. destruct (Nat.ltb_spec l (nr A)); [|lia]. ring.
  Qed.
  Lemma adjoint_diag2 A B : nr A = nc A -> meq (adjoint (diag2 A B)) (diag2 (K:=K) (adjoint A) (adjoint B)).
  Proof.
    intros H. repeat split; cbn [nr nc ent adjoint diag2]. intros i j Hi Hj. rewrite <- H.
    destruct (Nat.ltb_spec i (nr A)), (Nat.ltb_spec j (nr A)); try apply kconj_0; reflexivity.
  Qed.
  Lemma mmul_diag2 A B C D : nc A = nr C -> nc B = nr D ->
    meq (mmul (diag2 A B) (diag2 C D)) (diag2 (K:=K) (mmul A C) (mmul B D)).
  Proof.
    intros H1 H2. split; [reflexivity|]. split; [reflexivity|]. cbn [nr nc mmul diag2 ent]. intros i j Hi Hj.
    rewrite bigsum_split. destruct (Nat.ltb_spec i (nr A)) as [Li|Li], (Nat.ltb_spec j (nc C)) as [Lj|Lj].
    - rewrite (bigsum_0 (nc B)).
      + ring_simplify. apply bigsum_ext. intros l Hl. rewrite (proj2 (Nat.ltb_lt l (nc A))), (proj2 (Nat.ltb_lt l (nr C))) by lia. auto.
      + intros l Hl. rewrite (proj2 (Nat.ltb_ge (nc A + l) (nc A))) by lia. ring.
    - rewrite (bigsum_0 (nc A)), (bigsum_0 (nc B)); [ring| |]; intros l Hl.
      + rewrite (proj2 (Nat.ltb_ge (nc A + l) (nc A))) by lia. ring.
      + rewrite (proj2 (Nat.ltb_lt l (nr C))) by lia. ring.
    - rewrite (bigsum_0 (nc A)), (bigsum_0 (nc B)); [ring| |]; intros l Hl.
      + rewrite (proj2 (Nat.ltb_ge (nc A + l) (nr C))) by lia. ring.
      + rewrite (proj2 (Nat.ltb_lt l (nc A))) by lia. ring.
    - rewrite (bigsum_0 (nc A)).
      + ring_simplify. apply bigsum_ext. intros l Hl. rewrite (proj2 (Nat.ltb_ge (nc A + l) (nc A))), (proj2 (Nat.ltb_ge (nc A + l) (nr C))) by lia.
        replace (nc A + l - nc A)%nat with l by lia. replace (nc A + l - nr C)%nat with l by lia. auto.
      + intros l Hl. rewrite (proj2 (Nat.ltb_lt l (nc A))) by lia. ring.
  Qed.
  Lemma diag2_ext A A' B B' : meq A A' -> meq B B' -> meq (diag2 A B) (diag2 (K:=K) A' B').
  Proof.
    intros (H1 & H2 & H3) (H4 & H5 & H6). repeat split; cbn [nr nc ent diag2]; auto. intros i j Hi Hj. rewrite <- H1, <- H2.
    destruct (Nat.ltb_spec i (nr A)), (Nat.ltb_spec j (nc A)); auto. apply H6; lia.
  Qed.
End F.

(** ** Bit lists *)
Lemma bval_lt l : bval l < 2 ^ length l.
Proof. induction l as [|b l IH]; cbn; [lia|]. destruct b; lia. Qed.
Lemma bval_app l1 l2 : bval (l1 ++ l2) = bval l1 * 2 ^ length l2 + bval l2.
Proof.
  induction l1 as [|b l1 IH]; cbn; [auto|]. rewrite IH, app_length, Nat.pow_add_r. destruct b; lia.
Qed.
Lemma bval_inj l1 l2 : length l1 = length l2 -> bval l1 = bval l2 -> l1 = l2.
Proof.
  revert l2; induction l1 as [|b l1 IH]; intros [|c l2]; cbn; try discriminate; auto.
  intros [= E] H. pose proof (bval_lt l1). pose proof (bval_lt l2). rewrite E in *.
  destruct b, c; try lia; f_equal; apply IH; auto; lia.
Qed.
Lemma bits_length n i : length (bits n i) = n.
Proof. induction n; cbn; auto. Qed.
Lemma bval_bits n i : bval (bits n i) = i mod 2 ^ n.
Proof.
  induction n as [|n IH]; [reflexivity|]. cbn [bits bval]. rewrite bits_length, IH.
  pose proof (Nat.pow_nonzero 2 n ltac:(lia)) as Hp. cbn [Nat.pow].
  rewrite (Nat.mul_comm 2 (2 ^ n)), Nat.mod_mul_r by lia.
  rewrite <- Nat.bit0_mod, Nat.bit0_odd. destruct (Nat.odd (i / 2 ^ n)); cbn; lia.
Qed.
Lemma bval_bits_small n i : i < 2 ^ n -> bval (bits n i) = i.
Proof. intros H. rewrite bval_bits, Nat.mod_small; auto. Qed.
Lemma bits_bval l : bits (length l) (bval l) = l.
Proof. apply bval_inj; [apply bits_length|]. apply bval_bits_small, bval_lt. Qed.
Lemma bits_bval_n n l : length l = n -> bits n (bval l) = l.
Proof. intros <-. apply bits_bval. Qed.
Lemma pow2_pos n : 0 < 2 ^ n.
Proof. pose proof (Nat.pow_nonzero 2 n); lia. Qed.
Lemma bval_app_div l1 l2 : bval (l1 ++ l2) / 2 ^ length l2 = bval l1.
Proof. rewrite bval_app. apply div_mul_add, bval_lt. Qed.
Lemma bval_app_mod l1 l2 : bval (l1 ++ l2) mod 2 ^ length l2 = bval l2.
Proof. rewrite bval_app. apply mod_mul_add, bval_lt. Qed.
