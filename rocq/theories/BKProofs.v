(** The index sets of the Bravyi-Kitaev transform. *)
From Coq Require Import Permutation.
From Verif Require Import Base BaseFacts MatModel OpModel FermiModel FermiSpec FermiProofs PauliProofs.
Open Scope list_scope.
Local Open Scope N_scope.

(** ** Lowest set bit *)
Definition clear (i : N) : N := N.land i (N.pred i).
Lemma land_even_odd x y : N.land (2 * x) (2 * y + 1) = 2 * N.land x y.
Proof.
  apply N.bits_inj. intros m. rewrite N.land_spec. destruct (N.zero_or_succ m) as [->|[k ->]].
  - rewrite !N.testbit_even_0. reflexivity.
  - rewrite !N.testbit_even_succ, N.testbit_odd_succ, N.land_spec by apply N.le_0_l. reflexivity.
Qed.
Lemma land_odd_even x y : N.land (2 * x + 1) (2 * y) = 2 * N.land x y.
Proof. rewrite N.land_comm, land_even_odd, N.land_comm. reflexivity. Qed.
Lemma zland_even x y : Z.land (2 * x) (2 * y) = (2 * Z.land x y)%Z.
Proof.
  apply Z.bits_inj. intros m. rewrite Z.land_spec. destruct (Z.lt_ge_cases m 0) as [H|H]; [rewrite !Z.testbit_neg_r; auto|].
  destruct (Z.eq_dec m 0) as [->|H0]; [rewrite !Z.testbit_even_0; reflexivity|].
  replace m with (Z.succ (Z.pred m)) by lia. rewrite !Z.testbit_even_succ, Z.land_spec by lia. reflexivity.
Qed.
Lemma zland_odd x y : Z.land (2 * x + 1) (2 * y + 1) = (2 * Z.land x y + 1)%Z.
Proof.
  apply Z.bits_inj. intros m. rewrite Z.land_spec. destruct (Z.lt_ge_cases m 0) as [H|H]; [rewrite !Z.testbit_neg_r; auto|].
  destruct (Z.eq_dec m 0) as [->|H0]; [rewrite !Z.testbit_odd_0; reflexivity|].
  replace m with (Z.succ (Z.pred m)) by lia. rewrite !Z.testbit_odd_succ, Z.land_spec by lia. reflexivity.
Qed.
Lemma low_even i : low_bit (2 * i) = 2 * low_bit i.
Proof.
  unfold low_bit. rewrite N2Z.inj_mul. change (Z.of_N 2) with 2%Z. replace (- (2 * Z.of_N i))%Z with (2 * - Z.of_N i)%Z by lia. rewrite zland_even.
  rewrite Z2N.inj_mul; [reflexivity|lia|]. apply Z.land_nonneg. left. lia.
Qed.
Lemma low_odd a : low_bit (2 * a + 1) = 1.
Proof.
  unfold low_bit. rewrite N2Z.inj_add, N2Z.inj_mul. change (Z.of_N 2) with 2%Z. change (Z.of_N 1) with 1%Z.
  replace (- (2 * Z.of_N a + 1))%Z with (2 * Z.lnot (Z.of_N a) + 1)%Z by (unfold Z.lnot; lia). rewrite zland_odd, Z.land_lnot_diag. reflexivity.
Qed.
Lemma clear_even i : 0 < i -> clear (2 * i) = 2 * clear i.
Proof. intros H. unfold clear. replace (N.pred (2 * i)) with (2 * N.pred i + 1) by lia. apply land_even_odd. Qed.
Lemma clear_odd a : clear (2 * a + 1) = 2 * a.
Proof. unfold clear. replace (N.pred (2 * a + 1)) with (2 * a) by lia. rewrite land_odd_even, N.land_diag. reflexivity. Qed.
(** every positive number is 2^k (2a+1); then the lowest bit is 2^k and clearing it leaves 2^k 2a *)
Lemma low_form i : 0 < i -> exists k a, i = 2 ^ k * (2 * a + 1) /\ low_bit i = 2 ^ k /\ clear i = 2 ^ k * (2 * a).
Proof.
  intros H. destruct i as [|p]; [lia|]. clear H. induction p as [p IH|p IH|].
  - exists 0, (N.pos p). replace (N.pos p~1) with (2 * N.pos p + 1) by lia. rewrite low_odd, clear_odd. cbn [N.pow]. lia.
  - destruct IH as (k & a & E1 & E2 & E3). exists (N.succ k), a. replace (N.pos p~0) with (2 * N.pos p) by lia.
    rewrite low_even, clear_even by lia. rewrite N.pow_succ_r', E2, E3. rewrite E1 at 1. lia.
  - exists 0, 0. auto.
Qed.
Lemma clear_lt i : 0 < i -> clear i < i.
Proof. intros H. destruct (low_form i H) as (k & a & E1 & _ & E3). rewrite E3. assert (0 < 2 ^ k) by (apply N.neq_0_lt_0, N.pow_nonzero; lia). nia. Qed.
Lemma low_pos i : 0 < i -> 0 < low_bit i.
Proof. intros H. destruct (low_form i H) as (k & a & _ & E2 & _). rewrite E2. apply N.neq_0_lt_0, N.pow_nonzero; lia. Qed.
Lemma clear_low i : 0 < i -> clear i + low_bit i = i.
Proof. intros H. destruct (low_form i H) as (k & a & E1 & E2 & E3). rewrite E2, E3. lia. Qed.

(** j covers i: i lies in the range (clear j, j] whose parity is stored at j - 1 *)
Definition covers (j i : N) : bool := (clear j <? i) && (i <=? j).
Lemma pow_split k m : k <= m -> 2 ^ m = 2 ^ k * 2 ^ (m - k).
Proof. intros H. rewrite <- N.pow_add_r. f_equal. lia. Qed.
Lemma covers_next i j : 0 < i -> i < j -> covers j i = covers j (i + low_bit i).
Proof.
  intros Hi Hij. destruct (low_form i Hi) as (k & a & Ei & Li & Ci). destruct (low_form j) as (m & b & Ej & Lj & Cj); [lia|].
  unfold covers. rewrite Li, Cj.
  assert (Hk : 0 < 2 ^ k) by (apply N.neq_0_lt_0, N.pow_nonzero; lia). assert (Hm : 0 < 2 ^ m) by (apply N.neq_0_lt_0, N.pow_nonzero; lia).
  apply Bool.eq_iff_eq_true. rewrite !andb_true_iff, !N.ltb_lt, !N.leb_le.
  destruct (N.lt_ge_cases k m) as [L|L].
  - (* 2^m = 2^k * 2 * q *)
    assert (Q : exists q, 2 ^ m = 2 ^ k * (2 * q) /\ 0 < q).
    { exists (2 ^ (m - N.succ k)). rewrite (pow_split (N.succ k) m) by lia. rewrite N.pow_succ_r'. split; [lia|]. apply N.neq_0_lt_0, N.pow_nonzero; lia. }
    destruct Q as (q & Eq & Hq). set (h := 2 ^ k) in *.
    replace (2 ^ m * (2 * b)) with (h * (2 * (2 * (q * b)))) by (rewrite Eq; lia). replace j with (h * (2 * (q + 2 * (q * b)))) in * by (rewrite Ej, Eq; lia).
    rewrite Ei in *. replace (h * (2 * a + 1) + h) with (h * (2 * a + 2)) by lia.
    rewrite <- !N.mul_lt_mono_pos_l, <- !N.mul_le_mono_pos_l in * by auto. generalize dependent (q * b). intros; lia.
  - assert (Q : exists q, 2 ^ k = 2 ^ m * q /\ 0 < q).
    { exists (2 ^ (k - m)). split; [apply pow_split; auto|]. apply N.neq_0_lt_0, N.pow_nonzero; lia. }
    destruct Q as (q & Eq & Hq). set (h := 2 ^ m) in *. rewrite Ej in *.
    replace i with (h * (2 * (q * a) + q)) in * by (rewrite Ei, Eq; lia). rewrite Eq. replace (h * (2 * (q * a) + q) + h * q) with (h * (2 * (q * a) + 2 * q)) by lia.
    rewrite <- !N.mul_lt_mono_pos_l, <- !N.mul_le_mono_pos_l in * by auto. generalize dependent (q * a). intros; lia.
Qed.
Lemma covers_self i : 0 < i -> covers i i = true.
Proof. intros H. unfold covers. pose proof (clear_lt i H). apply andb_true_intro. split; [apply N.ltb_lt; auto|apply N.leb_refl]. Qed.
Lemma update_loop_In fuel : forall i n x, 0 < i -> (N.to_nat n < N.to_nat i + fuel)%nat ->
  (In x (update_loop fuel i n) <-> x < n /\ covers (N.succ x) i = true).
Proof.
  induction fuel as [|f IH]; intros i n x Hi Hf.
  - split; [intros []|]. intros [H1 H2]. unfold covers in H2. apply andb_prop in H2 as [_ H2]. apply N.leb_le in H2. lia.
  - cbn [update_loop]. pose proof (low_pos i Hi) as Lp. destruct (N.leb_spec i n) as [L|L].
    + cbn [In]. rewrite IH by lia. split.
      * intros [<-|[H1 H2]]; [rewrite N.succ_pred by lia; split; [lia|apply covers_self; auto]|]. split; [auto|].
        assert (i < N.succ x) by (unfold covers in H2; apply andb_prop in H2 as [_ H2]; apply N.leb_le in H2; lia).
        rewrite covers_next by auto. auto.
      * intros [H1 H2]. assert (G : i <= N.succ x) by (unfold covers in H2; apply andb_prop in H2 as [_ H2]; apply N.leb_le in H2; lia).
        destruct (N.eq_dec i (N.succ x)) as [->|Ne]; [left; lia|]. right. split; [auto|]. rewrite <- covers_next by lia. auto.
    + split; [intros []|]. intros [H1 H2]. unfold covers in H2. apply andb_prop in H2 as [_ H2]. apply N.leb_le in H2. lia.
Qed.
Lemma update_loop_NoDup fuel : forall i n, 0 < i -> NoDup (update_loop fuel i n) /\ forall x, In x (update_loop fuel i n) -> N.pred i <= x.
Proof.
  induction fuel as [|f IH]; intros i n Hi; cbn [update_loop]; [split; [constructor|intros x []]|].
  pose proof (low_pos i Hi) as Lp. destruct (IH (i + low_bit i) n) as [H1 H2]; [lia|]. destruct (i <=? n); [|split; [constructor|intros x []]]. split.
  - constructor; [|auto]. intros Hin. apply H2 in Hin. lia.
  - intros x [<-|Hx]; [lia|]. apply H2 in Hx. lia.
Qed.
Lemma update_set_spec p n x : In x (update_set p n) <-> x < n /\ p <> x /\ covers (N.succ x) (N.succ p) = true.
Proof.
  unfold update_set. pose proof (low_pos (N.succ p)) as Lp. rewrite update_loop_In by lia. split.
  - intros [H1 H2]. assert (N.succ p < N.succ x) by (unfold covers in H2; apply andb_prop in H2 as [_ H2]; apply N.leb_le in H2; lia).
    split; [auto|]. split; [lia|]. rewrite covers_next by lia. auto.
  - intros (H1 & H2 & H3). split; [auto|]. assert (N.succ p <= N.succ x) by (unfold covers in H3; apply andb_prop in H3 as [_ H3]; apply N.leb_le in H3; lia).
    rewrite <- covers_next by lia. auto.
Qed.
Lemma update_set_NoDup p n : NoDup (update_set p n) /\ forall x, In x (update_set p n) -> p < x.
Proof.
  unfold update_set. pose proof (low_pos (N.succ p)) as Lp. destruct (update_loop_NoDup (S (N.to_nat n)) (N.succ p + low_bit (N.succ p)) n) as [H1 H2]; [lia|].
  split; [auto|]. intros x Hx. apply H2 in Hx. lia.
Qed.

(** ** Parities over the sets; [Pf k] is a prefix parity with Pf 0 = false, and g i stores the parity over (clear (i+1), i+1] *)
  Lemma chain_step k b x : 0 < x -> x < 2 ^ k -> clear (2 ^ k * b + x) = 2 ^ k * b + clear x.
  Proof.
    revert b x. induction k as [|k IH] using N.peano_ind; intros b x H0 Hx; [cbn in Hx; lia|]. rewrite N.pow_succ_r' in *.
    destruct (N.Even_or_Odd x) as [[y ->]|[y ->]].
    - replace (2 * 2 ^ k * b + 2 * y) with (2 * (2 ^ k * b + y)) by lia. rewrite !clear_even by lia. rewrite IH by lia. lia.
    - replace (2 * 2 ^ k * b + (2 * y + 1)) with (2 * (2 ^ k * b + y) + 1) by lia. rewrite !clear_odd. lia.
  Qed.
Section Parity.
  Context (Pf : N -> bool) (g : N -> bool) (Hg : forall i, g i = xorb (Pf (N.succ i)) (Pf (clear (N.succ i)))).
  Definition parity_over (l : list N) : bool := odd_count (map g l).
  Lemma parity_over_cons x l : parity_over (x :: l) = xorb (g x) (parity_over l).
  Proof. reflexivity. Qed.
  Lemma parity_loop_sum fuel : forall i, (N.to_nat i < fuel)%nat -> parity_over (parity_loop fuel i) = xorb (Pf i) (Pf 0).
  Proof.
    induction fuel as [|f IH]; intros i Hi; [lia|]. cbn [parity_loop]. destruct (N.ltb_spec 0 i) as [L|L].
    - rewrite parity_over_cons, Hg, N.succ_pred by lia. pose proof (clear_lt i L) as C. fold (clear i). rewrite IH by lia.
      destruct (Pf i), (Pf (clear i)), (Pf 0); reflexivity.
    - assert (i = 0) as -> by lia. rewrite Bool.xorb_nilpotent. reflexivity.
  Qed.
  Lemma parity_set_sum i : parity_over (parity_set i) = xorb (Pf i) (Pf 0).
  Proof. apply parity_loop_sum. lia. Qed.
  (** the chain from m reaches every r with m = r + x where r is a multiple of a power of two exceeding x *)
  Lemma occupation_loop_sum k b fuel : forall x, x < 2 ^ k -> (N.to_nat x < fuel)%nat ->
    parity_over (occupation_loop fuel (2 ^ k * b + x) (2 ^ k * b)) = xorb (Pf (2 ^ k * b + x)) (Pf (2 ^ k * b)).
  Proof.
    induction fuel as [|f IH]; intros x Hx Hf; [lia|]. cbn [occupation_loop]. destruct (N.eqb_spec (2 ^ k * b + x) (2 ^ k * b)) as [E|E].
    - rewrite E, Bool.xorb_nilpotent. reflexivity.
    - assert (H0 : 0 < x) by lia. rewrite parity_over_cons, Hg, N.succ_pred by lia. fold (clear (2 ^ k * b + x)). rewrite chain_step by auto.
      pose proof (clear_lt x H0). rewrite IH by lia. destruct (Pf (2 ^ k * b + x)), (Pf (2 ^ k * b + clear x)), (Pf (2 ^ k * b)); reflexivity.
  Qed.
  Lemma occupation_set_sum i : parity_over (occupation_set i) = xorb (Pf (N.succ i)) (Pf i).
  Proof.
    unfold occupation_set. rewrite parity_over_cons, Hg, N.pred_succ. fold (clear (N.succ i)).
    destruct (low_form (N.succ i)) as (k & a & E1 & _ & E3); [lia|].
    assert (Hk : 0 < 2 ^ k) by (apply N.neq_0_lt_0, N.pow_nonzero; lia).
    pose proof (occupation_loop_sum k (2 * a) (S (N.to_nat (N.succ i))) (2 ^ k - 1)) as L.
    replace (N.land (N.succ i) i) with (clear (N.succ i)) by (unfold clear; rewrite N.pred_succ; reflexivity). rewrite E3.
    replace (2 ^ k * (2 * a) + (2 ^ k - 1)) with i in L by nia. rewrite L; [|lia|nia]. destruct (Pf (N.succ i)), (Pf i), (Pf (2 ^ k * (2 * a))); reflexivity.
  Qed.
End Parity.
(** members *)
  Lemma parity_loop_range fuel : forall i, NoDup (parity_loop fuel i) /\ forall x, In x (parity_loop fuel i) -> x < i.
  Proof.
    induction fuel as [|f IH]; intros i; cbn [parity_loop]; [split; [constructor|intros x []]|].
    destruct (N.ltb_spec 0 i) as [L|L]; [|split; [constructor|intros x []]]. fold (clear i). destruct (IH (clear i)) as [H1 H2]. pose proof (clear_lt i L). split.
    - constructor; [|auto]. intros Hin. apply H2 in Hin. lia.
    - intros x [<-|Hx]; [lia|]. apply H2 in Hx. lia.
  Qed.
  Lemma occupation_loop_range k b fuel : forall x, x < 2 ^ k -> NoDup (occupation_loop fuel (2 ^ k * b + x) (2 ^ k * b)) /\
    forall y, In y (occupation_loop fuel (2 ^ k * b + x) (2 ^ k * b)) -> y < 2 ^ k * b + x.
  Proof.
    induction fuel as [|f IH]; intros x Hx; cbn [occupation_loop]; [split; [constructor|intros y []]|].
    destruct (N.eqb_spec (2 ^ k * b + x) (2 ^ k * b)) as [E|E]; [split; [constructor|intros y []]|].
    assert (H0 : 0 < x) by lia. fold (clear (2 ^ k * b + x)). rewrite chain_step by auto. pose proof (clear_lt x H0). destruct (IH (clear x)) as [H1 H2]; [lia|]. split.
    - constructor; [|auto]. intros Hin. apply H2 in Hin. lia.
    - intros y [<-|Hy]; [lia|]. apply H2 in Hy. lia.
  Qed.
  Lemma parity_set_range p : NoDup (parity_set p) /\ forall x, In x (parity_set p) -> x < p.
  Proof. apply parity_loop_range. Qed.
  Lemma occupation_set_range p : NoDup (occupation_set p) /\ In p (occupation_set p) /\ forall x, In x (occupation_set p) -> x <= p.
  Proof.
    unfold occupation_set. rewrite N.pred_succ. destruct (low_form (N.succ p)) as (k & a & E1 & _ & E3); [lia|].
    assert (Hk : 0 < 2 ^ k) by (apply N.neq_0_lt_0, N.pow_nonzero; lia).
    replace (N.land (N.succ p) p) with (clear (N.succ p)) by (unfold clear; rewrite N.pred_succ; reflexivity). rewrite E3.
    destruct (occupation_loop_range k (2 * a) (S (N.to_nat (N.succ p))) (2 ^ k - 1)) as [H1 H2]; [lia|].
    replace (2 ^ k * (2 * a) + (2 ^ k - 1)) with p in H1, H2 by nia.
    split; [constructor; [intros Hin; apply H2 in Hin; lia|auto]|]. split; [left; auto|]. intros x [<-|Hx]; [lia|]. apply H2 in Hx. lia.
  Qed.

