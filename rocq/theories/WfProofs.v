(** Proofs about wavefunctions. *)
From Coq Require Import String Reals Lra Sorting.Permutation.
From Verif Require Import Base BaseFacts MatModel MatFacts LiftModel LiftProofs CircuitModel CircuitSpec Cplx WfModel WfSpec.
Open Scope list_scope.
Local Open Scope nat_scope.

(** ** Bit counts *)
Lemma count_ones_app a b : count_ones (a ++ b) = count_ones a + count_ones b.
Proof. induction a as [|x a IH]; cbn; [auto|]. rewrite IH. lia. Qed.
Lemma count_ones_le l : count_ones l <= length l.
Proof. induction l as [|b l IH]; cbn; [auto|]. destruct b; lia. Qed.
Lemma count_ones_rep_true m : count_ones (repeat true m) = m.
Proof. induction m; cbn; auto. Qed.
Lemma count_ones_rep_false m : count_ones (repeat false m) = 0.
Proof. induction m; cbn; auto. Qed.
Lemma weight_bits n i : weight n i = count_ones (bits n i).
Proof. induction n as [|n IH]; cbn; [auto|]. rewrite IH. destruct (Nat.odd _); reflexivity. Qed.
Lemma weight_bval l : weight (length l) (bval l) = count_ones l.
Proof. rewrite weight_bits, bits_bval. reflexivity. Qed.
Lemma bval_rep_true m : bval (repeat true m) = 2 ^ m - 1.
Proof. induction m as [|m IH]; cbn [repeat bval]; [auto|]. rewrite repeat_length, IH. cbn. pose proof (pow2_pos m). lia. Qed.
Lemma bval_rep_false m : bval (repeat false m) = 0.
Proof. induction m; cbn; auto. Qed.

(** largest and smallest number with given weight *)
Lemma bval_max x : forall m j, count_ones x = m -> length x = m + j -> bval x <= (2 ^ m - 1) * 2 ^ j.
Proof.
  induction x as [|b x IH]; intros m j Hc Hl; cbn in *; [apply Nat.le_0_l|]. destruct b.
  - destruct m as [|m]; [lia|]. specialize (IH m j ltac:(lia) ltac:(lia)). replace (length x) with (m + j) by lia.
    rewrite Nat.pow_add_r. cbn [Nat.pow]. pose proof (pow2_pos m). pose proof (pow2_pos j). nia.
  - pose proof (count_ones_le x). destruct j as [|j]; [lia|]. specialize (IH m j ltac:(lia) ltac:(lia)). cbn [Nat.pow]. nia.
Qed.
Lemma bval_min s : 2 ^ count_ones s - 1 <= bval s.
Proof.
  induction s as [|b s IH]; cbn; [auto|]. destruct b; cbn [Nat.add Nat.pow]; [|lia].
  pose proof (count_ones_le s). assert (2 ^ count_ones s <= 2 ^ length s) by (apply Nat.pow_le_mono_r; lia). lia.
Qed.

(** ** The next number with the same weight *)
Lemma lor_low a r j : (0 <= j -> 0 <= r < 2 ^ j -> Z.lor (a * 2 ^ j) r = a * 2 ^ j + r)%Z.
Proof.
  intros Hj Hr. assert (L : Z.land (a * 2 ^ j) r = 0%Z).
  { apply Z.bits_inj'. intros i Hi. rewrite Z.land_spec, Z.bits_0, <- Z.shiftl_mul_pow2, Z.shiftl_spec by lia.
    destruct (Z.ltb_spec i j).
    - rewrite (Z.testbit_neg_r a) by lia. reflexivity.
    - replace (Z.testbit r i) with false; [apply andb_false_r|]. symmetry. destruct (Z.eq_dec r 0) as [->|]; [apply Z.bits_0|].
      apply Z.bits_above_log2; [lia|]. assert (Z.log2 r < j)%Z by (apply Z.log2_lt_pow2; lia). lia. }
  rewrite <- (Z.lxor_lor _ _ L). symmetry. apply Z.add_nocarry_lxor. auto.
Qed.
Lemma testbit_odd_shift b j i : (0 <= j -> 0 <= i -> Z.testbit ((2 * b + 1) * 2 ^ j) i = if i <? j then false else if i =? j then true else Z.testbit b (i - j - 1))%Z.
Proof.
  intros Hj Hi. rewrite <- Z.shiftl_mul_pow2, Z.shiftl_spec by lia. destruct (Z.ltb_spec i j); [apply Z.testbit_neg_r; lia|].
  destruct (Z.eqb_spec i j) as [->|].
  - rewrite Z.sub_diag. apply Z.testbit_odd_0.
  - replace (i - j)%Z with (Z.succ (i - j - 1))%Z at 1 by lia. apply Z.testbit_odd_succ. lia.
Qed.
Lemma testbit_odd_shift_pred b j i : (0 <= j -> 0 <= i -> Z.testbit ((2 * b + 1) * 2 ^ j - 1) i = if i <? j then true else if i =? j then false else Z.testbit b (i - j - 1))%Z.
Proof.
  intros Hj Hi. replace ((2 * b + 1) * 2 ^ j - 1)%Z with ((2 * b) * 2 ^ j + (2 ^ j - 1))%Z by ring.
  assert (0 < 2 ^ j)%Z by (apply Z.pow_pos_nonneg; lia).
  rewrite <- lor_low by lia. rewrite Z.lor_spec, <- Z.shiftl_mul_pow2, Z.shiftl_spec by lia.
  replace (2 ^ j - 1)%Z with (Z.ones j) by (rewrite Z.ones_equiv; lia).
  destruct (Z.ltb_spec i j).
  - rewrite Z.ones_spec_low by lia. apply orb_true_r.
  - rewrite Z.ones_spec_high by lia. rewrite orb_false_r. destruct (Z.eqb_spec i j) as [->|].
    + rewrite Z.sub_diag. apply Z.testbit_even_0.
    + replace (i - j)%Z with (Z.succ (i - j - 1))%Z at 1 by lia. apply Z.testbit_even_succ. lia.
Qed.
Lemma lowest_bit b j : (0 <= j -> Z.land ((2 * b + 1) * 2 ^ j) (- ((2 * b + 1) * 2 ^ j)) = 2 ^ j)%Z.
Proof.
  intros Hj. apply Z.bits_inj'. intros i Hi. rewrite Z.land_spec.
  replace (- ((2 * b + 1) * 2 ^ j))%Z with (Z.lnot ((2 * b + 1) * 2 ^ j - 1)) by (unfold Z.lnot; lia).
  rewrite Z.lnot_spec, testbit_odd_shift, testbit_odd_shift_pred by lia.
  destruct (Z.ltb_spec i j).
  - rewrite Z.pow2_bits_false by lia. reflexivity.
  - destruct (Z.eqb_spec i j) as [->|]; [rewrite Z.pow2_bits_true by lia; reflexivity|]. rewrite Z.pow2_bits_false by lia.
    destruct (Z.testbit b _); reflexivity.
Qed.
Lemma fill_trailing b j : (0 <= j -> Z.lor ((2 * b + 1) * 2 ^ j) ((2 * b + 1) * 2 ^ j - 1) = (2 * b + 1) * 2 ^ j + 2 ^ j - 1)%Z.
Proof.
  intros Hj. assert (0 < 2 ^ j)%Z by (apply Z.pow_pos_nonneg; lia).
  replace ((2 * b + 1) * 2 ^ j + 2 ^ j - 1)%Z with ((2 * b + 1) * 2 ^ j + (2 ^ j - 1))%Z by lia. rewrite <- lor_low by lia.
  apply Z.bits_inj'. intros i Hi. rewrite !Z.lor_spec, testbit_odd_shift, testbit_odd_shift_pred by lia.
  replace (2 ^ j - 1)%Z with (Z.ones j) by (rewrite Z.ones_equiv; lia).
  destruct (Z.ltb_spec i j); [rewrite Z.ones_spec_low by lia; reflexivity|]. rewrite Z.ones_spec_high by lia.
  destruct (Z.eqb i j); [reflexivity|]. destruct (Z.testbit b _); reflexivity.
Qed.

Lemma next_number_arith A m j : (0 <= A -> 1 <= m -> 0 <= j ->
  next_number (A * 2 ^ (m + j + 1) + (2 ^ m - 1) * 2 ^ j) = A * 2 ^ (m + j + 1) + 2 ^ (m + j) + (2 ^ (m - 1) - 1))%Z.
Proof.
  intros HA Hm Hj. assert (0 < 2 ^ j)%Z by (apply Z.pow_pos_nonneg; lia). assert (0 < 2 ^ (m - 1))%Z by (apply Z.pow_pos_nonneg; lia).
  assert (E2 : (2 ^ m = 2 * 2 ^ (m - 1))%Z) by (rewrite <- Z.pow_succ_r by lia; f_equal; lia).
  assert (EV : (A * 2 ^ (m + j + 1) + (2 ^ m - 1) * 2 ^ j = (2 * (A * 2 ^ m + 2 ^ (m - 1) - 1) + 1) * 2 ^ j)%Z).
  { replace (m + j + 1)%Z with (1 + m + j)%Z by lia. rewrite !Z.pow_add_r by lia. rewrite E2. ring. }
  unfold next_number. rewrite EV. rewrite fill_trailing, lowest_bit by lia. rewrite <- EV.
  assert (ET : (A * 2 ^ (m + j + 1) + (2 ^ m - 1) * 2 ^ j + 2 ^ j - 1 + 1 = (2 * A + 1) * 2 ^ (m + j))%Z).
  { replace (m + j + 1)%Z with (1 + m + j)%Z by lia. rewrite !Z.pow_add_r by lia. ring. }
  rewrite ET. rewrite lowest_bit by lia.
  assert (ED : (2 ^ (m + j) / 2 ^ j = 2 ^ m)%Z) by (rewrite Z.pow_add_r, Z.div_mul by lia; reflexivity).
  assert (ES : (Z.shiftr (2 ^ m) 1 = 2 ^ (m - 1))%Z).
  { rewrite Z.shiftr_div_pow2 by lia. change (2 ^ 1)%Z with 2%Z. rewrite E2, Z.mul_comm, Z.div_mul by lia. reflexivity. }
  rewrite ED, ES.
  rewrite lor_low.
  - replace (m + j + 1)%Z with (1 + (m + j))%Z by lia. rewrite (Z.pow_add_r 2 1) by lia. ring.
  - lia.
  - split; [lia|]. assert (2 ^ (m - 1) <= 2 ^ (m + j))%Z by (apply Z.pow_le_mono_r; lia). lia.
Qed.

(** Every bit list with a leading 0 and a one somewhere ends in 0 1...1 0...0. *)
Lemma split_low_block l : 1 <= count_ones l -> exists a m j, 1 <= m /\ false :: l = a ++ false :: repeat true m ++ repeat false j.
Proof.
  assert (G : forall l, count_ones (rev l) >= 1 -> exists a m j, 1 <= m /\ false :: rev l = a ++ false :: repeat true m ++ repeat false j).
  { clear l. induction l as [|b l IH]; cbn [rev]; [cbn; lia|]. rewrite count_ones_app. cbn [count_ones]. intros H. destruct b.
    - assert (Hs : forall l, exists a m, false :: rev l = a ++ false :: repeat true m).
      { clear. induction l as [|b l (a & m & E)]; [exists [], 0; reflexivity|]. cbn [rev]. destruct b.
        - exists a, (S m). rewrite app_comm_cons, E, <- app_assoc. cbn [app]. f_equal. f_equal. change [true] with (repeat true 1).
          rewrite <- repeat_app. f_equal. lia.
        - exists (false :: rev l), 0. reflexivity. }
      destruct (Hs l) as (a & m & E). exists a, (S m), 0. split; [lia|]. rewrite app_comm_cons, E, <- app_assoc. cbn [app repeat]. rewrite app_nil_r.
      f_equal. f_equal. change [true] with (repeat true 1). rewrite <- repeat_app. rewrite Nat.add_1_r. reflexivity.
    - destruct IH as (a & m & j & Hm & E); [lia|]. exists a, m, (S j). split; [auto|]. rewrite app_comm_cons, E.
      rewrite <- app_assoc. cbn [app]. f_equal. f_equal. rewrite <- app_assoc. f_equal. change [false] with (repeat false 1). rewrite <- repeat_app. f_equal. lia. }
  intros H. specialize (G (rev l)). rewrite rev_involutive in G. apply G. lia.
Qed.

Lemma next_number_spec n v : 1 <= weight n v -> v < 2 ^ n ->
  exists v', next_number (Z.of_nat v) = Z.of_nat v' /\ v < v' /\ v' < 2 ^ S n /\ weight (S n) v' = weight n v /\
    forall x, v < x -> x < v' -> x < 2 ^ n -> weight n x <> weight n v.
Proof.
  intros Hw Hv. rewrite weight_bits in Hw. destruct (split_low_block _ Hw) as (a & m & j & Hm & E).
  assert (Hval : v = bval (a ++ false :: repeat true m ++ repeat false j)).
  { rewrite <- E. cbn [bval]. rewrite bval_bits_small; auto. }
  assert (Hlen : S n = length a + (1 + m + j)).
  { apply (f_equal (@length _)) in E. cbn [length] in E. rewrite bits_length, app_length in E. cbn [length] in E. rewrite app_length, !repeat_length in E. lia. }
  assert (Hv' : v = bval a * 2 ^ (m + j + 1) + (2 ^ m - 1) * 2 ^ j).
  { rewrite Hval, bval_app. cbn [length bval]. rewrite !app_length, !repeat_length, bval_app, bval_rep_false, bval_rep_true, repeat_length.
    replace (S (m + j)) with (m + j + 1) by lia. lia. }
  set (nx := a ++ true :: repeat false (j + 1) ++ repeat true (m - 1)).
  assert (Lnx : length nx = S n).
  { unfold nx. rewrite app_length. cbn [length]. rewrite app_length, !repeat_length. lia. }
  assert (Vnx : bval nx = bval a * 2 ^ (m + j + 1) + 2 ^ (m + j) + (2 ^ (m - 1) - 1)).
  { unfold nx. rewrite bval_app. cbn [length bval]. rewrite !app_length, !repeat_length, bval_app, bval_rep_false, bval_rep_true, repeat_length.
    replace (S (j + 1 + (m - 1))) with (m + j + 1) by lia. replace (j + 1 + (m - 1)) with (m + j) by lia. lia. }
  pose proof (pow2_pos j) as Pj. pose proof (pow2_pos m) as Pm. pose proof (pow2_pos (m - 1)) as Pm1.
  assert (Pmj : 2 ^ (m + j) = 2 ^ m * 2 ^ j) by apply Nat.pow_add_r.
  assert (Pmj1 : 2 ^ (m + j + 1) = 2 * 2 ^ (m + j)) by (rewrite (Nat.add_comm (m + j)); reflexivity).
  assert (Pm2 : 2 ^ m = 2 * 2 ^ (m - 1)) by (replace m with (S (m - 1)) at 1 by lia; reflexivity).
  assert (Wv : weight n v = count_ones a + m).
  { rewrite weight_bits. apply (f_equal count_ones) in E. cbn [count_ones] in E. rewrite count_ones_app in E. cbn [count_ones] in E.
    rewrite count_ones_app, count_ones_rep_true, count_ones_rep_false in E. lia. }
  exists (bval nx). split; [|split; [|split; [|split]]].
  - rewrite Hv'. rewrite !Nat2Z.inj_add, !Nat2Z.inj_mul, Nat2Z.inj_sub by lia. rewrite !Nat2Z.inj_pow.
    change (Z.of_nat 2) with 2%Z. change (Z.of_nat 1) with 1%Z. rewrite !Nat2Z.inj_add. change (Z.of_nat 1) with 1%Z.
    rewrite next_number_arith by lia. rewrite Vnx.
    rewrite !Nat2Z.inj_add, !Nat2Z.inj_mul, Nat2Z.inj_sub by lia. rewrite !Nat2Z.inj_pow, !Nat2Z.inj_add, Nat2Z.inj_sub by lia. reflexivity.
  - rewrite Hv', Vnx, Pmj. nia.
  - rewrite <- Lnx. apply bval_lt.
  - rewrite <- Lnx, weight_bval, Wv. unfold nx. rewrite count_ones_app. cbn [count_ones]. rewrite count_ones_app, count_ones_rep_true, count_ones_rep_false. lia.
  - intros x H1 H2 H3 Hx.
    set (lx := false :: bits n x).
    assert (Lx : length lx = S n) by (cbn; rewrite bits_length; auto).
    assert (Vx : bval lx = x) by (cbn [lx bval]; rewrite bval_bits_small; auto).
    assert (Cx : count_ones lx = count_ones a + m) by (cbn [lx count_ones]; rewrite <- weight_bits; lia).
    rewrite <- (firstn_skipn (length a) lx) in Vx, Cx. set (p := firstn (length a) lx) in *. set (r := skipn (length a) lx) in *.
    assert (Lp : length p = length a) by (unfold p; rewrite firstn_length; lia).
    assert (Lr : length r = 1 + m + j) by (unfold r; rewrite skipn_length; lia).
    rewrite bval_app, Lr in Vx. rewrite count_ones_app in Cx. pose proof (bval_lt r) as Br. rewrite Lr in Br.
    replace (1 + m + j) with (m + j + 1) in * by lia.
    assert (P : bval p = bval a).
    { rewrite Vnx in H2. rewrite Hv' in H1. assert (2 ^ (m - 1) <= 2 ^ (m + j)) by (apply Nat.pow_le_mono_r; lia). nia. }
    assert (p = a) by (apply bval_inj; auto). subst p. rewrite H in *. clear P.
    assert (Cr : count_ones r = m) by lia.
    destruct r as [|b s]; [cbn in Lr; lia|]. cbn [length count_ones bval] in *.
    assert (Ls : length s = m + j) by lia. rewrite Ls in *. destruct b.
    + pose proof (bval_min s) as Bs. replace (count_ones s) with (m - 1) in Bs by lia. rewrite Vnx in H2. lia.
    + pose proof (bval_max s m j ltac:(lia) ltac:(lia)) as Bs. rewrite Hv' in H1. lia.
Qed.
