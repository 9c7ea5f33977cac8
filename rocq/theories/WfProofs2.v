(** Proofs about wavefunctions: Dicke states, validity, bit reversal. *)
From Coq Require Import String NArith Nnat Reals Lra Sorting.Permutation.
From Verif Require Import Base BaseFacts MatModel MatFacts LiftModel LiftProofs CircuitModel CircuitSpec Cplx WfModel WfSpec WfProofs.
Open Scope list_scope.
Local Open Scope nat_scope.

(** ** Lists *)
Lemma set_nth_length {A} i (a : A) l : length (set_nth i a l) = length l.
Proof. revert i. induction l as [|x l IH]; intros [|i]; cbn; auto. Qed.
Lemma set_nth_same {A} i (a : A) l : i < length l -> nth_error (set_nth i a l) i = Some a.
Proof. revert i. induction l as [|x l IH]; intros [|i] H; cbn in *; try lia; auto. apply IH. lia. Qed.
Lemma set_nth_other {A} i j (a : A) l : i <> j -> nth_error (set_nth i a l) j = nth_error l j.
Proof. revert i j. induction l as [|x l IH]; intros [|i] [|j] H; cbn; auto; try congruence. Qed.
Lemma set_nth_restore {A} i (a d : A) l : set_nth i (nth i l d) (set_nth i a l) = l.
Proof. revert i. induction l as [|x l IH]; intros [|i]; cbn; auto. rewrite IH. reflexivity. Qed.
Lemma nth_error_ext {A} (l1 l2 : list A) : (forall i, nth_error l1 i = nth_error l2 i) -> l1 = l2.
Proof.
  revert l2. induction l1 as [|x l1 IH]; intros [|y l2] H; auto.
  - specialize (H 0). discriminate.
  - specialize (H 0). discriminate.
  - f_equal; [specialize (H 0); cbn in H; congruence|]. apply IH. intros i. apply (H (S i)).
Qed.

(** ** Powers of two *)
Lemma count_one_pow l : count_ones l = 1 -> exists j, bval l = 2 ^ j.
Proof.
  induction l as [|b l IH]; cbn; [discriminate|]. destruct b; cbn.
  - intros [= H]. exists (length l). assert (bval l = 0).
    { clear -H. induction l as [|b l IH]; [auto|]. destruct b; cbn in *; [discriminate|auto]. } lia.
  - auto.
Qed.
Lemma count_zero l : count_ones l = 0 -> bval l = 0.
Proof. induction l as [|b l IH]; [auto|]. destruct b; cbn in *; [discriminate|auto]. Qed.
Lemma pow_count_one l j : bval l = 2 ^ j -> count_ones l = 1.
Proof.
  intros H. assert (J : j < length l).
  { pose proof (bval_lt l). rewrite H in H0. apply Nat.pow_lt_mono_r_iff in H0; lia. }
  assert (E : l = repeat false (length l - 1 - j) ++ true :: repeat false j).
  { apply bval_inj.
    - rewrite app_length. cbn [length]. rewrite !repeat_length. lia.
    - rewrite bval_app, bval_rep_false. cbn [bval length]. rewrite bval_rep_false, repeat_length. lia. }
  rewrite E, count_ones_app. cbn [count_ones]. rewrite !count_ones_rep_false. reflexivity.
Qed.
Lemma bin_digits_val i : bval (bin_digits (N.of_nat i)) = i.
Proof.
  destruct (bin_digits_spec (N.of_nat i) (S i)) as [H _]; [|lia|rewrite H; lia]. rewrite Nat2N.id.
  apply Nat.lt_trans with (S i); [lia|]. apply Nat.pow_gt_lin_r. lia.
Qed.
Lemma power_of_two_check i : count_ones (bin_digits (N.of_nat i)) = 1 <-> exists n, i = 2 ^ n.
Proof.
  split.
  - intros H. apply count_one_pow in H. rewrite bin_digits_val in H. auto.
  - intros (n & H). apply (pow_count_one _ n). rewrite bin_digits_val. auto.
Qed.
Lemma bin_digits_length i n : 1 <= n -> (length (bin_digits (N.of_nat i)) <= n <-> i < 2 ^ n).
Proof.
  intros Hn. split.
  - intros H. pose proof (bval_lt (bin_digits (N.of_nat i))). rewrite bin_digits_val in H0.
    apply Nat.lt_le_trans with (1 := H0). apply Nat.pow_le_mono_r; lia.
  - intros H. apply bin_digits_spec; [rewrite Nat2N.id; auto|auto].
Qed.

(** ** Enumeration of the weight-k indices *)
Definition weighted n k x := Nat.eqb (weight n x) k.
Lemma filter_none {A} (f : A -> bool) l : (forall x, In x l -> f x = false) -> filter f l = [].
Proof. induction l as [|x l IH]; intros H; cbn; [auto|]. rewrite (H x) by (left; auto). apply IH. intros; apply H; right; auto. Qed.
Lemma seq_split a b c : a <= b -> b <= c -> seq a (c - a) = seq a (b - a) ++ seq b (c - b).
Proof. intros. replace (c - a) with ((b - a) + (c - b)) by lia. rewrite seq_app. f_equal. f_equal. lia. Qed.

Lemma dicke_loop_spec n k : 1 <= n -> 1 <= k -> forall fuel v acc, v < 2 ^ n -> weight n v = k -> 2 ^ n - v < fuel ->
  dicke_loop fuel (Z.of_nat n) (Z.of_nat v) acc = Ok (acc ++ map Z.of_nat (filter (weighted n k) (seq (S v) (2 ^ n - S v)))).
Proof.
  intros Hn Hk. induction fuel as [|fuel IH]; intros v acc Hv Hw Hf; [lia|]. cbn [dicke_loop].
  destruct (next_number_spec n v) as (v' & Ev & Hlt & Hb & Hw' & Hmin); [lia|auto|]. rewrite Ev.
  unfold most_significant_set_bit. replace (Z.to_N (Z.of_nat v')) with (N.of_nat v') by lia.
  destruct (Z.leb_spec (Z.of_nat (length (bin_digits (N.of_nat v')))) (Z.of_nat n)) as [L|L]; cbn [negb].
  - assert (Hv' : v' < 2 ^ n) by (apply bin_digits_length; lia).
    assert (W : weight n v' = k).
    { cbn [weight] in Hw'. rewrite (Nat.div_small v') in Hw' by auto. cbn in Hw'. lia. }
    rewrite IH by (auto; lia). rewrite <- app_assoc. f_equal. f_equal.
    rewrite (seq_split (S v) v' (2 ^ n)) by lia. rewrite filter_app, (filter_none _ (seq (S v) (v' - S v))).
    + replace (2 ^ n - v') with (S (2 ^ n - S v')) by lia. cbn [seq filter app]. unfold weighted at 2. rewrite W, Nat.eqb_refl. reflexivity.
    + intros x Hx. apply in_seq in Hx. unfold weighted. apply Nat.eqb_neq. rewrite <- Hw. apply Hmin; lia.
  - assert (Hv' : 2 ^ n <= v') by (destruct (Nat.le_gt_cases (2 ^ n) v') as [|C']; [auto|]; apply (bin_digits_length _ n) in C'; lia).
    rewrite filter_none; [cbn; rewrite app_nil_r; reflexivity|].
    intros x Hx. apply in_seq in Hx. unfold weighted. apply Nat.eqb_neq. rewrite <- Hw. apply Hmin; lia.
Qed.

Lemma first_weight n k : 1 <= k <= n -> bval (repeat true k) < 2 ^ n /\ weight n (bval (repeat true k)) = k /\
  forall x, x < bval (repeat true k) -> x < 2 ^ n -> weight n x <> k.
Proof.
  intros Hk. assert (E : bval (repeat true k) = bval (repeat false (n - k) ++ repeat true k)) by (rewrite bval_repeat_false; reflexivity).
  split; [|split].
  - rewrite E. replace n with (length (repeat false (n - k) ++ repeat true k)) at 2 by (rewrite app_length, !repeat_length; lia). apply bval_lt.
  - rewrite E. replace n with (length (repeat false (n - k) ++ repeat true k)) at 1 by (rewrite app_length, !repeat_length; lia).
    rewrite weight_bval, count_ones_app, count_ones_rep_false, count_ones_rep_true. reflexivity.
  - intros x Hx Hn Hw. rewrite weight_bits in Hw. pose proof (bval_min (bits n x)). rewrite Hw, bval_bits_small in H by auto.
    rewrite bval_rep_true in Hx. lia.
Qed.

Lemma weight_shift n m i : m <= n -> weight m (2 ^ n + i) = weight m i.
Proof.
  induction m as [|m IH]; intros H; cbn; [auto|]. rewrite IH by lia. f_equal. f_equal.
  replace (2 ^ n + i) with (i + 2 ^ (n - m) * 2 ^ m) by (rewrite <- Nat.pow_add_r; replace (n - m + m) with n by lia; lia).
  rewrite Nat.div_add by (pose proof (pow2_pos m); lia). rewrite Nat.odd_add. replace (n - m) with (S (n - m - 1)) by lia.
  cbn [Nat.pow]. rewrite Nat.odd_mul. cbn. apply xorb_false_r.
Qed.
Lemma filter_map_comm {A B} (f : B -> bool) (g : A -> B) l : filter f (map g l) = map g (filter (fun x => f (g x)) l).
Proof. induction l as [|x l IH]; cbn; [auto|]. rewrite IH. destruct (f (g x)); reflexivity. Qed.
Lemma filter_length_ext {A} (f g : A -> bool) l : (forall x, In x l -> f x = g x) -> length (filter f l) = length (filter g l).
Proof. intros H. f_equal. apply filter_ext_in. auto. Qed.
Lemma div_one n x : x < 2 ^ n -> (2 ^ n + x) / 2 ^ n = 1.
Proof. intros H. symmetry. apply Nat.div_unique with x; lia. Qed.
Lemma count_weight n : forall k, length (filter (weighted n k) (seq 0 (2 ^ n))) = binomial n k.
Proof.
  induction n as [|n IH]; intros k.
  - destruct k; reflexivity.
  - replace (2 ^ S n) with (2 ^ n + 2 ^ n) by (cbn; lia). rewrite seq_app, filter_app, app_length. cbn [Nat.add].
    rewrite (filter_length_ext (weighted (S n) k) (weighted n k) (seq 0 (2 ^ n))).
    2:{ intros x Hx. apply in_seq in Hx. unfold weighted. cbn [weight]. rewrite Nat.div_small by lia. reflexivity. }
    assert (SH : seq (2 ^ n) (2 ^ n) = map (Nat.add (2 ^ n)) (seq 0 (2 ^ n))).
    { symmetry. apply map_seq_shift. }
    rewrite SH, filter_map_comm, map_length.
    rewrite IH. destruct k as [|k].
    + rewrite filter_none; [cbn [length binomial]; destruct n; cbn; lia|]. intros x Hx. apply in_seq in Hx. unfold weighted. cbn [weight].
      rewrite (div_one n x) by lia. reflexivity.
    + rewrite (filter_length_ext _ (weighted n k)).
      * rewrite IH. cbn [binomial]. lia.
      * intros x Hx. apply in_seq in Hx. unfold weighted. cbn [weight]. rewrite weight_shift by lia.
        rewrite (div_one n x) by lia. reflexivity.
Qed.
Lemma binomial_pos n : forall k, k <= n -> 0 < binomial n k.
Proof. induction n as [|n IH]; intros [|k] H; cbn; try lia. specialize (IH k). lia. Qed.

Lemma dicke_indices n k : 1 <= k <= n ->
  dicke_loop (S (2 ^ n)) (Z.of_nat n) (Z.of_nat (bval (repeat true k))) [Z.of_nat (bval (repeat true k))] =
  Ok (map Z.of_nat (filter (weighted n k) (seq 0 (2 ^ n)))).
Proof.
  intros Hk. destruct (first_weight n k Hk) as (H1 & H2 & H3). set (v := bval (repeat true k)) in *.
  rewrite (dicke_loop_spec n k) by lia. f_equal.
  pose proof (seq_split 0 v (2 ^ n) ltac:(lia) ltac:(lia)) as E. rewrite (Nat.sub_0_r (2 ^ n)) in E. rewrite E, filter_app, (filter_none _ (seq 0 (v - 0))).
  - replace (2 ^ n - v) with (S (2 ^ n - S v)) by lia. cbn [seq filter app]. unfold weighted at 2. rewrite H2, Nat.eqb_refl. reflexivity.
  - intros x Hx. apply in_seq in Hx. unfold weighted. apply Nat.eqb_neq. apply H3; lia.
Qed.

Lemma nth_error_combine_seq {A} (l : list A) : forall n i, nth_error (combine (seq n (length l)) l) i = option_map (fun x => (n + i, x)) (nth_error l i).
Proof.
  induction l as [|x l IH]; intros n [|i]; cbn; auto; [rewrite Nat.add_0_r; auto|]. rewrite IH. destruct (nth_error l i); cbn; [do 2 f_equal; lia|auto].
Qed.
Lemma fold_set_nth {A} (a : A) idx : forall l, fold_left (fun l i => set_nth (Z.to_nat i) a l) (map Z.of_nat idx) l =
  map (fun '(i, x) => if memb Nat.eqb i idx then a else x) (combine (seq 0 (length l)) l).
Proof.
  induction idx as [|j idx IH]; intros l.
  - cbn. change (l = map (fun '(i, x) => x) (combine (seq 0 (length l)) l)). generalize 0. induction l as [|x l IHl]; intros n; cbn; [auto|]. f_equal. apply IHl.
  - cbn [map fold_left]. rewrite Nat2Z.id, IH, set_nth_length. apply nth_error_ext. intros i. rewrite !nth_error_map.
    assert (G : forall l' : list A, length l' = length l -> nth_error (combine (seq 0 (length l)) l') i = match nth_error l' i with Some x => Some (i, x) | None => None end).
    { intros l' E. rewrite <- E, nth_error_combine_seq. destruct (nth_error l' i); reflexivity. }
    rewrite !G by (rewrite ?set_nth_length; auto). destruct (Nat.eq_dec j i) as [->|N].
    + destruct (nth_error l i) eqn:E.
      * rewrite set_nth_same by (apply nth_error_Some; congruence). cbn. rewrite Nat.eqb_refl. cbn. destruct (memb _ _ _); reflexivity.
      * assert (nth_error (set_nth i a l) i = None) as -> by (apply nth_error_None; rewrite set_nth_length; apply nth_error_None; auto). reflexivity.
    + rewrite set_nth_other by auto. destruct (nth_error l i); [|reflexivity]. cbn. destruct (Nat.eqb_spec i j); [congruence|]. reflexivity.
Qed.
Lemma fold_set_repeat {A} (a z : A) idx N : fold_left (fun l i => set_nth (Z.to_nat i) a l) (map Z.of_nat idx) (repeat z N) =
  map (fun i => if memb Nat.eqb i idx then a else z) (seq 0 N).
Proof.
  rewrite fold_set_nth, repeat_length. generalize 0. induction N as [|N IH]; intros n; cbn; [auto|]. f_equal. apply IH.
Qed.

(** ** Norms *)
Lemma sum_R_two (P : nat -> bool) (x : R) l : sum_R (map (fun i => if P i then x else 0%R) l) = (INR (length (filter P l)) * x)%R.
Proof. induction l as [|i l IH]; cbn [map sum_R filter length]; [cbn; lra|]. rewrite IH. destruct (P i); cbn [length]; rewrite ?S_INR; lra. Qed.
Lemma isclose1_1 : isclose1 1 = true.
Proof. unfold isclose1, isclose_tol. destruct (Rle_dec _ _) as [|N]; [auto|]. exfalso. apply N. rewrite Rminus_diag_eq, Rabs_R0 by auto. lra. Qed.
Lemma mk_wf_numbers F l : (exists n, length l = 2 ^ n) -> (forall e, In e l -> is_number e = true) -> prob_sum F l = 1%R ->
  mk_wf F l = Ok {| w_repr := RNumpy; w_amps := l |}.
Proof.
  intros H1 H2 H3. unfold mk_wf. apply power_of_two_check in H1. rewrite H1. cbn [Nat.eqb negb].
  replace (forallb is_number l) with true by (symmetry; apply forallb_forall; auto).
  cbn [check_normalization]. rewrite H3, isclose1_1. reflexivity.
Qed.
Lemma zero_state_spec F n : 1 <= n -> exists l, zero_state F (Z.of_nat n) = Ok {| w_repr := RNumpy; w_amps := l |} /\
  l = map (fun i => if Nat.eqb i 0 then ENum c1 else ENum c0) (seq 0 (2 ^ n)).
Proof.
  intros Hn. eexists. split; [|reflexivity]. unfold zero_state. destruct (Z.leb_spec (Z.of_nat n) 0); [lia|]. rewrite Nat2Z.id.
  assert (E : set_nth 0 (ENum c1) (repeat (ENum c0) (2 ^ n)) = map (fun i => if Nat.eqb i 0 then ENum c1 else ENum c0) (seq 0 (2 ^ n))).
  { pose proof (pow2_pos n). destruct (2 ^ n) as [|N]; [lia|]. cbn. f_equal. rewrite <- seq_shift, map_map. cbn [Nat.eqb]. clear. generalize 0. induction N as [|N IH]; intros k; cbn [seq map repeat]; [auto|]. f_equal. apply IH. }
  rewrite E. apply mk_wf_numbers.
  - exists n. rewrite map_length, seq_length. reflexivity.
  - intros e He. apply in_map_iff in He. destruct He as (i & <- & _). destruct (Nat.eqb i 0); reflexivity.
  - unfold prob_sum. rewrite map_map. rewrite (map_ext _ (fun i => if Nat.eqb i 0 then 1%R else 0%R)).
    2:{ intros i. destruct (Nat.eqb i 0); unfold amp_value; cbn; unfold cabs2; cbn; ring. }
    rewrite sum_R_two. pose proof (pow2_pos n). destruct (2 ^ n) as [|N]; [lia|]. cbn [seq filter Nat.eqb length].
    rewrite filter_none; [cbn; ring|]. intros x Hx. apply in_seq in Hx. apply Nat.eqb_neq. lia.
Qed.

Lemma sqrt_amp c : 0 < c -> cabs2 (rc (1 / sqrt (INR c))) = (1 / INR c)%R.
Proof.
  intros H. assert (0 < INR c)%R by (apply lt_0_INR; auto). unfold cabs2, rc. cbn.
  assert (sqrt (INR c) <> 0%R) by (apply Rgt_not_eq, sqrt_lt_R0; auto).
  replace (INR c) with (sqrt (INR c) * sqrt (INR c))%R at 3 by (apply sqrt_def; lra). field. auto.
Qed.
Lemma memb_filter_seq P N i : i < N -> memb Nat.eqb i (filter P (seq 0 N)) = P i.
Proof.
  intros H. destruct (P i) eqn:E.
  - apply memb_In; [exact Nat.eqb_eq|]. apply filter_In. split; [apply in_seq; lia|auto].
  - destruct (memb _ _ _) eqn:M; [|auto]. apply memb_In in M; [|exact Nat.eqb_eq]. apply filter_In in M. destruct M. congruence.
Qed.

Lemma dicke_spec F n k : 1 <= n -> k <= n -> exists w, dicke_state F (Z.of_nat n) (Z.of_nat k) = Ok w /\
  w_repr w = RNumpy /\
  w_amps w = map (fun i => ENum (if Nat.eqb (weight n i) k then rc (1 / sqrt (INR (binomial n k))) else c0)) (seq 0 (2 ^ n)).
Proof.
  intros Hn Hk. destruct (zero_state_spec F n Hn) as (z & Ez & Hz). unfold dicke_state. rewrite Ez. cbn [rbind].
  destruct (Z.ltb_spec (Z.of_nat k) 0); [lia|]. destruct (Z.ltb_spec (Z.of_nat n) (Z.of_nat k)); [lia|].
  destruct (Z.eqb_spec (Z.of_nat k) 0).
  - assert (k = 0) by lia. subst k. eexists. split; [reflexivity|]. split; [reflexivity|]. cbn [w_amps]. rewrite Hz. apply map_ext_in. intros i Hi. apply in_seq in Hi.
    assert (W : Nat.eqb (weight n i) 0 = Nat.eqb i 0).
    { destruct (Nat.eqb_spec i 0) as [->|N].
      - apply Nat.eqb_eq. clear. induction n; cbn; [auto|]. rewrite Nat.div_0_l by (pose proof (pow2_pos n); lia). auto.
      - apply Nat.eqb_neq. intros W. rewrite weight_bits in W. apply count_zero in W. rewrite bval_bits_small in W by lia. lia. }
    rewrite W. assert (binomial n 0 = 1) as -> by (destruct n; auto). destruct (Nat.eqb i 0); [|reflexivity].
    f_equal. change (INR 1) with 1%R. rewrite sqrt_1. unfold rc, c1. f_equal; lra.
  - rewrite !Nat2Z.id. rewrite dicke_indices by lia. cbn [rbind]. rewrite map_length, count_weight.
    rewrite fold_set_repeat. set (a := rc (1 / sqrt (INR (binomial n k)))).
    assert (E : map (fun i => if memb Nat.eqb i (filter (weighted n k) (seq 0 (2 ^ n))) then ENum a else ENum c0) (seq 0 (2 ^ n)) =
                map (fun i => ENum (if Nat.eqb (weight n i) k then a else c0)) (seq 0 (2 ^ n))).
    { apply map_ext_in. intros i Hi. apply in_seq in Hi. rewrite memb_filter_seq by lia. unfold weighted. destruct (Nat.eqb _ _); reflexivity. }
    rewrite E. rewrite mk_wf_numbers; [eexists; split; [reflexivity|split; reflexivity]| | |].
    + exists n. rewrite map_length, seq_length. reflexivity.
    + intros e He. apply in_map_iff in He. destruct He as (i & <- & _). reflexivity.
    + unfold prob_sum. rewrite map_map. rewrite (map_ext _ (fun i => if weighted n k i then cabs2 a else 0%R)).
      2:{ intros i. unfold weighted, amp_value. cbn [eval i_num]. destruct (Nat.eqb _ _); [reflexivity|]. unfold cabs2, c0. cbn. ring. }
      rewrite sum_R_two, count_weight. assert (P := binomial_pos n k Hk). unfold a. rewrite sqrt_amp by auto.
      field. apply Rgt_not_eq, lt_0_INR. auto.
Qed.

(** ** Validity *)
Lemma is_number_syms e : is_number e = true <-> expr_syms e = [].
Proof. unfold is_number. destruct (expr_syms e); split; congruence. Qed.
Lemma free_symbols_nil l : wf_free_symbols l = [] <-> forall e, In e l -> expr_syms e = [].
Proof.
  unfold wf_free_symbols. split.
  - intros H e He. destruct (expr_syms e) as [|s t] eqn:E; [auto|]. assert (I : In s (flat_map expr_syms l)) by (apply in_flat_map; exists e; split; [auto|rewrite E; left; auto]).
    rewrite H in I. destruct I.
  - intros H. induction l as [|e l IH]; cbn; [auto|]. rewrite (H e) by (left; auto). apply IH. intros; apply H; right; auto.
Qed.
Section Val.
  Context (Orc : sympy_oracle C) (F : string -> list C -> C).
  Lemma prob_filter w : prob_sum F (filter is_number (w_amps w)) = numeric_probability F w.
  Proof.
    unfold numeric_probability, prob_sum. induction (w_amps w) as [|e l IH]; cbn [filter map sum_R fold_right]; [auto|].
    unfold is_number at 1. destruct (expr_syms e); cbn [map sum_R]; rewrite IH; [reflexivity|]. lra.
  Qed.
  Lemma prob_all w : all_numeric w -> prob_sum F (w_amps w) = numeric_probability F w.
  Proof.
    unfold all_numeric, numeric_probability, prob_sum. induction (w_amps w) as [|e l IH]; intros H; cbn [map sum_R fold_right]; [auto|].
    rewrite (H e) by (left; auto). rewrite IH by (intros; apply H; right; auto). reflexivity.
  Qed.
  Lemma tol_eq : isclose_tol = 1.001e-5%R.
  Proof. unfold isclose_tol. lra. Qed.
  Definition norm_ok (w : wavefunction) : Prop :=
    (all_numeric w -> (Rabs (numeric_probability F w - 1) <= 1.001e-5)%R) /\ (~ all_numeric w -> (numeric_probability F w <= 1)%R).
  Definition repr_ok (w : wavefunction) : Prop := w_repr w = RNumpy -> all_numeric w.
  Lemma check_spec w : repr_ok w -> check_normalization F (w_repr w) (w_amps w) = if match w_repr w with RNumpy => true | RSympy => match wf_free_symbols (w_amps w) with [] => true | _ => false end end then
      (if isclose1 (numeric_probability F w) then Ok tt else Err ValueError) else (if Rlt_dec 1 (numeric_probability F w) then Err ValueError else Ok tt).
  Proof.
    intros HR. unfold check_normalization. destruct (w_repr w) eqn:E.
    - rewrite prob_all by (apply HR; auto). reflexivity.
    - destruct (wf_free_symbols (w_amps w)) eqn:E2.
      + rewrite prob_all by (exact (proj1 (free_symbols_nil _) E2)). reflexivity.
      + rewrite prob_filter. reflexivity.
  Qed.
  Lemma full_spec w : repr_ok w -> match w_repr w with RNumpy => true | RSympy => match wf_free_symbols (w_amps w) with [] => true | _ => false end end = true <-> all_numeric w.
  Proof.
    intros HR. unfold all_numeric. destruct (w_repr w) eqn:E.
    - split; [intros _; apply HR; auto|auto].
    - rewrite <- free_symbols_nil. destruct (wf_free_symbols (w_amps w)); split; congruence.
  Qed.
  Lemma check_ok w : repr_ok w -> (check_normalization F (w_repr w) (w_amps w) = Ok tt <-> norm_ok w).
  Proof.
    intros HR. rewrite (check_spec w HR). pose proof (full_spec w HR) as FS. destruct (match w_repr w with RNumpy => true | RSympy => _ end) eqn:B.
    - assert (A : all_numeric w) by (apply FS; auto). unfold norm_ok, isclose1. rewrite tol_eq. destruct (Rle_dec _ _); split; try congruence; try tauto.
    - assert (A : ~ all_numeric w) by (intros A; apply FS in A; discriminate). unfold norm_ok. destruct (Rlt_dec _ _); split; try congruence; try tauto.
      + intros [_ H]. specialize (H A). lra.
      + intros _. split; [tauto|]. intros _. lra.
  Qed.
  Lemma check_err r l e : check_normalization F r l = Err e -> e = ValueError.
  Proof.
    unfold check_normalization. destruct (match r with RNumpy => true | RSympy => _ end).
    - destruct (isclose1 _); congruence.
    - destruct (Rlt_dec _ _); congruence.
  Qed.
  Lemma mk_wf_inv arr w : mk_wf F arr = Ok w -> w_amps w = arr /\ (exists n, length arr = 2 ^ n) /\ repr_ok w /\ norm_ok w.
  Proof.
    unfold mk_wf. destruct (Nat.eqb_spec (count_ones (bin_digits (N.of_nat (length arr)))) 1) as [E|E]; cbn [negb]; [|discriminate].
    destruct (check_normalization F _ arr) as [[]|] eqn:Ck; cbn [rbind]; [|discriminate]. intros [= <-]. split; [reflexivity|].
    split; [apply power_of_two_check; auto|].
    match goal with |- repr_ok ?w /\ _ => assert (HR : repr_ok w) end.
    { intros H. cbn [w_repr] in H. destruct (forallb is_number arr) eqn:FB; [|discriminate]. rewrite forallb_forall in FB.
      intros e He. apply is_number_syms. auto. }
    split; [auto|]. apply check_ok; auto.
  Qed.
  Lemma mk_wf_total arr n : length arr = 2 ^ n -> (forall r, norm_ok {| w_repr := r; w_amps := arr |}) -> exists w, mk_wf F arr = Ok w /\ w_amps w = arr.
  Proof.
    intros HL HN. unfold mk_wf. rewrite (proj2 (power_of_two_check _)) by eauto. cbn [Nat.eqb negb].
    set (r := if forallb is_number arr then RNumpy else RSympy).
    assert (HR : repr_ok {| w_repr := r; w_amps := arr |}).
    { intros H. cbn [w_repr] in H. unfold r in H. destruct (forallb is_number arr) eqn:FB; [|discriminate]. rewrite forallb_forall in FB.
      intros e He. apply is_number_syms. auto. }
    pose proof (proj2 (check_ok _ HR) (HN r)) as Ck. cbn [w_repr w_amps] in Ck. rewrite Ck. cbn [rbind]. eexists; split; reflexivity.
  Qed.
  Lemma mk_wf_err arr e : mk_wf F arr = Err e -> e = ValueError.
  Proof.
    unfold mk_wf. destruct (negb _); [congruence|]. destruct (check_normalization F _ arr) as [[]|] eqn:Ck; cbn [rbind]; [discriminate|].
    intros [= <-]. eapply check_err; eauto.
  Qed.
  Lemma set_repr_ok w i v : repr_ok w -> (w_repr w = RNumpy -> expr_syms v = []) -> repr_ok {| w_repr := w_repr w; w_amps := set_nth i v (w_amps w) |}.
  Proof.
    intros HR HV H e He. cbn [w_repr w_amps] in *. specialize (HR H). specialize (HV H). unfold all_numeric in HR. revert HR He. generalize (w_amps w) as l.
    intros l. revert i. induction l as [|x l IH]; intros [|i] HR He; cbn in *; auto.
    - destruct He as [<-|He]; auto.
    - destruct He as [<-|He]; auto. eapply IH; eauto.
  Qed.
  Lemma setitem_fail w i v w' e : wf_setitem F w i v = (w', Err e) -> w' = w.
  Proof.
    unfold wf_setitem. destruct (py_index _ i) as [j|]; [|congruence]. destruct (match w_repr w with RNumpy => _ | RSympy => _ end); [congruence|]. cbv zeta. cbn [w_repr w_amps].
    destruct (check_normalization F _ _) as [[]|e'] eqn:Ck; [congruence|]. apply check_err in Ck as ->. rewrite set_nth_restore. intros [= <- <-]. destruct w; reflexivity.
  Qed.
  Lemma setitem_ok w i v w' : repr_ok w -> wf_setitem F w i v = (w', Ok tt) ->
    exists j, py_index (length (w_amps w)) i = Some j /\ w_amps w' = set_nth j v (w_amps w) /\ repr_ok w' /\ norm_ok w'.
  Proof.
    intros HR. unfold wf_setitem. destruct (py_index _ i) as [j|]; [|congruence]. destruct (match w_repr w with RNumpy => _ | RSympy => _ end) eqn:B; [congruence|]. cbv zeta. cbn [w_repr w_amps].
    assert (HR' : repr_ok {| w_repr := w_repr w; w_amps := set_nth j v (w_amps w) |}).
    { apply set_repr_ok; auto. intros E. rewrite E in B. apply is_number_syms. destruct (is_number v); auto. }
    destruct (check_normalization F _ _) as [[]|e'] eqn:Ck.
    - intros [= <-]. exists j. split; [auto|]. split; [reflexivity|]. split; [auto|]. apply check_ok; auto.
    - apply check_err in Ck as ->. congruence.
  Qed.
  Lemma reachable_inv w : reachable Orc F w -> (exists n, length (w_amps w) = 2 ^ n) /\ repr_ok w /\ norm_ok w.
  Proof.
    induction 1 as [arr w H|w i v w' r Hr IH H|w m w' Hr IH H].
    - apply mk_wf_inv in H. destruct H as (E & L & HR & HN). rewrite E. auto.
    - destruct r as [[]|e].
      + destruct (setitem_ok w i v w') as (j & _ & E & HR & HN); [tauto|auto|]. rewrite E, set_nth_length. tauto.
      + apply setitem_fail in H as ->. auto.
    - unfold wf_bind in H. destruct (wf_free_symbols (w_amps w)); [injection H as <-; auto|]. destruct (w_repr w); [discriminate|].
      apply mk_wf_inv in H. destruct H as (E & L & HR & HN). rewrite E. auto.
  Qed.
End Val.

(** ** Bit reversal *)
Lemma rev_bits_lt n i : reverse_bits n i < 2 ^ n.
Proof. unfold reverse_bits. pose proof (bval_lt (rev (bits n i))) as H. rewrite rev_length, bits_length in H. auto. Qed.
Lemma rev_bits_inv n i : i < 2 ^ n -> reverse_bits n (reverse_bits n i) = i.
Proof.
  intros H. unfold reverse_bits at 1. unfold reverse_bits. rewrite bits_bval_n by (rewrite rev_length; apply bits_length).
  rewrite rev_involutive. apply bval_bits_small; auto.
Qed.
Lemma flip_bits_spec n i : i < 2 ^ n -> flip_bits i n = reverse_bits n i.
Proof.
  intros H. unfold flip_bits, reverse_bits. destruct n as [|n].
  - cbn in H. assert (i = 0) by lia. subst. reflexivity.
  - change (zfill (S n) (bin_digits (N.of_nat i))) with (basis_bitstring i (S n)). rewrite basis_bitstring_bits by lia. reflexivity.
Qed.
Lemma bit_length_pow n : bit_length (2 ^ n) - 1 = n.
Proof.
  pose proof (pow2_pos n). unfold bit_length. destruct (2 ^ n) as [|N] eqn:E; [lia|]. rewrite <- E.
  assert (length (bin_digits (N.of_nat (2 ^ n))) <= S n) by (apply bin_digits_length; [lia|apply Nat.pow_lt_mono_r; lia]).
  destruct n as [|n]; [reflexivity|].
  assert (~ length (bin_digits (N.of_nat (2 ^ S n))) <= S n). { intros G. apply bin_digits_length in G; lia. } lia.
Qed.
Lemma mapM_get {A} (l : list A) (d : A) idx : (forall i, In i idx -> i < length l) ->
  mapM (fun i => match nth_error l i with Some a => Ok a | None => Err IndexError end) idx = Ok (map (fun i => nth i l d) idx).
Proof.
  induction idx as [|i idx IH]; intros H; cbn; [auto|]. rewrite (nth_error_nth' l d) by (apply H; left; auto). cbn.
  rewrite IH by (intros; apply H; right; auto). reflexivity.
Qed.
Lemma flip_spec {A} (l : list A) n d : length l = 2 ^ n -> flip_amplitudes l = Ok (map (fun i => nth (reverse_bits n i) l d) (seq 0 (2 ^ n))).
Proof.
  intros H. unfold flip_amplitudes. rewrite H, bit_length_pow.
  rewrite (map_ext_in _ (reverse_bits n)) by (intros i Hi; apply in_seq in Hi; apply flip_bits_spec; lia).
  rewrite (mapM_get l d); [rewrite map_map; reflexivity|]. intros i Hi. apply in_map_iff in Hi. destruct Hi as (j & <- & _). rewrite H. apply rev_bits_lt.
Qed.
Lemma rev_bits_perm n : Permutation (map (reverse_bits n) (seq 0 (2 ^ n))) (seq 0 (2 ^ n)).
Proof.
  apply NoDup_Permutation_bis.
  - apply NoDup_map_in; [|apply seq_NoDup]. intros a b Ha Hb E. apply in_seq in Ha, Hb. rewrite <- (rev_bits_inv n a), <- (rev_bits_inv n b) by lia. congruence.
  - rewrite map_length. lia.
  - intros x Hx. apply in_map_iff in Hx. destruct Hx as (j & <- & _). apply in_seq. pose proof (rev_bits_lt n j). lia.
Qed.
Lemma map_nth_seq' {A} (l : list A) d : map (fun i => nth i l d) (seq 0 (length l)) = l.
Proof. apply map_nth_seq. Qed.
