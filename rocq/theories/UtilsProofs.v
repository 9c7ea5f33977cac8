(** Proofs about utils.py. *)
From Coq Require Import String Ascii NArith Nnat QArith Qround Qabs Lqa DecimalString Sorting.Permutation.
From Verif Require Import Base BaseFacts MatModel MatFacts LiftModel LiftProofs WfModel WfProofs WfProofs2 Json UtilsModel UtilsSpec.
Local Open Scope list_scope.
Local Open Scope nat_scope.

(** *** binary numbers *)
Definition b2z (b : bool) : Z := if b then 1%Z else 0%Z.
Lemma number_of_snoc l b : number_of (l ++ [b]) = (2 * number_of l + b)%Z.
Proof. unfold number_of. rewrite fold_left_app. reflexivity. Qed.
Lemma bin2dec_loop_spec rx : forall dec coeff, bin2dec_loop rx dec coeff = (dec + coeff * number_of (rev rx))%Z.
Proof.
  induction rx as [|x rx IH]; intros dec coeff; cbn [bin2dec_loop rev].
  - unfold number_of. cbn. lia.
  - rewrite IH, number_of_snoc. lia.
Qed.
Lemma bin2dec_spec l : bin2dec l = number_of l.
Proof. unfold bin2dec. rewrite bin2dec_loop_spec, rev_involutive. lia. Qed.
Lemma number_of_bits l : number_of (map b2z l) = Z.of_nat (bval l).
Proof.
  induction l as [|b l IH] using rev_ind; [reflexivity|].
  rewrite map_app. cbn [map]. rewrite number_of_snoc, IH, bval_app. cbn [length Nat.pow]. destruct b; cbn [b2z bval Nat.b2n length Nat.pow]; lia.
Qed.
Lemma binary_bits l : binary l -> exists bs, l = map b2z bs.
Proof.
  induction l as [|x l IH]; intros H; [exists []; auto|].
  destruct IH as [bs E]; [intros b Hb; apply H; right; auto|].
  destruct (H x (or_introl eq_refl)) as [-> | ->]; [exists (false :: bs)|exists (true :: bs)]; rewrite E; reflexivity.
Qed.
Lemma pow2_Z n : (2 ^ Z.of_nat n)%Z = Z.of_nat (2 ^ n).
Proof. rewrite Nat2Z.inj_pow. reflexivity. Qed.
Lemma Ztonat_N x : N.of_nat (Z.to_nat x) = Z.to_N x.
Proof. apply Z_nat_N. Qed.
Lemma map_repeat {A B} (f : A -> B) a n : map f (repeat a n) = repeat (f a) n.
Proof. induction n as [|n IH]; cbn; [reflexivity|]. rewrite IH. reflexivity. Qed.
Lemma dec2bin_fits x n : (0 <= x < 2 ^ Z.of_nat n)%Z -> 1 <= n -> dec2bin x n = Ok (map b2z (bits n (Z.to_nat x))).
Proof.
  intros Hx Hn. unfold dec2bin. rewrite (proj2 (Z.ltb_ge _ _)) by lia. rewrite (proj2 (Z.ltb_ge _ _)) by lia. cbn zeta.
  rewrite pow2_Z in Hx. rewrite <- Ztonat_N.
  assert (Hi : Z.to_nat x < 2 ^ n) by lia.
  pose proof (basis_bitstring_bits _ _ Hi Hn) as E. unfold basis_bitstring, zfill in E. rewrite <- E.
  pose proof (proj2 (bin_digits_length (Z.to_nat x) n Hn) Hi) as HL.
  rewrite map_length. destruct (Nat.ltb_spec (length (bin_digits (N.of_nat (Z.to_nat x)))) n) as [Hl|Hl].
  - rewrite map_app, map_repeat. reflexivity.
  - replace (n - _) with 0 by lia. reflexivity.
Qed.
Lemma dec2bin_any x n : (0 <= x <= 2 ^ Z.of_nat n)%Z -> exists bs, dec2bin x n = Ok (map b2z bs) /\ bval bs = Z.to_nat x /\ n <= length bs.
Proof.
  intros Hx. unfold dec2bin. rewrite (proj2 (Z.ltb_ge _ _)) by lia. rewrite (proj2 (Z.ltb_ge _ _)) by lia. cbn zeta.
  rewrite <- Ztonat_N. set (d := bin_digits _). rewrite map_length.
  pose proof (bin_digits_val (Z.to_nat x)) as Hv. fold d in Hv.
  destruct (Nat.ltb_spec (length d) n) as [Hl|Hl].
  - exists (repeat false (n - length d) ++ d). rewrite map_app, map_repeat. split; [reflexivity|].
    rewrite bval_repeat_false, app_length, repeat_length. split; [auto|lia].
  - exists d. auto.
Qed.

(** *** bitstrings *)
Definition b2c (b : bool) : ascii := if b then "1"%char else "0"%char.
Definition str_of_bits (l : list bool) : string := string_of_list_ascii (map b2c l).
Lemma str_of_bits_length l : String.length (str_of_bits l) = length l.
Proof. induction l as [|b l IH]; cbn; auto. Qed.
Lemma repeat_shift {A} (a : A) m l : repeat a m ++ a :: l = repeat a (S m) ++ l.
Proof. induction m as [|m IH]; [reflexivity|]. cbn [repeat app] in *. rewrite IH. reflexivity. Qed.
Lemma pad_loop_spec n : forall fuel l, n - length l < fuel -> pad_loop fuel n (str_of_bits l) = Ok (str_of_bits (zfill n l)).
Proof.
  induction fuel as [|fuel IH]; intros l Hf; [lia|]. cbn [pad_loop]. rewrite str_of_bits_length.
  destruct (Nat.ltb_spec (length l) n) as [Hl|Hl].
  - change (String "0" (str_of_bits l)) with (str_of_bits (false :: l)). rewrite IH by (cbn [length]; lia).
    unfold zfill. cbn [length]. replace (n - length l) with (S (n - S (length l))) by lia.
    rewrite repeat_shift. reflexivity.
  - unfold zfill. replace (n - length l) with 0 by lia. reflexivity.
Qed.
Lemma mapM_ok_ext {A B} (f : A -> result B) (g : A -> B) l : (forall a, In a l -> f a = Ok (g a)) -> mapM f l = Ok (map g l).
Proof.
  induction l as [|a l IH]; intros H; cbn; [auto|]. rewrite (H a (or_introl eq_refl)). cbn.
  rewrite IH by (intros; apply H; right; auto). reflexivity.
Qed.
Lemma ordered_spec n : 1 <= n -> get_ordered_list_of_bitstrings n = Ok (map (fun i => str_of_bits (bits n i)) (seq 0 (2 ^ n))).
Proof.
  intros Hn. unfold get_ordered_list_of_bitstrings. apply mapM_ok_ext. intros i Hi. apply in_seq in Hi.
  unfold format_b. fold b2c. change (string_of_list_ascii (map _ _)) with (str_of_bits (bin_digits (N.of_nat i))).
  rewrite pad_loop_spec by lia. pose proof (basis_bitstring_bits i n ltac:(lia) Hn) as E. unfold basis_bitstring in E. rewrite E. reflexivity.
Qed.
Lemma str_of_bits_is l : is_bitstring (str_of_bits l).
Proof.
  intros c. unfold str_of_bits. rewrite list_ascii_of_string_of_list_ascii. intros H. apply in_map_iff in H.
  destruct H as (b & <- & _). destruct b; auto.
Qed.
Lemma bits_of_str_of_bits l : bits_of_string (str_of_bits l) = l.
Proof.
  unfold bits_of_string, str_of_bits. rewrite list_ascii_of_string_of_list_ascii, map_map.
  rewrite (map_ext _ (fun b => b)); [apply map_id|]. intros []; reflexivity.
Qed.
Lemma str_of_bits_of_str s : is_bitstring s -> str_of_bits (bits_of_string s) = s.
Proof.
  intros H. unfold bits_of_string, str_of_bits. rewrite map_map. rewrite <- (string_of_list_ascii_of_string s) at 2. f_equal.
  transitivity (map (fun c => c) (list_ascii_of_string s)); [|apply map_id].
  apply map_ext_in. intros c Hc. destruct (H c Hc) as [-> | ->]; reflexivity.
Qed.

(** *** tuples and strings *)
Definition is_digit (c : ascii) : bool := let n := N_of_ascii c in ((48 <=? n) && (n <=? 57))%N.
Lemma char_digit_string c d : int_of_char c = Ok d -> str_of_int d = String c EmptyString.
Proof.
  destruct c as [[] [] [] [] [] [] [] []]; cbn; intros H; try discriminate H; injection H as <-; reflexivity.
Qed.
Lemma int_of_char_range c d : int_of_char c = Ok d -> (0 <= d <= 9)%Z.
Proof.
  unfold int_of_char. destruct (_ && _)%bool eqn:E; [|discriminate]. intros [= <-].
  apply andb_true_iff in E. destruct E as [E1 E2]. apply N.leb_le in E1, E2. lia.
Qed.
Lemma append_nil_r s : (s ++ EmptyString)%string = s.
Proof. induction s as [|c s IH]; cbn; [reflexivity|]. rewrite IH. reflexivity. Qed.
Lemma concat_cons s l : String.concat EmptyString (s :: l) = (s ++ String.concat EmptyString l)%string.
Proof. destruct l as [|t l]; cbn; [rewrite append_nil_r; reflexivity|reflexivity]. Qed.
Lemma concat_digits cs : forall t, mapM int_of_char cs = Ok t -> String.concat EmptyString (map str_of_int t) = string_of_list_ascii cs.
Proof.
  induction cs as [|c cs IH]; intros t; cbn [mapM].
  - intros [= <-]. reflexivity.
  - destruct (int_of_char c) as [d|] eqn:E; cbn [rbind]; [|discriminate].
    destruct (mapM int_of_char cs) as [t'|] eqn:E'; cbn [rbind]; [|discriminate]. intros [= <-].
    cbn [map]. rewrite concat_cons, (char_digit_string _ _ E), (IH _ eq_refl). reflexivity.
Qed.
Lemma digit_string_char d : (0 <= d <= 9)%Z -> exists c, str_of_int d = String c EmptyString /\ int_of_char c = Ok d.
Proof.
  intros H.
  assert (D : (d = 0 \/ d = 1 \/ d = 2 \/ d = 3 \/ d = 4 \/ d = 5 \/ d = 6 \/ d = 7 \/ d = 8 \/ d = 9)%Z) by lia.
  repeat destruct D as [-> | D]; [..|subst d]; eexists; split; reflexivity.
Qed.
Lemma digits_concat t : (forall d, In d t -> (0 <= d <= 9)%Z) ->
  mapM int_of_char (list_ascii_of_string (String.concat EmptyString (map str_of_int t))) = Ok t.
Proof.
  induction t as [|d t IH]; intros H; [reflexivity|]. cbn [map]. rewrite concat_cons.
  destruct (digit_string_char d (H d (or_introl eq_refl))) as (c & E & Ec). rewrite E.
  cbn [String.append list_ascii_of_string mapM]. rewrite Ec. cbn [rbind].
  rewrite IH by (intros; apply H; right; auto). reflexivity.
Qed.

(** *** scale_and_discretize *)
Lemma sum_Q_map_scale l s : (sum_Q (map (fun v => v * s) l) == sum_Q l * s)%Q.
Proof. induction l as [|x l IH]; cbn; [ring|]. rewrite IH. ring. Qed.
Lemma sum_Q_minus_floor l : (sum_Q (map (fun x => x - QArith_base.inject_Z (Qfloor x)) l) == sum_Q l - QArith_base.inject_Z (sum_Z (map Qfloor l)))%Q.
Proof. induction l as [|x l IH]; cbn; [reflexivity|]. rewrite IH, inject_Z_plus. ring. Qed.
Lemma sum_Q_perm l l' : Permutation l l' -> (sum_Q l == sum_Q l')%Q.
Proof. induction 1; cbn; [reflexivity|rewrite IHPermutation; reflexivity|ring|etransitivity; eauto]. Qed.
Lemma sum_Q_app l l' : (sum_Q (l ++ l') == sum_Q l + sum_Q l')%Q.
Proof. induction l as [|x l IH]; cbn; [ring|]. rewrite IH. ring. Qed.
Lemma sum_Q_bounds l : (forall x, In x l -> 0 <= x < 1)%Q -> (0 <= sum_Q l /\ sum_Q l <= QArith_base.inject_Z (Z.of_nat (length l)))%Q.
Proof.
  induction l as [|x l IH]; intros H; [split; discriminate|]. cbn [sum_Q length]. rewrite Nat2Z.inj_succ, <- Z.add_1_r, inject_Z_plus.
  destruct IH; [intros; apply H; right; auto|]. specialize (H x (or_introl eq_refl)).
  change (QArith_base.inject_Z 1) with 1%Q. lra.
Qed.
Lemma sum_Q_strict l : l <> [] -> (forall x, In x l -> 0 <= x < 1)%Q -> (sum_Q l < QArith_base.inject_Z (Z.of_nat (length l)))%Q.
Proof.
  destruct l as [|x l]; intros Hn H; [congruence|]. cbn [sum_Q length]. rewrite Nat2Z.inj_succ, <- Z.add_1_r, inject_Z_plus.
  destruct (sum_Q_bounds l); [intros; apply H; right; auto|]. specialize (H x (or_introl eq_refl)).
  change (QArith_base.inject_Z 1) with 1%Q. lra.
Qed.
Lemma sum_Q_zero l : (forall x, In x l -> x <= 0)%Q -> (sum_Q l <= 0)%Q.
Proof.
  induction l as [|x l IH]; intros H; cbn; [lra|]. specialize (H x (or_introl eq_refl)) as Hx.
  assert (sum_Q l <= 0)%Q by (apply IH; intros; apply H; right; auto). lra.
Qed.

Lemma incr_at_spec : forall l i, i < length l -> exists l', incr_at i l = Ok l' /\ length l' = length l /\
  (forall j, nth j l' 0%Z = if Nat.eqb i j then (nth j l 0 + 1)%Z else nth j l 0%Z) /\ sum_Z l' = (sum_Z l + 1)%Z.
Proof.
  induction l as [|x l IH]; intros i Hi; [cbn in Hi; lia|]. destruct i as [|i]; cbn [incr_at].
  - eexists. split; [reflexivity|]. split; [reflexivity|]. split; [|cbn; lia]. intros [|j]; reflexivity.
  - destruct (IH i) as (l' & E & Hl & Hn & Hs); [cbn in Hi; lia|]. rewrite E. cbn [rbind]. eexists. split; [reflexivity|].
    split; [cbn; lia|]. split; [|cbn; lia]. intros [|j]; cbn; [reflexivity|]. apply Hn.
Qed.
Lemma incr_all_spec : forall is l, (forall i, In i is -> i < length l) -> exists l', foldM (fun r i => incr_at i r) is l = Ok l' /\ length l' = length l /\
  (forall j, nth j l' 0%Z = (nth j l 0 + Z.of_nat (count_occ Nat.eq_dec is j))%Z) /\ sum_Z l' = (sum_Z l + Z.of_nat (length is))%Z.
Proof.
  induction is as [|i is IH]; intros l H.
  - exists l. cbn. repeat split; auto; intros; lia.
  - cbn [foldM]. destruct (incr_at_spec l i) as (l1 & E & Hl & Hn & Hs); [apply H; left; auto|]. rewrite E. cbn [rbind].
    destruct (IH l1) as (l2 & E2 & Hl2 & Hn2 & Hs2); [intros; rewrite Hl; apply H; right; auto|].
    exists l2. split; [auto|]. split; [lia|]. split; [|cbn [length]; lia]. intros j. rewrite Hn2, Hn. cbn [count_occ].
    destruct (Nat.eq_dec i j) as [->|Hij]; [rewrite Nat.eqb_refl; lia|]. rewrite (proj2 (Nat.eqb_neq _ _) Hij). lia.
Qed.
Lemma fold_positions (idx : list nat) : forall k (a : nat) (r : list Z), a + k <= length idx ->
  foldM (fun res index => match nth_error idx index with Some i => incr_at i res | None => Err IndexError end) (seq a k) r
  = foldM (fun r i => incr_at i r) (firstn k (skipn a idx)) r.
Proof.
  induction k as [|k IH]; intros a r H; [reflexivity|]. cbn [seq foldM].
  destruct (nth_error idx a) as [i|] eqn:E; [|apply nth_error_None in E; lia].
  assert (Es : skipn a idx = i :: skipn (S a) idx).
  { clear -E. revert a E. induction idx as [|x idx IHi]; intros [|a] E; cbn in E; try discriminate; [injection E as ->; reflexivity|].
    cbn [skipn]. rewrite (IHi a E). reflexivity. }
  rewrite Es. cbn [firstn foldM]. destruct (incr_at i r) as [r'|]; cbn [rbind]; [|reflexivity]. apply IH. lia.
Qed.
Lemma count_occ_NoDup_le (l : list nat) x : NoDup l -> count_occ Nat.eq_dec l x = if in_dec Nat.eq_dec x l then 1 else 0.
Proof.
  intros H. destruct (in_dec Nat.eq_dec x l) as [Hi|Hi].
  - exact (proj1 (NoDup_count_occ' Nat.eq_dec l) H x Hi).
  - apply count_occ_not_In; auto.
Qed.
Lemma nth_In_firstn {A} (d : A) : forall l k x, In x (firstn k l) -> exists j, j < k /\ j < length l /\ nth j l d = x.
Proof.
  induction l as [|a l IH]; intros [|k] x; cbn; try tauto. intros [->|H]; [exists 0; repeat split; lia|].
  destruct (IH k x H) as (j & Hj & Hl & E). exists (S j). repeat split; auto; lia.
Qed.
Lemma firstn_In_nth {A} (d : A) : forall l k j, j < k -> j < length l -> In (nth j l d) (firstn k l).
Proof.
  induction l as [|a l IH]; intros [|k] j Hj Hl; cbn in *; try lia. destruct j as [|j]; [left; auto|]. right. apply IH; lia.
Qed.

Lemma NoDup_firstn {A} : forall (l : list A) k, NoDup l -> NoDup (firstn k l).
Proof.
  induction l as [|a l IH]; intros [|k] H; cbn; try constructor; inversion H; subst; [|apply IH; auto].
  intros Hin. apply H2. rewrite <- (firstn_skipn k l). apply in_or_app. auto.
Qed.

Section Scale.
  Context (argsort : list Q -> list nat) (Hsort : sorts_positions argsort).
  Context (values : list Q) (total : Z) (Hne : ~ (sum_Q values == 0)%Q).

  Let s := (QArith_base.inject_Z total / sum_Q values)%Q.
  Let shares := map (fun v => v * s)%Q values.
  Let fl := map Qfloor shares.
  Let rem := map (fun x => x - QArith_base.inject_Z (Qfloor x))%Q shares.
  Let n := length values.
  Let order := rev (argsort rem).
  Let k := Z.to_nat (total - sum_Z fl).

  Lemma rem_len : length rem = n.
  Proof. unfold rem, shares. rewrite !map_length. reflexivity. Qed.
  Lemma fl_len : length fl = n.
  Proof. unfold fl, shares. rewrite !map_length. reflexivity. Qed.
  Lemma rem_range x : In x rem -> (0 <= x < 1)%Q.
  Proof.
    unfold rem. intros H. apply in_map_iff in H. destruct H as (y & <- & _).
    pose proof (Qfloor_le y). pose proof (Qlt_floor y). rewrite inject_Z_plus in H0. change (QArith_base.inject_Z 1) with 1%Q in H0. lra.
  Qed.
  Lemma shares_total : (sum_Q shares == QArith_base.inject_Z total)%Q.
  Proof. unfold shares, s. rewrite sum_Q_map_scale. field. exact Hne. Qed.
  Lemma rem_sum : (sum_Q rem == QArith_base.inject_Z (total - sum_Z fl))%Q.
  Proof. unfold rem, fl. rewrite sum_Q_minus_floor, shares_total. unfold Z.sub. rewrite inject_Z_plus, inject_Z_opp. ring. Qed.
  Lemma k_pos : (0 <= total - sum_Z fl)%Z.
  Proof. destruct (sum_Q_bounds rem rem_range) as [H _]. rewrite rem_sum in H. unfold Qle in H. cbn in H. lia. Qed.
  Lemma n_pos : 0 < n.
  Proof. unfold n. destruct values; [exfalso; apply Hne; cbn; reflexivity|cbn; lia]. Qed.
  Lemma k_lt : k < n.
  Proof.
    assert (H : (sum_Q rem < QArith_base.inject_Z (Z.of_nat (length rem)))%Q).
    { apply sum_Q_strict; [|apply rem_range]. intros E. pose proof rem_len. rewrite E in H. pose proof n_pos. cbn in H. lia. }
    rewrite rem_sum, rem_len in H. unfold Qlt in H. cbn in H. pose proof k_pos. unfold k. lia.
  Qed.
  Lemma order_perm : Permutation order (seq 0 n).
  Proof. unfold order. rewrite <- Permutation_rev, <- rem_len. apply Hsort. Qed.
  Lemma order_len : length order = n.
  Proof. rewrite (Permutation_length order_perm), seq_length. reflexivity. Qed.
  Lemma order_desc i j : i <= j -> j < n -> (nth (nth j order 0%nat) rem 0 <= nth (nth i order 0%nat) rem 0)%Q.
  Proof.
    intros Hij Hj. destruct (Nat.eq_dec i j) as [->|]; [apply Qle_refl|].
    pose proof order_len as HL. unfold order in HL |- *. rewrite rev_length in HL.
    rewrite !rev_nth by lia. apply (proj2 (Hsort rem)). rewrite rem_len. lia.
  Qed.
  Lemma map_nth_perm (l : list nat) : Permutation l (seq 0 n) -> Permutation (map (fun i => nth i rem 0%Q) l) rem.
  Proof.
    intros H. rewrite (Permutation_map _ H). rewrite <- rem_len. rewrite map_nth_seq. apply Permutation_refl.
  Qed.
  Lemma incremented_positive j : j < k -> (0 < nth (nth j order 0%nat) rem 0)%Q.
  Proof.
    intros Hj. destruct (Qlt_le_dec 0 (nth (nth j order 0%nat) rem 0%Q)) as [H|H]; [exact H|exfalso].
    pose proof k_lt as Hk. pose proof order_len as HL.
    assert (E : (sum_Q (map (fun i => nth i rem 0%Q) order) == sum_Q rem)%Q) by (apply sum_Q_perm, map_nth_perm, order_perm).
    rewrite <- (firstn_skipn j order), map_app, sum_Q_app in E.
    assert (H2 : (sum_Q (map (fun i => nth i rem 0%Q) (skipn j order)) <= 0)%Q).
    { apply sum_Q_zero. intros x Hx. apply in_map_iff in Hx. destruct Hx as (i & <- & Hi).
      apply In_nth with (d := 0) in Hi. destruct Hi as (m & Hm & <-). rewrite skipn_length in Hm.
      replace (nth m (skipn j order) 0) with (nth (j + m) order 0).
      - apply Qle_trans with (2 := H). apply order_desc; lia.
      - rewrite <- (firstn_skipn j order) at 1. rewrite app_nth2; rewrite firstn_length; [|lia]. f_equal. lia. }
    assert (H1 : (sum_Q (map (fun i => nth i rem 0%Q) (firstn j order)) <= QArith_base.inject_Z (Z.of_nat j))%Q).
    { pose proof (sum_Q_bounds (map (fun i => nth i rem 0%Q) (firstn j order))) as B. rewrite map_length, firstn_length in B.
      replace (Nat.min j (length order)) with j in B by lia. apply B. intros x Hx. apply in_map_iff in Hx. destruct Hx as (i & <- & Hi).
      apply rem_range, nth_In. rewrite rem_len.
      assert (Hin : In i (seq 0 n)). { apply (Permutation_in _ order_perm). rewrite <- (firstn_skipn j order). apply in_or_app; auto. }
      apply in_seq in Hin. lia. }
    rewrite rem_sum in E. assert (Hle : (QArith_base.inject_Z (total - sum_Z fl) <= QArith_base.inject_Z (Z.of_nat j))%Q) by lra.
    unfold Qle in Hle. cbn in Hle. unfold k in Hj. lia.
  Qed.

  Lemma scale_spec : exists r, scale_and_discretize argsort values total = Ok r /\ length r = n /\ sum_Z r = total /\
    forall i, i < n -> nth i r 0%Z = (nth i fl 0 + (if in_dec Nat.eq_dec i (firstn k order) then 1 else 0))%Z.
  Proof.
    unfold scale_and_discretize. cbn zeta. destruct (Qeq_bool (sum_Q values) 0) eqn:E; [apply Qeq_bool_iff in E; contradiction|].
    fold s.
    replace (map (fun v => Qfloor (v * s)) values) with fl by (unfold fl, shares; rewrite map_map; reflexivity).
    replace (map (fun v => (v * s - QArith_base.inject_Z (Qfloor (v * s)))%Q) values) with rem by (unfold rem, shares; rewrite map_map; reflexivity).
    fold order k. pose proof k_lt as Hk. pose proof order_len as HL.
    rewrite fold_positions by (cbn; lia). cbn [skipn].
    destruct (incr_all_spec (firstn k order) fl) as (r & Er & Hlen & Hn & Hs).
    { intros i Hi. rewrite fl_len. assert (Hin : In i (seq 0 n)) by (apply (Permutation_in _ order_perm); rewrite <- (firstn_skipn k order); apply in_or_app; auto).
      apply in_seq in Hin. lia. }
    rewrite Er. cbn [rbind]. rewrite firstn_length, Nat.min_l in Hs by lia.
    assert (Ht : sum_Z r = total). { rewrite Hs. unfold k. pose proof k_pos. rewrite Z2Nat.id; lia. }
    rewrite (proj2 (Z.eqb_eq _ _) Ht). cbn [negb]. exists r. split; [reflexivity|]. split; [rewrite Hlen, fl_len; reflexivity|].
    split; [exact Ht|]. intros i Hi. rewrite Hn. rewrite count_occ_NoDup_le.
    - destruct (in_dec Nat.eq_dec i (firstn k order)); reflexivity.
    - assert (ND : NoDup order) by (apply (Permutation_NoDup (Permutation_sym order_perm)), seq_NoDup).
      apply NoDup_firstn, ND.
  Qed.
  Lemma share_eq i : i < n -> (nth i shares 0 == nth i values 0 * s)%Q.
  Proof.
    intros Hi. unfold shares. rewrite (nth_indep _ 0%Q (0 * s)%Q) by (rewrite map_length; exact Hi).
    rewrite (map_nth (fun v => v * s)%Q). reflexivity.
  Qed.
  Lemma fl_nth i : i < n -> nth i fl 0%Z = Qfloor (nth i shares 0%Q).
  Proof.
    intros Hi. unfold fl. rewrite (nth_indep _ 0%Z (Qfloor 0)) by (rewrite map_length; unfold shares; rewrite map_length; exact Hi).
    rewrite (map_nth Qfloor). reflexivity.
  Qed.
  Lemma rem_nth i : i < n -> nth i rem 0%Q = (nth i shares 0 - QArith_base.inject_Z (Qfloor (nth i shares 0)))%Q.
  Proof.
    intros Hi. set (f := fun x => (x - QArith_base.inject_Z (Qfloor x))%Q).
    unfold rem. rewrite (nth_indep _ 0%Q (f 0%Q)) by (rewrite map_length; unfold shares; rewrite map_length; exact Hi).
    rewrite (map_nth f). reflexivity.
  Qed.
  Lemma chosen_rem i : In i (firstn k order) -> (0 < nth i rem 0)%Q.
  Proof.
    intros H. destruct (nth_In_firstn 0 _ _ _ H) as (j & Hj & Hl & <-). apply incremented_positive. exact Hj.
  Qed.
  Lemma chosen_larger i j : i < n -> j < n -> In i (firstn k order) -> ~ In j (firstn k order) -> (nth j rem 0 <= nth i rem 0)%Q.
  Proof.
    intros Hi Hj Hin Hout. destruct (nth_In_firstn 0 _ _ _ Hin) as (a & Ha & Hal & <-).
    assert (Hjo : In j order) by (apply (Permutation_in _ (Permutation_sym order_perm)), in_seq; lia).
    apply In_nth with (d := 0) in Hjo. destruct Hjo as (b & Hb & <-). rewrite order_len in Hb.
    destruct (Nat.lt_ge_cases b k) as [Hbk|Hbk]; [exfalso; apply Hout, firstn_In_nth; [exact Hbk|rewrite order_len; exact Hb]|].
    apply order_desc; lia.
  Qed.
End Scale.
Lemma sum_total l : sum_Q l = total_of l.
Proof. induction l as [|x l IH]; cbn; [reflexivity|]. rewrite IH. reflexivity. Qed.

(** *** arrays *)
Section Arr.
  Context {K : cring} (isz : K -> bool).
  Add Ring Kring5 : (kth K).
  Lemma pieces_length {A} n k (l : list A) : length (pieces n k l) = n.
  Proof. revert l. induction n as [|n IH]; intros l; cbn; auto. Qed.
  Lemma pieces_all {A} n k (l : list A) : length l = n * k -> (forall p, In p (pieces n k l) -> length p = k) /\ List.concat (pieces n k l) = l.
  Proof.
    revert l. induction n as [|n IH]; intros l H; cbn in H.
    - destruct l; [|discriminate]. split; [intros p []|reflexivity].
    - cbn [pieces List.concat]. destruct (IH (skipn k l)) as [H1 H2]; [rewrite skipn_length; lia|].
      split.
      + intros p [<-|Hp]; [rewrite firstn_length; lia|auto].
      + rewrite H2. apply firstn_skipn.
  Qed.
  Lemma flatten_tolist sh : forall (l : list K), length l = prod_nat sh -> flatten sh (tolist sh l) = Ok l.
  Proof.
    induction sh as [|n sh IH]; intros l H; cbn [prod_nat] in H.
    - destruct l as [|x [|y l]]; try discriminate. reflexivity.
    - cbn [tolist flatten]. rewrite map_length, pieces_length, Nat.eqb_refl.
      destruct (pieces_all n (prod_nat sh) l H) as [H1 H2].
      assert (E : mapM (flatten (K := K) sh) (map (tolist sh) (pieces n (prod_nat sh) l)) = Ok (pieces n (prod_nat sh) l)).
      { assert (G : forall ps : list (list K), (forall p, In p ps -> length p = prod_nat sh) -> mapM (flatten sh) (map (tolist sh) ps) = Ok ps).
        { induction ps as [|p ps IHp]; intros Hp; cbn; [reflexivity|]. rewrite (IH p) by (apply Hp; left; auto). cbn.
          rewrite IHp by (intros; apply Hp; right; auto). reflexivity. }
        apply G, H1. }
      rewrite E. cbn. rewrite H2. reflexivity.
  Qed.
  Lemma infer_tolist sh : forall (l : list K), length l = prod_nat sh -> prod_nat sh <> 0 -> infer_shape (tolist sh l) = sh.
  Proof.
    induction sh as [|n sh IH]; intros l H Hnz; cbn [prod_nat] in *.
    - destruct l as [|x [|y l]]; try discriminate. reflexivity.
    - destruct n as [|n]; [lia|]. cbn [tolist pieces map infer_shape]. rewrite map_length, pieces_length. f_equal.
      apply IH; [rewrite firstn_length; lia|lia].
  Qed.
  Lemma np_array_tolist sh (l : list K) : length l = prod_nat sh -> prod_nat sh <> 0 -> np_array (tolist sh l) = Ok (sh, l).
  Proof. intros H Hn. unfold np_array. rewrite infer_tolist by auto. cbn zeta. rewrite flatten_tolist by auto. reflexivity. Qed.
  Lemma cplx_rebuild (l : list (K * K)) : map (fun p => plus_c (fst p) (times_1j (snd p))) (combine (map fst l) (map snd l)) = l.
  Proof.
    induction l as [|[x y] l IH]; cbn [map combine fst snd]; [reflexivity|]. rewrite IH. f_equal.
    unfold plus_c, times_1j. cbn. f_equal; ring.
  Qed.
  Lemma truthy_list n sh (l : list K) : n <> 0 -> truthy isz (tolist (n :: sh) l) = true.
  Proof. destruct n; [congruence|reflexivity]. Qed.
End Arr.
