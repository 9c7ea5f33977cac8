(** C23-C26: utils.py. *)
From Coq Require Import String Ascii NArith Nnat QArith Qround Qabs Lqa Sorting.Permutation.
From Verif Require Import Base BaseFacts MatModel MatFacts LiftModel Cplx Json UtilsModel UtilsSpec UtilsProofs.
Local Open Scope list_scope.
Local Open Scope nat_scope.

(** *** C23 *)
(** bin2dec evaluates any list of digits, most significant first. *)
Theorem C23_bin2dec_value l : bin2dec l = number_of l.
Proof. exact (bin2dec_spec l). Qed.
(** Every number that fits gives exactly n binary digits denoting it. *)
Theorem C23_dec2bin_fits x n : 1 <= n -> (0 <= x < 2 ^ Z.of_nat n)%Z ->
  exists l, dec2bin x n = Ok l /\ length l = n /\ binary l /\ number_of l = x.
Proof.
  intros Hn Hx. rewrite dec2bin_fits by auto. eexists. split; [reflexivity|]. rewrite map_length, bits_length. split; [reflexivity|].
  split.
  - intros b Hb. apply in_map_iff in Hb. destruct Hb as ([] & <- & _); cbn; auto.
  - rewrite number_of_bits, bval_bits_small; [lia|]. rewrite pow2_Z in Hx. lia.
Qed.
(** Round trips. *)
Theorem C23_round_trip_number x n l : dec2bin x n = Ok l -> bin2dec l = x.
Proof.
  intros H. assert (Hx : (0 <= x <= 2 ^ Z.of_nat n)%Z).
  { unfold dec2bin in H. destruct (_ <? x)%Z eqn:E1; [discriminate|]. destruct (x <? 0)%Z eqn:E2; [discriminate|].
    apply Z.ltb_ge in E1, E2. lia. }
  destruct (dec2bin_any x n Hx) as (bs & E & Hv & _). rewrite E in H. injection H as <-.
  rewrite bin2dec_spec, number_of_bits, Hv. lia.
Qed.
Theorem C23_round_trip_digits l : binary l -> l <> [] -> dec2bin (bin2dec l) (length l) = Ok l.
Proof.
  intros Hb Hne. destruct (binary_bits l Hb) as [bs ->]. rewrite bin2dec_spec, number_of_bits, map_length.
  assert (Hl : 1 <= length bs) by (destruct bs; [exfalso; apply Hne; reflexivity|cbn; lia]).
  rewrite dec2bin_fits; [|rewrite pow2_Z; pose proof (bval_lt bs); lia|exact Hl].
  rewrite Nat2Z.id, bits_bval. reflexivity.
Qed.
(** Numbers beyond 2^n terminate the program, negative numbers are a ValueError. *)
Theorem C23_too_large x n : (2 ^ Z.of_nat n < x)%Z -> dec2bin x n = Err SystemExit.
Proof. intros H. unfold dec2bin. rewrite (proj2 (Z.ltb_lt _ _) H). reflexivity. Qed.
Theorem C23_negative x n : (x < 0)%Z -> dec2bin x n = Err ValueError.
Proof.
  intros H. unfold dec2bin. rewrite (proj2 (Z.ltb_ge _ _)); [rewrite (proj2 (Z.ltb_lt _ _) H); reflexivity|].
  rewrite pow2_Z. lia.
Qed.
(** The boundary: 2^n does not fit in n bits and is accepted nevertheless, for every n, with n+1 digits. *)
Theorem C23_boundary_rejected_refuted n : exists l, dec2bin (2 ^ Z.of_nat n) n = Ok l /\ length l = S n.
Proof.
  unfold dec2bin. rewrite Z.ltb_irrefl. rewrite (proj2 (Z.ltb_ge _ _)) by (rewrite pow2_Z; lia). cbn zeta.
  rewrite pow2_Z. assert (E : Z.to_N (Z.of_nat (2 ^ n)) = N.of_nat (2 ^ n)) by lia. rewrite E. rewrite map_length.
  assert (HL : length (bin_digits (N.of_nat (2 ^ n))) = S n).
  { pose proof (proj2 (WfProofs2.bin_digits_length (2 ^ n) (S n) ltac:(lia)) ltac:(cbn; pose proof (Nat.pow_nonzero 2 n); lia)) as H1.
    destruct n as [|n]; [reflexivity|].
    destruct (Nat.le_gt_cases (length (bin_digits (N.of_nat (2 ^ S n)))) (S n)) as [H2|H2]; [|lia].
    apply WfProofs2.bin_digits_length in H2; lia. }
  rewrite HL. rewrite (proj2 (Nat.ltb_ge _ _)) by lia. eexists. split; [reflexivity|]. rewrite map_length. exact HL.
Qed.
Example C23_example : dec2bin 6 5 = Ok [0; 0; 1; 1; 0]%Z /\ bin2dec [0; 0; 1; 1; 0]%Z = 6%Z /\ dec2bin 8 3 = Ok [1; 0; 0; 0]%Z.
Proof. repeat split. Qed.

(** *** C24 *)
(** The list has 2^n bitstrings of length n; the i-th denotes i. *)
Theorem C24_ordered_bitstrings n : 1 <= n -> exists l, get_ordered_list_of_bitstrings n = Ok l /\ length l = 2 ^ n /\
  forall i s, nth_error l i = Some s -> is_bitstring s /\ String.length s = n /\ bval (bits_of_string s) = i.
Proof.
  intros Hn. rewrite ordered_spec by auto. eexists. split; [reflexivity|]. rewrite map_length, seq_length. split; [reflexivity|].
  intros i s H. rewrite nth_error_map in H. destruct (nth_error (seq 0 (2 ^ n)) i) as [j|] eqn:E; [|discriminate]. cbn in H. injection H as <-.
  assert (Hi : i < 2 ^ n) by (rewrite <- (seq_length (2 ^ n) 0); apply nth_error_Some; congruence).
  apply nth_error_nth with (d := 0) in E. rewrite seq_nth in E by auto. cbn in E. subst j.
  split; [apply str_of_bits_is|]. rewrite str_of_bits_length, bits_length, bits_of_str_of_bits. split; [reflexivity|].
  apply bval_bits_small. exact Hi.
Qed.
(** Hence every bitstring of length n is in the list, exactly once. *)
Theorem C24_each_once n l : 1 <= n -> get_ordered_list_of_bitstrings n = Ok l ->
  NoDup l /\ forall s, In s l <-> is_bitstring s /\ String.length s = n.
Proof.
  intros Hn H. destruct (C24_ordered_bitstrings n Hn) as (l' & E & HL & HN). rewrite H in E. injection E as <-. split.
  - apply NoDup_nth_error. intros i j Hi E. destruct (nth_error l i) as [s|] eqn:Es; [|apply nth_error_None in Es; lia].
    symmetry in E. destruct (HN _ _ Es) as (_ & _ & <-). destruct (HN _ _ E) as (_ & _ & <-). reflexivity.
  - intros s. split.
    + intros Hs. apply In_nth_error in Hs. destruct Hs as [i Hi]. destruct (HN _ _ Hi) as (? & ? & _). auto.
    + intros [Hs Hlen]. rewrite ordered_spec in H by auto. injection H as <-. apply in_map_iff. exists (bval (bits_of_string s)).
      assert (Hbl : length (bits_of_string s) = n). { rewrite <- str_of_bits_length, str_of_bits_of_str; auto. }
      split; [rewrite bits_bval_n by auto; apply str_of_bits_of_str; auto|]. apply in_seq. pose proof (bval_lt (bits_of_string s)). rewrite Hbl in *. lia.
Qed.
(** With zero qubits the only string has one character. *)
Theorem C24_zero_qubits_refuted : get_ordered_list_of_bitstrings 0 = Ok ["0"%string].
Proof. reflexivity. Qed.
(** Bitstrings (indeed strings of decimal digits) to tuples and back. *)
Theorem C24_strings_round_trip ss ts : convert_bitstrings_to_tuples ss = Ok ts -> convert_tuples_to_bitstrings ts = ss.
Proof.
  unfold convert_bitstrings_to_tuples, convert_tuples_to_bitstrings. revert ts. induction ss as [|s ss IH]; intros ts; cbn [mapM].
  - intros [= <-]. reflexivity.
  - destruct (mapM int_of_char (list_ascii_of_string s)) as [t|] eqn:E; cbn [rbind]; [|discriminate].
    destruct (mapM _ ss) as [ts'|] eqn:E'; cbn [rbind]; [|discriminate]. intros [= <-]. cbn [map].
    rewrite (IH _ eq_refl). rewrite (concat_digits _ _ E), string_of_list_ascii_of_string. reflexivity.
Qed.
Theorem C24_bitstrings_convert ss : (forall s, In s ss -> is_bitstring s) ->
  convert_bitstrings_to_tuples ss = Ok (map (fun s => map b2z (bits_of_string s)) ss).
Proof.
  intros H. unfold convert_bitstrings_to_tuples. apply mapM_ok_ext. intros s Hs. unfold bits_of_string. rewrite map_map.
  apply mapM_ok_ext. intros c Hc. destruct (H s Hs c Hc) as [-> | ->]; reflexivity.
Qed.
Theorem C24_tuples_round_trip ts : (forall t d, In t ts -> In d t -> (0 <= d <= 9)%Z) ->
  convert_bitstrings_to_tuples (convert_tuples_to_bitstrings ts) = Ok ts.
Proof.
  intros H. unfold convert_bitstrings_to_tuples, convert_tuples_to_bitstrings. induction ts as [|t ts IH]; cbn [map mapM]; [reflexivity|].
  rewrite digits_concat by (intros; eapply H; [left|]; eauto). cbn [rbind]. rewrite IH by (intros; eapply H; [right|]; eauto). reflexivity.
Qed.
Theorem C24_tuples_round_trip_refuted : exists ts ts', convert_bitstrings_to_tuples (convert_tuples_to_bitstrings ts) = Ok ts' /\ ts' <> ts.
Proof. exists [[10]]%Z, [[1; 0]]%Z. split; [reflexivity|discriminate]. Qed.
Theorem C24_non_digit_rejected s c ss : In s ss -> In c (list_ascii_of_string s) -> is_digit c = false ->
  convert_bitstrings_to_tuples ss = Err ValueError.
Proof.
  intros Hs Hc Hd. unfold convert_bitstrings_to_tuples.
  assert (G : forall l, In c l -> mapM int_of_char l = Err ValueError).
  { assert (Ge : forall x e, int_of_char x = Err e -> e = ValueError) by (intros x e; unfold int_of_char; destruct (_ && _)%bool; congruence).
    induction l as [|x l IH]; intros Hin; [destruct Hin|]. cbn [mapM]. destruct (int_of_char x) as [d|e] eqn:E; cbn [rbind].
    - destruct Hin as [->|Hin]; [|rewrite IH by auto; reflexivity].
      unfold int_of_char in E. unfold is_digit in Hd. rewrite Hd in E. discriminate.
    - rewrite (Ge _ _ E). reflexivity. }
  assert (Ge : forall l e, mapM int_of_char l = Err e -> e = ValueError).
  { induction l as [|x l IH]; intros e; cbn [mapM]; [discriminate|]. destruct (int_of_char x) as [d|e'] eqn:E; cbn [rbind].
    - destruct (mapM int_of_char l) eqn:E2; cbn [rbind]; [discriminate|]. intros [= <-]. eapply IH; eauto.
    - intros [= <-]. unfold int_of_char in E. destruct (_ && _)%bool; congruence. }
  induction ss as [|s' ss IH]; [destruct Hs|]. cbn [mapM].
  destruct (mapM int_of_char (list_ascii_of_string s')) as [t|e] eqn:E; cbn [rbind].
  - destruct Hs as [->|Hs]; [rewrite G in E by auto; discriminate|]. rewrite IH by auto. reflexivity.
  - rewrite (Ge _ _ E). reflexivity.
Qed.
Example C24_example : get_ordered_list_of_bitstrings 2 = Ok ["00"; "01"; "10"; "11"]%string
  /\ convert_bitstrings_to_tuples ["10"; "011"]%string = Ok [[1; 0]; [0; 1; 1]]%Z
  /\ convert_tuples_to_bitstrings [[1; 0]; [0; 1; 1]]%Z = ["10"; "011"]%string.
Proof. repeat split. Qed.

(** *** C25 *)
Section C25.
  Context (argsort : list Q -> list nat) (Hsort : sorts_positions argsort).
  (** One integer per value, the requested total, and every integer within one of its exact share. *)
  Theorem C25_scale_and_discretize values total : ~ (total_of values == 0)%Q ->
    exists r, scale_and_discretize argsort values total = Ok r /\ length r = length values /\ fold_right Z.add 0%Z r = total /\
      forall i, i < length values -> (Qabs (QArith_base.inject_Z (nth i r 0%Z) - share values total i) < 1)%Q.
  Proof.
    intros Hne. rewrite <- sum_total in Hne. destruct (scale_spec argsort Hsort values total Hne) as (r & E & HL & HT & HN).
    exists r. split; [exact E|]. split; [exact HL|]. split; [exact HT|]. intros i Hi.
    assert (Es : (share values total i == nth i (map (fun v => v * (QArith_base.inject_Z total / sum_Q values)) values) 0)%Q).
    { rewrite (share_eq values total i Hi). unfold share. rewrite <- sum_total. field. exact Hne. }
    rewrite Es. rewrite (HN i Hi). rewrite (fl_nth values total i Hi). set (x := nth i _ 0%Q).
    pose proof (Qfloor_le x). pose proof (Qlt_floor x) as Hlt. rewrite inject_Z_plus in Hlt. change (QArith_base.inject_Z 1) with 1%Q in Hlt.
    destruct (in_dec Nat.eq_dec i _) as [Hin|Hout].
    - pose proof (chosen_rem argsort Hsort values total Hne i Hin) as Hr. rewrite rem_nth in Hr by exact Hi. fold x in Hr.
      rewrite inject_Z_plus. change (QArith_base.inject_Z 1) with 1%Q. apply Qabs_Qlt_condition. split; lra.
    - rewrite Z.add_0_r. apply Qabs_Qlt_condition. split; lra.
  Qed.
  (** Units left after rounding down go to the largest remainders: a value rounded up has a fractional part at least as large as one rounded down. *)
  Theorem C25_largest_remainders values total r i j : ~ (total_of values == 0)%Q -> scale_and_discretize argsort values total = Ok r ->
    i < length values -> j < length values ->
    (share values total i < QArith_base.inject_Z (nth i r 0%Z))%Q -> (QArith_base.inject_Z (nth j r 0%Z) <= share values total j)%Q ->
    (share values total j - QArith_base.inject_Z (Qfloor (share values total j)) <= share values total i - QArith_base.inject_Z (Qfloor (share values total i)))%Q.
  Proof.
    intros Hne E' Hi Hj Hup Hdown. rewrite <- sum_total in Hne. destruct (scale_spec argsort Hsort values total Hne) as (r' & E & HL & HT & HN).
    rewrite E in E'. injection E' as ->.
    assert (Es : forall i, i < length values -> (share values total i == nth i (map (fun v => v * (QArith_base.inject_Z total / sum_Q values)) values) 0)%Q).
    { intros a Ha. rewrite (share_eq values total a Ha). unfold share. rewrite <- sum_total. field. exact Hne. }
    rewrite (Qfloor_comp _ _ (Es i Hi)), (Qfloor_comp _ _ (Es j Hj)). rewrite (Es i Hi) in Hup |- *. rewrite (Es j Hj) in Hdown |- *.
    rewrite (HN i Hi), (fl_nth values total i Hi) in Hup. rewrite (HN j Hj), (fl_nth values total j Hj) in Hdown.
    rewrite <- (rem_nth values total i Hi), <- (rem_nth values total j Hj).
    pose proof (Qfloor_le (nth i (map (fun v => v * (QArith_base.inject_Z total / sum_Q values)) values) 0)%Q) as H1.
    pose proof (Qlt_floor (nth j (map (fun v => v * (QArith_base.inject_Z total / sum_Q values)) values) 0)%Q) as H2.
    destruct (in_dec Nat.eq_dec i _) as [Hin|Hout]; [|rewrite Z.add_0_r in Hup; lra].
    destruct (in_dec Nat.eq_dec j _) as [Hin2|Hout2]; [lra|].
    exact (chosen_larger argsort Hsort values total i j Hi Hj Hin Hout2).
  Qed.
  Theorem C25_zero_sum values total : (total_of values == 0)%Q -> scale_and_discretize argsort values total = Err ZeroDivisionError.
  Proof. intros H. unfold scale_and_discretize. rewrite sum_total. rewrite (proj2 (Qeq_bool_iff _ _) H). reflexivity. Qed.
End C25.
(** An argsort exists (insertion sort of the positions). *)
Definition insertion_argsort (l : list Q) : list nat := sort_by (fun i j => Qle_bool (nth i l 0%Q) (nth j l 0%Q)) (seq 0 (length l)).
Lemma insertion_argsort_sorts : sorts_positions insertion_argsort.
Proof.
  intros l. unfold insertion_argsort. set (cmp := fun i j => _). split; [apply sort_by_perm|].
  assert (S : Sorted.StronglySorted (leP cmp) (sort_by cmp (seq 0 (length l)))).
  { apply sort_by_sorted; unfold cmp.
    - intros a b. destruct (Qlt_le_dec (nth b l 0%Q) (nth a l 0%Q)) as [H|H]; [right|left]; apply Qle_bool_iff; [apply Qlt_le_weak|]; exact H.
    - intros a b c. rewrite !Qle_bool_iff. intros H1 H2. exact (Qle_trans _ _ _ H1 H2). }
  intros i j [Hij Hj]. assert (HL : length (sort_by cmp (seq 0 (length l))) = length l) by (rewrite (Permutation_length (sort_by_perm cmp _)), seq_length; reflexivity).
  revert S HL. generalize (sort_by cmp (seq 0 (length l))). intros s S HL. assert (Hj' : j < length s) by lia. clear Hj HL. revert i j Hij Hj'. induction S as [|a s S IH F]; intros i j Hij Hj; [cbn [length] in Hj; lia|].
  destruct j as [|j]; [lia|]. destruct i as [|i]; cbn [nth length] in *; [|apply IH; lia].
  rewrite Forall_forall in F. apply Qle_bool_iff. apply (F (nth j s 0)). apply nth_In. lia.
Qed.
Example C25_example : sorts_positions insertion_argsort /\ scale_and_discretize insertion_argsort [3#10; 1#5; 1#2; 3#10]%Q 10 = Ok [2; 2; 4; 2]%Z.
Proof. split; [exact insertion_argsort_sorts|vm_compute; reflexivity]. Qed.

(** *** C26 *)
Section C26.
  Context {K : cring} (isz : K -> bool).
  Definition proper_array (a : ndarray K) : Prop :=
    match a_data a with RealData l => length l = prod_nat (a_shape a) | CplxData l => length l = prod_nat (a_shape a) end.
  Theorem C26_real_round_trip sh l : length l = prod_nat sh -> prod_nat sh <> 0 ->
    convert_dict_to_array isz (convert_array_to_dict {| a_shape := sh; a_data := RealData l |}) = Ok {| a_shape := sh; a_data := RealData (K := K) l |}.
  Proof. intros H Hn. unfold convert_dict_to_array, convert_array_to_dict. cbn. rewrite np_array_tolist by auto. reflexivity. Qed.
  Theorem C26_complex_round_trip n sh l : length l = prod_nat (n :: sh) -> prod_nat (n :: sh) <> 0 ->
    convert_dict_to_array isz (convert_array_to_dict {| a_shape := n :: sh; a_data := CplxData l |})
    = Ok {| a_shape := n :: sh; a_data := CplxData (K := K) l |}.
  Proof.
    intros H Hn. unfold convert_dict_to_array, convert_array_to_dict, jitem, jget. cbn [dget a_data a_shape String.eqb Ascii.eqb Bool.eqb rbind].
    rewrite np_array_tolist by (rewrite ?map_length; auto). cbn [rbind].
    rewrite truthy_list by (cbn in Hn; lia). rewrite np_array_tolist by (rewrite ?map_length; auto). cbn [rbind].
    rewrite (proj2 (list_eqb_spec Nat.eqb Nat.eqb_eq _ _) eq_refl). rewrite cplx_rebuild. reflexivity.
  Qed.
  (** Rank 0: a non-zero imaginary part survives; a zero one is dropped, the value is the same and the dtype becomes real. *)
  Theorem C26_scalar_complex x y :
    convert_dict_to_array isz (convert_array_to_dict {| a_shape := []; a_data := CplxData [(x, y)] |})
    = Ok (if isz y then {| a_shape := []; a_data := RealData (K := K) [x] |} else {| a_shape := []; a_data := CplxData [(x, y)] |}).
  Proof.
    unfold convert_dict_to_array, convert_array_to_dict. cbn. destruct (isz y); cbn; [reflexivity|].
    pose proof (cplx_rebuild [(x, y)]) as E. cbn in E. rewrite E. reflexivity.
  Qed.
  (** Arrays without elements lose their shape and their dtype. *)
  Theorem C26_empty_refuted :
    convert_dict_to_array isz (convert_array_to_dict {| a_shape := [0; 3]; a_data := CplxData [] |}) = Ok {| a_shape := [0]; a_data := RealData (K := K) [] |}.
  Proof. reflexivity. Qed.
  Theorem C26_value_estimate_round_trip {T} (teqb : T -> T -> bool) (Ht : eqb_spec_of teqb) (v : value_estimate (K := T)) :
    exists v', ve_from_dict (ve_to_dict v) = Ok v' /\ ve_eqb teqb v' v = true.
  Proof.
    assert (R : forall x, teqb x x = true) by (intros; apply Ht; reflexivity).
    destruct v as [x [[p|p]|]]; cbn; eexists; (split; [reflexivity|]); unfold ve_eqb; cbn; rewrite !R; reflexivity.
  Qed.
  (** Estimates are equal exactly when value and precision are, and an estimate with a precision never equals a plain number. *)
  Theorem C26_value_estimate_equality {T} (teqb : T -> T -> bool) (Ht : eqb_spec_of teqb) (v w : value_estimate (K := T)) x :
    (ve_eqb teqb v w = true <-> ve_value v = ve_value w /\ option_map pyval (ve_precision v) = option_map pyval (ve_precision w)) /\
    (ve_eqb_float teqb v x = true <-> ve_value v = x /\ ve_precision v = None).
  Proof.
    assert (Ht' : forall a b, teqb a b = true <-> a = b) by exact Ht.
    destruct v as [a p], w as [b q]. unfold ve_eqb, ve_eqb_float. cbn. rewrite !andb_true_iff, !Ht'. split; split.
    - intros [-> H]. split; [reflexivity|]. destruct p as [p|], q as [q|]; cbn in *; try discriminate; [|reflexivity]. apply Ht' in H. rewrite H. reflexivity.
    - intros [-> H]. split; [reflexivity|]. destruct p as [p|], q as [q|]; cbn in *; try discriminate; [|reflexivity]. injection H as ->. apply Ht'. reflexivity.
    - intros [-> H]. destruct p; [discriminate|]. auto.
    - intros [-> ->]. auto.
  Qed.
End C26.
Example C26_example : exists (a : ndarray CC), proper_array a /\ a_shape a = [2; 1; 2] /\ convert_dict_to_array (fun _ => false) (convert_array_to_dict a) = Ok a.
Proof.
  exists {| a_shape := [2; 1; 2]; a_data := CplxData (K := CC) [(c0, c1); (c1, c1); (c0, c0); (c1, c0)] |}.
  split; [reflexivity|]. split; [reflexivity|]. apply C26_complex_round_trip; [reflexivity|discriminate].
Qed.
Print Assumptions C23_dec2bin_fits. Print Assumptions C23_round_trip_number. Print Assumptions C23_round_trip_digits.
Print Assumptions C24_each_once. Print Assumptions C24_strings_round_trip. Print Assumptions C25_scale_and_discretize.
Print Assumptions C25_largest_remainders. Print Assumptions C26_complex_round_trip. Print Assumptions C26_value_estimate_round_trip.
