(** Proofs about distributions and sampling. *)
From Coq Require Import String Ascii NArith Nnat QArith Qround Qabs Qminmax Lqa DecimalString DecimalZ Sorting.Permutation.
From Verif Require Import Base BaseFacts MatModel MatFacts LiftModel LiftProofs Json UtilsModel UtilsSpec UtilsProofs DistModel DistSpec.
Local Open Scope list_scope.
Local Open Scope nat_scope.

(** *** keys *)
Lemma outcome_eqb_spec : eqb_spec_of outcome_eqb.
Proof. intros a b. apply list_eqb_spec. exact Z.eqb_eq. Qed.
Lemma elem_eqb_spec : eqb_spec_of elem_eqb.
Proof.
  intros [x|m] [y|n]; cbn; split; intros H; try discriminate; try congruence.
  - apply Z.eqb_eq in H. congruence.
  - injection H as ->. apply Z.eqb_refl.
  - apply Nat.eqb_eq in H. congruence.
  - injection H as ->. apply Nat.eqb_refl.
Qed.
Lemma elems_eqb_spec : eqb_spec_of (list_eqb elem_eqb).
Proof. intros a b. apply list_eqb_spec. exact elem_eqb_spec. Qed.

Lemma has_comma_app a b : has_comma (a ++ b)%string = has_comma a || has_comma b.
Proof. induction a as [|c a IH]; cbn; [reflexivity|]. rewrite IH, orb_assoc. reflexivity. Qed.
Lemma uint_no_comma d : has_comma (NilEmpty.string_of_uint d) = false.
Proof. induction d; cbn; auto. Qed.
Lemma str_of_int_no_comma z : has_comma (str_of_int z) = false.
Proof.
  unfold str_of_int. destruct (Z.to_int z) as [d|d]; cbn; destruct d; try reflexivity; try apply uint_no_comma.
Qed.
Lemma int_of_str z : int_of_string (str_of_int z) = Ok z.
Proof.
  unfold int_of_string, str_of_int. rewrite NilZero.isi.
  - rewrite of_to. reflexivity.
  - intros H. destruct z; try discriminate. cbn in H. injection H as H. revert H. apply DecimalPos.Unsigned.to_uint_nonnil.
  - intros H. destruct z; try discriminate. cbn in H. injection H as H. revert H. apply DecimalPos.Unsigned.to_uint_nonnil.
Qed.
Lemma split_no_comma s : has_comma s = false -> split_comma s = [s].
Proof.
  induction s as [|c s IH]; cbn; [reflexivity|]. intros H. apply orb_false_iff in H as [Hc Hs]. rewrite Hc, IH by auto. reflexivity.
Qed.
Lemma split_app_comma a b : has_comma a = false -> split_comma (a ++ String "," b)%string = a :: split_comma b.
Proof.
  induction a as [|c a IH]; cbn; [reflexivity|]. intros H. apply orb_false_iff in H as [Hc Hs]. rewrite Hc, IH by auto. reflexivity.
Qed.
Lemma split_concat l : (forall s, In s l -> has_comma s = false) -> l <> [] -> split_comma (String.concat "," l) = l.
Proof.
  induction l as [|s l IH]; intros H Hn; [congruence|]. destruct l as [|t l].
  - cbn. apply split_no_comma, H. left; auto.
  - change (String.concat "," (s :: t :: l)) with (s ++ "," ++ String.concat "," (t :: l))%string. cbn [String.append].
    rewrite split_app_comma by (apply H; left; auto). rewrite IH; [reflexivity|intros; apply H; right; auto|discriminate].
Qed.
Lemma concat_has_comma s t l : has_comma (String.concat "," (s :: t :: l)) = true.
Proof.
  change (String.concat "," (s :: t :: l)) with (s ++ "," ++ String.concat "," (t :: l))%string.
  rewrite has_comma_app. cbn. apply orb_true_r.
Qed.
Lemma concat_nil_no_comma l : (forall s, In s l -> has_comma s = false) -> has_comma (String.concat "" l) = false.
Proof.
  induction l as [|s l IH]; intros H; [reflexivity|]. rewrite concat_cons, has_comma_app, IH by (intros; apply H; right; auto).
  rewrite (H s (or_introl eq_refl)). reflexivity.
Qed.
Lemma in_str_of_ints z s : In s (map str_of_int z) -> has_comma s = false.
Proof. intros H. apply in_map_iff in H. destruct H as (x & <- & _). apply str_of_int_no_comma. Qed.
Lemma mapM_int_of_str z : mapM int_of_string (map str_of_int z) = Ok z.
Proof. induction z as [|x z IH]; cbn [map mapM]; [reflexivity|]. rewrite int_of_str. cbn [rbind]. rewrite IH. reflexivity. Qed.
Lemma preprocess_denotes k z : denotes k z -> preprocess_key k = Ok (map EInt z).
Proof.
  intros [z'|z' H|z' H]; cbn [preprocess_key]; [reflexivity| |].
  - rewrite concat_nil_no_comma by (apply in_str_of_ints). rewrite digits_concat by auto. reflexivity.
  - destruct z' as [|a [|b z']]; cbn in H; try lia. cbn [map]. rewrite concat_has_comma.
    change (str_of_int a :: str_of_int b :: map str_of_int z') with (map str_of_int (a :: b :: z')).
    rewrite split_concat by (discriminate || apply in_str_of_ints). rewrite mapM_int_of_str. reflexivity.
Qed.
(** join with commas can be read back, with one exception *)
Lemma join_comma_denotes z : length z <> 1 \/ (forall d, In d z -> (0 <= d <= 9)%Z) -> denotes (KStr (join_comma z)) z.
Proof.
  intros H. unfold join_comma. destruct z as [|a [|b z]].
  - apply (den_digits []). intros d [].
  - destruct H as [H|H]; [cbn in H; congruence|]. apply (den_digits [a]) in H. exact H.
  - apply den_commas. cbn. lia.
Qed.
Lemma denotes_fun k z z' : denotes k z -> denotes k z' -> z = z'.
Proof.
  intros H H'. apply preprocess_denotes in H, H'. rewrite H in H'. injection H' as E.
  revert z' E. clear. induction z as [|a z IH]; intros [|b z'] E; try discriminate; [reflexivity|]. injection E as -> E. f_equal. auto.
Qed.
Lemma EInt_inj z z' : map EInt z = map EInt z' -> z = z'.
Proof. revert z'. induction z as [|a z IH]; intros [|b z'] E; try discriminate; [reflexivity|]. injection E as -> E. f_equal. auto. Qed.
Lemma map_elem_int z : map elem_int (map EInt z) = z.
Proof. rewrite map_map. apply map_id. Qed.

(** preprocessing distinct outcomes keeps the list *)
Lemma foldM_pre input : forall acc, NoDup (map fst acc ++ map (fun kz => map EInt (snd (fst kz))) input) ->
  (forall k z v, In ((k, z), v) input -> denotes k z) ->
  foldM (fun d kv => let! k := preprocess_key (fst kv) in Ok (dset (list_eqb elem_eqb) k (snd kv) d)) (map (fun x => (fst (fst x), snd x)) input) acc
  = Ok (acc ++ map (fun x => (map EInt (snd (fst x)), snd x : Q)) input).
Proof.
  induction input as [|[[k z] v] input IH]; intros acc ND Hd; cbn [map foldM fst snd].
  - rewrite app_nil_r. reflexivity.
  - rewrite (preprocess_denotes k z) by (eapply Hd; left; reflexivity). cbn [rbind]. cbn [map fst snd] in ND.
    assert (Hnew : dset (list_eqb elem_eqb) (map EInt z) v acc = acc ++ [(map EInt z, v)]).
    { assert (Hni : ~ In (map EInt z) (map fst acc)). { intros Hin. apply NoDup_remove_2 in ND. apply ND, in_or_app. auto. }
      clear -Hni. induction acc as [|[k' v'] acc IH]; cbn; [reflexivity|].
      destruct (list_eqb elem_eqb (map EInt z) k') eqn:E; [apply elems_eqb_spec in E; exfalso; apply Hni; left; auto|].
      f_equal. apply IH. intros H. apply Hni. right. auto. }
    rewrite Hnew, IH.
    + rewrite <- app_assoc. reflexivity.
    + rewrite map_app. cbn [map fst]. rewrite <- app_assoc. exact ND.
    + intros; eapply Hd; right; eauto.
Qed.
Lemma preprocess_distinct (input : list (key * outcome * Q)) : NoDup (map (fun x => snd (fst x)) input) ->
  (forall k z v, In ((k, z), v) input -> denotes k z) ->
  preprocess (map (fun x => (fst (fst x), snd x)) input) = Ok (map (fun x => (map EInt (snd (fst x)), snd x)) input).
Proof.
  intros ND Hd. unfold preprocess. rewrite foldM_pre; [reflexivity| |exact Hd]. cbn.
  rewrite <- (map_map (fun x => snd (fst x)) (map EInt)). apply FinFun.Injective_map_NoDup; [|exact ND].
  intros a b. apply EInt_inj.
Qed.

(** *** sums *)
Lemma mass_total {A} (d : list (A * Q)) : mass d = total_mass (map snd d).
Proof. unfold mass. induction (map snd d) as [|x l IH]; cbn; [reflexivity|]. rewrite IH. reflexivity. Qed.
Lemma sum_Q_total l : sum_Q l = total_mass l.
Proof. induction l as [|x l IH]; cbn; [reflexivity|]. rewrite IH. reflexivity. Qed.
Lemma isclose_near x : isclose_one x = true <-> near_one x.
Proof. unfold isclose_one, near_one. apply Qle_bool_iff. Qed.
Lemma mass_scale {A} (d : list (A * Q)) c : (mass (map (fun kv => (fst kv, snd kv * c)%Q) d) == mass d * c)%Q.
Proof. unfold mass. rewrite map_map. cbn. rewrite <- sum_Q_map_scale. rewrite map_map. reflexivity. Qed.
Lemma mass_nonneg {A} (d : list (A * Q)) : (forall k v, In (k, v) d -> 0 <= v)%Q -> (0 <= mass d)%Q.
Proof.
  unfold mass. induction d as [|[k v] d IH]; intros H; cbn; [apply Qle_refl|].
  assert (0 <= v)%Q by (eapply H; left; reflexivity). assert (0 <= sum_Q (map snd d))%Q by (apply IH; intros; eapply H; right; eauto). lra.
Qed.

(** *** the constructor on distinct outcomes *)
Lemma key_length_spec {A V} (d : list (list A * V)) : is_key_length_fixed d = true <-> exists n, forall k v, In (k, v) d -> length k = n.
Proof.
  destruct d as [|[k0 v0] d]; cbn [is_key_length_fixed].
  - split; [intros _; exists 0; intros k v []|auto].
  - rewrite forallb_forall. split.
    + intros H. exists (length k0). intros k v Hin. apply Nat.eqb_eq. apply (H (k, v) Hin).
    + intros [n H] [k v] Hin. cbn. apply Nat.eqb_eq. rewrite (H k v Hin). symmetry. eapply H. left; reflexivity.
Qed.
Lemma is_mod_spec (d : dist) : NoDup (map fst d) ->
  is_measurement_outcome_distribution (map (fun kv => (map EInt (fst kv), snd kv)) d) = true <-> proper_dist d.
Proof.
  intros ND. unfold is_measurement_outcome_distribution, proper_dist. rewrite !andb_true_iff, negb_true_iff, key_length_spec.
  unfold is_non_negative, are_keys_non_negative_integer_tuples. rewrite !forallb_forall. split.
  - intros [[[H1 H2] [n H3]] H4]. split; [destruct d; [discriminate|discriminate]|]. split; [auto|]. split; [|split].
    + exists n. intros k v Hin. rewrite <- (map_length EInt). apply (H3 (map EInt k) v). apply in_map_iff. exists (k, v). auto.
    + intros k v z Hin Hz. specialize (H4 (map EInt k, v)). cbn in H4. rewrite forallb_forall in H4.
      apply Z.leb_le. apply (fun G => H4 G (EInt z)); [apply in_map_iff; exists (k, v); auto|apply in_map; auto].
    + intros k v Hin. apply Qle_bool_iff. apply (H2 (map EInt k, v)). apply in_map_iff. exists (k, v). auto.
  - intros (H1 & _ & [n H3] & H4 & H5). split; [split; [split|]|].
    + destruct d; [congruence|reflexivity].
    + intros x Hx. apply in_map_iff in Hx. destruct Hx as ([k v] & <- & Hin). cbn. apply Qle_bool_iff. eapply H5; eauto.
    + exists n. intros k v Hx. apply in_map_iff in Hx. destruct Hx as ([k' v'] & E & Hin). injection E as <- <-. rewrite map_length. eapply H3; eauto.
    + intros x Hx. apply in_map_iff in Hx. destruct Hx as ([k v] & <- & Hin). cbn. rewrite forallb_forall. intros e He.
      apply in_map_iff in He. destruct He as (z & <- & Hz). apply Z.leb_le. eapply H4; eauto.
Qed.
Lemma mk_dist_distinct (input : list (key * outcome * Q)) normalize :
  NoDup (map (fun x => snd (fst x)) input) -> (forall k z v, In ((k, z), v) input -> denotes k z) ->
  let d := map (fun x => (snd (fst x), snd x)) input in
  mk_dist (map (fun x => (fst (fst x), snd x)) input) normalize =
    if is_measurement_outcome_distribution (map (fun kv => (map EInt (fst kv), snd kv)) d)
    then if is_normalized d then Ok d else if normalize then normalize_dist d else Ok d
    else Err RuntimeError.
Proof.
  intros ND Hd d. unfold mk_dist. rewrite preprocess_distinct by auto. cbn [rbind].
  assert (E : map (fun kv => (map elem_int (fst kv), snd kv)) (map (fun x : key * outcome * Q => (map EInt (snd (fst x)), snd x)) input) = d).
  { unfold d. rewrite map_map. apply map_ext. intros x. cbn [fst snd]. rewrite map_elem_int. reflexivity. }
  cbv zeta. unfold dist, outcome in *. rewrite E. unfold d. rewrite map_map. reflexivity.
Qed.
Lemma mk_dist_tuples (d : dist) normalize : NoDup (map fst d) ->
  mk_dist (of_tuples d) normalize =
    if is_measurement_outcome_distribution (map (fun kv => (map EInt (fst kv), snd kv)) d)
    then if is_normalized d then Ok d else if normalize then normalize_dist d else Ok d
    else Err RuntimeError.
Proof.
  intros ND. pose proof (mk_dist_distinct (map (fun kv => ((KTuple (map EInt (fst kv)), fst kv), snd kv)) d) normalize) as H.
  rewrite !map_map in H. cbn [fst snd] in H. unfold of_tuples.
  assert (E : map (fun x : outcome * Q => (fst x, snd x)) d = d) by (rewrite (map_ext _ (fun x => x)); [apply map_id|intros []; reflexivity]).
  unfold dist, outcome in *. rewrite E in H. apply H; [exact ND|]. intros k z v Hin. apply in_map_iff in Hin. destruct Hin as (x & E' & _). injection E' as <- <- <-. constructor.
Qed.
Lemma normalize_spec {A} (d : list (A * Q)) : (0 <= mass d)%Q ->
  normalize_dist d = if Qle_bool float_min (mass d) then (if Qeq_bool (mass d) 1 then Ok d else Ok (map (fun kv => (fst kv, snd kv * (1 / mass d))%Q) d)) else Err ValueError.
Proof.
  intros H. unfold normalize_dist. cbn zeta.
  assert (Hf : (0 < float_min)%Q) by reflexivity.
  destruct (Qeq_bool (mass d) 0) eqn:E0.
  - apply Qeq_bool_iff in E0. destruct (Qle_bool float_min (mass d)) eqn:E; [|reflexivity]. apply Qle_bool_iff in E. lra.
  - destruct (Qle_bool (mass d) 0) eqn:E1.
    + apply Qle_bool_iff in E1. assert (E : (mass d == 0)%Q) by lra. apply Qeq_bool_iff in E. congruence.
    + cbn [negb andb]. destruct (Qle_bool float_min (mass d)); reflexivity.
Qed.
Lemma scale_nth (d : dist) c i : (nth i (map snd (map (fun kv => (fst kv, snd kv * c)%Q) d)) 0 == c * nth i (map snd d) 0)%Q.
Proof.
  rewrite map_map. cbn. revert i. induction d as [|[k v] d IH]; intros [|i]; cbn; try ring. apply IH.
Qed.
Lemma scale_proper (d : dist) c : (0 < c)%Q -> proper_dist d -> proper_dist (map (fun kv => (fst kv, snd kv * c)%Q) d).
Proof.
  intros Hc (H1 & H2 & [n H3] & H4 & H5). split; [destruct d; [congruence|discriminate]|]. split; [rewrite map_map; exact H2|]. split; [|split].
  - exists n. intros k v Hin. apply in_map_iff in Hin. destruct Hin as ([k' v'] & E & Hin). injection E as <- <-. eapply H3; eauto.
  - intros k v z Hin. apply in_map_iff in Hin. destruct Hin as ([k' v'] & E & Hin). injection E as <- <-. eapply H4; eauto.
  - intros k v Hin. apply in_map_iff in Hin. destruct Hin as ([k' v'] & E & Hin). injection E as <- <-. apply Qmult_le_0_compat; [eapply H5; eauto|lra].
Qed.
Lemma near_one_1 x : (x == 1)%Q -> near_one x.
Proof.
  intros H. unfold near_one. rewrite H. vm_compute. discriminate.
Qed.
(** what a successful construction gives, from the dictionary after overwriting duplicates *)
Lemma finish_spec (d r : dist) (normalize : bool) : NoDup (map fst d) ->
  (if is_measurement_outcome_distribution (map (fun kv => (map EInt (fst kv), snd kv)) d)
    then if is_normalized d then Ok d else if normalize then normalize_dist d else Ok d
    else Err RuntimeError) = Ok r ->
  proper_dist d /\ proper_dist r /\ proportional d r /\ (normalize = true -> near_one (mass r)) /\ (near_one (mass d) \/ normalize = false -> r = d) /\
  (normalize = true -> ~ near_one (mass d) -> (mass r == 1)%Q).
Proof.
  intros ND H. destruct (is_measurement_outcome_distribution _) eqn:E; [|discriminate]. apply is_mod_spec in E; [|exact ND].
  assert (Hself : proportional d d). { split; [reflexivity|]. exists 1%Q. split; [reflexivity|]. intros. ring. }
  split; [exact E|]. destruct (is_normalized d) eqn:En.
  - injection H as <-. apply isclose_near in En. repeat split; try apply E; try (intros; auto; contradiction); try exact Hself; try tauto. 
    all: try (exists 1%Q; split; [reflexivity|intros; ring]).
  - assert (Hn : ~ near_one (mass d)). { intros G. apply isclose_near in G. unfold is_normalized in En. congruence. }
    destruct normalize.
    + assert (Hm : (0 <= mass d)%Q) by (apply mass_nonneg; apply E).
      rewrite normalize_spec in H by exact Hm. destruct (Qle_bool float_min (mass d)) eqn:E1; [|discriminate]. apply Qle_bool_iff in E1.
      assert (Hf : (0 < float_min)%Q) by reflexivity.
      destruct (Qeq_bool (mass d) 1) eqn:E2; [apply Qeq_bool_iff in E2; exfalso; apply Hn, near_one_1, E2|].
      injection H as <-.
      assert (Hpos : (0 < mass d)%Q) by lra.
      assert (Hc : (0 < 1 / mass d)%Q). { apply Qlt_shift_div_l; [exact Hpos|]. lra. }
      assert (Hone : (mass (map (fun kv => (fst kv, snd kv * (1 / mass d))%Q) d) == 1)%Q). { rewrite mass_scale. field. lra. }
      split; [apply scale_proper; auto|]. split; [split; [rewrite map_map; reflexivity|exists (1 / mass d)%Q; split; [auto|intros; apply scale_nth]]|].
      split; [intros _; apply near_one_1, Hone|]. split; [intros [G|G]; [contradiction|discriminate]|]. intros _ _. exact Hone.
    + injection H as <-. split; [exact E|]. split; [exact Hself|]. split; [discriminate|]. split; [auto|discriminate].
Qed.

(** *** general input: keys that parse at all *)
Lemma preprocess_general (input : list (key * Q)) : forall (acc pre : list (list elem * Q)),
  foldM (fun d kv => let! k := preprocess_key (fst kv) in Ok (dset (list_eqb elem_eqb) k (snd kv) d)) input acc = Ok pre ->
  NoDup (map fst acc) -> NoDup (map fst pre).
Proof.
  induction input as [|[k v] input IH]; intros acc pre H ND; cbn [foldM] in H; [injection H as <-; exact ND|].
  cbn [fst snd] in H. destruct (preprocess_key k) as [z|]; cbn [rbind] in H; [|discriminate]. eapply IH; [exact H|].
  apply (dset_NoDup _ elems_eqb_spec). exact ND.
Qed.
Lemma mk_dist_pre input (normalize : bool) r : mk_dist input normalize = Ok r ->
  exists d, NoDup (map fst d) /\ preprocess input = Ok (map (fun kv => (map EInt (fst kv), snd kv)) d) /\
   (if is_measurement_outcome_distribution (map (fun kv => (map EInt (fst kv), snd kv)) d)
    then if is_normalized d then Ok d else if normalize then normalize_dist d else Ok d
    else Err RuntimeError) = Ok r.
Proof.
  intros H. unfold mk_dist in H. destruct (preprocess input) as [pre|] eqn:E; cbn [rbind] in H; [|discriminate].
  assert (ND : NoDup (map fst pre)) by (eapply preprocess_general; [exact E|constructor]).
  exists (map (fun kv => (map elem_int (fst kv), snd kv)) pre). destruct (is_measurement_outcome_distribution pre) eqn:Em; [|discriminate].
  assert (Hint : forall kv, In kv pre -> map EInt (map elem_int (fst kv)) = fst kv).
  { intros kv Hin. unfold is_measurement_outcome_distribution in Em. apply andb_true_iff in Em as [_ Em].
    unfold are_keys_non_negative_integer_tuples in Em. rewrite forallb_forall in Em. specialize (Em kv Hin). rewrite forallb_forall in Em.
    rewrite map_map. transitivity (map (fun e => e) (fst kv)); [|apply map_id]. apply map_ext_in. intros e He. specialize (Em e He).
    destruct e; [reflexivity|discriminate]. }
  assert (Epre : map (fun kv => (map EInt (fst kv), snd kv)) (map (fun kv => (map elem_int (fst kv), snd kv)) pre) = pre).
  { rewrite map_map. cbn. transitivity (map (fun kv => kv) pre); [|apply map_id]. apply map_ext_in. intros [k v] Hin. cbn.
    pose proof (Hint _ Hin) as Hx; cbn in Hx; rewrite Hx; reflexivity. }
  rewrite Epre. split.
  - rewrite <- Epre in ND. rewrite map_map in ND. cbn in ND. rewrite <- (map_map fst (map EInt)) in ND. exact (NoDup_map_inv _ _ ND).
  - split; [reflexivity|]. rewrite Em. exact H.
Qed.

(** *** product *)
Lemma product01_spec n : product01 n = map (fun i => map b2z (bits n i)) (seq 0 (2 ^ n)).
Proof.
  induction n as [|n IH]; [reflexivity|].
  assert (Hb : forall b i, i < 2 ^ n -> bits (S n) ((if b : bool then 2 ^ n else 0) + i) = b :: bits n i).
  { intros b i Hi. apply bval_inj; [cbn [length]; rewrite !bits_length; reflexivity|].
    rewrite bval_bits_small by (destruct b; cbn [Nat.pow]; lia). cbn [bval]. rewrite bits_length, bval_bits_small by auto. destruct b; reflexivity. }
  cbn [product01]. rewrite IH, !map_map. replace (2 ^ S n) with (2 ^ n + 2 ^ n) by (cbn; lia). rewrite seq_app, map_app. f_equal.
  - apply map_ext_in. intros i Hi. apply in_seq in Hi. pose proof (Hb false i ltac:(lia)) as E. cbn [Nat.add] in E. rewrite E. reflexivity.
  - replace (seq (0 + 2 ^ n) (2 ^ n)) with (map (fun i => 2 ^ n + i) (seq 0 (2 ^ n))) by (rewrite map_seq_shift; f_equal; lia).
    rewrite map_map. apply map_ext_in. intros i Hi. apply in_seq in Hi. rewrite (Hb true i) by lia. reflexivity.
Qed.
Lemma product01_length n : length (product01 n) = 2 ^ n.
Proof. rewrite product01_spec, map_length, seq_length. reflexivity. Qed.
Lemma product01_NoDup n : NoDup (product01 n).
Proof.
  induction n as [|n IH]; cbn; [repeat constructor; auto|]. apply NoDup_app.
  - apply FinFun.Injective_map_NoDup; [intros a b [= E]; auto|auto].
  - apply FinFun.Injective_map_NoDup; [intros a b [= E]; auto|auto].
  - intros a H1 H2. apply in_map_iff in H1, H2. destruct H1 as (x & <- & _), H2 as (y & E & _). discriminate.
Qed.

(** *** counters *)
Section Count.
  Context {A : Type} (eqb : A -> A -> bool) (Hs : eqb_spec_of eqb).
  Let eqd : forall a b : A, {a = b} + {a <> b}.
  Proof. intros a b. destruct (eqb a b) eqn:E; [left; apply Hs, E|right; intros H; apply Hs in H; congruence]. Defined.
  Definition occ (l : list A) (a : A) : nat := length (filter (eqb a) l).
  Lemma eqb_refl_of a : eqb a a = true.
  Proof. apply Hs. reflexivity. Qed.
  Lemma occ_app l1 l2 a : occ (l1 ++ l2) a = occ l1 a + occ l2 a.
  Proof. unfold occ. rewrite filter_app, app_length. reflexivity. Qed.
  Lemma occ_cons b l a : occ (b :: l) a = (if eqb a b then 1 else 0) + occ l a.
  Proof. unfold occ. cbn. destruct (eqb a b); reflexivity. Qed.
  Lemma occ_repeat a b n : occ (repeat b n) a = if eqb a b then n else 0.
  Proof. induction n as [|n IH]; cbn [repeat]; [destruct (eqb a b); reflexivity|]. rewrite occ_cons, IH. destruct (eqb a b); lia. Qed.
  Lemma occ_In l a : 0 < occ l a <-> In a l.
  Proof.
    induction l as [|b l IH]; [cbn; split; [lia|tauto]|]. rewrite occ_cons. destruct (eqb a b) eqn:E.
    - apply Hs in E. subst. split; [left; auto|lia].
    - cbn. rewrite <- IH. split; [right; lia|]. intros [->|H]; [rewrite eqb_refl_of in E; discriminate|lia].
  Qed.
  Lemma cget_count_one d a b : cget eqb (count_one eqb d b) a = (if eqb a b then 1 else 0) + cget eqb d a.
  Proof.
    unfold cget, count_one. destruct (eqb a b) eqn:E.
    - apply Hs in E. subst. rewrite (dget_dset_same _ Hs). destruct (dget eqb b d); reflexivity.
    - rewrite (dget_dset_other _ Hs); [reflexivity|]. intros ->. rewrite eqb_refl_of in E. discriminate.
  Qed.
  Lemma counter_fold l : forall d, NoDup (map fst d) -> (forall k n, In (k, n) d -> 0 < n) ->
    NoDup (map fst (fold_left (count_one eqb) l d)) /\ (forall k n, In (k, n) (fold_left (count_one eqb) l d) -> 0 < n) /\
    forall a, cget eqb (fold_left (count_one eqb) l d) a = cget eqb d a + occ l a.
  Proof.
    induction l as [|b l IH]; intros d ND HP; cbn [fold_left].
    - split; [exact ND|]. split; [exact HP|]. intros a. unfold occ. cbn. lia.
    - destruct (IH (count_one eqb d b)) as (H1 & H2 & H3).
      + unfold count_one. apply (dset_NoDup _ Hs), ND.
      + unfold count_one. intros k n Hin. assert (G : forall v, 0 < v -> (forall k n, In (k, n) d -> 0 < n) -> In (k, n) (dset eqb b v d) -> 0 < n).
        { clear. intros v Hv HP. induction d as [|[k' v'] d IHd]; cbn; [intros [[= <- <-]|[]]; auto|].
          destruct (eqb b k'); cbn; intros [[= <- <-]|Hin]; auto; try (eapply HP; cbn; eauto; fail).
          apply IHd; auto. intros; eapply HP; right; eauto. }
        apply G in Hin; auto. destruct (dget eqb b d); lia.
      + split; [auto|]. split; [auto|]. intros a. rewrite H3, cget_count_one, occ_cons. lia.
  Qed.
  Lemma counter_NoDup l : NoDup (map fst (counter eqb l)).
  Proof. apply counter_fold; [constructor|intros k n []]. Qed.
  Lemma counter_pos l k n : In (k, n) (counter eqb l) -> 0 < n.
  Proof. apply counter_fold; [constructor|intros ? ? []]. Qed.
  Lemma cget_counter l a : cget eqb (counter eqb l) a = occ l a.
  Proof. destruct (counter_fold l []) as (_ & _ & H); [constructor|intros ? ? []|]. unfold counter. rewrite H. reflexivity. Qed.
  Lemma In_cget d k n : NoDup (map fst d) -> In (k, n) d -> cget eqb d k = n.
  Proof. intros ND H. unfold cget. rewrite (In_dget _ Hs _ _ _ ND H). reflexivity. Qed.
  Lemma cget_In d k : 0 < cget eqb d k -> In (k, cget eqb d k) d.
  Proof.
    unfold cget. destruct (dget eqb k d) as [n|] eqn:E; [|lia]. intros _. clear -E Hs. induction d as [|[k' v] d IH]; [discriminate|]. cbn in E.
    destruct (eqb k k') eqn:Ek; [apply Hs in Ek; injection E as ->; left; congruence|right; auto].
  Qed.
  Lemma counter_In l k n : In (k, n) (counter eqb l) <-> n = occ l k /\ 0 < n.
  Proof.
    split.
    - intros H. rewrite <- cget_counter. rewrite (In_cget _ _ _ (counter_NoDup l) H). split; [auto|eapply counter_pos; eauto].
    - intros [-> H]. rewrite <- cget_counter in *. apply cget_In. auto.
  Qed.
  Lemma counter_keys l a : In a (map fst (counter eqb l)) <-> In a l.
  Proof.
    rewrite <- (occ_In l). split.
    - intros H. apply in_map_iff in H. destruct H as ([k n] & <- & H). apply counter_In in H. cbn. lia.
    - intros H. apply in_map_iff. exists (a, occ l a). split; [reflexivity|]. apply counter_In. auto.
  Qed.
  Definition total_count (d : list (A * nat)) : nat := sum_nat (map snd d).
  Lemma total_count_dset d a v : NoDup (map fst d) -> total_count (dset eqb a v d) + cget eqb d a = total_count d + v.
  Proof.
    unfold total_count, cget. induction d as [|[k n] d IH]; intros ND; cbn.
    - lia.
    - destruct (eqb a k) eqn:E; cbn; [lia|]. inversion ND; subst. specialize (IH H2). lia.
  Qed.
  Lemma counter_total l : total_count (counter eqb l) = length l.
  Proof.
    unfold counter. assert (G : forall l d, NoDup (map fst d) -> total_count (fold_left (count_one eqb) l d) = total_count d + length l).
    { induction l0 as [|b l0 IH]; intros d ND; cbn [fold_left length]; [lia|]. rewrite IH.
      - unfold count_one. pose proof (total_count_dset d b (match dget eqb b d with Some n => S n | None => 1 end) ND) as H.
        unfold cget in H. destruct (dget eqb b d); lia.
      - unfold count_one. apply (dset_NoDup _ Hs), ND. }
    rewrite G by constructor. reflexivity.
  Qed.
  (** expanding a counter *)
  Lemma occ_expand d a : NoDup (map fst d) -> occ (flat_map (fun kn => repeat (fst kn) (snd kn)) d) a = cget eqb d a.
  Proof.
    induction d as [|[k n] d IH]; intros ND; [reflexivity|]. cbn [flat_map fst snd]. rewrite occ_app, occ_repeat.
    inversion ND; subst. rewrite IH by auto. unfold cget. cbn. destruct (eqb a k) eqn:E; [|lia].
    apply Hs in E. subst k. assert (Hn : dget eqb a d = None).
    { destruct (dget eqb a d) eqn:E; [|reflexivity]. exfalso. apply H1. clear -E Hs.
      induction d as [|[k' v] d IH]; [discriminate|]. cbn in *. destruct (eqb a k') eqn:Ek; [apply Hs in Ek; auto|right; auto]. }
    rewrite Hn. lia.
  Qed.
  Lemma expand_length (d : list (A * nat)) : length (flat_map (fun kn => repeat (fst kn) (snd kn)) d) = total_count d.
  Proof.
    unfold total_count. induction d as [|[k n] d IH]; cbn; [reflexivity|]. rewrite app_length, repeat_length, IH. reflexivity.
  Qed.
  (** addition *)
  Lemma cget_cons k n d a : cget eqb ((k, n) :: d) a = if eqb a k then n else cget eqb d a.
  Proof. unfold cget. cbn. destruct (eqb a k); reflexivity. Qed.
  Lemma cget_app d e a : NoDup (map fst (d ++ e)) -> cget eqb (d ++ e) a = cget eqb d a + cget eqb e a.
  Proof.
    induction d as [|[k n] d IH]; intros ND; [reflexivity|]. cbn [app]. rewrite !cget_cons. inversion ND; subst. destruct (eqb a k) eqn:E.
    - apply Hs in E. subst k. assert (Hz : cget eqb e a = 0).
      { destruct (cget eqb e a) eqn:Ec; [reflexivity|]. exfalso. apply H1. rewrite map_app. apply in_or_app. right.
        assert (Hin : In (a, cget eqb e a) e) by (apply cget_In; lia). apply in_map_iff. exists (a, cget eqb e a). auto. }
      lia.
    - apply IH. auto.
  Qed.
  Lemma cget_filter_pos d a (p : A * nat -> bool) : NoDup (map fst d) -> (forall n, p (a, n) = false -> n = 0 \/ False) -> cget eqb (filter p d) a = cget eqb d a.
  Proof.
    intros ND Hp. induction d as [|[k n] d IH]; [reflexivity|]. inversion ND; subst. cbn [filter]. destruct (p (k, n)) eqn:E.
    - rewrite !cget_cons, IH by auto. reflexivity.
    - rewrite IH, cget_cons by auto. destruct (eqb a k) eqn:Ek; [|reflexivity]. apply Hs in Ek. subst k.
      destruct (Hp _ E) as [->|[]]. destruct (cget eqb d a) eqn:Ec; [reflexivity|]. exfalso. apply H1.
      apply in_map_iff. exists (a, cget eqb d a). split; [reflexivity|]. apply cget_In. lia.
  Qed.
  Lemma cget_filter_out d a (p : A * nat -> bool) : (forall n, p (a, n) = false) -> cget eqb (filter p d) a = 0.
  Proof.
    intros Hp. induction d as [|[k n] d IH]; [reflexivity|]. cbn [filter]. destruct (p (k, n)) eqn:E; [|auto].
    rewrite cget_cons. destruct (eqb a k) eqn:Ek; [|auto]. apply Hs in Ek. subst. rewrite Hp in E. discriminate.
  Qed.
  Lemma NoDup_filter_fst {B} (p : A * B -> bool) (d : list (A * B)) : NoDup (map fst d) -> NoDup (map fst (filter p d)).
  Proof.
    induction d as [|[k n] d IH]; intros ND; [constructor|]. inversion ND; subst. cbn. destruct (p (k, n)); [|auto]. cbn. constructor; [|auto].
    intros H. apply H1. apply in_map_iff in H. destruct H as ([k' n'] & <- & H). apply filter_In in H. apply in_map_iff. exists (k', n'). tauto.
  Qed.
  Lemma counter_add_keys d e : NoDup (map fst d) -> NoDup (map fst e) -> NoDup (map fst (counter_add eqb d e)).
  Proof.
    intros Hd He. unfold counter_add. rewrite map_app. apply NoDup_app.
    - apply NoDup_filter_fst. rewrite map_map. cbn. exact Hd.
    - apply NoDup_filter_fst. exact He.
    - intros a H1 H2. apply in_map_iff in H1. destruct H1 as ([k n] & <- & H1). apply filter_In in H1. destruct H1 as [H1 _].
      apply in_map_iff in H1. destruct H1 as ([k' n'] & E & H1). injection E as <- <-.
      apply in_map_iff in H2. destruct H2 as ([k2 n2] & E2 & H2). cbn in E2. subst k2. apply filter_In in H2. destruct H2 as [_ H2]. cbn in H2.
      apply andb_true_iff in H2 as [_ H2]. apply negb_true_iff in H2. unfold dmem in H2. rewrite (In_dget _ Hs _ _ _ Hd H1) in H2. discriminate.
  Qed.
  Lemma dmem_false d a : dmem eqb a d = false -> cget eqb d a = 0.
  Proof. unfold dmem, cget. destruct (dget eqb a d); [discriminate|reflexivity]. Qed.
  Lemma cget_map_add d e a : cget eqb (map (fun kv => (fst kv, snd kv + cget eqb e (fst kv))) d) a = if dmem eqb a d then cget eqb d a + cget eqb e a else 0.
  Proof.
    induction d as [|[k n] d IH]; [reflexivity|]. cbn [map fst snd]. rewrite !cget_cons. unfold dmem in *. cbn. destruct (eqb a k) eqn:E.
    - apply Hs in E. subst. reflexivity.
    - exact IH.
  Qed.
  Lemma cget_counter_add d e a : NoDup (map fst d) -> NoDup (map fst e) -> cget eqb (counter_add eqb d e) a = cget eqb d a + cget eqb e a.
  Proof.
    intros Hd He. unfold counter_add. rewrite cget_app by (apply counter_add_keys; auto). rewrite cget_filter_pos.
    - rewrite cget_map_add. destruct (dmem eqb a d) eqn:E.
      + rewrite cget_filter_out; [lia|]. intros n. cbn. rewrite E. apply andb_false_r.
      + rewrite cget_filter_pos by (auto; intros n; cbn [fst snd]; rewrite E; cbn [negb]; rewrite andb_true_r; intros H; apply Nat.ltb_ge in H; lia).
        rewrite (dmem_false _ _ E). reflexivity.
    - rewrite map_map. exact Hd.
    - intros n. cbn [fst snd]. intros H. apply Nat.ltb_ge in H. lia.
  Qed.
  Lemma counter_add_pos d e k n : In (k, n) (counter_add eqb d e) -> 0 < n.
  Proof.
    unfold counter_add. intros H. apply in_app_or in H. destruct H as [H|H]; apply filter_In in H; destruct H as [_ H]; cbn [fst snd] in H.
    - apply Nat.ltb_lt in H. auto.
    - apply andb_true_iff in H as [H _]. apply Nat.ltb_lt in H. auto.
  Qed.
  Lemma sum_nat_filter_pos (l : list (A * nat)) : sum_nat (map snd (filter (fun kv => 0 <? snd kv) l)) = sum_nat (map snd l).
  Proof. induction l as [|[k n] l IH]; [reflexivity|]. cbn [filter snd]. destruct (0 <? n) eqn:E; cbn [map snd sum_nat]; rewrite IH; [reflexivity|]. apply Nat.ltb_ge in E. lia. Qed.
  Lemma counter_add_total d e : NoDup (map fst d) -> NoDup (map fst e) -> total_count (counter_add eqb d e) = total_count d + total_count e.
  Proof.
    intros Hd He. unfold total_count, counter_add. rewrite map_app, sum_nat_app, sum_nat_filter_pos.
    assert (G : forall d, NoDup (map fst d) -> sum_nat (map snd (map (fun kv => (fst kv, snd kv + cget eqb e (fst kv))) d)) +
      sum_nat (map snd (filter (fun kv => (0 <? snd kv) && negb (dmem eqb (fst kv) d)) e)) = sum_nat (map snd d) + sum_nat (map snd e)).
    { clear d Hd. induction d as [|[k n] d IH]; intros Hd.
      - cbn. clear -e. induction e as [|[k n] e IH]; [reflexivity|]. cbn. destruct n; cbn; rewrite IH; reflexivity.
      - inversion Hd; subst. specialize (IH H2). cbn [map fst snd sum_nat].
        assert (E : sum_nat (map snd (filter (fun kv => (0 <? snd kv) && negb (dmem eqb (fst kv) ((k, n) :: d))) e)) + cget eqb e k =
                    sum_nat (map snd (filter (fun kv => (0 <? snd kv) && negb (dmem eqb (fst kv) d)) e))).
        { assert (Hk : dmem eqb k d = false).
          { unfold dmem. destruct (dget eqb k d) eqn:E; [|reflexivity]. exfalso. apply H1. clear -E Hs.
            induction d as [|[k' v] d IH]; [discriminate|]. cbn in *. destruct (eqb k k') eqn:Ek; [apply Hs in Ek; auto|right; auto]. }
          clear -Hs He Hk. induction e as [|[k' n'] e IH]; [reflexivity|]. inversion He; subst. specialize (IH H2). cbn [filter fst snd]. rewrite cget_cons.
          unfold dmem at 1. cbn [dget]. destruct (eqb k k') eqn:E.
          - apply Hs in E. subst k'. rewrite eqb_refl_of. rewrite andb_false_r, Hk. cbn [negb]. rewrite andb_true_r.
            assert (Hz : cget eqb e k = 0).
            { destruct (cget eqb e k) eqn:Ec; [reflexivity|]. exfalso. apply H1. apply in_map_iff. exists (k, cget eqb e k). split; [auto|]. apply cget_In. lia. }
            rewrite Hz in IH. destruct n'; cbn in *; lia.
          - destruct (eqb k' k) eqn:E'; [apply Hs in E'; subst; rewrite eqb_refl_of in E; discriminate|].
            change (match dget eqb k' d with Some _ => true | None => false end) with (dmem eqb k' d).
            destruct ((0 <? n') && negb (dmem eqb k' d)); cbn [map snd sum_nat]; lia. }
        lia. }
    apply G, Hd.
  Qed.
End Count.

(** *** sampling *)
Section Samp.
  Context (choice : nat -> list Q -> nat -> result (list nat)) (Hch : draws_from_support choice).
  Lemma near_one_tol x : near_one x -> (0 <= x)%Q -> (Qabs (x - 1) <= 1 # 100000000)%Q.
  Proof.
    unfold near_one. intros H Hx. rewrite (Qabs_pos x Hx) in H. apply Qabs_Qle_condition in H. apply Qabs_Qle_condition.
    pose proof (Q.max_spec x 1) as [[H1 H2]|[H1 H2]]; rewrite H2 in H; split; lra.
  Qed.
  Lemma sample_spec k (d : dist) n : proper_dist d -> near_one (mass d) ->
    exists s, sample_from_dist choice k d n = Ok s /\ total_count s = n /\ NoDup (map fst s) /\
      forall o c, In (o, c) s -> 0 < c /\ exists p, In (o, p) d /\ (0 < p)%Q.
  Proof.
    intros (_ & ND & _ & _ & Hv) Hm. unfold sample_from_dist.
    destruct (Hch k (map snd d) n) as (l & El & Hl & Hi).
    - intros p Hp. apply in_map_iff in Hp. destruct Hp as ([o q] & <- & Hp). eapply Hv; eauto.
    - rewrite <- mass_total. apply near_one_tol; [exact Hm|apply mass_nonneg; exact Hv].
    - rewrite El. cbn [rbind]. set (f := fun i => match nth_error d i with Some kv => Ok (fst kv) | None => Err IndexError end).
      assert (E : mapM f l = Ok (map (fun i => fst (nth i d ([], 0%Q))) l)).
      { apply mapM_ok_ext. intros i Hin. destruct (Hi i Hin) as [Hlt _]. rewrite map_length in Hlt. unfold f.
        rewrite (nth_error_nth' d ([], 0%Q) Hlt). reflexivity. }
      rewrite E. cbn [rbind]. eexists. split; [reflexivity|]. split; [rewrite (counter_total _ outcome_eqb_spec), map_length; exact Hl|].
      split; [apply (counter_NoDup _ outcome_eqb_spec)|]. intros o c Hin. split; [eapply (counter_pos _ outcome_eqb_spec); eauto|].
      assert (Ho : In o (map fst (counter outcome_eqb (map (fun i => fst (nth i d ([], 0%Q))) l)))) by (apply in_map_iff; exists (o, c); auto).
      apply (proj1 (counter_keys _ outcome_eqb_spec _ _)) in Ho. apply in_map_iff in Ho. destruct Ho as (i & <- & Hil). destruct (Hi i Hil) as [Hlt Hp].
      rewrite map_length in Hlt. exists (snd (nth i d ([], 0%Q))). split; [rewrite <- surjective_pairing; apply nth_In; exact Hlt|].
      rewrite (nth_indep _ 0%Q (snd (([], 0%Q) : outcome * Q))) in Hp by (rewrite map_length; exact Hlt). rewrite map_nth in Hp. exact Hp.
  Qed.
End Samp.
