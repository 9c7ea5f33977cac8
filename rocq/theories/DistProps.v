(** C22 (distribution part), C32, C33 and C35. *)
From Coq Require Import String Ascii NArith Nnat QArith Qround Qabs Qminmax Lqa Sorting.Permutation.
From Verif Require Import Base BaseFacts MatModel MatFacts LiftModel LiftProofs Json UtilsModel UtilsSpec UtilsProofs DistModel DistSpec DistProofs.
Local Open Scope list_scope.
Local Open Scope nat_scope.

(** ** C32: distributions are probability distributions *)

(** Whatever dictionary is passed: a constructed object is a distribution, normalised unless that was switched off. *)
Theorem C32_constructed input normalize d : mk_dist input normalize = Ok d ->
  proper_dist d /\ (normalize = true -> near_one (total_mass (map snd d))).
Proof.
  intros H. destruct (mk_dist_pre _ _ _ H) as (d0 & ND & _ & E). destruct (finish_spec _ _ _ ND E) as (_ & H1 & _ & H2 & _).
  split; [exact H1|]. intros Hn. rewrite <- mass_total. auto.
Qed.
(** Keys that denote different tuples: the outcomes and proportions are kept; only an input that is not normalised is
    rescaled, and then its values add up to one exactly. *)
Theorem C32_proportions (input : list (key * outcome * Q)) normalize r :
  NoDup (map (fun x => snd (fst x)) input) -> (forall k z v, In ((k, z), v) input -> denotes k z) ->
  mk_dist (map (fun x => (fst (fst x), snd x)) input) normalize = Ok r ->
  let d := map (fun x => (snd (fst x), snd x)) input in
  proportional d r /\ (near_one (total_mass (map snd d)) \/ normalize = false -> r = d) /\
  (normalize = true -> ~ near_one (total_mass (map snd d)) -> (total_mass (map snd r) == 1)%Q).
Proof.
  intros ND Hd H d. rewrite mk_dist_distinct in H by auto.
  assert (ND' : NoDup (map fst d)) by (unfold d; rewrite map_map; exact ND).
  destruct (finish_spec _ _ _ ND' H) as (_ & _ & H1 & _ & H2 & H3). rewrite <- !mass_total. auto.
Qed.
(** Exactly which dictionaries of distinct outcomes are accepted.  [float_min] is the smallest normal double. *)
Theorem C32_accepted (input : list (key * outcome * Q)) normalize :
  NoDup (map (fun x => snd (fst x)) input) -> (forall k z v, In ((k, z), v) input -> denotes k z) ->
  let d := map (fun x => (snd (fst x), snd x)) input in
  ((exists r, mk_dist (map (fun x => (fst (fst x), snd x)) input) normalize = Ok r) <->
     proper_dist d /\ (normalize = true -> (1 # (2 ^ 1022) <= total_mass (map snd d))%Q)) /\
  (~ proper_dist d -> mk_dist (map (fun x => (fst (fst x), snd x)) input) normalize = Err RuntimeError) /\
  (proper_dist d -> (total_mass (map snd d) < 1 # (2 ^ 1022))%Q ->
   mk_dist (map (fun x => (fst (fst x), snd x)) input) true = Err ValueError).
Proof.
  intros ND Hd d. assert (ND' : NoDup (map fst d)) by (unfold d; rewrite map_map; exact ND).
  assert (E : forall nm : bool, mk_dist (map (fun x => (fst (fst x), snd x)) input) nm =
    if is_measurement_outcome_distribution (map (fun kv => (map EInt (fst kv), snd kv)) d)
    then if is_normalized d then Ok d else if nm then normalize_dist d else Ok d else Err RuntimeError)
    by (intros; apply mk_dist_distinct; auto).
  rewrite !E, <- mass_total. clear E. pose proof (is_mod_spec d ND') as HM. destruct (is_measurement_outcome_distribution _) eqn:Em.
  - assert (HP : proper_dist d) by (apply HM; reflexivity). assert (Hm : (0 <= mass d)%Q) by (apply mass_nonneg; apply HP).
    destruct (is_normalized d) eqn:En.
    + assert (Hbig : (1 # (2 ^ 1022) <= mass d)%Q).
      { apply isclose_near in En. apply near_one_tol in En; [|exact Hm]. apply Qabs_Qle_condition in En. apply Qle_trans with (1 # 2)%Q; [discriminate|lra]. }
      split; [split; [auto|intros _; eauto]|]. split; [contradiction|]. intros _ H. lra.
    + rewrite normalize_spec by exact Hm. change (1 # (2 ^ 1022))%Q with float_min. split; [split|split].
      * intros [r Hr]. split; [exact HP|]. intros ->. destruct (Qle_bool float_min (mass d)) eqn:El; [apply Qle_bool_iff in El; exact El|discriminate].
      * intros [_ H]. destruct normalize; [|eauto]. specialize (H eq_refl). apply Qle_bool_iff in H. rewrite H. destruct (Qeq_bool _ _); eauto.
      * contradiction.
      * intros _ H. destruct (Qle_bool float_min (mass d)) eqn:El; [apply Qle_bool_iff in El; lra|reflexivity].
  - split; [split; [intros [r Hr]; discriminate|]|]; [intros [HP _]; apply HM in HP; discriminate|]. split; [reflexivity|].
    intros HP. apply HM in HP. discriminate.
Qed.
(** Keys that are neither strings nor tuples, tuples with something else than integers, and strings that are not written in digits
    are rejected. *)
Theorem C32_bad_keys k v rest normalize : 
  (k = KOther -> mk_dist ((k, v) :: rest) normalize = Err RuntimeError) /\
  (forall s c, k = KStr s -> In c (list_ascii_of_string s) -> int_of_char c = Err ValueError -> has_comma s = false -> mk_dist ((k, v) :: rest) normalize = Err ValueError) /\
  (forall t tag r, k = KTuple t -> In (EOther tag) t -> mk_dist ((k, v) :: rest) normalize = Ok r -> False).
Proof.
  split; [intros ->; reflexivity|]. split.
  - intros s c -> Hc Hi Hno. unfold mk_dist, preprocess. cbn [foldM fst preprocess_key]. rewrite Hno.
    assert (E : mapM int_of_char (list_ascii_of_string s) = Err ValueError).
    { clear Hno. induction (list_ascii_of_string s) as [|a l IH]; [destruct Hc|]. cbn [mapM]. destruct Hc as [->|Hc]; [rewrite Hi; reflexivity|].
      destruct (int_of_char a) as [z|e] eqn:Ea; cbn [rbind].
      - rewrite IH by auto. reflexivity.
      - unfold int_of_char in Ea. destruct (_ && _); [discriminate|]. congruence. }
    rewrite E. reflexivity.
  - intros t tag r -> Ht H. destruct (mk_dist_pre _ _ _ H) as (d & ND & E & H').
    unfold preprocess in E. cbn [foldM fst snd preprocess_key rbind dset] in E.
    assert (G : forall (rest : list (key * Q)) (acc out : list (list elem * Q)), In t (map fst acc) -> foldM (fun d kv => let! k := preprocess_key (fst kv) in Ok (dset (list_eqb elem_eqb) k (snd kv) d)) rest acc = Ok out -> In t (map fst out)).
    { clear. induction rest as [|[k v] rest IH]; intros acc out Hin HE; cbn [foldM fst snd] in HE; [injection HE as <-; auto|].
      destruct (preprocess_key k) as [z|]; cbn [rbind] in HE; [|discriminate]. eapply IH; [|exact HE].
      clear -Hin. induction acc as [|[k' v'] acc IH]; [destruct Hin|]. cbn [dset]. destruct (list_eqb elem_eqb z k'); cbn in *; tauto. }
    apply (G _ _ _) in E; [|left; reflexivity]. rewrite map_map in E. apply in_map_iff in E. destruct E as ([k' v'] & <- & _). cbn in Ht.
    apply in_map_iff in Ht. destruct Ht as (z & Hz & _). discriminate.
Qed.
Example C32_example : exists r, mk_dist [(KStr "01", 1); (KTuple [EInt 1; EInt 0], 3)]%Q true = Ok r /\ map fst r = [[0; 1]; [1; 0]]%Z /\
  (nth 0 (map snd r) 0 == 1 # 4)%Q /\ (nth 1 (map snd r) 0 == 3 # 4)%Q.
Proof. eexists. split; [vm_compute; reflexivity|]. split; [reflexivity|]. split; reflexivity. Qed.

(** ** C33: dictionaries keep their outcomes *)

(** Every notation of a tuple is read back as that tuple; so different tuples have different notations. *)
Theorem C33_keys_read k z : denotes k z -> preprocess_key k = Ok (map EInt z) /\ forall z', denotes k z' -> z' = z.
Proof. intros H. split; [apply preprocess_denotes, H|]. intros z' H'. eapply denotes_fun; eauto. Qed.
(** The notation used for the keys makes no difference. *)
Theorem C33_notation_irrelevant (input : list (key * outcome * Q)) normalize :
  NoDup (map (fun x => snd (fst x)) input) -> (forall k z v, In ((k, z), v) input -> denotes k z) ->
  mk_dist (map (fun x => (fst (fst x), snd x)) input) normalize = mk_dist (of_tuples (map (fun x => (snd (fst x), snd x)) input)) normalize.
Proof.
  intros ND Hd. rewrite mk_dist_distinct by auto. rewrite mk_dist_tuples; [reflexivity|]. rewrite map_map. exact ND.
Qed.

Lemma str_of_int_nonempty z : str_of_int z <> EmptyString.
Proof. intros H. pose proof (int_of_str z) as E. rewrite H in E. discriminate. Qed.
Lemma map_str_inj a b : map str_of_int a = map str_of_int b -> a = b.
Proof.
  revert b. induction a as [|x a IH]; intros [|y b] H; try discriminate; [reflexivity|]. cbn in H. injection H as H1 H2. f_equal; [|auto].
  pose proof (int_of_str x) as Ex. rewrite H1, int_of_str in Ex. congruence.
Qed.
Lemma join_comma_inj a b : join_comma a = join_comma b -> a = b.
Proof.
  intros H. unfold join_comma in H. apply map_str_inj.
  assert (G : forall z, z <> [] -> split_comma (String.concat "," (map str_of_int z)) = map str_of_int z).
  { intros z Hz. apply split_concat; [apply in_str_of_ints|]. destruct z; [congruence|discriminate]. }
  destruct a as [|x a], b as [|y b].
  - reflexivity.
  - exfalso. pose proof (G (y :: b) ltac:(discriminate)) as E. rewrite <- H in E. cbn in E. injection E as E _. symmetry in E. revert E. apply str_of_int_nonempty.
  - exfalso. pose proof (G (x :: a) ltac:(discriminate)) as E. rewrite H in E. cbn in E. injection E as E _. symmetry in E. revert E. apply str_of_int_nonempty.
  - rewrite <- G by discriminate. rewrite H. apply G. discriminate.
Qed.
Lemma comma_keys_spec (d : dist) : NoDup (map fst d) -> comma_keys d = map (fun kv => (join_comma (fst kv), snd kv)) d.
Proof.
  intros ND. unfold comma_keys. apply (dict_of_NoDup_id _ string_eqb_spec). unfold dkeys. rewrite map_map. cbn [fst].
  rewrite <- (map_map fst join_comma). apply FinFun.Injective_map_NoDup; [intros a b; apply join_comma_inj|exact ND].
Qed.

(** Saving and loading. *)
Definition readable (d : dist) : Prop := forall k v, In (k, v) d -> length k <> 1 \/ forall z, In z k -> (z <= 9)%Z.
Lemma dist_of_dist_json (d : dist) : proper_dist d -> readable d -> dist_of_json (dist_json d) = if is_normalized d then Ok d else normalize_dist d.
Proof.
  intros HP HR. assert (ND : NoDup (map fst d)) by apply HP.
  unfold dist_of_json, dist_input, dist_json. rewrite comma_keys_spec by exact ND. rewrite !map_map. cbn [fst snd].
  assert (E : forall l : dist, mapM (fun kv : string * json Q => match snd kv with JNum q => Ok (KStr (fst kv), q) | _ => Err TypeError end)
     (map (fun x => (join_comma (fst x), JNum (snd x))) l) = Ok (map (fun x => (KStr (join_comma (fst x)), snd x)) l)).
  { clear. induction l as [|[k v] l IH]; [reflexivity|]. cbn [map mapM fst snd rbind]. rewrite IH. reflexivity. }
  rewrite E. cbn [rbind].
  pose proof (mk_dist_distinct (map (fun x => (KStr (join_comma (fst x)), fst x, snd x)) d) true) as H. rewrite !map_map in H. cbn [fst snd] in H.
  assert (Ed : map (fun x : outcome * Q => (fst x, snd x)) d = d) by (rewrite (map_ext _ (fun x => x)); [apply map_id|intros []; reflexivity]).
  cbv zeta in H. unfold dist, outcome in *. rewrite Ed in H. rewrite H.
  - rewrite (proj2 (is_mod_spec d ND) HP). reflexivity.
  - exact ND.
  - intros k z v Hin. apply in_map_iff in Hin. destruct Hin as ([k' v'] & [= <- <- <-] & Hin). apply join_comma_denotes.
    destruct (HR _ _ Hin) as [Hl|Hl]; [left; exact Hl|right]. intros x Hx. split; [eapply HP; eauto|auto].
Qed.
(** a normalised distribution over at least two positions, or over one position with entries up to 9, is loaded as it was saved *)
Theorem C33_save_load (d : dist) : proper_dist d -> readable d -> near_one (total_mass (map snd d)) -> load_dist (save_dist d) = Ok d.
Proof.
  intros HP HR HN. rewrite <- mass_total in HN. apply isclose_near in HN. unfold load_dist. cbn [save_dist jget jitem]. cbn.
  rewrite dist_of_dist_json by auto. unfold is_normalized. rewrite HN. reflexivity.
Qed.
Theorem C33_save_load_set (ds : list dist) : (forall d, In d ds -> proper_dist d /\ readable d /\ near_one (total_mass (map snd d))) ->
  load_dists (save_dists ds) = Ok ds.
Proof.
  intros H. unfold load_dists, save_dists. cbn [jitem jget]. cbn - [mapM seq nth_error dist_of_json].
  assert (G : forall ds' k, (forall i, nth_error (map dist_json ds) (k + i) = nth_error (map dist_json ds') i) -> (forall d, In d ds' -> In d ds) ->
     mapM (fun i => match nth_error (map dist_json ds) i with Some j' => dist_of_json j' | None => Err IndexError end) (seq k (length ds')) = Ok ds').
  { induction ds' as [|d ds' IH]; intros k Hn Hi; [reflexivity|]. cbn [length seq mapM]. rewrite <- (Nat.add_0_r k) at 1. rewrite Hn. cbn [map nth_error].
    destruct (H d (Hi d (or_introl eq_refl))) as (HP & HR & HN). rewrite <- mass_total in HN. apply isclose_near in HN.
    rewrite dist_of_dist_json by auto. unfold is_normalized. rewrite HN. cbn [rbind]. rewrite IH; [reflexivity| |].
    - intros i. specialize (Hn (S i)). cbn [map nth_error] in Hn. rewrite <- Hn. f_equal. lia.
    - intros d' Hd. apply Hi. right. auto. }
  rewrite map_length. apply G; auto.
Qed.
(** A set file that also has a list under the old key is read from the old key, whatever the new one holds; one that
    has the old key only, as older versions wrote it, is refused. *)
Theorem C33_legacy_set (ds : list dist) (l : list (json Q)) (data : jdict Q) :
  (forall d, In d ds -> proper_dist d /\ readable d /\ near_one (total_mass (map snd d))) -> length l = length ds ->
  jget "measurement_outcome_distribution" data = Some (JArr l) ->
  jget "bitstring_distribution" data = Some (JArr (map dist_json ds)) -> load_dists data = Ok ds.
Proof.
  intros H Hl E1 E2. unfold load_dists, jitem. rewrite E1. cbn [rbind]. rewrite E2.
  assert (G : forall ds' k, (forall i, nth_error (map dist_json ds) (k + i) = nth_error (map dist_json ds') i) -> (forall d, In d ds' -> In d ds) ->
     mapM (fun i => match nth_error (map dist_json ds) i with Some j' => dist_of_json j' | None => Err IndexError end) (seq k (length ds')) = Ok ds').
  { induction ds' as [|d ds' IH]; intros k Hn Hi; [reflexivity|]. cbn [length seq mapM]. rewrite <- (Nat.add_0_r k) at 1. rewrite Hn. cbn [map nth_error].
    destruct (H d (Hi d (or_introl eq_refl))) as (HP & HR & HN). rewrite <- mass_total in HN. apply isclose_near in HN.
    rewrite dist_of_dist_json by auto. unfold is_normalized. rewrite HN. cbn [rbind]. rewrite IH; [reflexivity| |].
    - intros i. specialize (Hn (S i)). cbn [map nth_error] in Hn. rewrite <- Hn. f_equal. lia.
    - intros d' Hd. apply Hi. right. auto. }
  rewrite Hl. apply G; auto.
Qed.
Theorem C33_legacy_set_refuted (data : jdict Q) : jget "measurement_outcome_distribution" data = None -> load_dists data = Err KeyError.
Proof. intros E. unfold load_dists, jitem. rewrite E. reflexivity. Qed.
(** Findings.  One-position outcomes above 9 are read as several positions; an unnormalised distribution is loaded
    normalised; two notations of one tuple collapse. *)
Theorem C33_single_large_outcome_refuted : exists d r, proper_dist d /\ near_one (total_mass (map snd d)) /\ load_dist (save_dist d) = Ok r /\ r = [([1; 0]%Z, 1%Q)] /\ d = [([10]%Z, 1%Q)].
Proof.
  exists [([10]%Z, 1%Q)], [([1; 0]%Z, 1%Q)]. split; [|split; [|split; [vm_compute; reflexivity|split; reflexivity]]].
  - split; [discriminate|]. split; [repeat constructor; auto|]. split; [exists 1; intros k v [[= <- <-]|[]]; reflexivity|].
    split; [intros k v z [[= <- <-]|[]] [<-|[]]; lia|]. intros k v [[= <- <-]|[]]. discriminate.
  - vm_compute. discriminate.
Qed.
Theorem C33_unnormalised_refuted : exists d r, mk_dist (of_tuples d) false = Ok d /\ load_dist (save_dist d) = Ok r /\ (nth 0 (map snd d) 0 == 3)%Q /\ (nth 0 (map snd r) 0 == 3 # 4)%Q.
Proof.
  exists [([0; 1]%Z, 3%Q); ([1; 1]%Z, 1%Q)]. eexists. split; [vm_compute; reflexivity|]. split; [vm_compute; reflexivity|]. split; reflexivity.
Qed.
Theorem C33_collision_refuted : mk_dist [(KStr "01", 1 # 2); (KTuple [EInt 0; EInt 1], 1)]%Q true = Ok [([0; 1]%Z, 1%Q)].
Proof. vm_compute. reflexivity. Qed.
Example C33_example : let d := [([0; 12; 3]%Z, (1 # 3)%Q); ([7; 0; 1]%Z, (2 # 3)%Q)] in
  proper_dist d /\ readable d /\ near_one (total_mass (map snd d)) /\ map fst (comma_keys d) = ["0,12,3"; "7,0,1"]%string.
Proof.
  cbv zeta. split; [|split; [|split; [vm_compute; discriminate|vm_compute; reflexivity]]].
  - split; [discriminate|]. split; [repeat constructor; cbn; intuition discriminate|]. split; [exists 3; intros k v [[= <- <-]|[[= <- <-]|[]]]; reflexivity|].
    split; [intros k v z [[= <- <-]|[[= <- <-]|[]]]; cbn; lia|]. intros k v [[= <- <-]|[[= <- <-]|[]]]; discriminate.
  - intros k v [[= <- <-]|[[= <- <-]|[]]]; left; discriminate.
Qed.

(** ** C35: samples follow the support and count *)
Theorem C35_samples choice k (d : dist) n : draws_from_support choice -> proper_dist d -> near_one (total_mass (map snd d)) ->
  exists s, sample_from_dist choice k d n = Ok s /\ fold_right Nat.add 0 (map snd s) = n /\ NoDup (map fst s) /\
    forall o c, In (o, c) s -> 0 < c /\ exists p, In (o, p) d /\ (0 < p)%Q.
Proof.
  intros Hc HP HN. rewrite <- mass_total in HN. destruct (sample_spec choice Hc k d n HP HN) as (s & E & T & R). exists s. split; [exact E|]. split; [|exact R].
  rewrite <- T. unfold total_count. induction (map snd s) as [|x l IH]; [reflexivity|]. cbn. rewrite IH. reflexivity.
Qed.
(** Writing the keys with commas keeps every outcome and its probability, in order. *)
Theorem C35_comma_keys (d : dist) : NoDup (map fst d) ->
  map fst (comma_keys d) = map (fun k => String.concat "," (map str_of_int k)) (map fst d) /\ map snd (comma_keys d) = map snd d /\ NoDup (map fst (comma_keys d)).
Proof.
  intros ND. rewrite comma_keys_spec by exact ND. rewrite !map_map. cbn. split; [reflexivity|]. split; [reflexivity|].
  rewrite <- (map_map fst join_comma). apply FinFun.Injective_map_NoDup; [intros a b; apply join_comma_inj|exact ND].
Qed.
(** a generator that always returns the first outcome of positive probability *)
Fixpoint first_pos (l : list Q) : nat := match l with [] => 0 | p :: l' => if Qle_bool p 0 then S (first_pos l') else 0 end.
Example C35_example : draws_from_support (fun _ ps n => Ok (repeat (first_pos ps) n)) /\
  sample_from_dist (fun _ ps n => Ok (repeat (first_pos ps) n)) 0 [([0]%Z, 0%Q); ([1]%Z, 1%Q)] 5 = Ok [([1]%Z, 5)].
Proof.
  split; [|reflexivity]. intros k ps n Hp Hs. exists (repeat (first_pos ps) n). split; [reflexivity|]. split; [apply repeat_length|].
  intros i Hi. apply repeat_spec in Hi. subst i.
  assert (G : (0 < total_mass ps)%Q) by (apply Qabs_Qle_condition in Hs; lra). clear Hs.
  induction ps as [|p ps IH]; [cbn in G; lra|]. cbn [first_pos]. destruct (Qle_bool p 0) eqn:E.
  - apply Qle_bool_iff in E. cbn [length nth]. destruct IH; [intros; apply Hp; right; auto|change (total_mass (p :: ps)) with (p + total_mass ps)%Q in G; lra|]. split; [lia|auto].
  - cbn. split; [lia|]. apply Qnot_le_lt. intros H. apply Qle_bool_iff in H. congruence.
Qed.

(** ** C22: distributions made from probability lists list qubit 0 first *)
Theorem C22_distribution n (probs : list Q) : length probs = 2 ^ n -> (forall p, In p probs -> 0 <= p)%Q -> near_one (total_mass probs) ->
  exists d, dist_of_probabilities probs = Ok d /\ length d = 2 ^ n /\
    forall i, i < 2 ^ n -> exists k, nth_error d i = Some (k, nth i probs 0%Q) /\ length k = n /\ binary k /\ number_of k = Z.of_nat i.
Proof.
  intros HL HP HN. unfold dist_of_probabilities. assert (Hne : probs <> []) by (intros ->; cbn in HL; pose proof (Nat.pow_nonzero 2 n); lia).
  destruct probs as [|p0 probs']; [congruence|]. set (probs := p0 :: probs') in *. rewrite HL, Nat.log2_pow2 by lia.
  set (d := combine (product01 n) probs).
  assert (LP : length (product01 n) = length probs) by (rewrite product01_length; auto).
  assert (F1 : map fst d = product01 n) by (unfold d; clear -LP; revert LP; generalize probs; induction (product01 n) as [|a l IH]; intros [|b m] H; try discriminate; cbn; [reflexivity|f_equal; auto]).
  assert (F2 : map snd d = probs) by (unfold d; clear -LP; revert LP; generalize probs; induction (product01 n) as [|a l IH]; intros [|b m] H; try discriminate; cbn; [reflexivity|f_equal; auto]).
  assert (ND : NoDup (map fst d)) by (rewrite F1; apply product01_NoDup).
  rewrite (dict_of_NoDup_id _ outcome_eqb_spec) by exact ND. exists d.
  assert (HPd : proper_dist d).
  { assert (Hk : forall k v, In (k, v) d -> exists i, k = map b2z (bits n i)).
    { intros k v Hin. assert (Hk : In k (product01 n)) by (rewrite <- F1; apply in_map_iff; exists (k, v); auto). rewrite product01_spec in Hk.
      apply in_map_iff in Hk. destruct Hk as (i & <- & _). eauto. }
    split; [intros E; rewrite E in F2; discriminate|]. split; [exact ND|]. split; [|split].
    - exists n. intros k v Hin. destruct (Hk _ _ Hin) as [i ->]. rewrite map_length, bits_length. reflexivity.
    - intros k v z Hin Hz. destruct (Hk _ _ Hin) as [i ->]. apply in_map_iff in Hz. destruct Hz as ([] & <- & _); cbn; lia.
    - intros k v Hin. apply HP. rewrite <- F2. apply in_map_iff. exists (k, v). auto. }
  rewrite mk_dist_tuples by exact ND. rewrite (proj2 (is_mod_spec d ND) HPd). unfold is_normalized. rewrite mass_total, F2, (proj2 (isclose_near _) HN).
  assert (LD : length d = 2 ^ n) by (rewrite <- (map_length fst), F1; apply product01_length).
  split; [reflexivity|]. split; [exact LD|]. intros i Hi. exists (map b2z (bits n i)). split; [|split; [|split]].
  - rewrite (nth_error_nth' d ([], 0%Q)) by lia. f_equal. rewrite (surjective_pairing (nth i d ([], 0%Q))). f_equal.
    + change (@nil Z) with (fst (@nil Z, 0%Q)). rewrite <- (map_nth fst), F1, product01_spec. rewrite (nth_indep _ _ (map b2z (bits n 0))) by (rewrite map_length, seq_length; lia).
      rewrite (map_nth (fun i => map b2z (bits n i))), seq_nth by lia. reflexivity.
    + change 0%Q with (snd (@nil Z, 0%Q)) at 1. rewrite <- (map_nth snd), F2. reflexivity.
  - rewrite map_length, bits_length. reflexivity.
  - intros b Hb. apply in_map_iff in Hb. destruct Hb as ([] & <- & _); cbn; lia.
  - rewrite number_of_bits, bval_bits_small by auto. reflexivity.
Qed.
Example C22_distribution_example : dist_of_probabilities [0; 1; 0; 0]%Q = Ok [([0; 0]%Z, 0%Q); ([0; 1]%Z, 1%Q); ([1; 0]%Z, 0%Q); ([1; 1]%Z, 0%Q)].
Proof. vm_compute. reflexivity. Qed.
Print Assumptions C32_constructed. Print Assumptions C32_accepted. Print Assumptions C33_save_load. Print Assumptions C35_samples. Print Assumptions C22_distribution.
Print Assumptions C33_legacy_set.
Print Assumptions C33_legacy_set_refuted.
