(** C27-C31: measurements, expectation values and parities. *)
From Coq Require Import String Ascii NArith Nnat QArith Qround Qabs Lqa Sorting.Permutation ZifyNat ZifyBool.
From Verif Require Import Base BaseFacts MatModel MatFacts LiftModel Json UtilsModel UtilsSpec UtilsProofs UtilsProps.
From Verif Require Import DistModel DistSpec DistProofs DistProps MeasModel EvModel MeasSpec MeasProofs MeasProofs2.
Local Open Scope list_scope.
Local Open Scope nat_scope.


Lemma NoDup_map_in {A B} (f : A -> B) l : (forall a b, In a l -> In b l -> f a = f b -> a = b) -> NoDup l -> NoDup (map f l).
Proof.
  induction l as [|x l IH]; intros Hf ND; [constructor|]. inversion ND as [|? ? Hx ND']; subst. cbn. constructor.
  - intros H. apply in_map_iff in H. destruct H as (y & E & Hy). apply Hx. rewrite <- (Hf y x); auto; [right; auto|left; auto].
  - apply IH; [intros; apply Hf; auto; right; auto|exact ND'].
Qed.
Lemma map_repeat' {A B} (f : A -> B) a n : map f (repeat a n) = repeat (f a) n.
Proof. induction n; cbn; congruence. Qed.
Lemma uniq_NoDup_id {A} (eqb : A -> A -> bool) (Hs : eqb_spec_of eqb) l : NoDup l -> uniq eqb l = l.
Proof. intros H. apply (uniq_from_id _ Hs); auto. Qed.
Lemma Forall2_len {A B} (R : A -> B -> Prop) l m : Forall2 R l m -> length l = length m.
Proof. induction 1; cbn; congruence. Qed.
Lemma nth_map_seq {B} (F : nat -> B) n i d : i < n -> nth i (map F (seq 0 n)) d = F i.
Proof. intros H. rewrite (nth_indep _ d (F 0)) by (rewrite map_length, seq_length; auto). rewrite map_nth, seq_nth by auto. reflexivity. Qed.
Lemma nth_map_at {A B} (F : A -> B) l i d d0 : i < length l -> nth i (map F l) d = F (nth i l d0).
Proof. intros H. rewrite (nth_indep _ d (F d0)) by (rewrite map_length; auto). apply map_nth. Qed.

(** ** C27: measurement counts are exact *)

(** Counting measurements: every outcome once, with the number of times it was measured, all adding up to the number of measurements. *)
Theorem C27_get_counts m : digits_only m ->
  fold_right Nat.add 0 (map snd (get_counts m)) = length m /\ NoDup (map fst (get_counts m)) /\
  (forall s c, In (s, c) (get_counts m) <-> exists t, In t m /\ s = written t /\ c = times t m).
Proof.
  intros Hd. split; [|split].
  - rewrite <- (map_length written m), <- (counter_total _ string_eqb_spec). unfold total_count. rewrite <- get_counts_eq.
    induction (map snd (get_counts m)) as [|x l IH]; [reflexivity|]. cbn. rewrite IH. reflexivity.
  - rewrite get_counts_eq. apply (counter_NoDup _ string_eqb_spec).
  - intros s c. rewrite get_counts_eq, (counter_In _ string_eqb_spec). split.
    + intros [-> H]. apply (occ_In _ string_eqb_spec) in H. apply in_map_iff in H. destruct H as (t & <- & Ht). exists t. split; [auto|]. split; [auto|].
      apply occ_written; [auto|]. intros; eapply Hd; eauto.
    + intros (t & Ht & -> & ->). rewrite occ_written by (auto; intros; eapply Hd; eauto). split; [reflexivity|]. unfold times.
      apply (proj1 (count_occ_In _ _ _)). exact Ht.
Qed.
(** Counts written with distinct digit strings: they come back in the same order; zero and negative counts leave no trace. *)
Theorem C27_from_counts (ts : list (list Z * Z)) : NoDup (map fst ts) -> (forall t n d, In (t, n) ts -> In d t -> (0 <= d <= 9)%Z) ->
  exists m, from_counts (map (fun kn => (written (fst kn), snd kn)) ts) = Ok m /\
    get_counts m = map (fun kn => (written (fst kn), Z.to_nat (snd kn))) (filter (fun kn => (0 <? snd kn)%Z) ts) /\
    (forall t n, In (t, n) ts -> times t m = Z.to_nat n).
Proof.
  intros ND Hd. exists (counts_as_measurements ts). split; [unfold from_counts; rewrite add_counts_eq by exact Hd; reflexivity|].
  assert (Hinj : forall a b, In a (map fst ts) -> In b (map fst ts) -> written a = written b -> a = b).
  { intros a b Ha Hb. apply in_map_iff in Ha, Hb. destruct Ha as ([a' na] & <- & Ha), Hb as ([b' nb] & <- & Hb). intros E. cbn [fst] in E |- *. apply (written_inj a' b'); [intros d Hx; eapply Hd; [exact Ha|exact Hx]|intros d Hx; eapply Hd; [exact Hb|exact Hx]|exact E]. }
  assert (ND' : NoDup (map written (map fst ts))) by (apply NoDup_map_in; auto).
  split.
  - rewrite get_counts_eq. set (l := map (fun kn => (written (fst kn), Z.to_nat (snd kn))) ts).
    assert (E : map written (counts_as_measurements ts) = flat_map (fun kn => repeat (fst kn) (snd kn)) l).
    { unfold l, counts_as_measurements. clear. induction ts as [|[t n] ts IH]; [reflexivity|]. cbn [flat_map map fst snd]. rewrite map_app, map_repeat', IH. reflexivity. }
    rewrite E. unfold counter. rewrite (counter_blocks _ string_eqb_spec).
    + cbn [app]. unfold l. clear. induction ts as [|[t n] ts IH]; [reflexivity|]. cbn [filter map fst snd].
      destruct (Z.ltb_spec 0 n), (Nat.ltb_spec 0 (Z.to_nat n)); try lia; cbn [map fst snd]; rewrite IH; reflexivity.
    + cbn [app map]. unfold l. rewrite map_map. cbn. rewrite <- (map_map fst written). exact ND'.
  - intros t n Hin. rewrite <- occ_times. unfold counts_as_measurements.
    assert (E : flat_map (fun kn => repeat (fst kn) (Z.to_nat (snd kn))) ts = flat_map (fun kn => repeat (fst kn) (snd kn)) (map (fun kn => (fst kn, Z.to_nat (snd kn))) ts)).
    { clear. induction ts as [|[t n] ts IH]; [reflexivity|]. cbn [flat_map map fst snd]. rewrite IH. reflexivity. }
    rewrite E, (occ_expand _ outcome_eqb_spec) by (rewrite map_map; exact ND). apply (In_cget _ outcome_eqb_spec); [rewrite map_map; exact ND|].
    apply in_map_iff. exists (t, n). auto.
Qed.
(** Adding counts appends exactly the given numbers of outcomes and keeps everything measured before. *)
Theorem C27_add_counts m (ts : list (list Z * Z)) : NoDup (map fst ts) -> (forall t n d, In (t, n) ts -> In d t -> (0 <= d <= 9)%Z) ->
  exists m', add_counts m (map (fun kn => (written (fst kn), snd kn)) ts) = Ok (m ++ m') /\
    (forall t n, In (t, n) ts -> times t (m ++ m') = times t m + Z.to_nat n) /\
    (forall t, ~ In t (map fst ts) -> times t (m ++ m') = times t m).
Proof.
  intros ND Hd. exists (counts_as_measurements ts). split; [apply add_counts_eq, Hd|].
  destruct (C27_from_counts ts ND Hd) as (m0 & E & _ & H). unfold from_counts in E. rewrite add_counts_eq in E by exact Hd. injection E as <-. cbn [app] in H.
  split.
  - intros t n Hin. specialize (H t n Hin). unfold times, measurements, outcome in *. rewrite count_occ_app. lia.
  - intros t Hin. assert (G0 : times t (counts_as_measurements ts) = 0); [|unfold times, measurements, outcome in *; rewrite count_occ_app; lia].
    apply count_occ_not_In.
    intros G. apply in_flat_map in G. destruct G as ([k n] & G1 & G2). apply repeat_spec in G2. subst. apply Hin. apply in_map_iff. exists (k, n). auto.
Qed.
(** A count for something that is not a string of digits is rejected. *)
Theorem C27_bad_counts m s n rest c : In c (list_ascii_of_string s) -> is_digit c = false -> add_counts m ((s, n) :: rest) = Err ValueError.
Proof.
  intros Hc Hd. pose proof (C24_non_digit_rejected s c [s] (or_introl eq_refl) Hc Hd) as E. unfold convert_bitstrings_to_tuples in E. cbn [mapM] in E.
  unfold add_counts. cbn [foldM fst]. destruct (mapM int_of_char (list_ascii_of_string s)); cbn [rbind] in *; [discriminate|exact E].
Qed.
(** The stored form: measurements come back; the counts stored beside them are the counts of these measurements. *)
Theorem C27_save_load m : load_measurements (measurements_to_json m) = Ok m /\
  jget "counts" (measurements_to_json m) = Some (JObj (map (fun kv => (fst kv, JNum (Z.of_nat (snd kv)))) (get_counts m))).
Proof.
  split; [|reflexivity]. unfold load_measurements. cbn. induction m as [|t m IH]; [reflexivity|]. cbn [map mapM].
  assert (E : forall l : list Z, mapM (fun x : json Z => match x with JNum z => Ok z | _ => Err TypeError end) (map JNum l) = Ok l).
  { induction l as [|z l IHl]; [reflexivity|]. cbn [map mapM rbind]. rewrite IHl. reflexivity. }
  rewrite E. cbn [rbind]. rewrite IH. reflexivity.
Qed.
(** The distribution of a list of measurements: relative frequencies. *)
Theorem C27_get_distribution m n : m <> [] -> digits_only m -> (forall t, In t m -> length t = n) ->
  exists d, get_distribution m = Ok d /\ (forall t p, In (t, p) d -> In t m /\ (p == inject_Z (Z.of_nat (times t m)) / inject_Z (Z.of_nat (length m)))%Q) /\
    (forall t, In t m -> In t (map fst d)) /\ NoDup (map fst d).
Proof.
  intros Hne Hd Hl. unfold get_distribution.
  set (un := uniq outcome_eqb m).
  assert (Hlen : (0 < inject_Z (Z.of_nat (length m)))%Q). { change 0%Q with (inject_Z 0). rewrite <- Zlt_Qlt. destruct m; [congruence|cbn [length]; lia]. }
  (* the keys of the counter, as tuples *)
  set (dec := fun s => digits_of s).
  assert (Hk : forall s c, In (s, c) (get_counts m) -> exists t, In t m /\ s = written t /\ c = times t m) by (intros s c H; apply (C27_get_counts m Hd); exact H).
  set (inp := map (fun kv => ((KStr (fst kv), dec (fst kv) : outcome), (inject_Z (Z.of_nat (snd kv)) / inject_Z (Z.of_nat (length m)))%Q)) (get_counts m)).
  pose proof (mk_dist_distinct inp true) as M.
  assert (E0 : map (fun x : key * outcome * Q => (fst (fst x), snd x)) inp = map (fun kv => (KStr (fst kv), inject_Z (Z.of_nat (snd kv)) / inject_Z (Z.of_nat (length m)))%Q) (get_counts m)).
  { unfold inp. rewrite map_map. reflexivity. }
  rewrite E0 in M. cbv zeta in M.
  assert (Hdec : forall s c, In (s, c) (get_counts m) -> s = written (dec s) /\ In (dec s) m /\ c = times (dec s) m).
  { intros s c H. destruct (Hk s c H) as (t & Ht & -> & ->). unfold dec. rewrite digits_of_written by (intros; eapply Hd; eauto). auto. }
  assert (NDi : NoDup (map (fun x => snd (fst x)) inp)).
  { unfold inp. rewrite map_map. cbn [fst snd]. rewrite <- (map_map fst dec). apply NoDup_map_in.
    - intros a b Ha Hb E. apply in_map_iff in Ha, Hb. destruct Ha as ([a' ca] & <- & Ha), Hb as ([b' cb] & <- & Hb). cbn in *.
      destruct (Hdec _ _ Ha) as (-> & _), (Hdec _ _ Hb) as (-> & _). f_equal. exact E.
    - apply (C27_get_counts m Hd). }
  assert (Hden : forall k z v, In ((k, z), v) inp -> denotes k z).
  { intros k z v H. unfold inp in H. apply in_map_iff in H. destruct H as ([s c] & [= <- <- <-] & H). cbn [fst snd]. destruct (Hdec _ _ H) as (E & Hm & _).
    rewrite E at 1. apply den_digits. intros; eapply Hd; eauto. }
  specialize (M NDi Hden). match type of M with _ = ?R => match goal with |- exists d, ?L = Ok d /\ _ => replace L with R by (symmetry; exact M) end end. clear M.
  set (d := map (fun x => (snd (fst x), snd x)) inp).
  assert (NDd : NoDup (map fst d)) by (unfold d; rewrite map_map; exact NDi).
  assert (Hin : forall t p, In (t, p) d -> In t m /\ (p == inject_Z (Z.of_nat (times t m)) / inject_Z (Z.of_nat (length m)))%Q).
  { intros t p H. unfold d, inp in H. rewrite map_map in H. apply in_map_iff in H. destruct H as ([s c] & [= <- <-] & H). cbn [fst snd]. destruct (Hdec _ _ H) as (_ & Hm & ->).
    split; [auto|reflexivity]. }
  assert (Hall : forall t, In t m -> In t (map fst d)).
  { intros t Ht. unfold d, inp. rewrite !map_map. cbn [fst snd]. apply in_map_iff. exists (written t, times t m). cbn [fst]. unfold dec.
    rewrite digits_of_written by (intros; eapply Hd; eauto). split; [reflexivity|]. apply (C27_get_counts m Hd). eauto. }
  assert (HPd : proper_dist d).
  { split. { intros E. destruct m as [|t l] eqn:Em; [congruence|]. specialize (Hall t (or_introl eq_refl)). rewrite E in Hall. destruct Hall. }
    split; [exact NDd|]. split; [exists n; intros k v H; apply Hl, (Hin k v H)|]. split.
    - intros k v z H Hz. destruct (Hin _ _ H) as [Hm _]. specialize (Hd k z Hm Hz). lia.
    - intros k v H. destruct (Hin _ _ H) as [_ ->]. apply Qle_shift_div_l; [exact Hlen|]. rewrite Qmult_0_l. change 0%Q with (inject_Z 0). rewrite <- Zle_Qle. lia. }
  assert (Hmass : (mass d == 1)%Q).
  { unfold mass, d, inp. rewrite !map_map. cbn [fst snd].
    transitivity (sumf (fun kv : string * nat => (1 / inject_Z (Z.of_nat (length m))) * inject_Z (Z.of_nat (snd kv)))%Q (get_counts m)).
    { apply sumf_eq. intros a _. cbn beta. unfold measurements, outcome. generalize (inject_Z (Z.of_nat (snd a))). intros x. field. unfold measurements, outcome in *. lra. }
    rewrite sumf_scale, sumf_Z. rewrite num_measurements. unfold measurements, outcome in *. field. lra. }
  rewrite (proj2 (is_mod_spec d NDd) HPd). unfold is_normalized. rewrite (proj2 (isclose_near _) (near_one_1 _ Hmass)). exists d. auto.
Qed.
Example C27_example : get_counts [[1; 0]; [0; 1]; [1; 0]]%Z = [("10", 2); ("01", 1)]%string /\
  from_counts [("10", 2%Z); ("00", 0%Z); ("01", 1%Z)]%string = Ok [[1; 0]; [1; 0]; [0; 1]]%Z.
Proof. split; reflexivity. Qed.

(** ** C28: representing a distribution with exactly n samples *)

(** For every random generator, every distribution with total exactly one and every n: exactly n samples, all in the support; outcomes for
    which n*p is an integer occur exactly that often; and the others deviate from the nearest integers in one direction only.
    (The expected numbers that are not integers must not be closer than 2^-1022 times the number of outcomes to an integer: otherwise
    normalising the remainders fails.) *)
Theorem C28_representing choice (d : dist) n : draws_from_support choice -> proper_dist d -> (total_mass (map snd d) == 1)%Q -> (0 <= n)%Z ->
  (forall o p, In (o, p) d -> (exists k, p * inject_Z n == inject_Z k)%Q \/
     away_from_integers (p * inject_Z n) ((1 # (2 ^ 1022)) * inject_Z (Z.of_nat (length d)))) ->
  exists m, representing choice d n = Ok m /\ Z.of_nat (length m) = n /\
    (forall o, In o m -> exists p, In (o, p) d /\ (0 < p)%Q) /\
    (forall o p k, In (o, p) d -> (p * inject_Z n == inject_Z k)%Q -> Z.of_nat (times o m) = k) /\
    exists nearest : Q -> Z, (forall x, is_nearest (nearest x) x) /\
      ((forall o p, In (o, p) d -> (nearest (p * inject_Z n)%Q <= Z.of_nat (times o m))%Z) \/
       (forall o p, In (o, p) d -> (Z.of_nat (times o m) <= nearest (p * inject_Z n)%Q)%Z)).
Proof.
  intros Hc HP HM Hn Hfar. rewrite <- mass_total in HM.
  destruct (representing_spec choice Hc d n HP HM Hn) as (m & E & L & S & Ex & B).
  - intros o v Hin Hw. destruct (Hfar o v Hin) as [[k Hk]|Ha]; [rewrite (weight_of_integer _ _ Hk) in Hw; lra|]. apply weight_distance, Ha.
  - exists m. split; [exact E|]. split; [exact L|]. split; [exact S|].
    assert (Hnn : forall o p, In (o, p) d -> (0 <= p * inject_Z n)%Q).
    { intros o p Hin. apply Qmult_le_0_compat; [eapply HP; eauto|]. change 0%Q with (inject_Z 0). rewrite <- Zle_Qle. exact Hn. }
    assert (Hround : forall o p, In (o, p) d -> Z.of_nat (Z.to_nat (round_half_even (p * inject_Z n)%Q)) = round_half_even (p * inject_Z n)%Q).
    { intros o p Hin. apply Z2Nat.id, round_nonneg. eapply Hnn; eauto. }
    split.
    + intros o p k Hin Hk. rewrite <- occ_times, (Ex o p Hin (weight_of_integer _ _ Hk)), (Hround o p Hin). apply round_integer, Hk.
    + exists round_half_even. split; [apply round_near|]. destruct B as [B|B]; [left|right]; intros o p Hin; specialize (B o p Hin); rewrite occ_times in B; rewrite <- (Hround o p Hin); lia.
Qed.
(** The claim that every outcome occurs at least floor(n*p) times is false: five equally likely outcomes, eight samples; each is
    expected 1.6 times, and one of them can be missing altogether. *)
Theorem C28_floor_bound_refuted : exists choice d m, draws_from_support choice /\ proper_dist d /\ (total_mass (map snd d) == 1)%Q /\
  In ([0; 0; 0]%Z, (1 # 5)%Q) d /\ representing choice d 8 = Ok m /\ times [0; 0; 0]%Z m = 0 /\ Qfloor ((1 # 5) * inject_Z 8) = 1%Z.
Proof.
  exists (fun _ ps n => Ok (repeat (first_pos ps) n)).
  exists (map (fun o => (o, (1 # 5)%Q)) [[0; 0; 0]; [0; 0; 1]; [0; 1; 0]; [0; 1; 1]; [1; 0; 0]]%Z).
  eexists. split; [apply C35_example|]. split; [|split; [reflexivity|split; [left; reflexivity|split; [vm_compute; reflexivity|split; reflexivity]]]].
  split; [discriminate|]. split; [cbn; repeat constructor; cbn; intuition discriminate|]. split; [|split].
  - exists 3. intros k v H. cbn in H. repeat destruct H as [[= <- <-]|H]; try reflexivity; destruct H.
  - intros k v z H. cbn in H. repeat destruct H as [[= <- <-]|H]; cbn; try lia.
  - intros k v H. cbn in H. repeat destruct H as [[= <- <-]|H]; try discriminate; destruct H.
Qed.
Example C28_example : representing (fun _ ps n => Ok (repeat (first_pos ps) n)) [([0; 0]%Z, (1 # 3)%Q); ([0; 1]%Z, (1 # 3)%Q); ([1; 0]%Z, (1 # 3)%Q)] 4
  = Ok [[0; 0]; [0; 1]; [1; 0]; [0; 0]]%Z.
Proof. vm_compute. reflexivity. Qed.

(** ** C29: expectation values from measurements *)
Definition enumerates (setorder : list nat -> list nat) : Prop := forall l, NoDup l -> Permutation (setorder l) l.
Definition covers (n : nat) (op : ising) : Prop := forall t c, In (t, c) op -> NoDup t /\ forall q, In q t -> q < n.
Definition the_term (op : ising) (i : nat) : list nat := fst (nth i op ([], 0%Q)).
Definition the_coef (op : ising) (i : nat) : Q := snd (nth i op ([], 0%Q)).

Theorem C29_expectation_values setorder m n op bessel : enumerates setorder -> m <> [] -> 1 <= n -> (forall t, In t m -> length t = n) -> digits_only m -> covers n op ->
  exists values corr cov,
    get_expectation_values setorder m op bessel = Ok {| ev_values := values; ev_correlations := Some [corr]; ev_covariances := Some [cov] |} /\
    length values = length op /\
    (forall i, i < length op -> (nth i values 0 == the_coef op i * mean (fun o => inject_Z (z_sign (the_term op i) o)) m)%Q) /\
    (forall i j, i < length op -> j < length op ->
      (nth j (nth i corr []) 0 == the_coef op i * the_coef op j * mean (fun o => inject_Z (z_sign (the_term op i) o * z_sign (the_term op j) o)) m)%Q) /\
    (let samples := (if bessel then Z.of_nat (length m) - 1 else Z.of_nat (length m))%Z in
     match cov with
     | None => samples = 0%Z
     | Some c => samples <> 0%Z /\ forall i j, i < length op -> j < length op ->
         (nth j (nth i c []) 0 == (nth j (nth i corr []) 0 - nth i values 0 * nth j values 0) / inject_Z samples)%Q
     end).
Proof.
  intros Hso Hne Hn Hl Hd Hop. unfold get_expectation_values.
  assert (Hfreq : forall qs, (forall q, In q qs -> q < n) -> exists e, expectation_from_frequencies qs (get_counts m) = Ok e /\ (e == mean (fun o => inject_Z (z_sign qs o)) m)%Q)
    by (intros; apply (freq_spec m n); auto).
  assert (G1 : exists values, mapM (fun tc => let! e := expectation_from_frequencies (fst tc) (get_counts m) in Ok (snd tc * e)%Q) op = Ok values /\
     Forall2 (fun tc v => (v == snd tc * mean (fun o => inject_Z (z_sign (fst tc) o)) m)%Q) op values).
  { clear Hso. revert Hop. induction op as [|[t c] op IH]; intros Hop; cbn [mapM]; [exists []; split; [reflexivity|constructor]|].
    destruct (Hfreq t) as (e & E & He); [intros q Hq; eapply Hop; [left; reflexivity|exact Hq]|]. cbn [fst snd]. rewrite E. cbn [rbind].
    destruct IH as (vs & -> & HF); [intros t' c' H; apply (Hop t' c'); right; exact H|]. cbn [rbind]. eexists. split; [reflexivity|]. constructor; [|exact HF].
    cbn [fst snd]. rewrite He. reflexivity. }
  destruct G1 as (values & -> & HV). cbn [rbind].
  assert (Hat : forall i, i < length op -> In (nth i op ([], 0%Q)) op) by (intros; apply nth_In; auto).
  assert (G2 : forall i j, i < length op -> j < length op -> exists x, correlation setorder (get_counts m) op i j = Ok x /\
     (x == the_coef op i * the_coef op j * mean (fun o => inject_Z (z_sign (the_term op i) o * z_sign (the_term op j) o)) m)%Q).
  { intros i j Hi Hj. unfold correlation. destruct (Nat.eqb_spec i j) as [->|Hij].
    - eexists. split; [reflexivity|]. fold (the_coef op j). rewrite (mean_comp _ (fun _ => 1%Q)).
      + assert (E1 : (mean (fun _ => 1%Q) m == 1)%Q).
        { unfold mean. assert (E : (fold_right Qplus 0 (map (fun _ : list Z => 1%Q) m) == inject_Z (Z.of_nat (length m)))%Q).
          { clear. induction m as [|t l IH]; [reflexivity|]. cbn [map fold_right length]. rewrite IH, Nat2Z.inj_succ, <- Z.add_1_l, inject_Z_plus. reflexivity. }
          rewrite E. field. intros Z0. change 0%Q with (inject_Z 0) in Z0. apply (proj1 (inject_Z_injective _ _)) in Z0. destruct m; [congruence|cbn in Z0; lia]. }
        rewrite E1. ring.
      + intros o _. destruct (z_sign_pm (the_term op j) o) as [-> | ->]; reflexivity.
    - cbv zeta.
      assert (Hhi : Nat.max i j < length op) by lia. assert (Hlo : Nat.min i j < length op) by lia.
      destruct (nth (Nat.max i j) op ([], 0%Q)) as [ta ca] eqn:Ea. destruct (nth (Nat.min i j) op ([], 0%Q)) as [tb cb] eqn:Eb. cbn [fst snd].
      pose proof (Hat _ Hhi) as Ha. rewrite Ea in Ha. pose proof (Hat _ Hlo) as Hb. rewrite Eb in Hb.
      destruct (Hop _ _ Ha) as [NDa Ba]. destruct (Hop _ _ Hb) as [NDb Bb].
      rewrite (uniq_NoDup_id _ Nat.eqb_eq ta NDa), (uniq_NoDup_id _ Nat.eqb_eq tb NDb).
      assert (NDs : NoDup (symmetric_difference ta tb)).
      { unfold symmetric_difference. apply NoDup_app; [apply NoDup_filter; auto|apply NoDup_filter; auto|]. intros q H1 H2. apply filter_In in H1, H2.
        destruct H1 as [H1 _], H2 as [_ H2]. apply negb_true_iff in H2. apply (memb_In _ Nat.eqb_eq) in H1. congruence. }
      destruct (Hfreq (setorder (symmetric_difference ta tb))) as (e & E & He).
      { intros q Hq. apply (Permutation_in _ (Hso _ NDs)) in Hq. unfold symmetric_difference in Hq. apply in_app_or in Hq. destruct Hq as [Hq|Hq]; apply filter_In in Hq; destruct Hq; auto. }
      rewrite E. cbn [rbind]. eexists. split; [reflexivity|]. rewrite He.
      rewrite (mean_comp _ (fun o => inject_Z (z_sign ta o * z_sign tb o))).
      2:{ intros o _. rewrite (z_sign_perm _ _ o (Hso _ NDs)), z_sign_symdiff by auto. reflexivity. }
      unfold the_coef, the_term. destruct (Nat.le_gt_cases i j).
      + rewrite Nat.max_r, Nat.min_l in * by lia. rewrite Ea, Eb. cbn [fst snd]. rewrite (mean_comp _ (fun o => inject_Z (z_sign tb o * z_sign ta o))); [ring|]. intros; rewrite Z.mul_comm; reflexivity.
      + rewrite Nat.max_l, Nat.min_r in * by lia. rewrite Ea, Eb. cbn [fst snd]. ring. }
  set (idx := seq 0 (length op)).
  assert (G3 : exists corr, mapM (fun i => mapM (fun j => correlation setorder (get_counts m) op i j) idx) idx = Ok corr /\
     forall i j, i < length op -> j < length op -> correlation setorder (get_counts m) op i j = Ok (nth j (nth i corr []) 0%Q)).
  { set (F := fun i j => match correlation setorder (get_counts m) op i j with Ok x => x | Err _ => 0%Q end).
    assert (HF : forall i j, i < length op -> j < length op -> correlation setorder (get_counts m) op i j = Ok (F i j)).
    { intros i j Hi Hj. unfold F. destruct (G2 i j Hi Hj) as (x & -> & _). reflexivity. }
    exists (map (fun i => map (F i) idx) idx). split.
    - apply mapM_ok_ext. intros i Hi. apply mapM_ok_ext. intros j Hj. unfold idx in *. apply in_seq in Hi, Hj. apply HF; lia.
    - intros i j Hi Hj. rewrite HF by auto. f_equal. unfold idx. rewrite (nth_map_seq (fun i => map (F i) (seq 0 (length op)))), (nth_map_seq (F i)) by auto. reflexivity. }
  destruct G3 as (corr & -> & HC). cbn [rbind]. eexists values, corr, _. split; [reflexivity|]. split; [symmetry; eapply Forall2_len; exact HV|]. split; [|split].
  - intros i Hi. unfold the_coef, the_term. clear -HV Hi. revert i Hi. induction HV as [|[t c] v op' vs H HV IH]; intros i Hi; [cbn in Hi; lia|].
    destruct i as [|i]; cbn [nth fst snd]; [exact H|]. apply IH. cbn in Hi. lia.
  - intros i j Hi Hj. destruct (G2 i j Hi Hj) as (x & Ex & Hx). rewrite (HC i j Hi Hj) in Ex. injection Ex as ->. exact Hx.
  - cbv zeta. unfold measurements, outcome in *. set (den := (if bessel then Z.of_nat (length m) - 1 else Z.of_nat (length m))%Z). destruct (Z.eqb_spec den 0) as [E|E]; [exact E|]. split; [exact E|].
    intros i j Hi Hj.
    set (F := fun i j => ((nth j (nth i corr []) 0 - nth i values 0 * nth j values 0) / inject_Z den)%Q). change ((nth j (nth i (map (fun i => map (F i) idx) idx) []) 0%Q == F i j)%Q).
    unfold idx. rewrite (nth_map_seq (fun i => map (F i) (seq 0 (length op)))), (nth_map_seq (F i)) by auto. reflexivity.
Qed.
(** every frequency expectation lies in [-1, 1] *)
Theorem C29_range m n qs e : m <> [] -> 1 <= n -> (forall t, In t m -> length t = n) -> digits_only m -> (forall q, In q qs -> q < n) ->
  expectation_from_frequencies qs (get_counts m) = Ok e -> (-1 <= e <= 1)%Q.
Proof.
  intros Hne Hn Hl Hd Hq E. destruct (freq_spec m n Hne Hn Hl Hd qs Hq) as (e' & E' & He). rewrite E in E'. injection E' as <-. rewrite He.
  apply mean_bound; [auto|]. intros o _. destruct (z_sign_pm qs o) as [-> | ->]; split; discriminate.
Qed.
(** without measurements, or with qubits that were not measured, an error is raised *)
Theorem C29_errors setorder m n t c op bessel :
  (m = [] -> get_expectation_values setorder m ((t, c) :: op) bessel = Err IndexError) /\
  (m <> [] -> 1 <= n -> (forall t, In t m -> length t = n) -> digits_only m -> (exists q, In q t /\ n <= q) ->
   get_expectation_values setorder m ((t, c) :: op) bessel = Err IndexError).
Proof.
  split; [intros ->; reflexivity|]. intros Hne Hn Hl Hd (q & Hq & Hge). unfold get_expectation_values. cbn [mapM fst].
  unfold expectation_from_frequencies at 1. rewrite (vector_spec m n) by auto. cbn [rbind]. unfold check_parity_of_vector. destruct t as [|q0 t]; [destruct Hq|].
  assert (E : forallb (fun x => x <? n) (q0 :: t) = false).
  { destruct (forallb (fun x => x <? n) (q0 :: t)) eqn:E; [|reflexivity]. rewrite forallb_forall in E. specialize (E q Hq). apply Nat.ltb_lt in E. lia. }
  rewrite E. reflexivity.
Qed.
Example C29_example : let m := [[0; 0]; [0; 1]; [1; 1]; [1; 1]]%Z in let op := [([0], 2%Q); ([0; 1], 1%Q)] in
  enumerates (fun l => l) /\ covers 2 op /\ digits_only m /\ exists values corr cov,
  get_expectation_values (fun l => l) m op false = Ok {| ev_values := values; ev_correlations := Some [corr]; ev_covariances := Some [Some cov] |} /\
  (nth 0 values 0 == 0)%Q /\ (nth 1 values 0 == 1 # 2)%Q /\ (nth 1 (nth 0 corr []) 0 == -1)%Q.
Proof.
  cbv zeta. split; [intros l _; apply Permutation_refl|]. split.
  - intros t c [[= <- <-]|[[= <- <-]|[]]]; split; try (repeat constructor; cbn; intuition discriminate); cbn; lia.
  - split; [intros t d H; cbn in H; repeat destruct H as [<-|H]; cbn; try lia; destruct H|].
    do 3 eexists. split; [vm_compute; reflexivity|]. repeat split.
Qed.

(** ** C30: parity tallies *)
Definition number_with (p : list Z -> bool) (m : list (list Z)) : Z := Z.of_nat (length (filter p m)).
Theorem C30_parities m n op : m <> [] -> (forall t, In t m -> length t = n) -> (forall t c q, In (t, c) op -> In q t -> q < n) ->
  exists p corr, get_parities_from_measurements m op = Ok p /\ par_correlations p = Some [corr] /\ length (par_values p) = length op /\
    (forall i, i < length op -> nth i (par_values p) (0, 0)%Z =
       (number_with (fun o => z_sign (the_term op i) o =? 1)%Z m, number_with (fun o => z_sign (the_term op i) o =? -1)%Z m)) /\
    (forall i j, i < length op -> j < length op -> nth j (nth i corr []) (0, 0)%Z =
       (number_with (fun o => z_sign (the_term op i) o * z_sign (the_term op j) o =? 1)%Z m,
        number_with (fun o => z_sign (the_term op i) o * z_sign (the_term op j) o =? -1)%Z m)).
Proof.
  intros Hne Hl Hop. rewrite (parities_eq m n Hne Hl op Hop). eexists _, _. split; [reflexivity|]. split; [reflexivity|]. cbn [par_values].
  split; [apply map_length|]. unfold number_with, the_term. split.
  - intros i Hi. rewrite (nth_map_at _ op i _ ([], 0%Q)) by exact Hi. f_equal; do 2 f_equal; apply filter_ext; intros o; unfold even_on; destruct (z_sign_pm (fst (nth i op ([], 0%Q))) o) as [-> | ->]; reflexivity.
  - intros i j Hi Hj. rewrite (nth_map_at _ op i _ ([], 0%Q)) by exact Hi. rewrite (nth_map_at _ op j _ ([], 0%Q)) by exact Hj.
    f_equal; do 2 f_equal; apply filter_ext; intros o; unfold even_on;
      destruct (z_sign_pm (fst (nth i op ([], 0%Q))) o) as [-> | ->], (z_sign_pm (fst (nth j op ([], 0%Q))) o) as [-> | ->]; reflexivity.
Qed.
(** even and odd add up to the number of measurements; the tallies of pairs are symmetric *)
Theorem C30_sums m n op p corr : m <> [] -> (forall t, In t m -> length t = n) -> (forall t c q, In (t, c) op -> In q t -> q < n) ->
  get_parities_from_measurements m op = Ok p -> par_correlations p = Some [corr] ->
  (forall eo, In eo (par_values p) -> (fst eo + snd eo = Z.of_nat (length m))%Z) /\
  (forall i j, i < length op -> j < length op -> nth j (nth i corr []) (0, 0)%Z = nth i (nth j corr []) (0, 0)%Z /\
     (fst (nth j (nth i corr []) (0, 0)) + snd (nth j (nth i corr []) (0, 0)) = Z.of_nat (length m))%Z).
Proof.
  intros Hne Hl Hop E Ec. destruct (C30_parities m n op Hne Hl Hop) as (p' & corr' & E' & Ec' & L & V & C). rewrite E in E'. injection E' as <-. rewrite Ec in Ec'. injection Ec' as <-.
  assert (Hsum : forall f, (forall o, f o = 1 \/ f o = -1)%Z -> (number_with (fun o => f o =? 1)%Z m + number_with (fun o => f o =? -1)%Z m = Z.of_nat (length m))%Z).
  { intros f Hf. unfold number_with. rewrite <- (filter_length_split (fun o => f o =? 1)%Z m). rewrite Nat2Z.inj_add. do 3 f_equal. apply filter_ext. intros o. destruct (Hf o) as [-> | ->]; reflexivity. }
  split.
  - intros eo Hin. apply In_nth with (d := (0, 0)%Z) in Hin. destruct Hin as (i & Hi & <-). rewrite V by lia. cbn [fst snd]. apply Hsum. apply z_sign_pm.
  - intros i j Hi Hj. rewrite (C i j Hi Hj), (C j i Hj Hi). split.
    + f_equal; unfold number_with; do 2 f_equal; apply filter_ext; intros o; rewrite Z.mul_comm; reflexivity.
    + cbn [fst snd]. apply Hsum. intros o. destruct (z_sign_pm (the_term op i) o) as [-> | ->], (z_sign_pm (the_term op j) o) as [-> | ->]; auto.
Qed.
(** expectation values from parities: the average sign of each term, without the coefficient of the term; the variance is never above 1/N *)
Theorem C30_expectation_values m n op p : m <> [] -> (forall t, In t m -> length t = n) -> (forall t c q, In (t, c) op -> In q t -> q < n) ->
  get_parities_from_measurements m op = Ok p ->
  exists ev covs, get_expectation_values_from_parities p = Ok ev /\ ev_covariances ev = Some covs /\ length (ev_values ev) = length op /\ length covs = length op /\
    forall i, i < length op -> (nth i (ev_values ev) 0 == mean (fun o => inject_Z (z_sign (the_term op i) o)) m)%Q /\
      exists c, nth i covs None = Some [[c]] /\ (0 <= c <= 1 / inject_Z (Z.of_nat (length m)))%Q /\
        (c == 1 / inject_Z (Z.of_nat (length m)) \/ c == (1 - nth i (ev_values ev) 0 * nth i (ev_values ev) 0) / inject_Z (Z.of_nat (length m)))%Q.
Proof.
  intros Hne Hl Hop E. destruct (C30_parities m n op Hne Hl Hop) as (p' & corr & E' & Ec & L & V & _). rewrite E in E'. injection E' as <-.
  destruct (C30_sums m n op p corr Hne Hl Hop E Ec) as [S _].
  assert (Hpos : (0 < inject_Z (Z.of_nat (length m)))%Q). { change 0%Q with (inject_Z 0). rewrite <- Zlt_Qlt. destruct m; [congruence|cbn [length]; lia]. }
  set (N := inject_Z (Z.of_nat (length m))) in *.
  assert (Hone : forall eo, In eo (par_values p) -> (0 <= fst eo)%Z -> (0 <= snd eo)%Z -> exists vc, ev_of_tally eo = Ok vc /\
     (fst vc == 2 * (inject_Z (fst eo) / N) - 1)%Q /\ (0 <= snd vc <= 1 / N)%Q /\ (snd vc == 1 / N \/ snd vc == (1 - fst vc * fst vc) / N)%Q).
  { intros eo Hin H0 H1. unfold ev_of_tally. rewrite (S eo Hin). fold N. destruct (Z.eqb_spec (Z.of_nat (length m)) 0) as [Z0|_]; [destruct m; [congruence|cbn in Z0; lia]|].
    eexists. split; [reflexivity|]. cbn [fst snd]. split; [reflexivity|].
    assert (P0 : (0 <= inject_Z (fst eo) / N)%Q). { apply Qle_shift_div_l; [exact Hpos|]. rewrite Qmult_0_l. change 0%Q with (inject_Z 0). rewrite <- Zle_Qle. exact H0. }
    assert (P1 : (inject_Z (fst eo) / N <= 1)%Q). { apply Qle_shift_div_r; [exact Hpos|]. rewrite Qmult_1_l. unfold N. rewrite <- Zle_Qle. specialize (S eo Hin). lia. }
    assert (I1 : (0 < 1 / N)%Q). { apply Qlt_shift_div_l; [exact Hpos|]. lra. }
    assert (B : (0 <= 4 * (inject_Z (fst eo) / N * (1 - inject_Z (fst eo) / N)) <= 1)%Q).
    { set (x := (inject_Z (fst eo) / N)%Q) in *. split; [apply Qmult_le_0_compat; [discriminate|apply Qmult_le_0_compat; lra]|].
      assert (Sq : (0 <= (2 * x - 1) * (2 * x - 1))%Q). { destruct (Qlt_le_dec (2 * x - 1) 0) as [Hn|Hn]; [setoid_replace ((2 * x - 1) * (2 * x - 1))%Q with ((1 - 2 * x) * (1 - 2 * x))%Q by ring|]; apply Qmult_le_0_compat; lra. }
      setoid_replace (4 * (x * (1 - x)))%Q with (1 - (2 * x - 1) * (2 * x - 1))%Q by ring. lra. }
    destruct (_ && _).
    - split; [split|right].
      + apply Qle_shift_div_l; [exact Hpos|]. rewrite Qmult_0_l. apply B.
      + apply Qmult_le_compat_r; [apply B|]. apply Qlt_le_weak, Qinv_lt_0_compat, Hpos.
      + field. lra.
    - split; [split; lra|left; reflexivity]. }
  assert (Hnn : forall eo, In eo (par_values p) -> (0 <= fst eo)%Z /\ (0 <= snd eo)%Z).
  { intros eo Hin. apply In_nth with (d := (0, 0)%Z) in Hin. destruct Hin as (i & Hi & <-). rewrite V by lia. unfold number_with. cbn. lia. }
  assert (HL : exists l, mapM ev_of_tally (par_values p) = Ok l /\ Forall2 (fun eo vc => (fst vc == 2 * (inject_Z (fst eo) / N) - 1)%Q /\ (0 <= snd vc <= 1 / N)%Q /\ (snd vc == 1 / N \/ snd vc == (1 - fst vc * fst vc) / N)%Q) (par_values p) l).
  { revert Hone Hnn. clear. induction (par_values p) as [|eo l IH]; intros Hone Hnn; [exists []; split; [reflexivity|constructor]|]. cbn [mapM].
    destruct (Hnn eo (or_introl eq_refl)) as [A B]. destruct (Hone eo (or_introl eq_refl) A B) as (vc & -> & H). cbn [rbind].
    destruct IH as (l' & -> & HF); [intros; apply Hone; auto; right; auto|intros; apply Hnn; right; auto|]. cbn [rbind]. eexists. split; [reflexivity|]. constructor; auto. }
  destruct HL as (l & El & HF). unfold get_expectation_values_from_parities. rewrite El. cbn [rbind]. eexists _, _. split; [reflexivity|]. split; [reflexivity|]. cbn [ev_values].
  assert (Ll : length l = length op) by (rewrite <- L; symmetry; eapply Forall2_len; exact HF). rewrite !map_length. split; [exact Ll|]. split; [exact Ll|].
  intros i Hi. assert (Hn : (fst (nth i l (0, 0)%Q) == 2 * (inject_Z (fst (nth i (par_values p) (0, 0)%Z)) / N) - 1)%Q /\ (0 <= snd (nth i l (0, 0)%Q) <= 1 / N)%Q /\
     (snd (nth i l (0, 0)%Q) == 1 / N \/ snd (nth i l (0, 0)%Q) == (1 - fst (nth i l (0, 0)%Q) * fst (nth i l (0, 0)%Q)) / N)%Q).
  { assert (Hi' : i < length l) by lia. clear -HF Hi'. revert i Hi'. induction HF as [|eo vc pv l H HF IH]; intros i Hi; [cbn in Hi; lia|]. destruct i as [|i]; cbn [nth]; [exact H|]. apply IH. cbn in Hi. lia. }
  rewrite (nth_map_at fst l i 0%Q (0, 0)%Q) by lia. destruct Hn as (H1 & H2 & H3). split.
  - rewrite H1, V by exact Hi. cbn [fst]. rewrite mean_sign_even by exact Hne. reflexivity.
  - exists (snd (nth i l (0, 0)%Q)). split; [|split; [exact H2|]].
    + rewrite (nth_map_at _ l i _ (0, 0)%Q) by lia. reflexivity.
    + exact H3.
Qed.
(** a term without samples is rejected *)
Theorem C30_no_samples p : In (0, 0)%Z (par_values p) -> exists e, get_expectation_values_from_parities p = Err e.
Proof.
  intros H. unfold get_expectation_values_from_parities. assert (E : exists e, mapM ev_of_tally (par_values p) = Err e).
  { induction (par_values p) as [|x l IH]; [destruct H|]. cbn [mapM]. destruct H as [->|H]; [eexists; reflexivity|]. destruct (ev_of_tally x); cbn [rbind]; [|eauto].
    destruct (IH H) as (e & ->). cbn [rbind]. eauto. }
  destruct E as (e & ->). cbn. eauto.
Qed.
Example C30_example : exists p, get_parities_from_measurements [[0; 0]; [0; 1]; [1; 1]]%Z [([0], 5%Q); ([0; 1], 1%Q)] = Ok p /\ par_values p = [(2, 1); (2, 1)]%Z.
Proof. eexists. split; [vm_compute; reflexivity|reflexivity]. Qed.

(** ** C31: concatenation and serialization of expectation values *)
Section C31.
  Context {K : Type} {M : Type}.
  Implicit Types (h : @heap M) (e : @ev_ref K).
  Definition valid_ref h (r : option nat) : Prop := match r with None => True | Some r => r < length h end.
  (** the contents of an optional list *)
  Definition content h (r : option nat) : list M := match r with None => [] | Some r => nth r h [] end.
  Lemma hset_length h r l : length (hset h r l) = length h.
  Proof. revert r. induction h as [|x h IH]; intros [|r]; cbn; auto. Qed.
  Lemma nth_hset h r l r' : nth r' (hset h r l) [] = if Nat.eqb r' r && (r <? length h) then l else nth r' h [].
  Proof.
    revert r r'. induction h as [|x h IH]; intros r r'; [cbn; rewrite andb_false_r; reflexivity|]. destruct r as [|r], r' as [|r']; cbn [hset nth length]; try reflexivity.
    rewrite IH. reflexivity.
  Qed.
  (** state of the combined object: its lists are new ones, different from each other, and not empty *)
  Definition fresh (h0 h : @heap M) (r : option nat) : Prop := match r with None => True | Some r => length h0 <= r < length h /\ nth r h [] <> [] end.
  Lemma extend_spec h0 h dst src other : fresh h0 h dst -> fresh h0 h other -> (forall r, dst = Some r -> other <> Some r) ->
    length h0 <= length h -> (forall r, r < length h0 -> nth r h [] = nth r h0 []) -> valid_ref h0 src ->
    forall h' dst', extend_field h dst src = (h', dst') ->
    fresh h0 h' dst' /\ fresh h0 h' other /\ (forall r, dst' = Some r -> other <> Some r) /\ length h0 <= length h' /\ (forall r, r < length h0 -> nth r h' [] = nth r h0 []) /\
    content h' dst' = content h dst ++ content h0 src /\ content h' other = content h other.
  Proof.
    intros Fd Fo Hdo Hlen Hsame Hv h' dst' E. unfold extend_field in E. destruct src as [s|].
    2:{ injection E as <- <-. cbn [content]. rewrite app_nil_r. auto 10. }
    cbn [valid_ref] in Hv. cbn [hnonempty content] in *. unfold hget in E. rewrite (Hsame s Hv) in E. destruct (nth s h0 []) as [|x xs] eqn:Es.
    { injection E as <- <-. rewrite app_nil_r. auto 10. }
    assert (New : forall h' dst', (h ++ [[] ++ x :: xs], Some (length h)) = (h', dst') -> dst = None ->
      fresh h0 h' dst' /\ fresh h0 h' other /\ (forall r, dst' = Some r -> other <> Some r) /\ length h0 <= length h' /\ (forall r, r < length h0 -> nth r h' [] = nth r h0 []) /\
      content h' dst' = content h dst ++ x :: xs /\ content h' other = content h other).
    { intros h1 d1 [= <- <-] ->. unfold heap in *. cbn [fresh content app].
      assert (Hnew : nth (length h) (h ++ [x :: xs]) [] = x :: xs) by (rewrite app_nth2, Nat.sub_diag by apply Nat.le_refl; reflexivity).
      rewrite Hnew, app_length. cbn [length].
      assert (Hother : forall r, r < length h -> nth r (h ++ [x :: xs]) [] = nth r h []) by (intros; apply app_nth1; auto).
      split; [split; [lia|discriminate]|]. split; [destruct other as [o|]; cbn [fresh] in *; [|auto]; destruct Fo as [Fo1 Fo2]; rewrite Hother by lia; rewrite app_length; cbn [length]; split; [lia|auto]|].
      split; [intros r [= <-] Eo; subst other; cbn [fresh] in Fo; lia|]. split; [lia|]. split; [intros r Hr; rewrite Hother by lia; auto|]. split; [reflexivity|].
      destruct other as [o|]; cbn [content]; [|reflexivity]. cbn [fresh] in Fo. apply Hother. lia. }
    destruct dst as [t|]; [|apply New; [exact E|reflexivity]].
    cbn [fresh] in Fd. destruct Fd as [Ft Fne]. destruct (nth t h []) as [|y ys] eqn:Et; [congruence|]. cbn [hnonempty] in E. unfold hget in E. rewrite ?Et in E. injection E as <- <-. cbn [fresh content].
    rewrite hset_length. assert (Ht : (t <? length h) = true) by (apply Nat.ltb_lt; lia).
    split; [split; [lia|]; rewrite nth_hset, Nat.eqb_refl, Ht; discriminate|].
    assert (Hoth : forall r, r <> t -> nth r (hset h t ((y :: ys) ++ x :: xs)) [] = nth r h []). { intros r Hr. rewrite nth_hset. destruct (Nat.eqb_spec r t); [contradiction|reflexivity]. }
    assert (Hot : forall o, other = Some o -> o <> t) by (intros o -> ->; eapply Hdo; reflexivity).
    split; [destruct other as [o|]; cbn [fresh] in *; [|auto]; rewrite hset_length, Hoth by auto; exact Fo|]. split; [exact Hdo|]. split; [lia|].
    split; [intros r Hr; rewrite Hoth by lia; auto|]. split; [rewrite nth_hset, Nat.eqb_refl, Ht, Et; reflexivity|].
    destruct other as [o|]; cbn [content]; [|reflexivity]. apply Hoth. auto.
  Qed.
  Lemma concatenate_from_spec h0 l : (forall e, In e l -> valid_ref h0 (er_correlations e) /\ valid_ref h0 (er_covariances e)) ->
    forall h acc, fresh h0 h (er_correlations acc) -> fresh h0 h (er_covariances acc) -> (forall r, er_correlations acc = Some r -> er_covariances acc <> Some r) ->
    length h0 <= length h -> (forall r, r < length h0 -> nth r h [] = nth r h0 []) ->
    forall h' e', concatenate_from h acc l = (h', e') ->
    fresh h0 h' (er_correlations e') /\ fresh h0 h' (er_covariances e') /\ (forall r, r < length h0 -> nth r h' [] = nth r h0 []) /\
    er_values e' = er_values acc ++ flat_map er_values l /\
    content h' (er_correlations e') = content h (er_correlations acc) ++ flat_map (fun e => content h0 (er_correlations e)) l /\
    content h' (er_covariances e') = content h (er_covariances acc) ++ flat_map (fun e => content h0 (er_covariances e)) l.
  Proof.
    induction l as [|e l IH]; intros Hv h acc F1 F2 Hd Hlen Hs h' e' E; cbn [concatenate_from flat_map] in *.
    - injection E as <- <-. rewrite !app_nil_r. auto 10.
    - destruct (extend_field h (er_correlations acc) (er_correlations e)) as [h1 corr] eqn:E1.
      destruct (extend_field h1 (er_covariances acc) (er_covariances e)) as [h2 cov] eqn:E2.
      destruct (Hv e (or_introl eq_refl)) as [V1 V2].
      destruct (extend_spec h0 h _ _ (er_covariances acc) F1 F2 Hd Hlen Hs V1 _ _ E1) as (A1 & A2 & A3 & A4 & A5 & A6 & A7).
      destruct (extend_spec h0 h1 _ _ corr A2 A1 ltac:(intros r H1 H2; eapply A3; eauto) A4 A5 V2 _ _ E2) as (B1 & B2 & B3 & B4 & B5 & B6 & B7).
      destruct (IH ltac:(intros; apply Hv; right; auto) h2 {| er_values := er_values acc ++ er_values e; er_correlations := corr; er_covariances := cov |} B2 B1 ltac:(intros r H1 H2; eapply B3; eauto) B4 B5 _ _ E) as (C1 & C2 & C3 & C4 & C5 & C6). cbn [er_values er_correlations er_covariances] in *.
      split; [exact C1|]. split; [exact C2|]. split; [exact C3|]. split; [rewrite C4, app_assoc; reflexivity|]. split.
      + rewrite C5, B7, A6, <- app_assoc. reflexivity.
      + rewrite C6, B6, A7, <- app_assoc. reflexivity.
  Qed.
  (** Values, correlation blocks and covariance blocks are concatenated in order; all list objects that existed before keep their contents, and
      the result does not share its lists with any of them; without any block the result has None. *)
  Theorem C31_concatenate h l h' e : (forall x, In x l -> valid_ref h (er_correlations x) /\ valid_ref h (er_covariances x)) ->
    concatenate_expectation_values h l = (h', e) ->
    er_values e = flat_map er_values l /\
    content h' (er_correlations e) = flat_map (fun x => content h (er_correlations x)) l /\
    content h' (er_covariances e) = flat_map (fun x => content h (er_covariances x)) l /\
    (forall r, r < length h -> nth r h' [] = nth r h []) /\
    (forall r, er_correlations e = Some r \/ er_covariances e = Some r -> length h <= r < length h' /\ nth r h' [] <> []).
  Proof.
    intros Hv E. unfold concatenate_expectation_values in E.
    destruct (concatenate_from_spec h l Hv h {| er_values := []; er_correlations := None; er_covariances := None |} I I ltac:(discriminate) (Nat.le_refl _) ltac:(reflexivity) _ _ E) as (F1 & F2 & S & V & C1 & C2).
    cbn [app er_values er_correlations er_covariances content] in *. repeat (split; [assumption|]). intros r [Hr|Hr]; [rewrite Hr in F1; exact F1|rewrite Hr in F2; exact F2].
  Qed.
End C31.
Example C31_example : let h := [[1; 2]; [3]; []] in
  let l := [{| er_values := [10]; er_correlations := Some 0; er_covariances := Some 2 |}; {| er_values := [20; 30]; er_correlations := Some 1; er_covariances := None |};
            {| er_values := []; er_correlations := Some 0; er_covariances := Some 1 |}] in
  (forall x, In x l -> valid_ref h (er_correlations x) /\ valid_ref h (er_covariances x)) /\
  concatenate_expectation_values h l = ([[1; 2]; [3]; []; [1; 2; 3; 1; 2]; [3]], {| er_values := [10; 20; 30]; er_correlations := Some 3; er_covariances := Some 4 |}).
Proof. cbv zeta. split; [|reflexivity]. intros x H. cbn in H. repeat destruct H as [<-|H]; cbn; try lia; try (split; [lia|exact I]). Qed.

Section C31dict.
  Context {K : cring} (isz : K -> bool).
  (** arrays that survive: at least one entry, and a complex one has rank at least one; or a real empty vector *)
  Definition storable (a : ndarray K) : Prop :=
    proper_array a /\ ((prod_nat (a_shape a) <> 0 /\ (a_shape a <> [] \/ exists l, a_data a = RealData l)) \/ (a_shape a = [0] /\ a_data a = RealData [])).
  Lemma storable_round_trip a : storable a -> convert_dict_to_array isz (convert_array_to_dict a) = Ok a.
  Proof.
    destruct a as [sh dat]. intros [HP [[Hn Hs]|[E1 E2]]]; cbn [a_shape a_data] in *; [|subst; reflexivity]. unfold proper_array in HP. cbn [a_shape a_data] in HP. destruct dat as [l|l].
    - apply C26_real_round_trip; auto.
    - destruct sh as [|n sh]; [destruct Hs as [Hs|[l' Hs]]; [congruence|discriminate]|]. apply C26_complex_round_trip; auto.
  Qed.
  Lemma mapM_round_trip l : (forall a, In a l -> storable a) -> mapM (array_of isz) (map (fun a => JObj (convert_array_to_dict a)) l) = Ok l.
  Proof.
    induction l as [|a l IH]; intros H; [reflexivity|]. cbn [map mapM array_of]. rewrite storable_round_trip by (apply H; left; auto). cbn [rbind].
    rewrite IH by (intros; apply H; right; auto). reflexivity.
  Qed.
  Lemma read_field_list name d a l : (forall x, In x (a :: l) -> storable x) ->
    jget name d = Some (JArr (map (fun a => JObj (convert_array_to_dict a)) (a :: l))) -> read_field isz name d = Ok (Some (a :: l)).
  Proof.
    intros H E. unfold read_field. rewrite E. change (truthy isz (JArr (map (fun a => JObj (convert_array_to_dict a)) (a :: l)))) with true. cbv iota.
    rewrite mapM_round_trip by exact H. reflexivity.
  Qed.
  Lemma read_field_none name d : jget name d = None -> read_field isz name d = Ok None.
  Proof. intros E. unfold read_field. rewrite E. reflexivity. Qed.
  Definition all_storable (l : option (list (ndarray K))) : Prop := forall x a, l = Some x -> In a x -> storable a.
  (** an empty list of blocks is read back as None *)
  Definition none_if_empty (l : option (list (ndarray K))) : option (list (ndarray K)) := match l with Some [] => None | _ => l end.
  Theorem C31_expectation_values_round_trip e : storable (eo_values e) -> all_storable (eo_correlations e) -> all_storable (eo_covariances e) ->
    ev_from_dict isz (ev_to_dict e) = Ok {| eo_values := eo_values e; eo_correlations := none_if_empty (eo_correlations e); eo_covariances := none_if_empty (eo_covariances e) |}.
  Proof.
    destruct e as [v co cv]. cbn [eo_values eo_correlations eo_covariances]. intros Hv H1 H2. unfold ev_from_dict, ev_to_dict. cbn [eo_values eo_correlations eo_covariances].
    assert (Ev : forall X, jitem "expectation_values" ([("schema"%string, JStr "zapata-v1-expectation_values"); ("frames"%string, JArr []);
       ("expectation_values"%string, JObj (convert_array_to_dict v))] ++ X) = Ok (JObj (convert_array_to_dict v))) by reflexivity.
    rewrite Ev. cbn [rbind]. cbn [array_of]. rewrite storable_round_trip by exact Hv. cbn [rbind].
    set (pre := [("schema"%string, JStr "zapata-v1-expectation_values"); ("frames"%string, JArr []); ("expectation_values"%string, JObj (convert_array_to_dict v))]).
    assert (E1 : read_field isz "correlations" (pre ++ list_field "correlations" co ++ list_field "estimator_covariances" cv) = Ok (none_if_empty co)).
    { destruct co as [[|a l]|]; cbn [none_if_empty].
      - apply read_field_none. destruct cv as [[|b l']|]; reflexivity.
      - apply read_field_list; [intros x Hx; eapply H1; eauto|reflexivity].
      - apply read_field_none. destruct cv as [[|b l']|]; reflexivity. }
    rewrite E1. cbn [rbind].
    assert (E2 : read_field isz "estimator_covariances" (pre ++ list_field "correlations" co ++ list_field "estimator_covariances" cv) = Ok (none_if_empty cv)).
    { destruct cv as [[|a l]|]; cbn [none_if_empty].
      - apply read_field_none. destruct co as [[|b l']|]; reflexivity.
      - apply read_field_list; [intros x Hx; eapply H2; eauto|]. destruct co as [[|b l']|]; reflexivity.
      - apply read_field_none. destruct co as [[|b l']|]; reflexivity. }
    rewrite E2. reflexivity.
  Qed.
  Theorem C31_parities_round_trip p : storable (po_values p) -> all_storable (po_correlations p) ->
    par_from_dict isz (save_parities p) = Ok {| po_values := po_values p; po_correlations := none_if_empty (po_correlations p) |}.
  Proof.
    destruct p as [v co]. cbn [po_values po_correlations]. intros Hv H1. unfold par_from_dict, save_parities, par_to_dict. cbn [po_values po_correlations].
    destruct co as [[|a l]|]; cbn [list_field app].
    - change (jitem "values" (jset "schema" (JStr "zapata-v1-parities") [("values"%string, JObj (convert_array_to_dict v))])) with (Ok (JObj (convert_array_to_dict v))).
      cbn [rbind array_of]. rewrite storable_round_trip by exact Hv. reflexivity.
    - set (D := jset _ _ _). assert (Ev : jitem "values" D = Ok (JObj (convert_array_to_dict v))) by reflexivity. rewrite Ev.
      cbn [rbind array_of]. rewrite storable_round_trip by exact Hv. cbn [rbind]. rewrite (read_field_list "correlations" D a l); [reflexivity|intros x Hx; eapply H1; eauto|reflexivity].
    - change (jitem "values" (jset "schema" (JStr "zapata-v1-parities") [("values"%string, JObj (convert_array_to_dict v))])) with (Ok (JObj (convert_array_to_dict v))).
      cbn [rbind array_of]. rewrite storable_round_trip by exact Hv. reflexivity.
  Qed.
  (** wavefunctions *)
  Theorem C31_wavefunction_round_trip {W} (mk : ndarray K -> result W) a : storable a -> load_wavefunction isz mk (save_wavefunction a) = mk a.
  Proof. intros H. unfold load_wavefunction. cbn. rewrite storable_round_trip by exact H. reflexivity. Qed.
End C31dict.
Example C31_dict_example {K : cring} (x y : K) : storable {| a_shape := [2]; a_data := RealData [x; y] |} /\ storable {| a_shape := [1; 1]; a_data := CplxData [(x, y)] |}.
Proof. split; split; cbn; try reflexivity; left; split; try lia; left; discriminate. Qed.
(** making expectation values real keeps real parts, leaves nothing complex and does not touch correlations *)
Theorem C31_to_real {K C} (vs : list (scalar K)) (co : C) : let (vs', co') := expectation_values_to_real vs co in
  co' = co /\ length vs' = length vs /\ forall i v, nth_error vs i = Some v -> exists x, nth_error vs' i = Some (SReal x) /\ match v with SReal y => x = y | SCplx re _ => x = re end.
Proof.
  unfold expectation_values_to_real. split; [reflexivity|]. split; [apply map_length|]. intros i v H. rewrite nth_error_map, H. destruct v; cbn; eauto.
Qed.
Print Assumptions C27_from_counts. Print Assumptions C27_get_distribution. Print Assumptions C28_representing. Print Assumptions C29_expectation_values.
Print Assumptions C30_expectation_values. Print Assumptions C31_concatenate. Print Assumptions C31_expectation_values_round_trip.
