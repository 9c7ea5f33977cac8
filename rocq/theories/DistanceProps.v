(** C34: distances between distributions. *)
From Coq Require Import String Ascii QArith Qreals Reals Lra Permutation.
From Verif Require Import Base BaseFacts UtilsModel UtilsSpec UtilsProofs DistModel DistSpec DistProofs DistProps DistanceModel DistanceSpec DistanceProofs.
Local Open Scope list_scope.
Local Open Scope R_scope.

(** The clipped negative log likelihood is - sum_k target(k) log(max(eps, measured(k))), however the set of outcomes is iterated. *)
Theorem C34_nll so eps (t m : dist) ks : set_iteration so -> 0 < eps -> lists_outcomes ks t m ->
  clipped_nll so eps t m = Ok (- Rsum (fun k => prob t k * ln (Rmax eps (prob m k))) ks).
Proof.
  intros Hs He Hk. rewrite clipped_nll_ok by exact He. do 2 f_equal. apply Rsum_perm. eapply lists_perm; [apply all_keys_lists, Hs|exact Hk].
Qed.
(** It is never negative for probabilities between 0 and 1. *)
Theorem C34_nll_nonneg so eps (t m : dist) v : set_iteration so -> 0 < eps <= 1 -> (forall k, 0 <= prob t k) -> (forall k, prob m k <= 1) ->
  clipped_nll so eps t m = Ok v -> 0 <= v.
Proof.
  intros Hs He Ht Hm E. rewrite clipped_nll_ok in E by lra. injection E as <-. unfold nll_sum.
  assert (G : Rsum (fun k => prob t k * ln (Rmax eps (prob m k))) (all_keys so t m) <= 0); [|lra].
  rewrite <- (Rsum_0 (all_keys so t m)). apply Rsum_le. intros k _. assert (P : 0 < Rmax eps (prob m k) <= 1).
  { split; [pose proof (Rmax_l eps (prob m k)); lra|]. apply Rmax_lub; [lra|apply Hm]. }
  assert (L : ln (Rmax eps (prob m k)) <= 0). { pose proof (ln_le_sub _ (proj1 P)). lra. }
  specialize (Ht k). nra.
Qed.
(** For a given target, it is smallest at the target itself, up to eps for each outcome (Gibbs' inequality). *)
Theorem C34_nll_minimal so so' eps (t m : dist) v w ks : set_iteration so -> set_iteration so' -> 0 < eps -> lists_outcomes ks t m ->
  NoDup (map fst t) -> NoDup (map fst m) -> (total_mass (map snd t) == total_mass (map snd m))%Q ->
  (forall k, prob t k = 0 \/ eps <= prob t k) -> (forall k, 0 <= prob m k) ->
  clipped_nll so eps t m = Ok v -> clipped_nll so' eps t t = Ok w -> w - eps * INR (length ks) <= v.
Proof.
  intros Hs Hs' He Hk Nt Nm Hmass Ht Hm Ev Ew. rewrite (C34_nll so eps t m ks) in Ev by auto. injection Ev as <-.
  rewrite clipped_nll_ok in Ew by exact He. injection Ew as <-. unfold nll_sum.
  assert (Hw : Rsum (fun k => prob t k * ln (Rmax eps (prob t k))) (all_keys so' t t) = Rsum (fun k => prob t k * ln (Rmax eps (prob t k))) ks).
  { destruct (all_keys_lists so' t t Hs') as [N1 L1]. destruct Hk as [N2 L2].
    (* outcomes of m alone contribute nothing *)
    set (p := fun k => if in_dec (list_eq_dec Z.eq_dec) k (map fst t) then true else false).
    assert (P : Permutation (all_keys so' t t) (filter p ks)).
    { apply NoDup_Permutation; [exact N1|apply NoDup_filter, N2|]. intros k. rewrite L1, filter_In, L2. unfold p. destruct (in_dec (list_eq_dec Z.eq_dec) k (map fst t)); intuition congruence. }
    rewrite (Rsum_perm _ _ _ P). clear -ks. induction ks as [|k ks IH]; [reflexivity|]. cbn [filter]. rewrite Rsum_cons. unfold p at 1. destruct (in_dec (list_eq_dec Z.eq_dec) k (map fst t)) as [Hi|Hi].
    - rewrite Rsum_cons, IH. reflexivity.
    - rewrite IH, (prob_absent t k Hi). lra. }
  rewrite Hw.
  assert (G : Rsum (fun k => prob t k * ln (Rmax eps (prob m k)) + (-1) * (prob t k * ln (Rmax eps (prob t k)))) ks <= Rsum (fun k => (prob m k + eps) + (-1) * prob t k) ks).
  { apply Rsum_le. intros k _. pose proof (gibbs_term eps (prob t k) (prob m k) He (Ht k) (Hm k)). lra. }
  rewrite !Rsum_plus, !Rsum_scale, Rsum_const in G. destruct Hk as [N L].
  rewrite (prob_total m ks Nm N) in G by (intros; apply L; auto). rewrite (prob_total t ks Nt N) in G by (intros; apply L; auto). apply Qeq_eqR in Hmass. unfold dist, outcome in *. lra.
Qed.
(** Without a positive epsilon an outcome that was not measured raises. *)
Theorem C34_nll_epsilon so eps (t m : dist) k : set_iteration so -> eps <= 0 -> In k (map fst t) -> prob m k <= 0 -> clipped_nll so eps t m = Err ValueError.
Proof.
  intros Hs He Hk Hp. unfold clipped_nll. destruct (all_keys_lists so t m Hs) as [_ L]. assert (Hin : In k (all_keys so t m)) by (apply L; auto). clear L.
  assert (G : forall acc, foldM (fun value k => let! l := math_log (Rmax eps (get_or_0 m k)) in Ok (value + get_or_0 t k * l)) (all_keys so t m) acc = Err ValueError); [|rewrite G; reflexivity].
  induction (all_keys so t m) as [|k' ks IH]; intros acc; [destruct Hin|]. cbn [foldM]. unfold math_log at 1. destruct (Rle_dec _ 0) as [H|H]; [reflexivity|]. cbn [rbind].
  destruct Hin as [->|Hin]; [|auto]. exfalso. apply H. rewrite get_prob. apply Rmax_lub; lra.
Qed.

(** The symmetrised divergence: the average of the two; it does not matter which distribution is the target. *)
Theorem C34_jsd_symmetric so1 so2 so3 so4 eps (t m : dist) : set_iteration so1 -> set_iteration so2 -> set_iteration so3 -> set_iteration so4 -> 0 < eps ->
  jensen_shannon so1 so2 eps t m = jensen_shannon so3 so4 eps m t /\
  exists a b, clipped_nll so1 eps t m = Ok a /\ clipped_nll so2 eps m t = Ok b /\ jensen_shannon so1 so2 eps t m = Ok ((a + b) / 2).
Proof.
  intros H1 H2 H3 H4 He. set (ks := all_keys so1 t m). assert (L : lists_outcomes ks t m) by (apply all_keys_lists, H1). pose proof (lists_sym _ _ _ L) as L'.
  unfold jensen_shannon. rewrite (C34_nll so1 eps t m ks), (C34_nll so2 eps m t ks), (C34_nll so3 eps m t ks), (C34_nll so4 eps t m ks) by auto. cbn [rbind]. split; [f_equal; lra|].
  do 2 eexists. split; [reflexivity|]. split; [reflexivity|]. f_equal. lra.
Qed.
(** It is not a distance: for equal distributions it is the entropy. *)
Theorem C34_jsd_of_equal_refuted : exists d v, proper_dist d /\ (total_mass (map snd d) == 1)%Q /\ jensen_shannon (fun l => l) (fun l => l) default_epsilon d d = Ok v /\ 0 < v.
Proof.
  exists [([0]%Z, (1 # 2)%Q); ([1]%Z, (1 # 2)%Q)]. exists (ln 2). split; [|split; [reflexivity|split]].
  - split; [discriminate|]. split; [repeat constructor; cbn; intuition discriminate|]. split; [exists 1%nat; intros k v [[= <- <-]|[[= <- <-]|[]]]; reflexivity|].
    split; [intros k v z [[= <- <-]|[[= <- <-]|[]]]; cbn; lia|]. intros k v [[= <- <-]|[[= <- <-]|[]]]; discriminate.
  - set (d := [([0]%Z, (1 # 2)%Q); ([1]%Z, (1 # 2)%Q)]). unfold jensen_shannon. assert (Hs : set_iteration (fun l => l)) by (intros l _; apply Permutation_refl).
    assert (He : 0 < default_epsilon) by (unfold default_epsilon; lra).
    assert (L : lists_outcomes [[0]%Z; [1]%Z] d d). { split; [repeat constructor; cbn; intuition discriminate|]. intros k. cbn. tauto. }
    pose proof (C34_nll _ _ d d _ Hs He L) as E. match type of E with ?a = ?b => change (clipped_nll (fun l : list outcome => l) default_epsilon d d) with a; rewrite E end. cbn [rbind].
    assert (P0 : prob d [0%Z] = 1 / 2) by (unfold prob; cbn; unfold Q2R; cbn; lra). assert (P1 : prob d [1%Z] = 1 / 2) by (unfold prob; cbn; unfold Q2R; cbn; lra).
    rewrite !Rsum_cons, P0, P1. unfold Rsum. cbn [map fold_right]. rewrite Rmax_right by (unfold default_epsilon; lra). replace (1 / 2) with (/ 2) by lra. rewrite ln_Rinv by lra. f_equal. field.
  - apply ln_lt_2 || (rewrite <- ln_1; apply ln_increasing; lra).
Qed.

(** Maximum mean discrepancy between distributions over bits, for positive bandwidths: its value, in any order of iteration; *)
Definition gaussian (sigma : R) (x y : list Z) : R := exp (- (IZR (number_of x) - IZR (number_of y)) ^ 2 / (2 * sigma)).
Theorem C34_mmd_value so (t m : dist) n ks sigma : set_iteration so -> (1 <= n)%nat -> over_bits n t -> over_bits n m -> lists_outcomes ks t m -> 0 < sigma ->
  compute_mmd so (Single sigma) t m =
    Ok (Rsum (fun x => Rsum (fun y => (prob t x - prob m x) * gaussian sigma x y * (prob t y - prob m y)) ks) ks).
Proof.
  intros Hs Hn Ht Hm Hk Hp. assert (L : lists_outcomes (all_keys so t m) t m) by (apply all_keys_lists, Hs).
  rewrite (compute_mmd_ok so (Single sigma) (rbf (1 / (2 * sigma)))); [|cbn; rewrite gamma_ok by exact Hp; reflexivity|].
  - f_equal. rewrite (kform_perm _ t m _ ks) by (eapply lists_perm; eauto). unfold kform. apply Rsum_ext. intros x _. rewrite <- Rsum_scale. apply Rsum_ext. intros y _.
    rewrite rbf_gauss. unfold gaussian. replace (- (1 / (2 * sigma)) * ((IZR (number_of x) - IZR (number_of y)) * (IZR (number_of x) - IZR (number_of y)))) with (- (IZR (number_of x) - IZR (number_of y)) ^ 2 / (2 * sigma)) by (field; lra). ring.
  - intros k Hin. apply L in Hin. destruct Hin as [Hin|Hin]; [destruct (Ht k Hin) as [E B]|destruct (Hm k Hin) as [E B]]; (split; [intros ->; cbn in E; lia|exact B]).
Qed.
Theorem C34_mmd_multi so (t m : dist) n sigmas : set_iteration so -> (1 <= n)%nat -> over_bits n t -> over_bits n m -> sigmas <> [] -> (forall s, In s sigmas -> 0 < s) ->
  exists vs, mapM (fun s => compute_mmd so (Single s) t m) sigmas = Ok vs /\ compute_mmd so (Multi sigmas) t m = Ok (Rsum (fun v => v) vs / INR (length sigmas)).
Proof.
  intros Hs Hn Ht Hm Hne Hp. assert (L : lists_outcomes (all_keys so t m) t m) by (apply all_keys_lists, Hs).
  assert (HB : forall k, In k (all_keys so t m) -> k <> [] /\ binary k).
  { intros k Hin. apply L in Hin. destruct Hin as [Hin|Hin]; [destruct (Ht k Hin) as [E B]|destruct (Hm k Hin) as [E B]]; (split; [intros ->; cbn in E; lia|exact B]). }
  exists (map (fun s => kform (rbf (1 / (2 * s))) t m (all_keys so t m)) sigmas). split.
  - apply mapM_ok_ext. intros s Hin. apply compute_mmd_ok; [cbn; rewrite gamma_ok by auto; reflexivity|exact HB].
  - rewrite (compute_mmd_ok so (Multi sigmas) (multi_rbf (map (fun s => 1 / (2 * s)) sigmas))); [|unfold kernel_of; rewrite (mapM_ok_ext _ (fun s => 1 / (2 * s)) sigmas) by (intros; apply gamma_ok; auto); destruct sigmas; [congruence|reflexivity]|exact HB].
    f_equal. rewrite kform_multi, map_length. f_equal. unfold Rsum. rewrite !map_map. reflexivity.
Qed.
(** symmetric, never negative, and zero exactly for equal distributions. *)
Theorem C34_mmd so so' (t m : dist) n sigma : set_iteration so -> set_iteration so' -> (1 <= n)%nat -> over_bits n t -> over_bits n m -> positive_sigma sigma ->
  exists v, compute_mmd so sigma t m = Ok v /\ compute_mmd so' sigma m t = Ok v /\ 0 <= v /\ (v = 0 <-> same_distribution t m).
Proof.
  intros Hs Hs' Hn Ht Hm Hp. destruct (kernel_forms sigma Hp) as (K & EK & HK).
  assert (L : lists_outcomes (all_keys so t m) t m) by (apply all_keys_lists, Hs). assert (L' : lists_outcomes (all_keys so' m t) m t) by (apply all_keys_lists, Hs').
  assert (HB : forall k, In k (map fst t) \/ In k (map fst m) -> length k = n /\ k <> [] /\ binary k).
  { intros k [Hin|Hin]; [destruct (Ht k Hin) as [E B]|destruct (Hm k Hin) as [E B]]; (split; [exact E|]; split; [intros ->; cbn in E; lia|exact B]). }
  exists (kform K t m (all_keys so t m)). split; [|split; [|split]].
  - apply compute_mmd_ok; [exact EK|]. intros k Hin. apply L in Hin. apply HB, Hin.
  - rewrite (compute_mmd_ok so' sigma K m t EK).
    + f_equal. rewrite kform_swap. apply kform_perm. eapply lists_perm; [exact L'|apply lists_sym, L].
    + intros k Hin. apply L' in Hin. destruct (HB k) as (_ & H); [tauto|exact H].
  - apply HK.
  - split.
    + intros E k. destruct L as [N L].
      destruct (in_dec (list_eq_dec Z.eq_dec) k (all_keys so t m)) as [Hin|Hin].
      * apply (proj2 (HK t m (all_keys so t m)) N); auto. intros a b Ha Hb. apply L in Ha, Hb. destruct (HB a Ha) as (La & _ & Ba), (HB b Hb) as (Lb & _ & Bb). apply number_of_inj; auto. congruence.
      * rewrite !prob_absent; [reflexivity| |]; intros G; apply Hin, L; auto.
    + intros Hsame. unfold kform. rewrite (Rsum_ext _ (fun _ => 0)); [apply Rsum_0|]. intros x _. rewrite (Hsame x). ring.
Qed.
(** Outcomes with entries from 2 to 9 cannot be compared this way. *)
Theorem C34_mmd_needs_bits so sigma (t m : dist) k d : set_iteration so -> In k (map fst t) -> (forall x, In x k -> (0 <= x <= 9)%Z) -> In d k -> (2 <= d)%Z ->
  compute_mmd so sigma t m = Err ValueError.
Proof.
  intros Hs Hk Hdig Hd Hd2. unfold compute_mmd. destruct (all_keys_lists so t m Hs) as [_ L]. assert (Hin : In k (all_keys so t m)) by (apply L; auto). clear L.
  assert (Eonly : forall l acc e, int_base2_from acc l = Err e -> e = ValueError).
  { clear. induction l as [|c l IH]; intros acc e H; cbn in H; [discriminate|]. destruct (Ascii.eqb c "0"); [eauto|]. destruct (Ascii.eqb c "1"); [eauto|congruence]. }
  assert (Konly : forall k e, key_number k = Err e -> e = ValueError).
  { intros k' e. unfold key_number, int_base2. destruct (list_ascii_of_string _) as [|c l]; [congruence|]. apply Eonly. }
  assert (Kbad : key_number k = Err ValueError).
  { assert (G : forall acc, int_base2_from acc (list_ascii_of_string (String.concat EmptyString (map str_of_int k))) = Err ValueError).
    { clear -Hdig Hd Hd2. induction k as [|x k IH]; intros acc; [destruct Hd|]. cbn [map]. rewrite concat_cons.
      assert (Hx : (0 <= x <= 9)%Z) by (apply Hdig; left; auto).
      assert (Hrest : (2 <= x)%Z \/ (x <= 1)%Z /\ In d k). { destruct Hd as [->|Hd]; [left; auto|]. destruct (Z.le_gt_cases 2 x); [left; auto|right; split; [lia|auto]]. }
      assert (Hc : (x = 0 \/ x = 1 \/ x = 2 \/ x = 3 \/ x = 4 \/ x = 5 \/ x = 6 \/ x = 7 \/ x = 8 \/ x = 9)%Z) by lia.
      destruct Hrest as [H2|[H1 Hd']].
      - repeat destruct Hc as [->|Hc]; try lia; try subst x; reflexivity.
      - assert (IH' : forall acc, int_base2_from acc (list_ascii_of_string (String.concat EmptyString (map str_of_int k))) = Err ValueError) by (apply IH; auto; intros; apply Hdig; right; auto).
        destruct Hc as [->|[->|Hc]]; [| |lia].
        + change (str_of_int 0) with "0"%string. cbn. apply IH'.
        + change (str_of_int 1) with "1"%string. cbn. apply IH'. }
    specialize (G 0%Z). unfold key_number, int_base2. destruct (list_ascii_of_string _) as [|c l]; [reflexivity|exact G]. }
  assert (G : mapM key_number (all_keys so t m) = Err ValueError); [|rewrite G; reflexivity].
  induction (all_keys so t m) as [|k' ks IH]; [destruct Hin|]. cbn [mapM]. destruct (key_number k') as [z|e] eqn:Ek.
  - cbn [rbind]. destruct Hin as [->|Hin]; [congruence|]. rewrite IH by exact Hin. reflexivity.
  - cbn [rbind]. rewrite (Konly _ _ Ek). reflexivity.
Qed.
(** The front end: distributions over different numbers of subsystems, or of which exactly one is normalised, are rejected; otherwise the distance is returned. *)
Theorem C34_evaluate {V} (t m : dist) (distance : dist -> dist -> result V) n n' : proper_dist t -> proper_dist m ->
  (forall k, In k (map fst t) -> length k = n) -> (forall k, In k (map fst m) -> length k = n') ->
  (n <> n' -> evaluate_distribution_distance t m distance = Err RuntimeError) /\
  (~ (near_one (total_mass (map snd t)) <-> near_one (total_mass (map snd m))) -> evaluate_distribution_distance t m distance = Err RuntimeError) /\
  (n = n' -> (near_one (total_mass (map snd t)) <-> near_one (total_mass (map snd m))) -> evaluate_distribution_distance t m distance = distance t m).
Proof.
  intros [Ht _] [Hm _] Lt Lm. unfold evaluate_distribution_distance. destruct t as [|[k v] t]; [congruence|]. destruct m as [|[k' v'] m]; [congruence|]. cbn [get_number_of_subsystems rbind].
  rewrite (Lt k (or_introl eq_refl)), (Lm k' (or_introl eq_refl)). rewrite <- !mass_total.
  pose proof (isclose_near (mass ((k, v) :: t))) as A. pose proof (isclose_near (mass ((k', v') :: m))) as B. fold (is_normalized ((k, v) :: t)) in A. fold (is_normalized ((k', v') :: m)) in B.
  rewrite <- A, <- B. clear A B. destruct (is_normalized ((k, v) :: t)), (is_normalized ((k', v') :: m)); cbn [xorb]; (split; [|split]); intros H; try (intros H').
  all: try (destruct (Nat.eqb_spec n n') as [E|E]; cbn [negb]; try congruence; try reflexivity; try (exfalso; apply H; tauto); try (exfalso; destruct H'; intuition congruence); fail).
  all: destruct (Nat.eqb n n'); reflexivity.
Qed.
Example C34_example : let t := [([0; 0]%Z, (1 # 2)%Q); ([1; 1]%Z, (1 # 2)%Q)] in let m := [([0; 1]%Z, 1%Q)] in
  set_iteration (@rev (list Z)) /\ over_bits 2 t /\ over_bits 2 m /\ positive_sigma (Multi [1; 2]) /\ lists_outcomes [[0; 1]; [1; 1]; [0; 0]]%Z t m.
Proof.
  cbv zeta. split; [intros l _; apply Permutation_sym, Permutation_rev|]. split; [|split; [|split]].
  - intros k [<-|[<-|[]]]; (split; [reflexivity|]); intros b Hb; cbn in Hb; intuition lia.
  - intros k [<-|[]]; (split; [reflexivity|]); intros b Hb; cbn in Hb; intuition lia.
  - split; [discriminate|]. intros x [<-|[<-|[]]]; lra.
  - split; [repeat constructor; cbn; intuition discriminate|]. intros k. cbn. intuition.
Qed.
Print Assumptions C34_mmd. Print Assumptions C34_nll_minimal. Print Assumptions C34_evaluate.
