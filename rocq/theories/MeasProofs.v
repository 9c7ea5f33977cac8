(** Proofs about measurement counts and distributions made of samples. *)
From Coq Require Import String Ascii NArith Nnat QArith Qround Qabs Qminmax Lqa Sorting.Permutation ZifyNat ZifyBool.
From Verif Require Import Base BaseFacts MatModel MatFacts LiftModel Json UtilsModel UtilsSpec UtilsProofs DistModel DistSpec DistProofs MeasModel MeasSpec.
Local Open Scope list_scope.
Local Open Scope nat_scope.

Lemma occ_times o m : occ outcome_eqb m o = times o m.
Proof.
  unfold times. induction m as [|a m IH]; [reflexivity|]. rewrite occ_cons, IH. cbn [count_occ]. destruct (list_eq_dec Z.eq_dec a o) as [->|Hn].
  - rewrite (eqb_refl_of _ outcome_eqb_spec). reflexivity.
  - destruct (outcome_eqb o a) eqn:E; [apply outcome_eqb_spec in E; congruence|reflexivity].
Qed.
Lemma written_inj a b : (forall d, In d a -> (0 <= d <= 9)%Z) -> (forall d, In d b -> (0 <= d <= 9)%Z) -> written a = written b -> a = b.
Proof. intros Ha Hb E. apply digits_concat in Ha, Hb. unfold written in E. rewrite E, Hb in Ha. congruence. Qed.
Lemma occ_written m t : digits_only m -> (forall d, In d t -> (0 <= d <= 9)%Z) -> occ String.eqb (map written m) (written t) = times t m.
Proof.
  intros Hm Ht. rewrite <- occ_times. induction m as [|a m IH]; [reflexivity|]. cbn [map]. rewrite !occ_cons, IH by (intros x d Hx; apply Hm; right; auto). f_equal.
  destruct (outcome_eqb t a) eqn:E.
  - apply outcome_eqb_spec in E. subst. rewrite String.eqb_refl. reflexivity.
  - destruct (String.eqb_spec (written t) (written a)) as [Eq|]; [|reflexivity]. apply written_inj in Eq; [|auto|intros; eapply Hm; [left|]; eauto].
    subst. rewrite (eqb_refl_of _ outcome_eqb_spec) in E. discriminate.
Qed.
Lemma get_counts_eq m : get_counts m = counter String.eqb (map written m).
Proof. reflexivity. Qed.

(** a list made of blocks of distinct elements is counted block by block *)
Lemma counter_blocks {A} (eqb : A -> A -> bool) (Hs : eqb_spec_of eqb) (l : list (A * nat)) : forall acc,
  NoDup (map fst acc ++ map fst l) ->
  fold_left (count_one eqb) (flat_map (fun kn => repeat (fst kn) (snd kn)) l) acc = acc ++ filter (fun kn => 0 <? snd kn) l.
Proof.
  induction l as [|[k n] l IH]; intros acc ND; cbn [flat_map filter fst snd]; [rewrite app_nil_r; reflexivity|].
  rewrite fold_left_app.
  assert (Hk : ~ In k (map fst acc)). { intros Hin. cbn [map fst] in ND. apply NoDup_remove_2 in ND. apply ND, in_or_app. auto. }
  assert (Hone : forall j a, 0 < j -> ~ In k (map fst a) -> fold_left (count_one eqb) (repeat k j) a = a ++ [(k, j)]).
  { assert (Hset : forall (a : list (A * nat)) v w, ~ In k (map fst a) -> dset eqb k v (a ++ [(k, w)]) = a ++ [(k, v)]).
    { intros a v w. induction a as [|[k' v'] a IHa]; intros Hn; cbn; [rewrite (eqb_refl_of _ Hs); reflexivity|].
      destruct (eqb k k') eqn:E; [apply Hs in E; subst; exfalso; apply Hn; left; auto|]. rewrite IHa; [reflexivity|]. intros H; apply Hn; right; auto. }
    assert (Hget : forall (a : list (A * nat)) w, ~ In k (map fst a) -> dget eqb k (a ++ [(k, w)]) = Some w).
    { intros a w. induction a as [|[k' v'] a IHa]; intros Hn; cbn; [rewrite (eqb_refl_of _ Hs); reflexivity|].
      destruct (eqb k k') eqn:E; [apply Hs in E; subst; exfalso; apply Hn; left; auto|]. apply IHa. intros H; apply Hn; right; auto. }
    assert (Hnew : forall (a : list (A * nat)) v, ~ In k (map fst a) -> dset eqb k v a = a ++ [(k, v)] /\ dget eqb k a = None).
    { intros a v. induction a as [|[k' v'] a IHa]; intros Hn; cbn; [auto|].
      destruct (eqb k k') eqn:E; [apply Hs in E; subst; exfalso; apply Hn; left; auto|]. destruct IHa as [-> ->]; [|auto]. intros H; apply Hn; right; auto. }
    assert (G : forall j a w, ~ In k (map fst a) -> fold_left (count_one eqb) (repeat k j) (a ++ [(k, w)]) = a ++ [(k, w + j)]).
    { induction j as [|j IHj]; intros a w Hn; cbn [repeat fold_left]; [rewrite Nat.add_0_r; reflexivity|].
      unfold count_one at 2. rewrite Hget, Hset by auto. rewrite IHj by auto. do 3 f_equal. lia. }
    intros [|j] a Hj Hn; [lia|]. cbn [repeat fold_left]. unfold count_one at 2. destruct (Hnew a 1 Hn) as [_ ->]. destruct (Hnew a 1 Hn) as [-> _].
    rewrite G by auto. reflexivity. }
  destruct n as [|n].
  - cbn [repeat fold_left]. change (0 <? 0) with false. cbn iota. apply IH. cbn [map fst] in ND. apply NoDup_remove_1 in ND. exact ND.
  - rewrite Hone by (lia || auto). change (0 <? S n) with true. cbn iota. rewrite IH.
    + rewrite <- app_assoc. reflexivity.
    + rewrite map_app. cbn [map fst]. rewrite <- app_assoc. exact ND.
Qed.

Definition counts_as_measurements (ts : list (list Z * Z)) : list (list Z) := flat_map (fun kn => repeat (fst kn) (Z.to_nat (snd kn))) ts.
Lemma add_counts_eq (ts : list (list Z * Z)) : (forall t n d, In (t, n) ts -> In d t -> (0 <= d <= 9)%Z) -> forall m,
  add_counts m (map (fun kn => (written (fst kn), snd kn)) ts) = Ok (m ++ counts_as_measurements ts).
Proof.
  unfold add_counts. induction ts as [|[t n] ts IH]; intros H m; cbn [map foldM fst snd]; [cbn; rewrite app_nil_r; reflexivity|].
  unfold written at 1. rewrite digits_concat by (intros; eapply H; [left; reflexivity|auto]). cbn [rbind]. rewrite IH by (intros; eapply H; [right|]; eauto).
  rewrite <- app_assoc. reflexivity.
Qed.

(** *** rounding *)
Lemma floor_bounds x : (inject_Z (Qfloor x) <= x /\ x < inject_Z (Qfloor x) + 1)%Q.
Proof.
  split; [apply Qfloor_le|]. pose proof (Qlt_floor x). rewrite inject_Z_plus in H. exact H.
Qed.
Lemma round_near x : is_nearest (round_half_even x) x.
Proof.
  unfold is_nearest, round_half_even. destruct (floor_bounds x) as [H1 H2]. apply Qabs_Qle_condition.
  destruct (Qle_bool (1 # 2) (x - inject_Z (Qfloor x))) eqn:E; cbn [negb].
  - apply Qle_bool_iff in E. destruct (Qeq_bool _ _) eqn:E2.
    + apply Qeq_bool_iff in E2. destruct (Z.even _); [|rewrite inject_Z_plus; change (inject_Z 1) with 1%Q]; split; lra.
    + rewrite inject_Z_plus; change (inject_Z 1) with 1%Q; split; lra.
  - assert (x - inject_Z (Qfloor x) < 1 # 2)%Q by (apply Qnot_le_lt; intros G; apply Qle_bool_iff in G; congruence). split; lra.
Qed.
Lemma round_nonneg x : (0 <= x)%Q -> (0 <= round_half_even x)%Z.
Proof.
  intros H. assert (F : (0 <= Qfloor x)%Z) by (change 0%Z with (Qfloor 0); apply Qfloor_resp_le; exact H).
  unfold round_half_even. destruct (negb _); [auto|]. destruct (Qeq_bool _ _); [destruct (Z.even _)|]; lia.
Qed.
Lemma round_integer x k : (x == inject_Z k)%Q -> round_half_even x = k.
Proof.
  intros H. assert (F : Qfloor x = k) by (rewrite (Qfloor_comp _ _ H); apply Qfloor_Z). unfold round_half_even. rewrite F.
  destruct (Qle_bool (1 # 2) (x - inject_Z k)) eqn:E; [|reflexivity]. apply Qle_bool_iff in E. lra.
Qed.
Definition weight (x : Q) : Q := ((1 # 2) - Qabs ((1 # 2) - mod_one x))%Q.
Lemma mod_one_bounds x : (0 <= mod_one x /\ mod_one x < 1)%Q.
Proof. unfold mod_one. destruct (floor_bounds x). split; lra. Qed.
Lemma weight_bounds x : (0 <= weight x <= 1 # 2)%Q.
Proof.
  unfold weight. destruct (mod_one_bounds x). assert (Qabs ((1 # 2) - mod_one x) <= 1 # 2)%Q by (apply Qabs_Qle_condition; split; lra).
  pose proof (Qabs_nonneg ((1 # 2) - mod_one x)). split; lra.
Qed.
Lemma weight_zero x : (weight x == 0)%Q -> (x == inject_Z (Qfloor x))%Q.
Proof.
  unfold weight. intros H. destruct (mod_one_bounds x) as [H1 H2].
  destruct (Qlt_le_dec (mod_one x) (1 # 2)) as [Hc|Hc].
  - rewrite Qabs_pos in H by lra. unfold mod_one in *. lra.
  - rewrite Qabs_neg in H by lra. unfold mod_one in *. lra.
Qed.
Lemma weight_of_integer x k : (x == inject_Z k)%Q -> (weight x == 0)%Q.
Proof.
  intros H. assert (F : Qfloor x = k) by (rewrite (Qfloor_comp _ _ H); apply Qfloor_Z). unfold weight, mod_one. rewrite F, H.
  rewrite Qabs_pos; lra.
Qed.
Lemma weight_distance x eps : away_from_integers x eps -> (eps <= weight x)%Q.
Proof.
  intros H. unfold weight. destruct (mod_one_bounds x) as [H1 H2]. destruct (Qlt_le_dec (mod_one x) (1 # 2)) as [Hc|Hc].
  - rewrite (Qabs_pos ((1 # 2) - mod_one x)) by lra. specialize (H (Qfloor x)). unfold mod_one in *. rewrite Qabs_pos in H by lra. lra.
  - rewrite (Qabs_neg ((1 # 2) - mod_one x)) by lra. specialize (H (Qfloor x + 1)%Z). unfold mod_one in *. rewrite inject_Z_plus in H. change (inject_Z 1) with 1%Q in H.
    rewrite Qabs_neg in H by lra. lra.
Qed.

(** *** sums over dictionaries *)
Definition sumf {A} (f : A -> Q) (l : list A) : Q := sum_Q (map f l).
Lemma sumf_le {A} (f g : A -> Q) l : (forall a, In a l -> f a <= g a)%Q -> (sumf f l <= sumf g l)%Q.
Proof.
  unfold sumf. induction l as [|a l IH]; intros H; cbn; [apply Qle_refl|]. specialize (IH (fun b Hb => H b (or_intror Hb))). specialize (H a (or_introl eq_refl)). lra.
Qed.
Lemma sumf_eq {A} (f g : A -> Q) l : (forall a, In a l -> f a == g a)%Q -> (sumf f l == sumf g l)%Q.
Proof.
  unfold sumf. induction l as [|a l IH]; intros H; cbn; [reflexivity|]. rewrite (IH (fun b Hb => H b (or_intror Hb))), (H a (or_introl eq_refl)). reflexivity.
Qed.
Lemma sumf_scale {A} (f : A -> Q) c l : (sumf (fun a => c * f a) l == c * sumf f l)%Q.
Proof. unfold sumf. induction l as [|a l IH]; cbn; [ring|]. rewrite IH. ring. Qed.
Lemma sumf_single {A} (f : A -> Q) a l : In a l -> (forall b, In b l -> 0 <= f b)%Q -> (f a <= sumf f l)%Q.
Proof.
  unfold sumf. induction l as [|b l IH]; intros Hin H; [destruct Hin|]; destruct Hin as [->|Hin]; cbn.
  - assert (0 <= sum_Q (map f l))%Q; [|lra]. clear -H. assert (G : forall x, In x l -> (0 <= f x)%Q) by (intros; apply H; right; auto). clear H.
    induction l as [|b l IH]; cbn; [apply Qle_refl|]. specialize (G b (or_introl eq_refl)) as G1. assert (0 <= sum_Q (map f l))%Q by (apply IH; intros; apply G; right; auto). lra.
  - specialize (IH Hin (fun x Hx => H x (or_intror Hx))). specialize (H b (or_introl eq_refl)). lra.
Qed.
Lemma sumf_const {A} c (l : list A) : (sumf (fun _ => c) l == inject_Z (Z.of_nat (length l)) * c)%Q.
Proof.
  unfold sumf. induction l as [|a l IH]; cbn [map sum_Q length]; [ring|]. rewrite IH, Nat2Z.inj_succ, <- Z.add_1_r, inject_Z_plus. ring.
Qed.
Lemma sumf_Z {A} (f : A -> nat) l : (sumf (fun a => inject_Z (Z.of_nat (f a))) l == inject_Z (Z.of_nat (sum_nat (map f l))))%Q.
Proof. unfold sumf. induction l as [|a l IH]; cbn [map sum_Q sum_nat]; [reflexivity|]. rewrite IH, Nat2Z.inj_add, inject_Z_plus. reflexivity. Qed.
Lemma sum_subset (cs : list (outcome * nat)) : NoDup (map fst cs) -> forall Zs, NoDup Zs -> sum_nat (map (cget outcome_eqb cs) Zs) <= total_count cs.
Proof.
  unfold total_count. induction cs as [|[k n] cs IH]; intros ND Zs NZ.
  - cbn. clear. induction Zs; cbn; auto.
  - inversion ND; subst. cbn [map snd sum_nat]. destruct (in_dec (list_eq_dec Z.eq_dec) k Zs) as [Hin|Hout].
    + apply in_split in Hin. destruct Hin as (l1 & l2 & ->). assert (N2 : NoDup (l1 ++ l2)) by (eapply NoDup_remove_1; eauto).
      specialize (IH H2 _ N2). rewrite map_app in *. cbn [map]. rewrite !sum_nat_app in *. cbn [sum_nat].
      assert (Hk : cget outcome_eqb ((k, n) :: cs) k = n) by (rewrite cget_cons, (eqb_refl_of _ outcome_eqb_spec); reflexivity).
      assert (Hrest : forall l, ~ In k l -> map (cget outcome_eqb ((k, n) :: cs)) l = map (cget outcome_eqb cs) l).
      { intros l Hl. apply map_ext_in. intros a Ha. rewrite cget_cons. destruct (outcome_eqb a k) eqn:E; [apply outcome_eqb_spec in E; subst; contradiction|reflexivity]. }
      apply NoDup_remove_2 in NZ. rewrite !Hrest by (intros G; apply NZ, in_or_app; auto). rewrite Hk. unfold outcome in *. lia.
    + assert (E : map (cget outcome_eqb ((k, n) :: cs)) Zs = map (cget outcome_eqb cs) Zs).
      { apply map_ext_in. intros a Ha. rewrite cget_cons. destruct (outcome_eqb a k) eqn:E; [apply outcome_eqb_spec in E; subst; contradiction|reflexivity]. }
      rewrite E. specialize (IH H2 _ NZ). lia.
Qed.

(** *** removing samples *)
Lemma list_remove_spec a l : In a l -> exists l', list_remove a l = Ok l' /\ S (length l') = length l /\
  forall o, occ outcome_eqb l' o + (if outcome_eqb o a then 1 else 0) = occ outcome_eqb l o.
Proof.
  induction l as [|b l IH]; intros H; [destruct H|]. cbn [list_remove]. destruct (outcome_eqb b a) eqn:E.
  - apply outcome_eqb_spec in E. subst b. exists l. split; [reflexivity|]. split; [reflexivity|]. intros o. rewrite occ_cons. lia.
  - destruct H as [->|H]; [rewrite (eqb_refl_of _ outcome_eqb_spec) in E; discriminate|]. destruct (IH H) as (l' & -> & Hl & Ho). cbn [rbind].
    exists (b :: l'). split; [reflexivity|]. split; [cbn; lia|]. intros o. rewrite !occ_cons. specialize (Ho o). lia.
Qed.
Lemma remove_repeat a n : forall l, n <= occ outcome_eqb l a -> exists l', foldM (fun bs a => list_remove a bs) (repeat a n) l = Ok l' /\ length l' + n = length l /\
  forall o, occ outcome_eqb l' o + (if outcome_eqb o a then n else 0) = occ outcome_eqb l o.
Proof.
  induction n as [|n IH]; intros l H; cbn [repeat foldM].
  - exists l. split; [reflexivity|]. split; [lia|]. intros o. destruct (outcome_eqb o a); lia.
  - destruct (list_remove_spec a l) as (l1 & -> & H1 & H2); [apply (occ_In _ outcome_eqb_spec); lia|]. cbn [rbind].
    destruct (IH l1) as (l2 & -> & H3 & H4). { specialize (H2 a). rewrite (eqb_refl_of _ outcome_eqb_spec) in H2. lia. }
    exists l2. split; [reflexivity|]. split; [lia|]. intros o. specialize (H2 o). specialize (H4 o). destruct (outcome_eqb o a); lia.
Qed.
Lemma remove_samples cs : forall l, NoDup (map fst cs) -> (forall o, cget outcome_eqb cs o <= occ outcome_eqb l o) ->
  exists l', foldM (fun bs sn => foldM (fun bs a => list_remove a bs) (repeat (fst sn) (snd sn)) bs) cs l = Ok l' /\ length l' + total_count cs = length l /\
  forall o, occ outcome_eqb l' o + cget outcome_eqb cs o = occ outcome_eqb l o.
Proof.
  induction cs as [|[a n] cs IH]; intros l ND H; cbn [foldM fst snd].
  - exists l. split; [reflexivity|]. split; [cbn; lia|]. intros o. cbn. lia.
  - inversion ND; subst. assert (Hz : cget outcome_eqb cs a = 0).
    { destruct (cget outcome_eqb cs a) eqn:Ec; [reflexivity|]. exfalso. apply H2. apply in_map_iff. exists (a, cget outcome_eqb cs a). split; [reflexivity|].
      apply (cget_In _ outcome_eqb_spec). lia. }
    destruct (remove_repeat a n l) as (l1 & -> & L1 & O1). { specialize (H a). rewrite cget_cons, (eqb_refl_of _ outcome_eqb_spec) in H. lia. }
    cbn [rbind]. destruct (IH l1 H3) as (l2 & -> & L2 & O2).
    { intros o. specialize (H o). specialize (O1 o). rewrite cget_cons in H. destruct (outcome_eqb o a) eqn:E; [apply outcome_eqb_spec in E; subst; lia|lia]. }
    exists l2. split; [reflexivity|]. unfold total_count in *. cbn [map snd sum_nat]. split; [lia|]. intros o. specialize (O1 o). specialize (O2 o). rewrite cget_cons.
    destruct (outcome_eqb o a) eqn:E; [apply outcome_eqb_spec in E; subst; lia|lia].
Qed.

(** *** the representation *)
Section Repr.
  Context (choice : nat -> list Q -> nat -> result (list nat)) (Hch : draws_from_support choice).
  Context (d : dist) (N : Z) (HP : proper_dist d) (HM : (mass d == 1)%Q) (HN : (0 <= N)%Z).
  Let ex (v : Q) : Q := (v * inject_Z N)%Q.
  Let cap (v : Q) : nat := Z.to_nat (round_half_even (ex v)).
  Let w (v : Q) : Q := weight (ex v).
  Context (Hfar : forall o v, In (o, v) d -> (0 < w v)%Q -> (float_min * inject_Z (Z.of_nat (length d)) <= w v)%Q).
  Let bs : list outcome := flat_map (fun kv => repeat (fst kv) (cap (snd kv))) d.
  Local Lemma d_NoDup : NoDup (map fst d). Proof. apply HP. Qed.
  Local Lemma ex_nonneg o v : In (o, v) d -> (0 <= ex v)%Q.
  Proof.
    intros H. unfold ex. apply Qmult_le_0_compat; [eapply HP; eauto|]. change 0%Q with (inject_Z 0). rewrite <- Zle_Qle. exact HN.
  Qed.
  Local Lemma d_fun o v v' : In (o, v) d -> In (o, v') d -> v = v'.
  Proof. intros H H'. pose proof (In_dget _ outcome_eqb_spec _ _ _ d_NoDup H) as E. rewrite (In_dget _ outcome_eqb_spec _ _ _ d_NoDup H') in E. congruence. Qed.
  Local Lemma occ_bs_in o v : In (o, v) d -> occ outcome_eqb bs o = cap v.
  Proof.
    intros H. unfold bs.
    assert (E : flat_map (fun kv => repeat (fst kv) (cap (snd kv))) d = flat_map (fun kn => repeat (fst kn) (snd kn)) (map (fun kv => (fst kv, cap (snd kv))) d)).
    { clear. induction d as [|[k x] l IH]; [reflexivity|]. cbn. rewrite IH. reflexivity. }
    rewrite E, (occ_expand _ outcome_eqb_spec) by (rewrite map_map; apply d_NoDup).
    apply (In_cget _ outcome_eqb_spec); [rewrite map_map; apply d_NoDup|]. apply in_map_iff. exists (o, v). auto.
  Qed.
  Local Lemma in_bs o : In o bs -> exists v, In (o, v) d /\ 0 < cap v.
  Proof.
    unfold bs. intros H. apply in_flat_map in H. destruct H as ([k v] & Hin & Hr). cbn in Hr. pose proof Hr as Hr'. apply repeat_spec in Hr. subst k. exists v. split; [auto|].
    destruct (cap v); [destruct Hr'|lia].
  Qed.
  Local Lemma len_bs : length bs = sum_nat (map (fun kv => cap (snd kv)) d).
  Proof. unfold bs. clear. induction d as [|[k x] l IH]; [reflexivity|]. cbn. rewrite app_length, repeat_length, IH. reflexivity. Qed.
  Local Lemma cap_Q o v : In (o, v) d -> (inject_Z (Z.of_nat (cap v)) == inject_Z (round_half_even (ex v)))%Q.
  Proof. intros H. unfold cap. rewrite Z2Nat.id by (eapply round_nonneg, ex_nonneg; eauto). reflexivity. Qed.
  Local Lemma w_zero_cap o v : In (o, v) d -> (w v == 0)%Q -> (inject_Z (Z.of_nat (cap v)) == ex v)%Q.
  Proof. intros H Hw. rewrite (cap_Q _ _ H). apply weight_zero in Hw. rewrite (round_integer _ _ Hw). symmetry. exact Hw. Qed.
  Local Lemma total_expected : (sumf (fun kv => ex (snd kv)) d == inject_Z N)%Q.
  Proof.
    transitivity (sumf (fun kv => inject_Z N * snd kv)%Q d); [apply sumf_eq; intros; unfold ex; ring|]. rewrite sumf_scale. unfold sumf.
    change (sum_Q (map snd d)) with (mass d). rewrite HM. ring.
  Qed.
  Local Lemma w_dec v : {(0 < w v)%Q} + {(w v == 0)%Q}.
  Proof. destruct (Qlt_le_dec 0 (w v)) as [H|H]; [left; auto|right]. pose proof (weight_bounds (ex v)). unfold w in *. lra. Qed.
  Local Lemma some_weight : Z.of_nat (length bs) <> N -> exists o v, In (o, v) d /\ (0 < w v)%Q.
  Proof.
    intros Hne. destruct (existsb (fun kv => if w_dec (snd kv) then true else false) d) eqn:E.
    - apply existsb_exists in E. destruct E as ([o v] & Hin & Hw). exists o, v. split; [auto|]. cbn in Hw. destruct (w_dec v); [auto|discriminate].
    - exfalso. apply Hne. assert (Hz : forall o v, In (o, v) d -> (w v == 0)%Q).
      { intros o v Hin. destruct (w_dec v) as [Hw|]; [|auto]. assert (existsb (fun kv => if w_dec (snd kv) then true else false) d = true); [|congruence].
        apply existsb_exists. exists (o, v). split; [auto|]. cbn. destruct (w_dec v); [auto|lra]. }
      assert (G : (inject_Z (Z.of_nat (length bs)) == inject_Z N)%Q).
      { rewrite len_bs, <- sumf_Z, <- total_expected. apply sumf_eq. intros [o v] Hin. cbn. eapply w_zero_cap; eauto. }
      exact (proj1 (inject_Z_injective _ _) G).
  Qed.

  (** leftover weights with the outcomes of [Zs] removed, up to a factor *)
  Definition lo_rel (Zs : list outcome) (c : Q) (lo : dist) : Prop :=
    Forall2 (fun kv lv => fst lv = fst kv /\ (snd lv == if memb outcome_eqb (fst kv) Zs then 0 else c * w (snd kv))%Q) d lo.
  Local Lemma lo_keys Zs c lo : lo_rel Zs c lo -> map fst lo = map fst d.
  Proof. unfold lo_rel. intros H. clear -H. induction H as [|kv lv d' lo' [E _] _ IH]; [reflexivity|]. cbn. rewrite E, IH. reflexivity. Qed.
  Local Lemma lo_mass Zs c lo : lo_rel Zs c lo -> (mass lo == sumf (fun kv => if memb outcome_eqb (fst kv) Zs then 0 else c * w (snd kv)) d)%Q.
  Proof.
    unfold mass, sumf, lo_rel. intros H. clear -H. induction H as [|kv lv d' lo' [_ E] _ IH]; [reflexivity|]. cbn [map sum_Q]. rewrite E, IH. reflexivity.
  Qed.
  Local Lemma lo_in Zs c lo o p : lo_rel Zs c lo -> In (o, p) lo -> exists v, In (o, v) d /\ (p == if memb outcome_eqb o Zs then 0 else c * w v)%Q.
  Proof.
    unfold lo_rel. intros H. clear -H. induction H as [|kv lv d' lo' [E E2] _ IH]; intros Hin; [destruct Hin|]. destruct Hin as [->|Hin].
    - cbn in *. subst o. exists (snd kv). split; [left; apply surjective_pairing|exact E2].
    - destruct (IH Hin) as (v & H1 & H2). exists v. split; [right; auto|auto].
  Qed.
  Local Lemma lo_proper Zs c lo : (0 < c)%Q -> lo_rel Zs c lo -> proper_dist lo.
  Proof.
    intros Hc H. assert (K := lo_keys _ _ _ H). destruct HP as (P1 & P2 & [n P3] & P4 & P5).
    split; [intros ->; destruct d; [congruence|discriminate]|]. split; [rewrite K; exact P2|]. split; [|split].
    - exists n. intros k v Hin. destruct (lo_in _ _ _ _ _ H Hin) as (v' & Hin' & _). eapply P3; eauto.
    - intros k v z Hin. destruct (lo_in _ _ _ _ _ H Hin) as (v' & Hin' & _). eapply P4; eauto.
    - intros k v Hin. destruct (lo_in _ _ _ _ _ H Hin) as (v' & Hin' & E). rewrite E. destruct (memb _ _ _); [apply Qle_refl|].
      apply Qmult_le_0_compat; [lra|]. apply weight_bounds.
  Qed.
  Local Lemma lo_scale Zs c c' lo : lo_rel Zs c lo -> lo_rel Zs (c * c') (map (fun kv => (fst kv, snd kv * c')%Q) lo).
  Proof.
    unfold lo_rel. intros H. clear -H. induction H as [|kv lv d' lo' [E E2] _ IH]; [constructor|]. cbn. constructor; [|exact IH]. cbn. split; [exact E|]. rewrite E2.
    destruct (memb _ _ _); ring.
  Qed.
  Local Lemma lo_remove Zs c lo s : lo_rel Zs c lo -> In s (map fst d) -> lo_rel (s :: Zs) c (dset outcome_eqb s 0%Q lo).
  Proof.
    assert (ND : NoDup (map fst d)) by apply d_NoDup. unfold lo_rel. intros H. clear -H ND. revert ND. induction H as [|kv lv d' lo' [E E2] H IH]; intros ND Hin; [destruct Hin|].
    inversion ND; subst. destruct lv as [k p]. cbn [fst snd] in *. subst k. cbn [dset]. destruct (outcome_eqb s (fst kv)) eqn:Es.
    - apply outcome_eqb_spec in Es. subst s. constructor.
      + cbn [fst snd]. unfold memb. cbn [existsb]. rewrite (eqb_refl_of _ outcome_eqb_spec). cbn. split; reflexivity.
      + clear IH Hin E2. induction H as [|kv' lv' d'' lo'' [E' E2'] H IH]; [constructor|]. constructor.
        * split; [exact E'|]. unfold memb; cbn [existsb]. destruct (outcome_eqb (fst kv') (fst kv)) eqn:Ek; [apply outcome_eqb_spec in Ek; exfalso; apply H2; left; auto|]. cbn. exact E2'.
        * apply IH; [inversion ND; subst; constructor; [cbn in *; tauto|inversion H5; auto]| |inversion H3; auto]. cbn in H2. tauto.
    - destruct Hin as [Hin|Hin]; [subst; rewrite (eqb_refl_of _ outcome_eqb_spec) in Es; discriminate|]. constructor.
      + cbn [fst snd]. split; [reflexivity|]. unfold memb; cbn [existsb].
        destruct (outcome_eqb (fst kv) s) eqn:Ek; [apply outcome_eqb_spec in Ek; subst; rewrite (eqb_refl_of _ outcome_eqb_spec) in Es; discriminate|]. cbn. exact E2.
      + apply IH; auto.
  Qed.
  Local Lemma lo_finish Zs c lo : (0 < c)%Q -> lo_rel Zs c lo -> (float_min <= mass lo)%Q ->
    exists lo' c', mk_dist (of_tuples lo) true = Ok lo' /\ (0 < c')%Q /\ lo_rel Zs c' lo' /\ near_one (mass lo').
  Proof.
    intros Hc H Hm. assert (ND : NoDup (map fst lo)) by (rewrite (lo_keys _ _ _ H); apply d_NoDup). assert (HPl := lo_proper _ _ _ Hc H).
    rewrite mk_dist_tuples by exact ND. rewrite (proj2 (is_mod_spec lo ND) HPl). destruct (is_normalized lo) eqn:En.
    - exists lo, c. apply isclose_near in En. auto.
    - assert (Hpos : (0 <= mass lo)%Q) by (apply mass_nonneg; apply HPl). rewrite normalize_spec by exact Hpos. rewrite (proj2 (Qle_bool_iff _ _) Hm).
      destruct (Qeq_bool (mass lo) 1) eqn:E1.
      + exists lo, c. split; [reflexivity|]. split; [auto|]. split; [auto|]. apply near_one_1, Qeq_bool_iff, E1.
      + assert (Hf : (0 < float_min)%Q) by reflexivity. assert (Hp : (0 < mass lo)%Q) by lra.
        assert (Hc' : (0 < 1 / mass lo)%Q). { apply Qlt_shift_div_l; [exact Hp|]. lra. }
        exists (map (fun kv => (fst kv, snd kv * (1 / mass lo))%Q) lo), (c * (1 / mass lo))%Q. split; [reflexivity|]. split.
        * apply Qmult_lt_0_compat; auto.
        * split; [apply lo_scale; auto|]. apply near_one_1. rewrite mass_scale. field. lra.
  Qed.
  Local Lemma lo_c_bound Zs c lo : (0 < c)%Q -> lo_rel Zs c lo -> near_one (mass lo) -> (1 <= c * inject_Z (Z.of_nat (length d)))%Q.
  Proof.
    intros Hc H Hn. assert (Hpos : (0 <= mass lo)%Q) by (apply mass_nonneg; apply (lo_proper _ _ _ Hc H)). apply near_one_tol in Hn; [|exact Hpos].
    apply Qabs_Qle_condition in Hn. rewrite (lo_mass _ _ _ H) in Hn.
    assert (B : (sumf (fun kv => if memb outcome_eqb (fst kv) Zs then 0 else c * w (snd kv)) d <= sumf (fun _ => c * (1 # 2)) d)%Q).
    { apply sumf_le. intros kv _. pose proof (weight_bounds (ex (snd kv))) as [W1 W2]. change (weight (ex (snd kv))) with (w (snd kv)) in *.
      assert (c * w (snd kv) <= c * (1 # 2))%Q by (apply Qmult_le_l; auto). assert (0 <= c * (1 # 2))%Q by lra. destruct (memb _ _ _); lra. }
    rewrite sumf_const in B. 
    assert (B2 : (999 # 1000 <= inject_Z (Z.of_nat (length d)) * (c * (1 # 2)))%Q) by lra. 
    assert (E : (inject_Z (Z.of_nat (length d)) * (c * (1 # 2)) == (1 # 2) * (c * inject_Z (Z.of_nat (length d))))%Q) by ring. rewrite E in B2.
    lra.
  Qed.

  Context (m : nat) (Hm : length bs = m + Z.to_nat N).
  Definition inv (Zs : list outcome) (cs : list (outcome * nat)) (c : Q) (lo : dist) : Prop :=
    NoDup (map fst cs) /\ total_count cs = m /\ (forall o, 0 < cget outcome_eqb cs o -> exists v, In (o, v) d /\ (0 < w v)%Q) /\
    NoDup Zs /\ (forall z, In z Zs -> In z (map fst d) /\ cget outcome_eqb cs z = occ outcome_eqb bs z) /\
    (0 < c)%Q /\ lo_rel Zs c lo /\ near_one (mass lo).
  (** some state of positive weight is left *)
  Local Lemma some_left Zs cs : NoDup (map fst cs) -> total_count cs < m -> NoDup Zs -> (forall z, In z Zs -> cget outcome_eqb cs z = occ outcome_eqb bs z) ->
    exists o v, In (o, v) d /\ (0 < w v)%Q /\ ~ In o Zs.
  Proof.
    intros Hcs Htot HZ Hcap.
    set (left := fun kv : outcome * Q => (if w_dec (snd kv) then true else false) && negb (memb outcome_eqb (fst kv) Zs)).
    destruct (existsb left d) eqn:E.
    - apply existsb_exists in E. destruct E as ([o v] & Hin & Hl). unfold left in Hl. cbn in Hl. apply andb_true_iff in Hl as [H1 H2]. exists o, v.
      destruct (w_dec v); [|discriminate]. split; [auto|]. split; [auto|]. intros Hz. apply (memb_In _ outcome_eqb_spec) in Hz. rewrite Hz in H2. discriminate.
    - exfalso. assert (Hall : forall o v, In (o, v) d -> (0 < w v)%Q -> In o Zs).
      { intros o v Hin Hw. destruct (memb outcome_eqb o Zs) eqn:Em; [apply (memb_In _ outcome_eqb_spec), Em|]. exfalso.
        assert (existsb left d = true); [|congruence]. apply existsb_exists. exists (o, v). split; [auto|]. unfold left. cbn. rewrite Em.
        destruct (w_dec v); [reflexivity|lra]. }
      pose proof (sum_subset cs Hcs Zs HZ) as B.
      assert (E1 : sum_nat (map (cget outcome_eqb cs) Zs) = sum_nat (map (occ outcome_eqb bs) Zs)) by (f_equal; apply map_ext_in; auto).
      (* caps of the states of positive weight *)
      set (pos := filter (fun kv => if w_dec (snd kv) then true else false) d).
      set (zer := filter (fun kv => if w_dec (snd kv) then false else true) d).
      assert (E2 : sum_nat (map (fun kv => cap (snd kv)) pos) <= sum_nat (map (occ outcome_eqb bs) Zs)).
      { assert (E3 : map (fun kv => cap (snd kv)) pos = map (occ outcome_eqb bs) (map fst pos)).
        { rewrite map_map. apply map_ext_in. intros [o v] Hin. cbn. symmetry. apply occ_bs_in. unfold pos in Hin. apply filter_In in Hin. tauto. }
        rewrite E3. assert (Hinc : incl (map fst pos) Zs).
        { intros o Ho. apply in_map_iff in Ho. destruct Ho as ([k v] & <- & Hin). unfold pos in Hin. apply filter_In in Hin. destruct Hin as [Hin Hw]. cbn in *.
          destruct (w_dec v); [|discriminate]. eapply Hall; eauto. }
        assert (NDp : NoDup (map fst pos)) by (apply NoDup_filter_fst, d_NoDup).
        clear -Hinc NDp. revert Zs Hinc. induction (map fst pos) as [|a l IH]; intros Zs Hinc; [cbn; lia|]. inversion NDp; subst.
        assert (Ha : In a Zs) by (apply Hinc; left; auto). apply in_split in Ha. destruct Ha as (l1 & l2 & ->).
        assert (Hi : incl l (l1 ++ l2)). { intros x Hx. assert (Hx' : In x (l1 ++ a :: l2)) by (apply Hinc; right; auto). apply in_app_or in Hx'. apply in_or_app.
          destruct Hx' as [|[->|]]; auto. contradiction. }
        specialize (IH H2 _ Hi). rewrite map_app in *. cbn [map sum_nat]. rewrite !sum_nat_app in *. cbn [sum_nat]. lia. }
      assert (E4 : sum_nat (map (fun kv => cap (snd kv)) d) = sum_nat (map (fun kv => cap (snd kv)) pos) + sum_nat (map (fun kv => cap (snd kv)) zer)).
      { unfold pos, zer. clear. induction d as [|[k v] l IH]; [reflexivity|]. cbn [filter snd]. destruct (w_dec v); cbn [map sum_nat snd]; lia. }
      assert (E5 : (inject_Z (Z.of_nat (sum_nat (map (fun kv => cap (snd kv)) zer))) <= inject_Z N)%Q).
      { rewrite <- sumf_Z, <- total_expected. apply Qle_trans with (sumf (fun kv => ex (snd kv)) zer).
        - apply sumf_le. intros [o v] Hin. unfold zer in Hin. apply filter_In in Hin. destruct Hin as [Hin Hw]. cbn in *. destruct (w_dec v); [discriminate|].
          rewrite (w_zero_cap o v Hin) by auto. apply Qle_refl.
        - assert (Hnn : forall kv, In kv d -> (0 <= ex (snd kv))%Q) by (intros [o v] Hin; eapply ex_nonneg; eauto).
          unfold zer. clear -Hnn. unfold sumf. induction d as [|kv l IH]; [apply Qle_refl|]. cbn [filter]. assert (0 <= ex (snd kv))%Q by (apply Hnn; left; auto).
          specialize (IH (fun x Hx => Hnn x (or_intror Hx))). destruct (w_dec (snd kv)); cbn [map sum_Q]; lra. }
      rewrite <- Zle_Qle in E5. rewrite len_bs in Hm. lia.
  Qed.
  Local Lemma lo_mass_left Zs c lo o v : (0 < c)%Q -> lo_rel Zs c lo -> (1 <= c * inject_Z (Z.of_nat (length d)))%Q -> In (o, v) d -> (0 < w v)%Q -> ~ In o Zs -> (float_min <= mass lo)%Q.
  Proof.
    intros Hc H Hb Hin Hw Ho. rewrite (lo_mass _ _ _ H).
    pose proof (sumf_single (fun kv => if memb outcome_eqb (fst kv) Zs then 0 else c * w (snd kv))%Q (o, v) d Hin) as S. cbn [fst snd] in S.
    assert (Em : memb outcome_eqb o Zs = false). { destruct (memb outcome_eqb o Zs) eqn:Em; [|reflexivity]. apply (memb_In _ outcome_eqb_spec) in Em. contradiction. }
    rewrite Em in S. apply Qle_trans with (c * w v)%Q; [|apply S].
    - pose proof (Hfar o v Hin Hw) as F. assert (F2 : (c * (float_min * inject_Z (Z.of_nat (length d))) <= c * w v)%Q) by (apply Qmult_le_l; auto).
      assert (F3 : (c * (float_min * inject_Z (Z.of_nat (length d))) == float_min * (c * inject_Z (Z.of_nat (length d))))%Q) by ring. rewrite F3 in F2.
      apply Qle_trans with (float_min * (c * inject_Z (Z.of_nat (length d))))%Q; [|exact F2].
      rewrite <- (Qmult_1_r float_min) at 1. apply Qmult_le_l; [reflexivity|exact Hb].
    - intros [k x] _. cbn. destruct (memb outcome_eqb k Zs); [apply Qle_refl|]. apply Qmult_le_0_compat; [lra|apply weight_bounds].
  Qed.

  Lemma elimination_ok fuel : forall Zs k cs c lo, inv Zs cs c lo -> length d < fuel + length Zs ->
    exists cs', elimination_loop choice fuel k (counter outcome_eqb bs) cs lo = Ok cs' /\ NoDup (map fst cs') /\ total_count cs' = m /\
      (forall o, 0 < cget outcome_eqb cs' o -> exists v, In (o, v) d /\ (0 < w v)%Q) /\ forall o, cget outcome_eqb cs' o <= occ outcome_eqb bs o.
  Proof.
    induction fuel as [|fuel IH]; intros Zs k cs c lo (I1 & I2 & I3 & I4 & I5 & I6 & I7 & I8) Hf.
    - exfalso. assert (B : length Zs <= length (map fst d)) by (apply NoDup_incl_length; [auto|intros z Hz; apply I5; auto]). rewrite map_length in B. lia.
    - cbn [elimination_loop]. destruct (first_excess cs (counter outcome_eqb bs)) as [[s n]|] eqn:Ef.
      + unfold first_excess in Ef. apply find_some in Ef. destruct Ef as [Hin Hgt]. cbn [fst snd] in Hgt. rewrite (cget_counter _ outcome_eqb_spec) in *. apply Nat.ltb_lt in Hgt.
        assert (Hn : cget outcome_eqb cs s = n) by (apply (In_cget _ outcome_eqb_spec); auto).
        destruct (I3 s) as (v & Hv & Hwv); [lia|].
        assert (Hs : ~ In s Zs) by (intros Hz; apply I5 in Hz; lia).
        set (cs1 := dset outcome_eqb s (occ outcome_eqb bs s) cs).
        assert (T1 : total_count cs1 + (n - occ outcome_eqb bs s) = m).
        { pose proof (total_count_dset outcome_eqb cs s (occ outcome_eqb bs s) I1) as T. unfold cs1. lia. }
        assert (K1 : NoDup (map fst cs1)) by (apply (dset_NoDup _ outcome_eqb_spec), I1).
        assert (G1 : forall o, cget outcome_eqb cs1 o = if outcome_eqb o s then occ outcome_eqb bs s else cget outcome_eqb cs o).
        { intros o. unfold cget, cs1. destruct (outcome_eqb o s) eqn:E; [apply outcome_eqb_spec in E; subst; rewrite (dget_dset_same _ outcome_eqb_spec); reflexivity|].
          rewrite (dget_dset_other _ outcome_eqb_spec); [reflexivity|]. intros ->. rewrite (eqb_refl_of _ outcome_eqb_spec) in E. discriminate. }
        assert (Z1 : NoDup (s :: Zs)) by (constructor; auto).
        assert (C1 : forall z, In z (s :: Zs) -> cget outcome_eqb cs1 z = occ outcome_eqb bs z).
        { intros z Hz. rewrite G1. destruct (outcome_eqb z s) eqn:E; [apply outcome_eqb_spec in E; subst; reflexivity|]. destruct Hz as [->|Hz]; [rewrite (eqb_refl_of _ outcome_eqb_spec) in E; discriminate|]. apply I5, Hz. }
        destruct (some_left (s :: Zs) cs1 K1 ltac:(lia) Z1 C1) as (o & vo & Ho & Hwo & Hnot).
        assert (Hsd : In s (map fst d)) by (apply in_map_iff; exists (s, v); auto).
        assert (L1 := lo_remove Zs c lo s I7 Hsd). assert (CB := lo_c_bound _ _ _ I6 I7 I8).
        assert (M1 := lo_mass_left _ _ _ _ _ I6 L1 CB Ho Hwo Hnot).
        destruct (lo_finish _ _ _ I6 L1 M1) as (lo' & c' & -> & Hc' & L2 & N2). cbn [rbind].
        destruct (sample_spec choice Hch k lo' (n - occ outcome_eqb bs s) (lo_proper _ _ _ Hc' L2) N2) as (ns & -> & TS & NDS & HS). cbn [rbind].
        fold cs1. apply (IH (s :: Zs) (S k) _ c' lo'); [|cbn [length]; lia].
        assert (Hns : forall o, 0 < cget outcome_eqb ns o -> ~ In o (s :: Zs) /\ exists v, In (o, v) d /\ (0 < w v)%Q).
        { intros o' H. apply (cget_In _ outcome_eqb_spec) in H. destruct (HS _ _ H) as (_ & p & Hp & Hpos). destruct (lo_in _ _ _ _ _ L2 Hp) as (v' & Hv' & E).
          destruct (memb outcome_eqb o' (s :: Zs)) eqn:Em; [lra|]. split; [intros Hz; apply (memb_In _ outcome_eqb_spec) in Hz; congruence|].
          exists v'. split; [auto|]. pose proof (weight_bounds (ex v')) as [W _]. change (weight (ex v')) with (w v') in W.
          destruct (w_dec v') as [|Hz]; [auto|]. rewrite Hz in E. rewrite E in Hpos. lra. }
        split; [apply (counter_add_keys _ outcome_eqb_spec); auto|]. split; [rewrite (counter_add_total _ outcome_eqb_spec) by auto; lia|].
        split; [|split; [auto|split; [|auto]]].
        * intros o' H. rewrite (cget_counter_add _ outcome_eqb_spec) in H by auto. destruct (Nat.eq_dec (cget outcome_eqb ns o') 0) as [Hz|Hz].
          -- rewrite G1 in H. destruct (outcome_eqb o' s) eqn:E; [apply outcome_eqb_spec in E; subst; eauto|]. apply I3. lia.
          -- apply Hns. lia.
        * intros z Hz. split; [destruct Hz as [<-|Hz]; [auto|apply I5, Hz]|]. rewrite (cget_counter_add _ outcome_eqb_spec) by auto. rewrite (C1 z Hz).
          destruct (Nat.eq_dec (cget outcome_eqb ns z) 0) as [->|Hz']; [lia|]. exfalso. apply (Hns z); [lia|auto].
      + exists cs. split; [reflexivity|]. split; [auto|]. split; [auto|]. split; [auto|]. intros o.
        destruct (Nat.eq_dec (cget outcome_eqb cs o) 0) as [->|Hz]; [lia|]. assert (Hin : In (o, cget outcome_eqb cs o) cs) by (apply (cget_In _ outcome_eqb_spec); lia).
        unfold first_excess in Ef. pose proof (find_none _ _ Ef _ Hin) as Hle. cbn in Hle. rewrite (cget_counter _ outcome_eqb_spec) in Hle. apply Nat.ltb_ge in Hle. exact Hle.
  Qed.
End Repr.

Section Main.
  Context (choice : nat -> list Q -> nat -> result (list nat)) (Hch : draws_from_support choice).
  Context (d : dist) (N : Z) (HP : proper_dist d) (HM : (mass d == 1)%Q) (HN : (0 <= N)%Z).
  Context (Hfar : forall o v, In (o, v) d -> (0 < weight (v * inject_Z N))%Q -> (float_min * inject_Z (Z.of_nat (length d)) <= weight (v * inject_Z N))%Q).
  Let capo (v : Q) : nat := Z.to_nat (round_half_even (v * inject_Z N)).
  Lemma initial_leftover : lo_rel d N [] 1 (map (fun kv => (fst kv, (1 # 2) - Qabs ((1 # 2) - mod_one (snd kv * inject_Z N)))%Q) d).
  Proof.
    unfold lo_rel. clear. induction d as [|kv l IH]; [constructor|]. constructor; [|exact IH]. cbn [fst snd]. split; [reflexivity|]. unfold memb. cbn [existsb]. unfold weight. ring.
  Qed.
  Lemma representing_spec : exists ms, representing choice d N = Ok ms /\ Z.of_nat (length ms) = N /\
    (forall o, In o ms -> exists v, In (o, v) d /\ (0 < v)%Q) /\
    (forall o v, In (o, v) d -> (weight (v * inject_Z N) == 0)%Q -> occ outcome_eqb ms o = capo v) /\
    ((forall o v, In (o, v) d -> capo v <= occ outcome_eqb ms o) \/ (forall o v, In (o, v) d -> occ outcome_eqb ms o <= capo v)).
  Proof.
    set (bs := flat_map (fun kv => repeat (fst kv) (Z.to_nat (round_half_even (snd kv * inject_Z N)))) d).
    assert (Hbs : forall o v, In (o, v) d -> occ outcome_eqb bs o = capo v) by (intros; eapply occ_bs_in; eauto).
    assert (Hpos : forall o v, In (o, v) d -> 0 < capo v -> (0 < v)%Q).
    { intros o v Hin Hc. destruct (Qlt_le_dec 0 v) as [|Hle]; [auto|]. exfalso. assert (E : (v == 0)%Q) by (destruct HP as (_ & _ & _ & _ & H5); specialize (H5 o v Hin); lra).
      unfold capo in Hc. rewrite (round_integer _ 0) in Hc; [cbn in Hc; lia|]. rewrite E. reflexivity. }
    assert (Hin_bs : forall o, In o bs -> exists v, In (o, v) d /\ (0 < v)%Q).
    { intros o Ho. destruct (in_bs d N Hfar o Ho) as (v & Hv & Hc). exists v. split; [auto|]. eapply Hpos; eauto. }
    unfold representing. fold bs. cbv zeta. destruct (Z.eqb_spec (Z.of_nat (length bs)) N) as [E|E].
    - exists bs. split; [reflexivity|]. split; [exact E|]. split; [exact Hin_bs|]. split; [intros; apply Hbs; auto|]. left. intros o v Hin. rewrite (Hbs _ _ Hin). auto.
    - destruct (some_weight d N HP HM HN E) as (o0 & v0 & Ho0 & Hw0).
      assert (Hw : forall v, (0 < weight (v * inject_Z N))%Q -> (0 < v \/ v < 0)%Q).
      { intros v Hv. destruct (Qlt_le_dec 0 v) as [|H1]; [auto|]. destruct (Qlt_le_dec v 0) as [|H2]; [auto|]. exfalso. assert (Ev : (v == 0)%Q) by lra.
        pose proof (weight_of_integer (v * inject_Z N) 0) as W. rewrite W in Hv; [lra|]. rewrite Ev. reflexivity. }
      assert (Hw' : forall o v, In (o, v) d -> (0 < weight (v * inject_Z N))%Q -> (0 < v)%Q).
      { intros o v Hin Hv. destruct (Hw v Hv) as [|Hlt]; [auto|]. destruct HP as (_ & _ & _ & _ & H5). specialize (H5 o v Hin). lra. }
      assert (CB0 : (float_min <= mass (map (fun kv => (fst kv, (1 # 2) - Qabs ((1 # 2) - mod_one (snd kv * inject_Z N)))%Q) d))%Q).
      { rewrite (lo_mass d N _ _ _ initial_leftover).
        pose proof (sumf_single (fun kv : outcome * Q => if memb outcome_eqb (fst kv) [] then 0 else 1 * weight (snd kv * inject_Z N))%Q (o0, v0) d Ho0) as S. cbn [fst snd memb existsb] in S.
        apply Qle_trans with (1 * weight (v0 * inject_Z N))%Q; [|apply S; intros; pose proof (weight_bounds (snd b * inject_Z N)); lra].
        pose proof (Hfar o0 v0 Ho0 Hw0) as F. rewrite Qmult_1_l. apply Qle_trans with (float_min * inject_Z (Z.of_nat (length d)))%Q; [|exact F].
        rewrite <- (Qmult_1_r float_min) at 1. apply Qmult_le_l; [reflexivity|]. change 1%Q with (inject_Z 1). rewrite <- Zle_Qle. destruct d; [destruct Ho0|cbn [length]; lia]. }
      destruct (lo_finish d N HP HM Hfar [] 1 _ ltac:(reflexivity) initial_leftover CB0) as (lo & c & -> & Hc & L & NO). cbn [rbind].
      destruct (sample_spec choice Hch 0 lo (Z.to_nat (Z.abs (N - Z.of_nat (length bs)))) (lo_proper d N HP HM Hfar _ _ _ Hc L) NO) as (ns & -> & TS & NDS & HS). cbn [rbind].
      assert (Hns : forall o, 0 < cget outcome_eqb ns o -> exists v, In (o, v) d /\ (0 < weight (v * inject_Z N))%Q).
      { intros o' H. apply (cget_In _ outcome_eqb_spec) in H. destruct (HS _ _ H) as (_ & p & Hp & Hpo). destruct (lo_in d N _ _ _ _ _ L Hp) as (v' & Hv' & Ep). cbn in Ep.
        exists v'. split; [auto|]. pose proof (weight_bounds (v' * inject_Z N)) as [W _]. destruct (Qlt_le_dec 0 (weight (v' * inject_Z N))) as [|Hle]; [auto|].
        assert (Ez : (weight (v' * inject_Z N) == 0)%Q) by lra. rewrite Ez in Ep. rewrite Ep in Hpo. lra. }
      assert (Hfun : forall o v v', In (o, v) d -> In (o, v') d -> v = v') by (intros; eapply d_fun; eauto).
      destruct (Z.ltb_spec 0 (N - Z.of_nat (length bs))) as [Hadd|Hrem].
      + exists (bs ++ flat_map (fun sn => repeat (fst sn) (snd sn)) ns).
        assert (Hocc : forall o, occ outcome_eqb (bs ++ flat_map (fun sn => repeat (fst sn) (snd sn)) ns) o = occ outcome_eqb bs o + cget outcome_eqb ns o).
        { intros o. rewrite occ_app. rewrite (occ_expand _ outcome_eqb_spec) by exact NDS. reflexivity. }
        split; [reflexivity|]. split; [rewrite app_length, expand_length; lia|]. split; [|split].
        * intros o Ho. apply (occ_In _ outcome_eqb_spec) in Ho. rewrite Hocc in Ho. destruct (Nat.eq_dec (cget outcome_eqb ns o) 0) as [Hz|Hz].
          -- apply Hin_bs. apply (occ_In _ outcome_eqb_spec). lia.
          -- destruct (Hns o) as (v & Hv & Hwv); [lia|]. exists v. split; [auto|]. eapply Hw'; eauto.
        * intros o v Hin Hz. rewrite Hocc, (Hbs _ _ Hin). destruct (Nat.eq_dec (cget outcome_eqb ns o) 0) as [->|Hnz]; [lia|].
          destruct (Hns o) as (v' & Hv' & Hwv); [lia|]. rewrite (Hfun _ _ _ Hin Hv') in Hz. lra.
        * left. intros o v Hin. rewrite Hocc, (Hbs _ _ Hin). lia.
      + assert (Hlt : (N < Z.of_nat (length bs))%Z) by lia.
        unfold check_sample_elimination.
        assert (Emk : mk_dist (of_tuples lo) true = Ok lo).
        { assert (ND : NoDup (map fst lo)) by (rewrite (lo_keys d N _ _ _ L); apply HP). rewrite mk_dist_tuples by exact ND.
          rewrite (proj2 (is_mod_spec lo ND) (lo_proper d N HP HM Hfar _ _ _ Hc L)). unfold is_normalized. rewrite (proj2 (isclose_near _) NO). reflexivity. }
        rewrite Emk. cbn [rbind].
        assert (Llen : length lo = length d) by (rewrite <- (map_length fst), (lo_keys d N _ _ _ L), map_length; reflexivity).
        destruct (elimination_ok choice Hch d N HP HM HN Hfar (length bs - Z.to_nat N) ltac:(change (length bs = length bs - Z.to_nat N + Z.to_nat N); lia) (S (length lo)) [] 1 ns c lo) as (cs & Ecs & K & T & Sup & Le).
        { split; [exact NDS|]. split; [rewrite TS; lia|]. split; [exact Hns|]. split; [constructor|]. split; [intros z []|]. auto. }
        { cbn [length]. lia. }
        fold bs in Ecs, Le. rewrite Ecs. cbn [rbind].
        destruct (remove_samples cs bs K Le) as (ms & -> & Lm & Om). exists ms. split; [reflexivity|]. split; [lia|]. split; [|split].
        * intros o Ho. apply (occ_In _ outcome_eqb_spec) in Ho. specialize (Om o). apply Hin_bs, (occ_In _ outcome_eqb_spec). lia.
        * intros o v Hin Hz. specialize (Om o). rewrite (Hbs _ _ Hin) in Om. destruct (Nat.eq_dec (cget outcome_eqb cs o) 0) as [E0|Hnz]; [lia|].
          destruct (Sup o) as (v' & Hv' & Hwv); [lia|]. rewrite (Hfun _ _ _ Hin Hv') in Hz. lra.
        * right. intros o v Hin. specialize (Om o). rewrite (Hbs _ _ Hin) in Om. lia.
  Qed.
End Main.
