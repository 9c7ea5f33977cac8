(** Lemmas for DistanceProps.v *)
From Coq Require Import String Ascii QArith Qreals Reals Lra Permutation.
From Verif Require Import Base BaseFacts UtilsModel UtilsSpec UtilsProofs DistModel DistSpec DistProofs MeasSpec DistanceModel DistanceSpec.
Local Open Scope list_scope.
Local Open Scope R_scope.

(** ** finite sums *)
Section Sums.
  Context {A : Type}.
  Implicit Types (f g : A -> R) (l : list A).
  Lemma Rsum_cons f a l : Rsum f (a :: l) = f a + Rsum f l.
  Proof. reflexivity. Qed.
  Lemma Rsum_ext f g l : (forall a, In a l -> f a = g a) -> Rsum f l = Rsum g l.
  Proof. induction l as [|a l IH]; intros H; [reflexivity|]. rewrite !Rsum_cons, (H a (or_introl eq_refl)), IH; [reflexivity|]. intros b Hb. apply H. right. exact Hb. Qed.
  Lemma Rsum_plus f g l : Rsum (fun a => f a + g a) l = Rsum f l + Rsum g l.
  Proof. induction l as [|a l IH]; [unfold Rsum; cbn; lra|]. rewrite !Rsum_cons, IH. lra. Qed.
  Lemma Rsum_scale c f l : Rsum (fun a => c * f a) l = c * Rsum f l.
  Proof. induction l as [|a l IH]; [unfold Rsum; cbn; lra|]. rewrite !Rsum_cons, IH. lra. Qed.
  Lemma Rsum_scale_r c f l : Rsum (fun a => f a * c) l = Rsum f l * c.
  Proof. rewrite (Rsum_ext _ (fun a => c * f a)) by (intros; lra). rewrite Rsum_scale. lra. Qed.
  Lemma Rsum_le f g l : (forall a, In a l -> f a <= g a) -> Rsum f l <= Rsum g l.
  Proof. induction l as [|a l IH]; intros H; [unfold Rsum; cbn; lra|]. rewrite !Rsum_cons. pose proof (H a (or_introl eq_refl)). assert (Rsum f l <= Rsum g l) by (apply IH; intros; apply H; right; auto). lra. Qed.
  Lemma Rsum_0 l : Rsum (fun _ => 0) l = 0.
  Proof. induction l as [|a l IH]; [reflexivity|]. rewrite Rsum_cons, IH. lra. Qed.
  Lemma Rsum_const c l : Rsum (fun _ => c) l = INR (length l) * c.
  Proof. induction l as [|a l IH]; [unfold Rsum; cbn; lra|]. rewrite Rsum_cons, IH. cbn [length]. rewrite S_INR. lra. Qed.
  Lemma Rsum_nonneg f l : (forall a, In a l -> 0 <= f a) -> 0 <= Rsum f l.
  Proof. intros H. rewrite <- (Rsum_0 l). apply Rsum_le, H. Qed.
  Lemma Rsum_perm f l l' : Permutation l l' -> Rsum f l = Rsum f l'.
  Proof. induction 1; rewrite ?Rsum_cons; try lra; try reflexivity. Qed.
  Lemma Rsum_zero f l : (forall a, In a l -> 0 <= f a) -> Rsum f l = 0 -> forall a, In a l -> f a = 0.
  Proof.
    induction l as [|b l IH]; intros H E a Ha; [destruct Ha|]. rewrite Rsum_cons in E. pose proof (H b (or_introl eq_refl)).
    assert (0 <= Rsum f l) by (apply Rsum_nonneg; intros; apply H; right; auto). destruct Ha as [->|Ha]; [lra|]. apply IH; auto; [intros; apply H; right; auto|lra].
  Qed.
End Sums.
Lemma Rsum_swap {A B} (f : A -> B -> R) l m : Rsum (fun a => Rsum (f a) m) l = Rsum (fun b => Rsum (fun a => f a b) l) m.
Proof.
  induction l as [|a l IH]; [transitivity (Rsum (fun _ : B => 0) m); [symmetry; apply Rsum_0|reflexivity]|].
  rewrite Rsum_cons, IH, <- Rsum_plus. reflexivity.
Qed.
Lemma Rsum_prod {A B} (f : A -> R) (g : B -> R) l m : Rsum (fun a => Rsum (fun b => f a * g b) m) l = Rsum f l * Rsum g m.
Proof. rewrite (Rsum_ext _ (fun a => f a * Rsum g m)) by (intros; apply Rsum_scale). apply Rsum_scale_r. Qed.

(** ** the Gaussian kernel is positive definite *)
Lemma Un_cv_Rsum {A} (u : A -> nat -> R) (L : A -> R) l : (forall a, In a l -> Un_cv (u a) (L a)) -> Un_cv (fun n => Rsum (fun a => u a n) l) (Rsum L l).
Proof.
  induction l as [|a l IH]; intros H.
  - intros eps He. exists 0%nat. intros n _. unfold Rsum. cbn. rewrite R_dist_eq. exact He.
  - apply CV_plus; [apply H; left; auto|apply IH; intros; apply H; right; auto].
Qed.
Lemma Un_cv_scale c u L : Un_cv u L -> Un_cv (fun n => c * u n) (c * L).
Proof.
  intros H. apply (CV_mult (fun _ => c) u c L); [|exact H]. intros eps He. exists 0%nat. intros n _. rewrite R_dist_eq. exact He.
Qed.
Definition expo (z : R) (n : nat) : R := sum_f_R0 (fun k => / INR (fact k) * z ^ k) n.
Lemma expo_cv z : Un_cv (expo z) (exp z).
Proof. unfold exp. destruct (exist_exp z) as [l Hl]. exact Hl. Qed.

Section Gauss.
  Context {A : Type} (l : list A) (x : A -> R) (g : R) (Hg : 0 < g).
  Definition moment (b : A -> R) (k : nat) : R := Rsum (fun i => b i * x i ^ k) l.
  Definition S_ (b : A -> R) (n : nat) : R := sum_f_R0 (fun k => / INR (fact k) * (2 * g) ^ k * (moment b k * moment b k)) n.
  Lemma S_eq b n : S_ b n = Rsum (fun i => Rsum (fun j => b i * b j * expo (2 * g * x i * x j) n) l) l.
  Proof.
    assert (T : forall k, / INR (fact k) * (2 * g) ^ k * (moment b k * moment b k) = Rsum (fun i => Rsum (fun j => b i * b j * (/ INR (fact k) * (2 * g * x i * x j) ^ k)) l) l).
    { intros k. unfold moment. rewrite <- Rsum_prod, <- Rsum_scale. apply Rsum_ext. intros i _. rewrite <- Rsum_scale. apply Rsum_ext. intros j _. rewrite !Rpow_mult_distr. ring. }
    unfold S_, expo. induction n as [|n IH]; cbn [sum_f_R0]; [apply T|]. rewrite IH, T, <- Rsum_plus. apply Rsum_ext. intros i _. rewrite <- Rsum_plus. apply Rsum_ext. intros j _. ring.
  Qed.
  Lemma term_nonneg b k : 0 <= / INR (fact k) * (2 * g) ^ k * (moment b k * moment b k).
  Proof.
    apply Rmult_le_pos; [apply Rmult_le_pos|apply Rle_0_sqr]. apply Rlt_le, Rinv_0_lt_compat, INR_fact_lt_0. apply pow_le. lra.
  Qed.
  Definition quad (b : A -> R) : R := Rsum (fun i => Rsum (fun j => b i * b j * exp (2 * g * x i * x j)) l) l.
  Lemma S_cv b : Un_cv (S_ b) (quad b).
  Proof.
    assert (H : Un_cv (fun n => Rsum (fun i => Rsum (fun j => b i * b j * expo (2 * g * x i * x j) n) l) l) (quad b)).
    { apply (Un_cv_Rsum (fun i n => Rsum (fun j => b i * b j * expo (2 * g * x i * x j) n) l)). intros i _.
      apply (Un_cv_Rsum (fun j n => b i * b j * expo (2 * g * x i * x j) n)). intros j _. apply Un_cv_scale, expo_cv. }
    intros eps He. destruct (H eps He) as [N HN]. exists N. intros n Hn. rewrite S_eq. apply HN, Hn.
  Qed.
  Lemma quad_moment b k : / INR (fact k) * (2 * g) ^ k * (moment b k * moment b k) <= quad b.
  Proof.
    apply Rle_trans with (S_ b k).
    - unfold S_. destruct k as [|k]; cbn [sum_f_R0]; [lra|]. set (t := sum_f_R0 _ k). assert (0 <= t); [|lra]. unfold t. apply cond_pos_sum. intros; apply term_nonneg.
    - apply growing_ineq; [|apply S_cv]. intros n. unfold S_. cbn [sum_f_R0]. pose proof (term_nonneg b (S n)). lra.
  Qed.
  Lemma quad_nonneg b : 0 <= quad b.
  Proof. eapply Rle_trans; [|apply (quad_moment b 0)]. apply term_nonneg. Qed.
  Lemma quad_zero b : quad b = 0 -> forall k, moment b k = 0.
  Proof.
    intros E k. pose proof (quad_moment b k) as H. rewrite E in H. pose proof (term_nonneg b k) as H0.
    assert (P : 0 < / INR (fact k) * (2 * g) ^ k). { apply Rmult_lt_0_compat; [apply Rinv_0_lt_compat, INR_fact_lt_0|apply pow_lt; lra]. }
    assert (M : moment b k * moment b k = 0). { destruct (Rmult_integral (/ INR (fact k) * (2 * g) ^ k) (moment b k * moment b k)) as [H1|H1]; lra. }
    destruct (Rmult_integral _ _ M); auto.
  Qed.
  (** with the Gaussian itself *)
  Definition gauss_form (c : A -> R) : R := Rsum (fun i => c i * Rsum (fun j => exp (- g * ((x i - x j) * (x i - x j))) * c j) l) l.
  Lemma gauss_quad c : gauss_form c = quad (fun i => c i * exp (- g * (x i * x i))).
  Proof.
    unfold gauss_form, quad. apply Rsum_ext. intros i _. rewrite <- Rsum_scale. apply Rsum_ext. intros j _.
    replace (- g * ((x i - x j) * (x i - x j))) with (- g * (x i * x i) + (- g * (x j * x j) + 2 * g * x i * x j)) by ring. rewrite !exp_plus. ring.
  Qed.
End Gauss.
(** Vandermonde *)
Lemma moments_zero {A} (x : A -> R) l : NoDup l -> (forall a b, In a l -> In b l -> x a = x b -> a = b) -> forall b, (forall k, moment l x b k = 0) -> forall a, In a l -> b a = 0.
Proof.
  induction l as [|a l IH]; intros ND Hinj b H; [intros ? []|]. inversion ND as [|? ? Hna ND']; subst.
  assert (Hrest : forall i, In i l -> b i * (x i - x a) = 0).
  { apply (IH ND'); [intros; apply Hinj; auto; right; auto|]. intros k.
    transitivity (moment (a :: l) x b (S k) - x a * moment (a :: l) x b k); [|rewrite !H; ring].
    unfold moment. rewrite !Rsum_cons.
    replace (Rsum (fun i => b i * x i ^ S k) l) with (Rsum (fun i => b i * (x i - x a) * x i ^ k) l + x a * Rsum (fun i => b i * x i ^ k) l); [cbn [pow]; ring|].
    rewrite <- Rsum_scale, <- Rsum_plus. apply Rsum_ext. intros i _. cbn [pow]. ring. }
  assert (Hl : forall i, In i l -> b i = 0).
  { intros i Hi. destruct (Rmult_integral _ _ (Hrest i Hi)) as [E|E]; [exact E|]. exfalso. apply Hna. rewrite (Hinj a i); [exact Hi|left; auto|right; auto|lra]. }
  intros i [<-|Hi]; [|auto]. specialize (H 0%nat). unfold moment in H. rewrite Rsum_cons in H. cbn [pow] in H.
  rewrite (Rsum_ext _ (fun _ => 0)) in H by (intros j Hj; rewrite (Hl j Hj); ring). rewrite Rsum_0 in H. lra.
Qed.
Lemma gauss_nonneg {A} (l : list A) x g c : 0 < g -> 0 <= gauss_form l x g c.
Proof. intros Hg. rewrite gauss_quad. apply quad_nonneg, Hg. Qed.
Lemma gauss_zero {A} (l : list A) x g c : 0 < g -> NoDup l -> (forall a b, In a l -> In b l -> x a = x b -> a = b) -> gauss_form l x g c = 0 -> forall a, In a l -> c a = 0.
Proof.
  intros Hg ND Hinj E a Ha. rewrite gauss_quad in E. pose proof (moments_zero x l ND Hinj _ (quad_zero l x g Hg _ E) a Ha) as H. cbn in H.
  destruct (Rmult_integral _ _ H) as [H1|H1]; [exact H1|]. pose proof (exp_pos (- g * (x a * x a))). lra.
Qed.

(** ** probabilities *)
Lemma get_prob d k : get_or_0 d k = prob d k.
Proof.
  unfold get_or_0, prob. induction d as [|[k' v] d IH]; [reflexivity|]. cbn [dget find fst].
  destruct (list_eq_dec Z.eq_dec k' k) as [->|Hne].
  - rewrite (eqb_refl_of _ outcome_eqb_spec). reflexivity.
  - destruct (outcome_eqb k k') eqn:E; [apply outcome_eqb_spec in E; congruence|]. exact IH.
Qed.
Lemma prob_absent d k : ~ In k (map fst d) -> prob d k = 0.
Proof.
  unfold prob. induction d as [|[k' v] d IH]; intros H; [reflexivity|]. cbn [find fst]. destruct (list_eq_dec Z.eq_dec k' k) as [->|Hne]; [exfalso; apply H; left; auto|].
  apply IH. intros G. apply H. right. exact G.
Qed.
Lemma all_keys_lists so a b : set_iteration so -> lists_outcomes (all_keys so a b) a b.
Proof.
  intros H. unfold all_keys. pose proof (H _ (uniq_NoDup _ outcome_eqb_spec (map fst a ++ map fst b))) as P. split.
  - eapply Permutation_NoDup; [apply Permutation_sym; exact P|]. apply (uniq_NoDup _ outcome_eqb_spec).
  - intros k. split; intros Hk.
    + apply (Permutation_in _ P) in Hk. apply (proj1 (uniq_In _ outcome_eqb_spec _ _)) in Hk. apply in_app_or in Hk. exact Hk.
    + apply (Permutation_in _ (Permutation_sym P)). apply (proj2 (uniq_In _ outcome_eqb_spec _ _)). apply in_or_app. exact Hk.
Qed.
Lemma lists_perm ks ks' a b : lists_outcomes ks a b -> lists_outcomes ks' a b -> Permutation ks ks'.
Proof. intros [N1 H1] [N2 H2]. apply NoDup_Permutation; auto. intros k. rewrite H1, H2. reflexivity. Qed.
Lemma lists_sym ks a b : lists_outcomes ks a b -> lists_outcomes ks b a.
Proof. intros [N H]. split; [exact N|]. intros k. rewrite H. tauto. Qed.
Lemma Q2R_total l : Q2R (total_mass l) = fold_right Rplus 0 (map Q2R l).
Proof. induction l as [|q l IH]; cbn [total_mass fold_right map]; [apply RMicromega.Q2R_0|]. rewrite Q2R_plus. unfold total_mass in IH. rewrite IH. reflexivity. Qed.
Lemma prob_total d : forall ks, NoDup (map fst d) -> NoDup ks -> (forall k, In k (map fst d) -> In k ks) -> Rsum (prob d) ks = Q2R (total_mass (map snd d)).
Proof.
  induction d as [|[k v] d IH]; intros ks ND NK Hin.
  - rewrite (Rsum_ext _ (fun _ => 0)) by reflexivity. rewrite Rsum_0. cbn. symmetry. apply RMicromega.Q2R_0.
  - cbn [map fst snd] in *. inversion ND as [|? ? Hk ND']; subst. change (total_mass (v :: map snd d)) with (v + total_mass (map snd d))%Q. rewrite Q2R_plus, <- (IH ks ND' NK (fun x Hx => Hin x (or_intror Hx))).
    assert (Hone : forall ks, NoDup ks -> In k ks -> Rsum (prob ((k, v) :: d)) ks = Q2R v + Rsum (prob d) ks).
    { clear -Hk. induction ks as [|a ks IH]; intros NK Hin; [destruct Hin|]. inversion NK as [|? ? Ha NK']; subst. rewrite !Rsum_cons. destruct (list_eq_dec Z.eq_dec k a) as [->|Hne].
      - unfold prob at 1. cbn [find fst]. destruct (list_eq_dec Z.eq_dec a a) as [_|C]; [|congruence]. cbn [snd]. rewrite (prob_absent d a Hk).
        rewrite (Rsum_ext (prob ((a, v) :: d)) (prob d)); [lra|]. intros b Hb. unfold prob. cbn [find fst]. destruct (list_eq_dec Z.eq_dec a b) as [->|_]; [contradiction|reflexivity].
      - destruct Hin as [Hin|Hin]; [congruence|]. rewrite IH by auto. unfold prob at 1. cbn [find fst]. destruct (list_eq_dec Z.eq_dec k a) as [C|_]; [congruence|]. fold (prob d a). lra. }
    apply Hone; auto. apply Hin. left; auto.
Qed.

(** ** the code *)
Definition nll_sum (eps : R) (t m : dist) (ks : list outcome) : R := Rsum (fun k => prob t k * ln (Rmax eps (prob m k))) ks.
Lemma clipped_nll_ok so eps t m : 0 < eps -> clipped_nll so eps t m = Ok (- nll_sum eps t m (all_keys so t m)).
Proof.
  intros He. unfold clipped_nll.
  assert (G : forall ks acc, foldM (fun value k => let! l := math_log (Rmax eps (get_or_0 m k)) in Ok (value + get_or_0 t k * l)) ks acc = Ok (acc + nll_sum eps t m ks)).
  { induction ks as [|k ks IH]; intros acc; cbn [foldM]; [unfold nll_sum, Rsum; cbn; rewrite Rplus_0_r; reflexivity|].
    unfold math_log at 1. destruct (Rle_dec _ 0) as [H|_]; [exfalso; pose proof (Rmax_l eps (get_or_0 m k)); lra|]. cbn [rbind]. rewrite IH. unfold nll_sum. rewrite Rsum_cons, !get_prob. f_equal. lra. }
  rewrite G. cbn [rbind]. f_equal. lra.
Qed.

Lemma int_base2_bits k : binary k -> forall acc, int_base2_from acc (list_ascii_of_string (String.concat EmptyString (map str_of_int k))) = Ok (fold_left (fun a b => 2 * a + b)%Z k acc).
Proof.
  induction k as [|b k IH]; intros Hb acc; [reflexivity|]. cbn [map]. rewrite concat_cons.
  assert (Hk : binary k) by (intros x Hx; apply Hb; right; auto).
  destruct (Hb b (or_introl eq_refl)) as [-> | ->].
  - change (str_of_int 0) with "0"%string. cbn [String.append list_ascii_of_string int_base2_from Ascii.eqb]. cbn. rewrite IH by exact Hk. f_equal. f_equal. lia.
  - change (str_of_int 1) with "1"%string. cbn. rewrite IH by exact Hk. reflexivity.
Qed.
Lemma key_number_bits k : k <> [] -> binary k -> key_number k = Ok (number_of k).
Proof.
  intros Hn Hb. unfold key_number, int_base2, number_of. rewrite <- (int_base2_bits k Hb 0). destruct k as [|b k]; [congruence|]. cbn [map]. rewrite concat_cons.
  destruct (Hb b (or_introl eq_refl)) as [-> | ->]; reflexivity.
Qed.
Lemma number_of_acc k : forall acc, fold_left (fun a b => 2 * a + b)%Z k acc = (acc * 2 ^ Z.of_nat (length k) + number_of k)%Z.
Proof.
  unfold number_of. induction k as [|b k IH]; intros acc; cbn [fold_left length]; [rewrite Z.mul_1_r; lia|]. rewrite (IH (2 * acc + b)%Z), (IH (2 * 0 + b)%Z).
  rewrite Nat2Z.inj_succ, Z.pow_succ_r by lia. ring.
Qed.
Lemma number_of_range k : binary k -> (0 <= number_of k < 2 ^ Z.of_nat (length k))%Z.
Proof.
  induction k as [|b k IH]; intros Hb; [cbn; lia|]. change (number_of (b :: k)) with (fold_left (fun a b => 2 * a + b)%Z k (2 * 0 + b)%Z). rewrite number_of_acc.
  cbn [length]. rewrite Nat2Z.inj_succ, Z.pow_succ_r by lia. assert (0 <= number_of k < 2 ^ Z.of_nat (length k))%Z by (apply IH; intros x Hx; apply Hb; right; auto).
  destruct (Hb b (or_introl eq_refl)) as [-> | ->]; lia.
Qed.
Lemma number_of_inj k k' : length k = length k' -> binary k -> binary k' -> number_of k = number_of k' -> k = k'.
Proof.
  revert k'. induction k as [|b k IH]; intros [|b' k'] HL Hb Hb' E; try discriminate; [reflexivity|].
  change (number_of (b :: k)) with (fold_left (fun a b => 2 * a + b)%Z k (2 * 0 + b)%Z) in E. change (number_of (b' :: k')) with (fold_left (fun a b => 2 * a + b)%Z k' (2 * 0 + b')%Z) in E.
  rewrite !number_of_acc in E. injection HL as HL. assert (Bk : binary k) by (intros x Hx; apply Hb; right; auto). assert (Bk' : binary k') by (intros x Hx; apply Hb'; right; auto).
  pose proof (number_of_range k Bk). pose proof (number_of_range k' Bk'). rewrite <- HL in *.
  assert (b = b' /\ number_of k = number_of k') as [-> E'].
  { destruct (Hb b (or_introl eq_refl)) as [-> | ->], (Hb' b' (or_introl eq_refl)) as [-> | ->]; split; lia. }
  f_equal. auto.
Qed.

Definition kform (K : Z -> Z -> R) (t m : dist) (ks : list outcome) : R :=
  Rsum (fun x => (prob t x - prob m x) * Rsum (fun y => K (number_of x) (number_of y) * (prob t y - prob m y)) ks) ks.
Lemma combine_map {A B C} (f : A -> B) (g : A -> C) l : combine (map f l) (map g l) = map (fun a => (f a, g a)) l.
Proof. induction l as [|a l IH]; [reflexivity|]. cbn. rewrite IH. reflexivity. Qed.
Lemma compute_mmd_ok so sigma K t m : kernel_of sigma = Ok K -> (forall k, In k (all_keys so t m) -> k <> [] /\ binary k) ->
  compute_mmd so sigma t m = Ok (kform K t m (all_keys so t m)).
Proof.
  intros HK Hb. unfold compute_mmd. set (ks := all_keys so t m) in *.
  rewrite (mapM_ok_ext _ number_of ks) by (intros k Hk; destruct (Hb k Hk); apply key_number_bits; auto). cbn [rbind]. rewrite HK. cbn [rbind]. f_equal.
  rewrite combine_map, map_map. cbn [fst snd]. rewrite combine_map, map_map, combine_map, map_map.
  unfold kform, Rsum. change sum_Rl with (fold_right Rplus 0). f_equal. apply map_ext. intros x. cbn [fst snd]. rewrite map_map. cbn [fst snd]. rewrite !get_prob. do 2 f_equal.
  apply map_ext. intros y. rewrite !get_prob. reflexivity.
Qed.
Lemma kform_perm K t m ks ks' : Permutation ks ks' -> kform K t m ks = kform K t m ks'.
Proof.
  intros P. unfold kform. rewrite (Rsum_perm _ ks ks' P). apply Rsum_ext. intros x _. f_equal. apply Rsum_perm, P.
Qed.
Lemma kform_swap K t m ks : kform K t m ks = kform K m t ks.
Proof.
  unfold kform. apply Rsum_ext. intros x _. rewrite (Rsum_ext (fun y => K (number_of x) (number_of y) * (prob t y - prob m y)) (fun y => -1 * (K (number_of x) (number_of y) * (prob m y - prob t y)))) by (intros; ring).
  rewrite Rsum_scale. ring.
Qed.
Lemma rbf_gauss g x y : rbf g x y = exp (- g * ((IZR x - IZR y) * (IZR x - IZR y))).
Proof.
  unfold rbf. f_equal. f_equal. rewrite <- minus_IZR, <- mult_IZR. f_equal. rewrite Z.pow_2_r, <- Z.abs_mul. apply Z.abs_eq. apply Z.square_nonneg.
Qed.
Lemma kform_rbf g t m ks : kform (rbf g) t m ks = gauss_form ks (fun k => IZR (number_of k)) g (fun k => prob t k - prob m k).
Proof. unfold kform, gauss_form. apply Rsum_ext. intros x _. f_equal. apply Rsum_ext. intros y _. rewrite rbf_gauss. reflexivity. Qed.
Lemma kform_multi gs t m ks : kform (multi_rbf gs) t m ks = Rsum (fun g => kform (rbf g) t m ks) gs / INR (length gs).
Proof.
  unfold kform, multi_rbf. change sum_Rl with (fold_right Rplus 0).
  rewrite (Rsum_swap (fun g x => (prob t x - prob m x) * Rsum (fun y => rbf g (number_of x) (number_of y) * (prob t y - prob m y)) ks)).
  unfold Rdiv. rewrite <- Rsum_scale_r. apply Rsum_ext. intros x _. rewrite Rsum_scale, Rmult_assoc. f_equal.
  rewrite (Rsum_swap (fun g y => rbf g (number_of x) (number_of y) * (prob t y - prob m y))), <- Rsum_scale_r. apply Rsum_ext. intros y _. rewrite Rsum_scale_r. unfold Rsum. ring.
Qed.
Definition positive_sigma (s : sigma_param) : Prop := match s with Single s => 0 < s | Multi l => l <> [] /\ forall x, In x l -> 0 < x end.
Lemma gamma_ok s : 0 < s -> rbf_gamma s = Ok (1 / (2 * s)).
Proof. intros H. unfold rbf_gamma. destruct (Req_EM_T s 0); [lra|reflexivity]. Qed.
Lemma gamma_pos s : 0 < s -> 0 < 1 / (2 * s).
Proof. intros H. apply Rdiv_lt_0_compat; lra. Qed.
Lemma kernel_forms sigma : positive_sigma sigma -> exists K, kernel_of sigma = Ok K /\ forall t m ks,
  0 <= kform K t m ks /\ (NoDup ks -> (forall a b, In a ks -> In b ks -> number_of a = number_of b -> a = b) -> kform K t m ks = 0 -> forall k, In k ks -> prob t k = prob m k).
Proof.
  assert (One : forall g, 0 < g -> forall t m ks, 0 <= kform (rbf g) t m ks /\
     (NoDup ks -> (forall a b, In a ks -> In b ks -> number_of a = number_of b -> a = b) -> kform (rbf g) t m ks = 0 -> forall k, In k ks -> prob t k = prob m k)).
  { intros g Hg t m ks. rewrite kform_rbf. split; [apply gauss_nonneg, Hg|]. intros ND Hinj E k Hk.
    enough (prob t k - prob m k = 0) by lra. apply (gauss_zero ks (fun k => IZR (number_of k)) g (fun k => prob t k - prob m k) Hg ND); auto. intros a b Ha Hb Eab. apply eq_IZR in Eab. auto. }
  destruct sigma as [s|l]; intros Hs.
  - exists (rbf (1 / (2 * s))). split; [cbn; rewrite gamma_ok by exact Hs; reflexivity|]. apply One, gamma_pos, Hs.
  - destruct Hs as [Hne Hp]. exists (multi_rbf (map (fun s => 1 / (2 * s)) l)). split.
    + unfold kernel_of. rewrite (mapM_ok_ext _ (fun s => 1 / (2 * s)) l) by (intros; apply gamma_ok; auto). destruct l; [congruence|reflexivity].
    + intros t m ks. rewrite kform_multi, map_length. assert (HN : 0 < INR (length l)). { apply lt_0_INR. destruct l; [congruence|cbn; lia]. }
      assert (Hall : forall g, In g (map (fun s => 1 / (2 * s)) l) -> 0 < g). { intros g Hg. apply in_map_iff in Hg. destruct Hg as (s & <- & Hs). apply gamma_pos; auto. }
      assert (Hnn : forall g, In g (map (fun s => 1 / (2 * s)) l) -> 0 <= kform (rbf g) t m ks) by (intros; apply One; auto).
      split.
      * apply Rmult_le_pos; [apply Rsum_nonneg, Hnn|]. apply Rlt_le, Rinv_0_lt_compat, HN.
      * intros ND Hinj E. destruct l as [|s l]; [congruence|].
        assert (E0 : Rsum (fun g => kform (rbf g) t m ks) (map (fun s => 1 / (2 * s)) (s :: l)) = 0).
        { apply Rmult_integral in E. destruct E as [E|E]; [exact E|]. exfalso. pose proof (Rinv_0_lt_compat _ HN). lra. }
        apply (One (1 / (2 * s))); auto; [apply gamma_pos, Hp; left; auto|]. apply (Rsum_zero _ _ Hnn E0). left. reflexivity.
Qed.
Lemma ln_le_sub y : 0 < y -> ln y <= y - 1.
Proof.
  intros H. destruct (Req_EM_T (ln y) 0) as [E|E].
  - rewrite E. assert (y = 1); [|lra]. rewrite <- (exp_ln y H), E. apply exp_0.
  - pose proof (exp_ineq1 (ln y) E) as G. rewrite exp_ln in G by exact H. lra.
Qed.
Lemma gibbs_term eps t m : 0 < eps -> (t = 0 \/ eps <= t) -> 0 <= m -> t * ln (Rmax eps m) - t * ln (Rmax eps t) <= m + eps - t.
Proof.
  intros He Ht Hm. destruct Ht as [-> | Ht]; [rewrite !Rmult_0_l; lra|].
  assert (0 < Rmax eps m) by (pose proof (Rmax_l eps m); lra). rewrite (Rmax_right eps t) by exact Ht.
  assert (G : ln (Rmax eps m) - ln t <= Rmax eps m / t - 1).
  { replace (ln (Rmax eps m) - ln t) with (ln (Rmax eps m / t)).
    - apply ln_le_sub. apply Rdiv_lt_0_compat; lra.
    - unfold Rdiv. rewrite ln_mult, ln_Rinv by (try apply Rinv_0_lt_compat; lra). ring. }
  assert (Rmax eps m <= m + eps) by (unfold Rmax; destruct (Rle_dec eps m); lra).
  apply (Rmult_le_compat_l t) in G; [|lra]. replace (t * (Rmax eps m / t - 1)) with (Rmax eps m - t) in G by (field; lra). lra.
Qed.
