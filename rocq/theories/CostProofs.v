(** Lemmas about cost functions and gradients. *)
From Coq Require Import List ZArith String Bool Reals Lra Lia Permutation.
From Verif Require Import Base BaseFacts UtilsModel MeasModel EvModel EstModel CostModel CostSpec MeasProps.
Import ListNotations.
Open Scope list_scope.

Lemma chainM_applied {S A} (fs : list (A -> M S A)) a s b s' : applied fs a s b s' -> chainM fs a s = (s', Ok b).
Proof. induction 1 as [|f fs a s b s1 c s2 E H IH]; [reflexivity|]. cbn [chainM]. unfold bindM. rewrite E. exact IH. Qed.
Lemma chainM_fails {S A} (fs1 fs2 : list (A -> M S A)) f a s b s1 s2 e :
  applied fs1 a s b s1 -> f b s1 = (s2, Err e) -> chainM (fs1 ++ f :: fs2) a s = (s2, Err e).
Proof.
  induction 1 as [|g fs a s b s1 c s2' E H IH]; intros F; cbn [chainM app]; unfold bindM.
  - rewrite F. reflexivity.
  - rewrite E. apply IH, F.
Qed.
(** every run is one of the two *)
Lemma chainM_cases {S A} (fs : list (A -> M S A)) a s :
  (exists b s', applied fs a s b s' /\ chainM fs a s = (s', Ok b)) \/
  (exists fs1 f fs2 b s1 s2 e, fs = fs1 ++ f :: fs2 /\ applied fs1 a s b s1 /\ f b s1 = (s2, Err e) /\ chainM fs a s = (s2, Err e)).
Proof.
  revert a s. induction fs as [|f fs IH]; intros a s; [left; exists a, s; split; [constructor|reflexivity]|].
  destruct (f a s) as [s1 [b|e]] eqn:E.
  - destruct (IH b s1) as [(c & s' & H1 & H2)|(fs1 & g & fs2 & c & s2 & s3 & e & -> & H1 & H2 & H3)].
    + left. exists c, s'. split; [econstructor; eauto|]. cbn [chainM]. unfold bindM. rewrite E. exact H2.
    + right. exists (f :: fs1), g, fs2, c, s2, s3, e. split; [reflexivity|]. split; [econstructor; eauto|]. split; [exact H2|].
      cbn [chainM]. unfold bindM. rewrite E. exact H3.
  - right. exists [], f, fs, a, s, s1, e. split; [reflexivity|]. split; [constructor|]. split; [exact E|]. cbn [chainM]. unfold bindM. rewrite E. reflexivity.
Qed.
Lemma consume_applied {W G} (l : list (preprocessor W G)) a s b s' : applied l a s b s' -> consume l a s = ([], (s', Ok b)).
Proof. induction 1 as [|f fs a s b s1 c s2 E H IH]; [reflexivity|]. cbn [consume]. rewrite E. exact IH. Qed.
Lemma consume_fails {W G} (l1 l2 : list (preprocessor W G)) f a s b s1 s2 e :
  applied l1 a s b s1 -> f b s1 = (s2, Err e) -> consume (l1 ++ f :: l2) a s = (l2, (s2, Err e)).
Proof.
  induction 1 as [|g fs a s b s1 c s2' E H IH]; intros F; cbn [consume app].
  - rewrite F. reflexivity.
  - rewrite E. apply IH, F.
Qed.

(** ** Sums *)
Lemma rsum_app a b : rsum (a ++ b) = (rsum a + rsum b)%R.
Proof. induction a as [|x a IH]; cbn [rsum app]; [lra|]. rewrite IH. lra. Qed.
Lemma rsum_concat l : rsum (concat l) = rsum (map rsum l).
Proof. induction l as [|a l IH]; [reflexivity|]. cbn [concat map rsum]. rewrite rsum_app, IH. reflexivity. Qed.
Lemma rsum_flat_map {A} (f : A -> list R) l : rsum (flat_map f l) = rsum (map (fun a => rsum (f a)) l).
Proof. induction l as [|a l IH]; [reflexivity|]. cbn [flat_map map rsum]. rewrite rsum_app, IH. reflexivity. Qed.
Lemma total_variance_frames fs : total_variance fs = rsum (map frame_sum fs).
Proof.
  unfold total_variance, frame_sum. induction fs as [|f fs IH]; [reflexivity|]. cbn [concat map rsum]. rewrite concat_app, rsum_app, IH, rsum_concat. reflexivity.
Qed.
Lemma fold_sum fs v : fold_left (fun v frame => v + frame_sum frame)%R fs v = (v + rsum (map frame_sum fs))%R.
Proof. revert v. induction fs as [|f fs IH]; intros v; cbn [fold_left map rsum]; [lra|]. rewrite IH. lra. Qed.

Lemma combine_and_sum_spec e : Forall (proper (fst e)) (snd e) -> estimates e (combine_and_sum e).
Proof.
  destruct e as [h l]. cbn [fst snd]. intros HF. unfold combine_and_sum. cbn [fst snd].
  destruct (concatenate_expectation_values h l) as [h' c] eqn:E. cbn [expectation_values_to_real].
  assert (Hv : forall x, In x l -> valid_ref h (er_correlations x) /\ valid_ref h (er_covariances x)).
  { intros x Hx. rewrite Forall_forall in HF. destruct (HF x Hx) as [P1 P2]. split.
    - destruct (er_correlations x) as [r|] eqn:Er; cbn; [apply P1; reflexivity|exact I].
    - destruct (er_covariances x) as [r|] eqn:Er; cbn; [apply P2; reflexivity|exact I]. }
  destruct (C31_concatenate h l h' c Hv E) as (V & _ & CV & _ & NE).
  unfold estimates, sum_expectation_values. cbn [est_value est_precision fst snd]. split.
  - unfold total_value. rewrite V, map_map. f_equal. apply map_ext. intros [x|re im]; reflexivity.
  - assert (CV' : match er_covariances c with None => [] | Some r => nth r h' [] end = flat_map (frames h) l).
    { unfold content in CV. transitivity (flat_map (fun x => match er_covariances x with Some r => nth r h [] | None => [] end) l).
      - rewrite <- CV. destruct (er_covariances c); reflexivity.
      - reflexivity. }
    destruct (er_covariances c) as [r|] eqn:Er.
    + unfold hget. rewrite <- CV'. destruct (nth r h' []) as [|f fs] eqn:En; [reflexivity|].
      rewrite fold_sum, Rplus_0_l, total_variance_frames. reflexivity.
    + rewrite <- CV'. reflexivity.
Qed.

(** ** Gradients *)
Lemma nth_map_seq (t : nat -> R) n k d : k < n -> nth k (map t (seq 0 n)) d = t k.
Proof. intros H. rewrite nth_indep with (d' := t 0) by (rewrite map_length, seq_length; lia). rewrite map_nth, seq_nth by lia. reflexivity. Qed.
Lemma shifted_length i d p : length (shifted i d p) = length p.
Proof. unfold shifted. rewrite map_length, seq_length. reflexivity. Qed.
Lemma shifted_nth i d p j : j < length p -> nth j (shifted i d p) 0%R = if Nat.eqb j i then (nth j p 0 + d)%R else nth j p 0%R.
Proof. intros H. unfold shifted. rewrite nth_map_seq by lia. reflexivity. Qed.
Lemma bump_length i d p : length (bump i d p) = length p.
Proof. revert i. induction p as [|x p IH]; intros [|i]; cbn [bump length]; auto. Qed.
Lemma bump_nth i d p j : j < length p -> nth j (bump i d p) 0%R = if Nat.eqb j i then (nth j p 0 + d)%R else nth j p 0%R.
Proof.
  revert i j. induction p as [|x p IH]; intros [|i] [|j] H; cbn [bump nth length Nat.eqb] in *; try lia; try reflexivity.
  apply IH. lia.
Qed.
Lemma bump_shifted i d p : bump i d p = shifted i d p.
Proof.
  apply nth_ext with (d := 0%R) (d' := 0%R); [rewrite bump_length, shifted_length; reflexivity|].
  intros j H. rewrite bump_length in H. rewrite bump_nth, shifted_nth by exact H. reflexivity.
Qed.
(** differences of consecutive pairs *)
Fixpoint quotients (step : R) (vs : list R) : list R :=
  match vs with a :: b :: vs' => ((a - b) / (2 * step))%R :: quotients step vs' | _ => [] end.
Lemma gradient_loop_spec {S} (f : list R -> M S R) step p idx s vs s' acc : step <> 0%R ->
  evaluations f (flat_map (fun i => [shifted i step p; shifted i (- step) p]) idx) s vs s' ->
  gradient_loop f step p idx acc s = (s', Ok (acc ++ quotients step vs)).
Proof.
  intros Hs. revert s vs acc. induction idx as [|i idx IH]; intros s vs acc H; cbn [flat_map] in H.
  - inversion H; subst. cbn [gradient_loop quotients]. rewrite app_nil_r. reflexivity.
  - cbn [app] in H. inversion H as [|? ? ? v1 s1 vs1 ? E1 H1]; subst. inversion H1 as [|? ? ? v2 s2 vs2 ? E2 H2]; subst.
    cbn [gradient_loop]. unfold bindM. rewrite bump_shifted, E1, bump_shifted, E2. unfold liftM, difference_quotient.
    destruct (Req_EM_T (2 * step) 0) as [Z|_]; [exfalso; lra|]. rewrite (IH _ _ _ H2), <- app_assoc. reflexivity.
Qed.
Lemma quotients_nth step vs i : 2 * i + 1 < length vs -> nth i (quotients step vs) 0%R = ((nth (2 * i) vs 0 - nth (2 * i + 1) vs 0) / (2 * step))%R.
Proof.
  revert vs. induction i as [|i IH]; intros [|a [|b vs]] H; cbn [length] in H; try lia; [reflexivity|].
  cbn [quotients nth]. rewrite IH by (cbn [length] in *; lia). replace (2 * S i) with (S (S (2 * i))) by lia. reflexivity.
Qed.
Lemma quotients_length step vs n : length vs = 2 * n -> length (quotients step vs) = n.
Proof. revert vs. induction n as [|n IH]; intros [|a [|b vs]] H; cbn [length] in H; try lia; [reflexivity|]. cbn [quotients length]. rewrite IH by lia. reflexivity. Qed.
Lemma evaluations_length {S} (f : list R -> M S R) ps s vs s' : evaluations f ps s vs s' -> length vs = length ps.
Proof. induction 1; cbn [length]; auto. Qed.
Lemma gradient_points_length step p : length (gradient_points step p) = 2 * length p.
Proof.
  unfold gradient_points.
  assert (G : forall n k, length (flat_map (fun i => [shifted i step p; shifted i (- step) p]) (seq k n)) = 2 * n).
  { induction n as [|n IH]; intros k; [reflexivity|]. cbn [seq flat_map length app]. rewrite IH. lia. }
  apply G.
Qed.
Lemma evaluations_pure {S} (f : list R -> R) ps (s : S) : evaluations (fun p => retM (f p)) ps s (map f ps) s.
Proof. induction ps as [|p ps IH]; cbn [map]; econstructor; [reflexivity|exact IH]. Qed.
Lemma evaluations_app {S} (f : list R -> M S R) ps qs s vs s1 ws s2 :
  evaluations f ps s vs s1 -> evaluations f qs s1 ws s2 -> evaluations f (ps ++ qs) s (vs ++ ws) s2.
Proof. induction 1 as [|p ps s v s1' vs s2' E H IH]; intros H2; [exact H2|]. cbn [app]. econstructor; eauto. Qed.
Lemma gradient_points_nth step p i : i < length p ->
  nth (2 * i) (gradient_points step p) [] = shifted i step p /\ nth (2 * i + 1) (gradient_points step p) [] = shifted i (- step) p.
Proof.
  unfold gradient_points. intros H. generalize (length p) H. clear H. intros n H.
  assert (G : forall n k i, i < n ->
     nth (2 * i) (flat_map (fun i => [shifted i step p; shifted i (- step) p]) (seq k n)) [] = shifted (k + i) step p /\
     nth (2 * i + 1) (flat_map (fun i => [shifted i step p; shifted i (- step) p]) (seq k n)) [] = shifted (k + i) (- step) p).
  { clear. induction n as [|n IH]; intros k i H; [lia|]. destruct i as [|i].
    - rewrite Nat.add_0_r. split; reflexivity.
    - cbn [seq flat_map app]. replace (2 * S i) with (S (S (2 * i))) by lia. cbn [Nat.add nth]. replace (k + S i) with (S k + i) by lia. apply IH. lia. }
  exact (G n 0 i H).
Qed.

(** ** Quadratic functions *)
Lemma sum_over_ext n t u : (forall j, j < n -> t j = u j) -> sum_over n t = sum_over n u.
Proof. induction n as [|n IH]; intros H; [reflexivity|]. cbn [sum_over]. rewrite IH by (intros; apply H; lia). rewrite H by lia. reflexivity. Qed.
Lemma sum_over_plus n t u : sum_over n (fun j => t j + u j)%R = (sum_over n t + sum_over n u)%R.
Proof. induction n as [|n IH]; cbn [sum_over]; [lra|]. rewrite IH. lra. Qed.
Lemma sum_over_scal n c t : sum_over n (fun j => c * t j)%R = (c * sum_over n t)%R.
Proof. induction n as [|n IH]; cbn [sum_over]; [lra|]. rewrite IH. lra. Qed.
Lemma sum_over_delta n i (t : nat -> R) : i < n -> sum_over n (fun j => if Nat.eqb j i then t j else 0%R) = t i.
Proof.
  induction n as [|n IH]; intros H; [lia|]. cbn [sum_over]. destruct (Nat.eqb_spec n i) as [->|N].
  - rewrite sum_over_ext with (u := fun _ => (0 * 0)%R).
    + rewrite sum_over_scal. lra.
    + intros j Hj. destruct (Nat.eqb_spec j i); [lia|]. lra.
  - rewrite IH by lia. lra.
Qed.
Lemma quadratic_shift n c b A p i d : length p = n -> i < n ->
  quadratic n c b A (shifted i d p) =
  (quadratic n c b A p + d * (b i + sum_over n (fun j => (A i j + A j i) * nth j p 0)) + d * d * A i i)%R.
Proof.
  intros Hl Hi. unfold quadratic. set (x := fun j => nth j p 0%R).
  set (e := fun j => if Nat.eqb j i then d else 0%R).
  assert (X : forall j, j < n -> nth j (shifted i d p) 0%R = (x j + e j)%R).
  { intros j Hj. rewrite shifted_nth by lia. unfold x, e. destruct (Nat.eqb j i); lra. }
  rewrite (sum_over_ext n (fun j => b j * nth j (shifted i d p) 0)%R (fun j => b j * x j + (if Nat.eqb j i then d * b j else 0))%R)
    by (intros j Hj; rewrite X by exact Hj; unfold e; destruct (Nat.eqb j i); lra).
  rewrite sum_over_plus, (sum_over_delta n i (fun j => d * b j)%R Hi).
  rewrite (sum_over_ext n (fun j => sum_over n (fun k => A j k * nth j (shifted i d p) 0 * nth k (shifted i d p) 0))%R
             (fun j => sum_over n (fun k => A j k * x j * x k) + d * (A j i * x j)
                       + (if Nat.eqb j i then d * sum_over n (fun k => A j k * x k) + d * d * A j i else 0))%R).
  - rewrite !sum_over_plus, sum_over_scal.
    rewrite (sum_over_delta n i (fun j => d * sum_over n (fun k => A j k * x k) + d * d * A j i)%R Hi).
    rewrite (sum_over_ext n (fun j => (A i j + A j i) * nth j p 0)%R (fun j => A i j * x j + A j i * x j)%R) by (intros; unfold x; lra).
    rewrite sum_over_plus. unfold x. lra.
  - intros j Hj. rewrite (X j Hj).
    rewrite (sum_over_ext n (fun k => A j k * (x j + e j) * nth k (shifted i d p) 0)%R
               (fun k => (A j k * x j * x k + e j * (A j k * x k)) + (if Nat.eqb k i then d * A j k * (x j + e j) else 0))%R)
      by (intros k Hk; rewrite X by exact Hk; unfold e at 2; destruct (Nat.eqb k i); lra).
    rewrite !sum_over_plus, sum_over_scal, (sum_over_delta n i (fun k => d * A j k * (x j + e j))%R Hi).
    unfold e. destruct (Nat.eqb j i); lra.
Qed.

(** ** Error of the symmetric difference quotient *)
Lemma compare_from_zero (u v u' v' : R -> R) h : (0 < h)%R -> u 0%R = 0%R -> v 0%R = 0%R ->
  (forall t, (0 <= t <= h)%R -> derivable_pt_lim u t (u' t)) -> (forall t, (0 <= t <= h)%R -> derivable_pt_lim v t (v' t)) ->
  (forall t, (0 <= t <= h)%R -> Rabs (u' t) <= v' t)%R -> forall t, (0 <= t <= h)%R -> (Rabs (u t) <= v t)%R.
Proof.
  intros Hh U0 V0 DU DV B t Ht. destruct (Req_dec t 0) as [->|Nt]; [rewrite U0, V0, Rabs_R0; lra|].
  assert (Mono : forall w w', (forall t, (0 <= t <= h)%R -> derivable_pt_lim w t (w' t)) -> (forall t, (0 <= t <= h)%R -> 0 <= w' t)%R -> (w 0 <= w t)%R).
  { intros w w' D P. destruct (MVT_cor2 w w' 0 t) as (c & E & Hc); [lra|intros c Hc; apply D; lra|].
    assert (0 <= w' c)%R by (apply P; lra). nra. }
  assert (A1 : (v 0 - u 0 <= v t - u t)%R).
  { apply (Mono (fun t => v t - u t)%R (fun t => v' t - u' t)%R); intros r Hr.
    - apply derivable_pt_lim_minus; auto.
    - specialize (B r Hr). pose proof (Rle_abs (u' r)). lra. }
  assert (A2 : (v 0 + u 0 <= v t + u t)%R).
  { apply (Mono (fun t => v t + u t)%R (fun t => v' t + u' t)%R); intros r Hr.
    - apply derivable_pt_lim_plus; auto.
    - specialize (B r Hr). pose proof (Rle_abs (- u' r)). rewrite Rabs_Ropp in H. lra. }
  apply Rabs_le. lra.
Qed.
Lemma derivable_reflect (f : R -> R) t l : derivable_pt_lim f (- t) l -> derivable_pt_lim (fun t => f (- t)%R) t (- l)%R.
Proof.
  intros D. replace (- l)%R with (l * -1)%R by lra.
  apply (derivable_pt_lim_comp (fun t => - t)%R f t (-1) l); [|exact D].
  replace (-1)%R with (- (1))%R by lra. apply derivable_pt_lim_opp. apply derivable_pt_lim_id.
Qed.
Lemma central_difference (f f1 f2 f3 : R -> R) h B : (0 < h)%R ->
  (forall t, (- h <= t <= h)%R -> derivable_pt_lim f t (f1 t) /\ derivable_pt_lim f1 t (f2 t) /\ derivable_pt_lim f2 t (f3 t) /\ Rabs (f3 t) <= B)%R ->
  (Rabs ((f h - f (- h)) / (2 * h) - f1 0) <= B * h ^ 2 / 6)%R.
Proof.
  intros Hh D.
  set (u2 := fun t : R => (f2 t - f2 (- t))%R). set (u2' := fun t : R => (f3 t + f3 (- t))%R).
  set (u1 := fun t : R => (f1 t + f1 (- t) - 2 * f1 0)%R). set (u0 := fun t : R => (f t - f (- t) - 2 * f1 0 * t)%R).
  assert (R1 : forall t, (0 <= t <= h)%R -> (- h <= t <= h /\ - h <= - t <= h)%R) by (intros; lra).
  assert (D2 : forall t, (0 <= t <= h)%R -> derivable_pt_lim u2 t (u2' t)).
  { intros t Ht. destruct (R1 t Ht) as [P1 P2]. unfold u2, u2'. replace (f3 t + f3 (- t))%R with (f3 t - - f3 (- t))%R by lra.
    apply derivable_pt_lim_minus; [apply (D t P1)|]. apply derivable_reflect. apply (D _ P2). }
  assert (D1 : forall t, (0 <= t <= h)%R -> derivable_pt_lim u1 t (u2 t)).
  { intros t Ht. destruct (R1 t Ht) as [P1 P2]. unfold u1, u2. replace (f2 t - f2 (- t))%R with ((f2 t + - f2 (- t)) - 0)%R by lra.
    apply derivable_pt_lim_minus; [|apply derivable_pt_lim_const]. apply derivable_pt_lim_plus; [apply (D t P1)|]. apply derivable_reflect. apply (D _ P2). }
  assert (D0 : forall t, (0 <= t <= h)%R -> derivable_pt_lim u0 t (u1 t)).
  { intros t Ht. destruct (R1 t Ht) as [P1 P2]. unfold u0, u1. replace (f1 t + f1 (- t) - 2 * f1 0)%R with ((f1 t - - f1 (- t)) - 2 * f1 0 * 1)%R by lra.
    apply derivable_pt_lim_minus; [|apply derivable_pt_lim_scal, derivable_pt_lim_id]. apply derivable_pt_lim_minus; [apply (D t P1)|]. apply derivable_reflect. apply (D _ P2). }
  assert (P : forall n (c t : R), derivable_pt_lim (fun t => c * t ^ (S n))%R t (c * (INR (S n) * t ^ n))%R).
  { intros n c t. apply derivable_pt_lim_scal. apply (derivable_pt_lim_pow t (S n)). }
  assert (C2 : forall t, (0 <= t <= h)%R -> (Rabs (u2 t) <= 2 * B * t ^ 1)%R).
  { apply (compare_from_zero u2 (fun t => 2 * B * t ^ 1)%R u2' (fun t => 2 * B * (INR 1 * t ^ 0))%R h Hh); auto.
    - unfold u2. rewrite Ropp_0. lra.
    - lra.
    - intros t Ht. destruct (R1 t Ht) as [P1 P2]. unfold u2'. eapply Rle_trans; [apply Rabs_triang|].
      destruct (D _ P1) as (_ & _ & _ & B1). destruct (D _ P2) as (_ & _ & _ & B2). cbn [INR pow]. lra. }
  assert (C1 : forall t, (0 <= t <= h)%R -> (Rabs (u1 t) <= B * t ^ 2)%R).
  { apply (compare_from_zero u1 (fun t => B * t ^ 2)%R u2 (fun t => B * (INR 2 * t ^ 1))%R h Hh); auto.
    - unfold u1. rewrite Ropp_0. lra.
    - lra.
    - intros t Ht. eapply Rle_trans; [apply C2, Ht|]. cbn [INR pow]. lra. }
  assert (C0 : forall t, (0 <= t <= h)%R -> (Rabs (u0 t) <= B / 3 * t ^ 3)%R).
  { apply (compare_from_zero u0 (fun t => B / 3 * t ^ 3)%R u1 (fun t => B / 3 * (INR 3 * t ^ 2))%R h Hh); auto.
    - unfold u0. rewrite Ropp_0. lra.
    - lra.
    - intros t Ht. eapply Rle_trans; [apply C1, Ht|]. cbn [INR pow]. lra. }
  specialize (C0 h ltac:(lra)). unfold u0 in C0.
  replace ((f h - f (- h)) / (2 * h) - f1 0)%R with ((f h - f (- h) - 2 * f1 0 * h) * / (2 * h))%R by (field; lra).
  rewrite Rabs_mult, (Rabs_right (/ (2 * h))) by (apply Rle_ge, Rlt_le, Rinv_0_lt_compat; lra).
  apply Rmult_le_reg_r with (2 * h)%R; [lra|]. rewrite Rmult_assoc, Rinv_l, Rmult_1_r by lra. eapply Rle_trans; [apply C0|]. apply Req_le. field.
Qed.

Lemma vplus_nth a b j : j < length a -> length b = length a -> nth j (vplus a b) 0%R = (nth j a 0 + nth j b 0)%R.
Proof.
  unfold vplus. revert b j. induction a as [|x a IH]; intros [|y b] [|j] H L; cbn [length combine map nth fst snd] in *; try lia; [reflexivity|]. apply IH; lia.
Qed.
