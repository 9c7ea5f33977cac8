(** Lemmas for C100: means and covariances. *)
From Coq Require Import String ZArith QArith Qreals Reals Lra.
From Verif Require Import Base BaseFacts MeasModel MeasSpec MeasProofs MeasProofs2 MeasProps.
From Verif Require CostModel EvalStepModel EvalStepSpec.
Open Scope list_scope.
Local Open Scope nat_scope.
Notation qsum l := (fold_right Qplus 0%Q l).

Lemma qsum_ext {A} (f g : A -> Q) l : (forall x, In x l -> (f x == g x)%Q) -> (qsum (map f l) == qsum (map g l))%Q.
Proof. induction l as [|x l IH]; intros H; cbn; [reflexivity|]. rewrite (H x) by (left; reflexivity). rewrite IH by (intros y Hy; apply H; right; exact Hy). reflexivity. Qed.
Lemma qsum_add {A} (f g : A -> Q) l : (qsum (map (fun x => f x + g x) l) == qsum (map f l) + qsum (map g l))%Q.
Proof. induction l as [|x l IH]; cbn; [reflexivity|]. rewrite IH. ring. Qed.
Lemma qsum_scale {A} c (f : A -> Q) l : (qsum (map (fun x => c * f x) l) == c * qsum (map f l))%Q.
Proof. induction l as [|x l IH]; cbn; [ring|]. rewrite IH. ring. Qed.
Lemma qsum_swap {A B} (f : A -> B -> Q) l m : (qsum (map (fun x => qsum (map (f x) m)) l) == qsum (map (fun y => qsum (map (fun x => f x y) l)) m))%Q.
Proof.
  induction l as [|x l IH]; cbn [map fold_right].
  - induction m as [|y m IH]; cbn; [reflexivity|]. rewrite <- IH. ring.
  - rewrite IH. rewrite <- (qsum_add (f x)). apply qsum_ext. intros y _. reflexivity.
Qed.
Lemma qsum_product {A} (f g : A -> Q) l m : (qsum (map f l) * qsum (map g m) == qsum (map (fun x => qsum (map (fun y => f x * g y) m)) l))%Q.
Proof. induction l as [|x l IH]; cbn [map fold_right]; [ring|]. rewrite <- IH, qsum_scale. ring. Qed.
Lemma mean_ext (f g : list Z -> Q) m : (forall o, (f o == g o)%Q) -> (mean f m == mean g m)%Q.
Proof. intros H. apply mean_comp. intros o _. apply H. Qed.
Lemma mean_sum {A} (f : A -> list Z -> Q) (l : list A) m : (mean (fun o => qsum (map (fun x => f x o) l)) m == qsum (map (fun x => mean (f x) m) l))%Q.
Proof.
  unfold mean, Qdiv. rewrite (qsum_swap (fun (o : list Z) (x : A) => f x o) m l). set (k := (/ inject_Z (Z.of_nat (length m)))%Q).
  rewrite (qsum_ext (fun x => qsum (map (f x) m) * k)%Q (fun x => k * qsum (map (f x) m))%Q l) by (intros x _; ring). rewrite qsum_scale. exact (Qmult_comm _ _).
Qed.
Lemma mean_scale c (f : list Z -> Q) m : (mean (fun o => c * f o) m == c * mean f m)%Q.
Proof. unfold mean, Qdiv. rewrite qsum_scale. ring. Qed.
Lemma mean_add (f g : list Z -> Q) m : (mean (fun o => f o + g o) m == mean f m + mean g m)%Q.
Proof. unfold mean, Qdiv. rewrite qsum_add. ring. Qed.
Lemma mean_one m : m <> [] -> (mean (fun _ => 1%Q) m == 1)%Q.
Proof.
  intros Hne. unfold mean. assert (E : (qsum (map (fun _ : list Z => 1%Q) m) == inject_Z (Z.of_nat (length m)))%Q).
  { clear. induction m as [|t l IH]; [reflexivity|]. cbn [map fold_right length]. rewrite IH, Nat2Z.inj_succ, <- Z.add_1_l, inject_Z_plus. reflexivity. }
  rewrite E. field. intros Z0. change 0%Q with (inject_Z 0) in Z0. apply (proj1 (inject_Z_injective _ _)) in Z0. destruct m; [congruence|cbn in Z0; lia].
Qed.
Lemma spread_squares f m : m <> [] -> (EvalStepSpec.spread f m == mean (fun o => f o * f o) m - mean f m * mean f m)%Q.
Proof.
  intros Hne. unfold EvalStepSpec.spread. set (c := mean f m).
  rewrite (mean_ext _ (fun o => f o * f o + ((- (2) * c) * f o + (c * c) * 1))%Q) by (intros o; ring). rewrite mean_add, mean_add, mean_scale, mean_scale, mean_one by exact Hne. fold c. ring.
Qed.
Lemma spread_nonneg f m : (0 <= EvalStepSpec.spread f m)%Q.
Proof.
  unfold EvalStepSpec.spread, mean. set (c := (qsum (map f m) / inject_Z (Z.of_nat (length m)))%Q). clearbody c.
  assert (S : (0 <= qsum (map (fun o => (f o - c) ^ 2) m))%Q).
  { induction m as [|o m IH]; cbn [map fold_right]; [apply Qle_refl|]. change 0%Q with (0 + 0)%Q. apply Qplus_le_compat; [generalize (f o - c)%Q; intros z; unfold Qpower, Qpower_positive; cbn [pow_pos]; destruct z as [a b]; unfold Qle, Qmult; cbn [Qnum Qden]; nia|exact IH]. }
  unfold Qdiv. apply Qmult_le_0_compat; [exact S|]. apply Qinv_le_0_compat. change 0%Q with (inject_Z 0). rewrite <- Zle_Qle. lia.
Qed.

(** Real sums of rational numbers *)
Lemma rsum_Q2R l : CostModel.rsum (map Q2R l) = Q2R (qsum l).
Proof. unfold CostModel.rsum. induction l as [|x l IH]; cbn [map fold_right]; [unfold Q2R; cbn; lra|]. rewrite IH, Q2R_plus. reflexivity. Qed.
Lemma frame_sum_Q2R c : CostModel.frame_sum (EvalStepModel.real_matrix c) = Q2R (qsum (map (fun row => qsum row) c)).
Proof.
  unfold CostModel.frame_sum, EvalStepModel.real_matrix. rewrite map_map. rewrite <- rsum_Q2R, map_map. f_equal. apply map_ext. intros row. apply rsum_Q2R.
Qed.
Lemma map_nth_seq {A B} (f : A -> B) (l : list A) d : map f l = map (fun i => f (nth i l d)) (seq 0 (length l)).
Proof.
  apply nth_ext with (d := f d) (d' := f d); [rewrite !map_length, seq_length; reflexivity|]. intros i Hi. rewrite map_length in Hi.
  rewrite (nth_indep (map (fun i => f (nth i l d)) _) (f d) ((fun i => f (nth i l d)) 0)) by (rewrite map_length, seq_length; exact Hi). rewrite (map_nth (fun i => f (nth i l d))), seq_nth by exact Hi. apply (map_nth f).
Qed.
(** The shape of the covariance matrix. *)
Lemma covariance_shape setorder m op bessel values corr c : get_expectation_values setorder m op bessel = Ok {| ev_values := values; ev_correlations := corr; ev_covariances := Some [Some c] |} ->
  length values = length op -> exists F, c = map (fun i => map (F i) (seq 0 (length op))) (seq 0 (length op)).
Proof.
  unfold get_expectation_values. destruct (mapM _ op) as [vs|]; [|discriminate]. cbn [rbind]. destruct (mapM _ (seq 0 (length op))) as [co|]; [|discriminate]. cbn [rbind].
  intros E _. destruct (Z.eqb _ 0); injection E as _ _ E; [discriminate|]. eexists. symmetry. exact E.
Qed.
