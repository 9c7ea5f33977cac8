(** C100: what the steps write, part 1: sums of expectation values of measurements; files that change; stated over EvalStepModel.v and EvalStepSpec.v. *)
From Coq Require Import String ZArith QArith Qreals Reals Lra.
From Verif Require Import Base BaseFacts MatModel OpModel MeasModel MeasSpec MeasProofs MeasProofs2 MeasProps CostModel EvalStepModel EvalStepSpec EvalStepProofs.
From Verif Require GateMatProps DistModel.
Open Scope list_scope.
Local Open Scope nat_scope.

(** Sums of values and of covariances are the mean and the spread of the energies. *)
Lemma summed_values (setorder : list nat -> list nat) m n op (bessel : bool) : enumerates setorder -> m <> [] -> 1 <= n -> (forall t, In t m -> length t = n) -> digits_only m -> covers n op ->
  let samples := (if bessel then Z.of_nat (length m) - 1 else Z.of_nat (length m))%Z in
  exists e, get_expectation_values setorder m op bessel = Ok e /\ est_value (summed e) = Q2R (mean (energy op) m) /\
    (samples <> 0%Z -> est_precision (summed e) = Precision (sqrt (Q2R (spread (energy op) m / inject_Z samples)))) /\
    (samples = 0%Z -> op <> [] -> est_precision (summed e) = NaN).
Proof.
  intros Hs Hne Hn Hl Hd Hc samples. destruct (C29_expectation_values setorder m n op bessel Hs Hne Hn Hl Hd Hc) as (values & corr & cov & E & Lv & Hv & Hco & Hcov).
  exists {| ev_values := values; ev_correlations := Some [corr]; ev_covariances := Some [cov] |}. split; [exact E|]. cbv zeta in Hcov. fold samples in Hcov.
  set (N := length op) in *. set (sg := fun i o => inject_Z (z_sign (the_term op i) o)).
  assert (En : forall o, (energy op o == qsum (map (fun i => the_coef op i * sg i o) (seq 0 N)))%Q).
  { intros o. unfold energy. rewrite (map_nth_seq (fun tc : list nat * Q => (snd tc * inject_Z (z_sign (fst tc) o))%Q) op ([], 0%Q)). reflexivity. }
  assert (Ev : values = map (fun i => nth i values 0%Q) (seq 0 N)) by (pose proof (map_nth_seq (fun x : Q => x) values 0%Q) as X; rewrite map_id, Lv in X; exact X).
  assert (S1 : (qsum values == mean (energy op) m)%Q).
  { rewrite Ev, (mean_ext _ _ m En), (mean_sum (fun i o => the_coef op i * sg i o)%Q). apply qsum_ext. intros i Hi. apply in_seq in Hi. rewrite (Hv i) by lia. unfold sg. rewrite mean_scale. reflexivity. }
  assert (S1' : (qsum (map (fun i => nth i values 0%Q) (seq 0 N)) == mean (energy op) m)%Q) by (rewrite <- Ev; exact S1).
  assert (EV : rsum (map Q2R values) = Q2R (mean (energy op) m)) by (rewrite rsum_Q2R; apply Qeq_eqR, S1).
  split; [|split].
  - unfold summed. cbn [ev_values ev_covariances mapM]. destruct cov as [c|]; cbn [rbind]; [exact EV|]. destruct (map Q2R values); cbn [rbind est_value]; exact EV.
  - intros Hsam. destruct cov as [c|]; [|congruence]. destruct Hcov as [_ Hcov]. destruct (covariance_shape _ _ _ _ _ _ _ E Lv) as [F EF].
    assert (S2 : (qsum (map (fun row => qsum row) c) == spread (energy op) m / inject_Z samples)%Q).
    { rewrite EF, map_map. rewrite (qsum_ext _ (fun i => qsum (map (fun j => / inject_Z samples * (the_coef op i * the_coef op j * mean (fun o => sg i o * sg j o) m + - (nth i values 0 * nth j values 0))) (seq 0 N)))%Q).
      2:{ intros i Hi. apply in_seq in Hi. apply qsum_ext. intros j Hj. apply in_seq in Hj. pose proof (Hcov i j ltac:(lia) ltac:(lia)) as X. rewrite EF in X.
          rewrite (nth_map_seq (fun i => map (F i) (seq 0 (length op)))), (nth_map_seq (F i)) in X by lia. rewrite X, (Hco i j) by lia. unfold Qdiv, sg.
          rewrite (mean_ext (fun o => inject_Z (z_sign (the_term op i) o * z_sign (the_term op j) o)) (fun o => inject_Z (z_sign (the_term op i) o) * inject_Z (z_sign (the_term op j) o))%Q m) by (intros o; rewrite inject_Z_mult; reflexivity). ring. }
      rewrite (qsum_ext _ (fun i => / inject_Z samples * (qsum (map (fun j => the_coef op i * the_coef op j * mean (fun o => sg i o * sg j o) m) (seq 0 N)) + - (1) * qsum (map (fun j => nth i values 0 * nth j values 0) (seq 0 N))))%Q).
      2:{ intros i _. rewrite qsum_scale. apply Qmult_comp; [reflexivity|]. rewrite qsum_add. apply Qplus_comp; [reflexivity|]. rewrite <- qsum_scale. apply qsum_ext. intros j _. ring. }
      rewrite qsum_scale, qsum_add, qsum_scale, <- (qsum_product (fun i => nth i values 0%Q) (fun j => nth j values 0%Q)). change (length op) with N. rewrite S1', spread_squares by exact Hne.
      unfold Qdiv. rewrite Qmult_comm. apply Qmult_comp; [|reflexivity]. unfold Qminus. apply Qplus_comp; [|ring].
      rewrite (mean_ext (fun o => energy op o * energy op o)%Q (fun o => qsum (map (fun i => qsum (map (fun j => (the_coef op i * the_coef op j) * (sg i o * sg j o)) (seq 0 N))) (seq 0 N)))%Q m).
      2:{ intros o. rewrite (En o) at 1. rewrite (En o). rewrite qsum_product. apply qsum_ext. intros i _. apply qsum_ext. intros j _. ring. }
      rewrite (mean_sum (fun i o => qsum (map (fun j => (the_coef op i * the_coef op j) * (sg i o * sg j o)) (seq 0 N)))%Q). apply qsum_ext. intros i _.
      rewrite (mean_sum (fun j o => (the_coef op i * the_coef op j) * (sg i o * sg j o))%Q). apply qsum_ext. intros j _. rewrite mean_scale. reflexivity. }
    unfold summed. cbn [ev_values ev_covariances mapM rbind sum_expectation_values est_precision fold_left]. rewrite Rplus_0_l, frame_sum_Q2R, (Qeq_eqR _ _ S2). unfold np_sqrt.
    destruct (Rlt_dec _ 0) as [X|]; [exfalso|reflexivity].  assert (P : (0 < samples)%Z) by (clear - Hsam Hne; unfold samples, measurements, DistModel.outcome in *; destruct m as [|o m]; [congruence|]; cbn [length] in *; destruct bessel; lia).
    assert (Q0 : (0 <= spread (energy op) m / inject_Z samples)%Q).
    { unfold Qdiv. apply Qmult_le_0_compat; [apply spread_nonneg|]. apply Qinv_le_0_compat. change 0%Q with (inject_Z 0). rewrite <- Zle_Qle. lia. }
    apply Qle_Rle in Q0. replace (Q2R 0) with 0%R in Q0 by (unfold Q2R; cbn; lra). lra.
  - intros Hsam Hop. destruct cov as [c|]; [destruct Hcov; congruence|]. unfold summed. cbn [ev_values ev_covariances mapM]. destruct values; [destruct op; [congruence|discriminate Lv]|]. reflexivity.
Qed.

Section Summed.
  Context {K : cring} (of_R : R -> K) (setorder : list nat -> list nat) (Hso : enumerates setorder).
  Notation step := (get_summed_expectation_values (K := K) of_R setorder).
  Lemma given_loads {A} (kind : A -> artifact K) (from : artifact K -> option A) (d : disk K) x a : (forall y, from (kind y) = Some y) -> (forall y, kind y <> Broken) -> refers_to kind d x a ->
    given (load from) x d = (d, Ok a).
  Proof.
    intros Hf Hb. destruct x as [name|b]; cbn [refers_to given]; [|intros ->; reflexivity]. unfold holds, load, bindM, open_file. intros ->. specialize (Hf a). specialize (Hb a). destruct (kind a); [congruence|..]; rewrite Hf; reflexivity.
  Qed.
  Lemma saved (d : disk K) name x : holds (dset String.eqb name x d) name x /\ only_files [name] d (dset String.eqb name x d).
  Proof.
    split; [apply (dget_dset_same _ String.eqb_eq)|]. intros other H. apply (dget_dset_other _ String.eqb_eq). intros ->. apply H. left. reflexivity.
  Qed.
  (** For an Ising operator: the file holds the mean, over the measured bitstrings, of the value of the operator on a bitstring; the precision is the standard error of that mean: the
      square root of the mean squared deviation, divided by the number of bitstrings, or by one less with Bessel's correction.  With a single bitstring and the correction it is not a number. *)
  Theorem C100_summed (d : disk K) source m n op (bessel : bool) : refers_to Outcomes d source m -> m <> [] -> 1 <= n -> (forall t, In t m -> length t = n) -> digits_only m -> covers n op ->
    let samples := (if bessel then Z.of_nat (length m) - 1 else Z.of_nat (length m))%Z in
    exists d' p, step (inr (OIsing op)) source bessel d = (d', Ok tt) /\ only_files ["value-estimate.json"%string] d d' /\
      holds d' "value-estimate.json" (Estimate (of_R (Q2R (mean (energy op) m))) p) /\
      (samples <> 0%Z -> p = Precision (sqrt (Q2R (spread (energy op) m / inject_Z samples)))) /\ (samples = 0%Z -> op <> [] -> p = NaN).
  Proof.
    intros Hr Hne Hn Hl Hd Hc samples. destruct (summed_values setorder m n op bessel Hso Hne Hn Hl Hd Hc) as (e & E & Ev & Ep & Ez). fold samples in Ep, Ez.
    unfold get_summed_expectation_values, load_measurements, bindM. cbn [retM]. rewrite (given_loads Outcomes _ d source m (fun _ => eq_refl) ltac:(discriminate) Hr). unfold liftM. rewrite E. unfold save.
    eexists _, _. split; [reflexivity|]. destruct (saved d "value-estimate.json" (Estimate (of_R (est_value (summed e))) (est_precision (summed e)))) as [S1 S2]. split; [exact S2|]. rewrite Ev in S1 |- *. split; [exact S1|]. split; [exact Ep|exact Ez].
  Qed.
  (** Without bitstrings, with qubits that were not measured, or for another object: an error, and no file changes. *)
  Theorem C100_summed_rejected (d : disk K) source m n t c op bessel : refers_to Outcomes d source m ->
    step (inr ONotIsing) source bessel d = (d, Err TypeError) /\
    (m = [] -> step (inr (OIsing ((t, c) :: op))) source bessel d = (d, Err IndexError)) /\
    (m <> [] -> 1 <= n -> (forall t, In t m -> length t = n) -> digits_only m -> (exists q, In q t /\ n <= q) -> step (inr (OIsing ((t, c) :: op))) source bessel d = (d, Err IndexError)).
  Proof.
    intros Hr. destruct (C29_errors setorder m n t c op bessel) as [E1 E2]. unfold get_summed_expectation_values, load_measurements, bindM. cbn [retM]. rewrite (given_loads Outcomes _ d source m (fun _ => eq_refl) ltac:(discriminate) Hr). unfold liftM.
    split; [reflexivity|]. split; [intros H; rewrite (E1 H); reflexivity|]. intros H1 H2 H3 H4 H5. rewrite (E2 H1 H2 H3 H4 H5). reflexivity.
  Qed.
  (** The step is meant to read the operator from a file, too (its argument is annotated as a name); whatever operator and measurements the files hold, it raises NameError. *)
  Theorem C100_summed_file_refuted (d : disk K) name a source bessel : holds d name (Operator a) -> step (inl name) source bessel d = (d, Err GenericException).
  Proof. unfold holds. intros H. unfold get_summed_expectation_values, load_qubit_operator, load, bindM, open_file. rewrite H. reflexivity. Qed.
End Summed.

Example C100_summed_case : let m := [[0; 0]; [0; 1]; [1; 1]; [1; 1]]%Z in let op := [([0], 2%Q); ([0; 1], 1%Q); ([], 3%Q)] in
  covers 2 op /\ digits_only m /\ (mean (energy op) m == 7 # 2)%Q /\ (spread (energy op) m / inject_Z 3 == 11 # 12)%Q.
Proof.
  cbv zeta. split; [intros t c [[= <- <-]|[[= <- <-]|[[= <- <-]|[]]]]; split; try (repeat constructor; cbn; intuition discriminate); cbn; lia|].
  split; [intros t d H; cbn in H; repeat destruct H as [<-|H]; cbn; try lia; destruct H|]. split; reflexivity.
Qed.
Example C100_summed_file_case : holds (K := GateMatProps.ZR) [("op.json"%string, Operator [([(0, Pz)], k1)]); ("measurements.json"%string, Outcomes [[0%Z]])] "op.json" (Operator [([(0, Pz)], k1)]).
Proof. reflexivity. Qed.
Print Assumptions C100_summed.
