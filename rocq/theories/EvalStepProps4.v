(** C100, part 4: the analysis of groups, failures, and concrete cases.  Stated over EvalStepModel.v and EvalStepSpec.v. *)
From Coq Require Import String ZArith QArith Reals Lra Lia.
From Verif Require Import Base BaseFacts MatModel OpModel OpSpec OpProofs TensorModel SparseModel DiagModel QopUtilModel RdmModel CostModel EvalStepModel EvalStepSpec EvalStepProps EvalStepProps2.
From Verif Require Base MeasModel EstModel EstProps2.
Open Scope list_scope.
Local Open Scope nat_scope.

Section C100d.
  Context {K : cring} (im half : K) (small isz : K -> bool).
  Implicit Types (d : disk K).

  (** ** The analysis of groups *)
  Definition real_groups (real : K -> R) (l : list (qop K)) : list EstModel.rgroup := map (map (fun tc : term pauli * K => (fst tc, real (snd tc)))) l.
  Lemma real_groups_terms real l : length (concat (real_groups real l)) = length (concat l).
  Proof. unfold real_groups. induction l as [|g l IH]; [reflexivity|]. cbn. now rewrite !app_length, map_length, IH. Qed.
  (** The report on groups whose variances are [vs]: each group gets its standard deviation times the sum of all standard deviations. *)
  Definition report (terms : nat) (vs : list R) (x : artifact K) : Prop := exists nmeas frames, x = Analysis nmeas terms frames /\ length frames = length vs /\
    nmeas = (EstModel.sum_R (map sqrt vs) ^ 2)%R /\ nmeas = EstModel.sum_R frames /\ forall i, i < length vs -> nth i frames 0%R = (sqrt (nth i vs 0%R) * EstModel.sum_R (map sqrt vs))%R.
  Notation analysis := "hamiltonian_analysis.json"%string.
  Lemma analysis_ok real d groups (l : list (qop K)) vname vals vs : holds d groups (Operators l) ->
    match vname with Some v => exists x, vals = Some x /\ holds d v (Values x) | None => vals = None end ->
    EstModel.compute_group_variances (real_groups real l) (option_map (map real) vals) = Ok vs ->
    exists d' x, grouped_hamiltonian_analysis real groups vname d = (d', Ok tt) /\ only_files [analysis] d d' /\ holds d' analysis x /\ report (length (concat l)) vs x.
  Proof.
    intros Hg Hv Ev. unfold grouped_hamiltonian_analysis. rewrite (run_ok _ _ d d l) by (apply (loads Operators); [reflexivity|discriminate|exact Hg]).
    rewrite (run_ok _ _ d d vals).
    2:{ destruct vname as [v|]; [destruct Hv as (x & -> & Hv)|subst vals; reflexivity]. rewrite (run_ok _ _ d d x) by (apply (loads Values); [reflexivity|discriminate|exact Hv]). reflexivity. }
    fold (real_groups real l). destruct (EstModel.estimate_nmeas_for_frames (real_groups real l) (option_map (map real) vals)) as [[[nm nt] fr]|e] eqn:E.
    2:{ exfalso. unfold EstModel.estimate_nmeas_for_frames in E. rewrite Ev in E. discriminate. }
    destruct (EstProps2.C41_counts _ _ _ _ _ E) as (vs' & Ev' & En & El & E1 & E2 & E3). rewrite Ev in Ev'. injection Ev' as <-. rewrite real_groups_terms in En. subst nt.
    destruct (saved d analysis (Analysis nm (length (concat l)) fr)) as [S1 S2]. exists (dset String.eqb analysis (Analysis nm (length (concat l)) fr) d), (Analysis nm (length (concat l)) fr).
    split; [reflexivity|]. split; [exact S2|]. split; [exact S1|]. exists nm, fr. auto.
  Qed.
  Lemma offset_length (f : term pauli * K -> term pauli * R) (l : list (qop K)) : Base.sum_nat (map (@length _) (map (map f) l)) = length (concat l).
  Proof. induction l as [|a l IH]; [reflexivity|]. cbn [map concat Base.sum_nat]. rewrite app_length, map_length, <- IH. reflexivity. Qed.
  (** With expectation values in [-1, 1], one per term: the variance of a group is the sum of c^2 (1 - v^2) over its terms. *)
  Theorem C100_analysis real d groups vname (l : list (qop K)) (x : list K) : holds d groups (Operators l) -> holds d vname (Values x) -> length x = length (concat l) ->
    (forall v, In v x -> (-1 <= real v <= 1)%R) ->
    exists d' y vs, grouped_hamiltonian_analysis real groups (Some vname) d = (d', Ok tt) /\ only_files [analysis] d d' /\ holds d' analysis y /\ report (length (concat l)) vs y /\ length vs = length l /\
      forall i g, nth_error l i = Some g -> nth i vs 0%R =
        EstModel.sum_R (map (fun j => real (snd (nth j g ([], k0))) ^ 2 * (1 - real (nth (length (concat (firstn i l)) + j) x k0) ^ 2))%R (seq 0 (length g))).
  Proof.
    intros Hg Hv L V. destruct (EstProps2.C41_variances (real_groups real l) (map real x)) as (vs & Ev & Ls & Hvs).
    - now rewrite map_length, real_groups_terms.
    - intros v Hin. apply in_map_iff in Hin as (y & <- & Hy). apply V, Hy.
    - destruct (analysis_ok real d groups l (Some vname) (Some x) vs Hg (ex_intro _ x (conj eq_refl Hv)) Ev) as (d' & y & E & F & H & Rp). exists d', y, vs.
      split; [exact E|]. split; [exact F|]. split; [exact H|]. split; [exact Rp|]. unfold real_groups in Ls. rewrite map_length in Ls. split; [exact Ls|]. intros i g Hi.
      destruct (Hvs i (map (fun tc : term pauli * K => (fst tc, real (snd tc))) g)) as [N _]; [unfold real_groups; apply map_nth_error, Hi|].
      rewrite (nth_error_nth _ _ _ N). unfold EstProps2.group_variance. rewrite map_length.
      assert (O : EstProps2.offset (real_groups real l) i = length (concat (firstn i l))).
      { unfold EstProps2.offset, real_groups. rewrite firstn_map. apply offset_length. }
      rewrite O. set (o := length (concat (firstn i l))). assert (B : forall j, j < length g -> (o + j) < length x).
      { intros j Hj. rewrite L. rewrite <- (firstn_skipn i l), concat_app, app_length. fold o.
        assert (Sk : exists r, skipn i l = g :: r). { clear - Hi. revert l Hi. induction i as [|i IH]; intros [|a l] Hi; try discriminate. - injection Hi as ->. now exists l. - apply IH, Hi. }
        destruct Sk as [r ->]. cbn. rewrite app_length. lia. }
      clearbody o. clear - B. assert (G : forall s gg, (forall j, j < length gg -> o + (s + j) < length x) ->
        EstModel.sum_R (map (fun ic : nat * (term pauli * R) => (snd (snd ic) ^ 2 * (1 - nth (o + fst ic) (map real x) 0 ^ 2))%R) (combine (seq s (length gg)) (map (fun tc : term pauli * K => (fst tc, real (snd tc))) gg))) =
        EstModel.sum_R (map (fun j => (real (snd (nth (j - s) gg ([], k0))) ^ 2 * (1 - real (nth (o + j) x k0) ^ 2))%R) (seq s (length gg)))).
      { intros s gg. revert s. induction gg as [|[t c] gg IH]; intros s Bd; [reflexivity|]. cbn [length seq map combine EstModel.sum_R]. f_equal.
        - cbn [fst snd]. replace (s - s) with 0 by lia. cbn [nth snd]. rewrite (nth_indep _ 0%R (real k0)) by (rewrite map_length; specialize (Bd 0 ltac:(cbn; lia)); lia). now rewrite map_nth.
        - rewrite (IH (Datatypes.S s)) by (intros j Hj; specialize (Bd (Datatypes.S j) ltac:(cbn; lia)); lia). f_equal. apply map_ext_in. intros j Hj. apply in_seq in Hj.
          replace (j - s) with (Datatypes.S (j - Datatypes.S s)) by lia. reflexivity. }
      rewrite (G 0 g) by (intros j Hj; apply B, Hj). f_equal. apply map_ext. intros j. now rewrite Nat.sub_0_r.
  Qed.
  (** Without: the sum of the squares of the coefficients of its terms but the constant one. *)
  Theorem C100_analysis_bound real d groups (l : list (qop K)) : holds d groups (Operators l) -> (forall g, In g l -> NoDup (map fst g)) ->
    exists d' y vs, grouped_hamiltonian_analysis real groups None d = (d', Ok tt) /\ only_files [analysis] d d' /\ holds d' analysis y /\ report (length (concat l)) vs y /\ length vs = length l /\
      forall i g, nth_error l i = Some g -> nth i vs 0%R = EstModel.sum_R (map (fun tc => real (snd tc) ^ 2)%R (filter (fun tc => negb (Nat.eqb (length (fst tc)) 0)) g)).
  Proof.
    intros Hg ND. destruct (EstProps2.C41_variance_bounds (real_groups real l)) as (vs & Ev & Ls & Hvs).
    { intros g Hin. apply in_map_iff in Hin as (g' & <- & Hg'). rewrite map_map. apply ND, Hg'. }
    destruct (analysis_ok real d groups l None None vs Hg eq_refl Ev) as (d' & y & E & F & H & Rp). exists d', y, vs.
    split; [exact E|]. split; [exact F|]. split; [exact H|]. split; [exact Rp|]. unfold real_groups in Ls. rewrite map_length in Ls. split; [exact Ls|]. intros i g Hi.
    destruct (Hvs i (map (fun tc : term pauli * K => (fst tc, real (snd tc))) g)) as [N _]; [unfold real_groups; apply map_nth_error, Hi|].
    rewrite (nth_error_nth _ _ _ N). clear. induction g as [|[[|f t] c] g IH]; [reflexivity|exact IH|]. cbn [map fst snd EstProps2.nonconstant filter length Nat.eqb negb EstModel.sum_R]. f_equal. exact IH.
  Qed.
  (** Values that do not match the terms, or are no expectation values: refused, and nothing is written. *)
  Theorem C100_analysis_rejected real d groups vname (l : list (qop K)) (x : list K) : holds d groups (Operators l) -> holds d vname (Values x) ->
    length x <> length (concat l) \/ (exists v, In v x /\ ~ (-1 <= real v <= 1)%R) -> grouped_hamiltonian_analysis real groups (Some vname) d = (d, Err ValueError).
  Proof.
    intros Hg Hv B. unfold grouped_hamiltonian_analysis. rewrite (run_ok _ _ d d l) by (apply (loads Operators); [reflexivity|discriminate|exact Hg]).
    rewrite (run_ok _ _ d d (Some x)) by (rewrite (run_ok _ _ d d x) by (apply (loads Values); [reflexivity|discriminate|exact Hv]); reflexivity).
    fold (real_groups real l). destruct (EstProps2.C41_rejected (real_groups real l) (map real x)) as [_ E].
    - destruct B as [B|(v & Hin & Hn)]; [left; rewrite map_length, real_groups_terms; exact B|right]. exists (real v). split; [now apply in_map|exact Hn].
    - apply (run_err _ _ d d). unfold liftM. cbn [option_map]. now rewrite E.
  Qed.

  (** ** A step that fails leaves the files as they were *)
  Definition safe {A} (m : M (disk K) A) : Prop := forall d e, snd (m d) = Err e -> fst (m d) = d.
  Definition reads {A} (m : M (disk K) A) : Prop := forall d, fst (m d) = d.
  Lemma reads_safe {A} (m : M (disk K) A) : reads m -> safe m.
  Proof. intros H d e _. apply H. Qed.
  Lemma reads_bind {A B} (m : M (disk K) A) (k : A -> M (disk K) B) : reads m -> (forall a, reads (k a)) -> reads (bindM m k).
  Proof. intros H1 H2 d. unfold bindM. specialize (H1 d). destruct (m d) as [d1 [a|e]]; cbn in *; subst d1; [apply H2|reflexivity]. Qed.
  Lemma safe_bind {A B} (m : M (disk K) A) (k : A -> M (disk K) B) : reads m -> (forall a, safe (k a)) -> safe (bindM m k).
  Proof. intros H1 H2 d e. unfold bindM. specialize (H1 d). destruct (m d) as [d1 [a|e']]; cbn in *; subst d1; [apply H2|reflexivity]. Qed.
  Lemma reads_lift {A} (r : result A) : reads (liftM r). Proof. intros d. reflexivity. Qed.
  Lemma reads_ret {A} (a : A) : reads (retM a). Proof. intros d. reflexivity. Qed.
  Lemma reads_load {A} (from : artifact K -> option A) name : reads (load from name).
  Proof. unfold load. apply reads_bind; [intros d; reflexivity|]. intros x. destruct (from x); intros d; reflexivity. Qed.
  Lemma reads_given {A} (f : string -> M (disk K) A) x : (forall name, reads (f name)) -> reads (given f x).
  Proof. intros H. destruct x; [apply H|apply reads_ret]. Qed.
  Lemma safe_save name x : safe (save (K := K) name x). Proof. intros d e H. discriminate. Qed.
  Lemma safe_saves n1 x1 n2 x2 : safe (do! _ := save (K := K) n1 x1 in save n2 x2). Proof. intros d e H. discriminate. Qed.
  Lemma reads_rdm name : reads (load_interaction_rdm (K := K) name).
  Proof. unfold load_interaction_rdm. apply reads_bind; [apply reads_load|]. intros a. apply reads_lift. Qed.
  Hint Resolve reads_load reads_lift reads_ret reads_given reads_rdm safe_save safe_saves : reads.
  Theorem C100_untouched solver normalized real of_R larger complex clip re setorder d d' e a b n g x i q s ops vals op m bessel :
    (get_ground_state_rdm_from_qubit_operator im half small isz solver a n d = (d', Err e) \/
     EvalStepModel.jw_get_ground_state_at_particle_number im half small isz solver normalized n b d = (d', Err e) \/
     EvalStepModel.evaluate_qubit_operator_list re ops vals d = (d', Err e) \/
     grouped_hamiltonian_analysis real g x d = (d', Err e) \/
     expectation_values_from_rdms im small larger complex clip i q s d = (d', Err e) \/
     expectation_values_from_rdms_list im small larger complex clip i q s d = (d', Err e) \/
     get_summed_expectation_values of_R setorder op m bessel d = (d', Err e)) -> d' = d.
  Proof.
    assert (X : forall (p : M (disk K) unit), safe p -> p d = (d', Err e) -> d' = d) by (intros p Hp E; specialize (Hp d e); rewrite E in Hp; exact (Hp eq_refl)).
    intros [E|[E|[E|[E|[E|[E|E]]]]]]; refine (X _ _ E); clear E X.
    - unfold get_ground_state_rdm_from_qubit_operator. apply safe_bind; [destruct a; [apply reads_load|apply reads_lift]|]. intros y. apply safe_bind; [apply reads_lift|]. intros r.
      unfold save_interaction_rdm. apply safe_bind; [apply reads_lift|]. intros one. apply safe_bind; [apply reads_lift|]. intros two. apply safe_save.
    - unfold EvalStepModel.jw_get_ground_state_at_particle_number. apply safe_bind; [apply reads_given; intros; apply reads_load|]. intros y. apply safe_bind; [apply reads_lift|]. intros A. apply safe_bind; [apply reads_lift|]. intros v.
      apply safe_bind; [destruct (normalized (snd v)); [apply reads_ret|apply reads_lift]|]. intros _. apply safe_saves.
    - unfold EvalStepModel.evaluate_qubit_operator_list. apply safe_bind; [apply reads_given; intros; apply reads_load|]. intros l. apply safe_bind; [apply reads_given; intros; apply reads_load|]. intros v.
      apply safe_bind; [apply reads_lift|]. intros r. apply safe_save.
    - unfold grouped_hamiltonian_analysis. apply safe_bind; [apply reads_load|]. intros l. apply safe_bind; [destruct x; [apply reads_bind; [apply reads_load|intros; apply reads_ret]|apply reads_ret]|]. intros v.
      apply safe_bind; [apply reads_lift|]. intros [[nm nt] fr]. apply safe_save.
    - unfold expectation_values_from_rdms. apply safe_bind; [apply reads_load|]. intros l. apply safe_bind; [apply reads_rdm|]. intros r. apply safe_bind; [apply reads_lift|]. intros v. apply safe_save.
    - unfold expectation_values_from_rdms_list. apply safe_bind; [apply reads_load|]. intros l. apply safe_bind; [apply reads_rdm|]. intros r. apply safe_bind; [apply reads_lift|]. intros v. apply safe_save.
    - unfold get_summed_expectation_values. apply safe_bind; [destruct op; [apply reads_bind; [apply reads_load|intros; apply reads_lift]|apply reads_ret]|]. intros o. apply safe_bind; [apply reads_given; intros; apply reads_load|]. intros ms.
      apply safe_bind; [destruct o; apply reads_lift|]. intros ev. apply safe_save.
  Qed.
End C100d.
