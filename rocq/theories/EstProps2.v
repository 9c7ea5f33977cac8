(** Properties C38-C41: shots, averaging, binding and measurement counts. *)
From Coq Require Import Permutation Sorted Lia Ring QArith Qabs Reals Lra.
From Verif Require Import Base BaseFacts MatModel OpModel OpSpec OpProofs UtilsModel UtilsSpec UtilsProps EstModel EstSpec EstProofs2 EstProofs5.
Open Scope list_scope.
Local Open Scope nat_scope.

(** ** C38 *)
Section C38.
  Context {Op Circ : Type}.
  Notation tk := (task Op Circ).
  Theorem C38_uniform (tasks : list tk) k :
    ((k <= 0)%Z -> allocate_shots_uniformly tasks k = Err ValueError) /\
    ((0 < k)%Z -> exists r, allocate_shots_uniformly tasks k = Ok r /\
       Forall2 (fun e e' => t_op e' = t_op e /\ t_circ e' = t_circ e /\ t_shots e' = Some k) tasks r).
  Proof.
    unfold allocate_shots_uniformly. split; intros H; destruct (Z.leb_spec k 0); try lia; [reflexivity|]. eexists; split; [reflexivity|].
    induction tasks; cbn; constructor; auto.
  Qed.
  Context (argsort : list Q -> list nat) (Hsort : sorts_positions argsort) (estimate : list Op -> result (list Q)).
  (** The shots add up to the budget, each within one shot of the proportional share; operators and circuits are unchanged. *)
  Theorem C38_proportional (tasks : list tk) total weights : (0 < total)%Z -> estimate (map t_op tasks) = Ok weights ->
    length weights = length tasks -> ~ (total_of weights == 0)%Q ->
    exists r shots, allocate_shots_proportionally argsort estimate tasks total = Ok r /\ length r = length tasks /\ length shots = length tasks /\
      (forall i e, nth_error tasks i = Some e -> exists e', nth_error r i = Some e' /\ t_op e' = t_op e /\ t_circ e' = t_circ e /\ t_shots e' = Some (nth i shots 0%Z)) /\
      fold_right Z.add 0%Z shots = total /\
      forall i, i < length tasks -> (Qabs (QArith_base.inject_Z (nth i shots 0%Z) - share weights total i) < 1)%Q.
  Proof.
    intros Ht He Hl Hz. destruct (C25_scale_and_discretize argsort Hsort weights total Hz) as (shots & E & L & S & B).
    unfold allocate_shots_proportionally. destruct (Z.leb_spec total 0); [lia|]. rewrite He. cbn [rbind]. rewrite E. cbn [rbind]. eexists; exists shots. split; [reflexivity|].
    split; [rewrite map_length, combine_length; lia|]. split; [congruence|]. split; [|split; [exact S|intros i Hi; apply B; lia]].
    assert (X : length shots = length tasks) by congruence. clear -X. revert shots X. induction tasks as [|e tasks IH]; intros shots X i e0 Hi; [destruct i; discriminate|].
    destruct shots as [|s shots]; [discriminate|]. cbn in X. destruct i as [|i]; cbn in Hi |- *.
    - injection Hi as <-. eauto 6.
    - apply IH; [lia|exact Hi].
  Qed.
  Theorem C38_proportional_rejected (tasks : list tk) total :
    ((total <= 0)%Z -> allocate_shots_proportionally argsort estimate tasks total = Err ValueError) /\
    (forall weights, (0 < total)%Z -> estimate (map t_op tasks) = Ok weights -> (total_of weights == 0)%Q ->
       exists e, allocate_shots_proportionally argsort estimate tasks total = Err e) /\
    (forall e, (0 < total)%Z -> estimate (map t_op tasks) = Err e -> allocate_shots_proportionally argsort estimate tasks total = Err e).
  Proof.
    unfold allocate_shots_proportionally. split; [|split].
    - intros H. destruct (Z.leb_spec total 0); [reflexivity|lia].
    - intros w H E Z. destruct (Z.leb_spec total 0); [lia|]. rewrite E. cbn [rbind]. rewrite C25_zero_sum by exact Z. cbn. eauto.
    - intros e H E. destruct (Z.leb_spec total 0); [lia|]. rewrite E. reflexivity.
  Qed.
End C38.
Example C38_case : exists r, allocate_shots_proportionally insertion_argsort (fun ops : list nat => Ok (map (fun _ => 1%Q) ops))
    [Build_task 0 tt None; Build_task 1 tt (Some 5%Z); Build_task 2 tt None] 10 = Ok r /\ length r = 3.
Proof.
  destruct (C38_proportional insertion_argsort insertion_argsort_sorts (fun ops : list nat => Ok (map (fun _ => 1%Q) ops))
    [Build_task 0 tt None; Build_task 1 tt (Some 5%Z); Build_task 2 tt None] 10 [1%Q; 1%Q; 1%Q]) as (r & _ & E & L & _); [lia|reflexivity|reflexivity|unfold total_of; cbn; discriminate|]. eauto.
Qed.

(** ** C39 *)
Section C39.
  Context {K : cring} {A : Type} (aeqb : A -> A -> bool) (Ha : eqb_spec_of aeqb) (small : K -> bool) {Circ Meas EV St : Type}.
  Notation op := (sop A K).
  Notation tk := (task op Circ).
  Notation notm := (not_measured (K := K) (A := A) aeqb (Circ := Circ)).

  (** What is not measured: operators that consist of a constant, and tasks with zero shots. *)
  Theorem C39_not_measured (e : tk) : notm e = true <-> (exists c, t_op e = [([], c)]) \/ t_shots e = Some 0%Z.
  Proof.
    unfold not_measured. rewrite Bool.orb_true_iff, Bool.andb_true_iff. destruct e as [o ci sh]. cbn [t_op t_shots]. split.
    - intros [[H1 H2]|H].
      + left. apply Nat.eqb_eq in H1. destruct o as [|[t c] [|x o]]; try discriminate. unfold has_constant, dmem in H2. cbn in H2.
        destruct t as [|f t]; [eauto|discriminate].
      + right. destruct sh as [k|]; [|discriminate]. apply Z.eqb_eq in H. congruence.
    - intros [[c ->]| ->]; [left|right; reflexivity]. split; reflexivity.
  Qed.
  (** The split: both parts with their positions, in order, and every position in exactly one part. *)
  Theorem C39_split (tasks : list tk) : exists yes no iyes ino, split_estimation_tasks_to_measure aeqb tasks = (yes, no, iyes, ino) /\
    length iyes = length yes /\ length ino = length no /\ Permutation (iyes ++ ino) (seq 0 (length tasks)) /\
    StronglySorted lt iyes /\ StronglySorted lt ino /\
    (forall k i, nth_error iyes k = Some i -> exists e, nth_error yes k = Some e /\ nth_error tasks i = Some e /\ notm e = false) /\
    (forall k i, nth_error ino k = Some i -> exists e, nth_error no k = Some e /\ nth_error tasks i = Some e /\ notm e = true).
  Proof.
    rewrite split_eq. do 4 eexists. split; [reflexivity|]. rewrite !positions_length. split; [reflexivity|]. split; [reflexivity|].
    assert (P : forall (p : tk -> bool) k i, nth_error (positions p 0 tasks) k = Some i -> exists e, nth_error (filter p tasks) k = Some e /\ nth_error tasks i = Some e /\ p e = true).
    { intros p k i Hk. pose proof (nth_error_In _ _ Hk) as Hi. apply positions_In in Hi as (j & e & Ej & Hj & Hp). cbn in Ej. subst j.
      destruct (positions_nth p tasks 0 i e Hj Hp) as [P1 P2]. cbn in P1.
      assert (E : length (filter p (firstn i tasks)) = k).
      { pose proof (sorted_NoDup _ (positions_sorted p tasks 0)) as ND. rewrite NoDup_nth_error in ND. apply ND; [apply nth_error_Some; congruence|congruence]. }
      rewrite E in P2. eauto. }
    split; [|split; [apply positions_sorted|split; [apply positions_sorted|split]]].
    - apply NoDup_Permutation.
      + assert (D : forall i, In i (positions (fun e => negb (notm e)) 0 tasks) -> ~ In i (positions notm 0 tasks)).
        { intros i H1 H2. apply positions_In in H1 as (j & e & E1 & H1 & Hp). apply positions_In in H2 as (j' & e' & E2 & H2 & Hp'). cbn in E1, E2. subst j j'.
          rewrite H1 in H2. injection H2 as <-. rewrite Hp' in Hp. discriminate. }
        pose proof (sorted_NoDup _ (positions_sorted (fun e => negb (notm e)) tasks 0)) as N1. pose proof (sorted_NoDup _ (positions_sorted notm tasks 0)) as N2.
        revert N1 D. generalize (positions (fun e => negb (notm e)) 0 tasks). intros l. induction l as [|x l IH]; intros N1 D; [exact N2|]. inversion N1 as [|y ys M1 M2]. cbn. constructor.
        * intros HH. apply in_app_or in HH as [HH|HH]; [auto|]. eapply D; [left; reflexivity|exact HH].
        * apply IH; [exact M2|]. intros i Hi. apply D. right; exact Hi.
      + apply seq_NoDup.
      + intros i. rewrite in_app_iff, in_seq. split.
        * intros [H|H]; apply positions_In in H as (j & e & E1 & H1 & _); cbn in E1; subst j; (assert (i < length tasks) by (apply nth_error_Some; congruence)); lia.
        * intros [_ H]. cbn in H. destruct (nth_error tasks i) as [e|] eqn:E; [|apply nth_error_None in E; lia].
          destruct (notm e) eqn:En; [right|left]; apply positions_In; exists i, e; (split; [reflexivity|]); split; auto. rewrite En. reflexivity.
    - intros k i H. destruct (P _ _ _ H) as (e & H1 & H2 & H3). exists e. split; [exact H1|]. split; [exact H2|]. apply Bool.negb_true_iff, H3.
    - intros k i H. apply P, H.
  Qed.

  Context (exact_value : K -> EV) (to_z : A -> option zact) (run : St -> list Circ -> list (option Z) -> result (St * list Meas)) (evs : Meas -> isop K -> result EV).
  Notation avg := (estimate_by_averaging aeqb small exact_value to_z run evs).
  (** the value of a task that is not measured: its constant, or zero when it has zero shots *)
  Definition unmeasured_value (o : op) : K := match o with [([], c)] => c | _ => k0 end.

  (** One result per task, in task order: an exact value for tasks that are not measured, and for the j-th measured task the value computed from
      the j-th measurements; the backend is called once with the circuits and shots of the measured tasks in order, or not at all. *)
  Theorem C39_averaging s tasks s' out : (forall s cs ns s' ms, run s cs ns = Ok (s', ms) -> length ms = length cs) ->
    avg s tasks = Ok (s', out) ->
    let measured := filter (fun e => negb (notm e)) tasks in
    exists ms, (measured = [] /\ s' = s \/ measured <> [] /\ run s (map t_circ measured) (map t_shots measured) = Ok (s', ms)) /\
      length out = length tasks /\
      forall i e, nth_error tasks i = Some e ->
        (notm e = true -> nth_error out i = Some (Some (exact_value (unmeasured_value (t_op e))))) /\
        (notm e = false -> exists j m o v, nth_error measured j = Some e /\ j = length (filter (fun e => negb (notm e)) (firstn i tasks)) /\ nth_error ms j = Some m /\
           change_operator_type small to_z (t_op e) = Ok o /\ evs m o = Ok v /\ nth_error out i = Some (Some v)).
  Proof.
    intros Hrun E measured. destruct (avg_spec aeqb Ha small exact_value to_z run evs s tasks s' out Hrun E) as (ms & H1 & H2 & H3).
    exists ms. split; [exact H1|]. split; [exact H2|]. intros i e Hi. specialize (H3 i e Hi). destruct (notm e) eqn:En; split; intros X; try discriminate.
    - exact H3.
    - destruct H3 as (m & o & v & A1 & A2 & A3 & A4). exists (length (filter (fun e => negb (notm e)) (firstn i tasks))), m, o, v.
      assert (Hp : (fun e => negb (notm e)) e = true) by (cbn; rewrite En; reflexivity).
      destruct (positions_nth (fun e => negb (notm e)) tasks 0 i e Hi Hp) as [_ P2]. auto 8.
  Qed.
  (** It only fails when the backend, the conversion to an Ising operator or the averaging of a measured task fails. *)
  Theorem C39_succeeds s tasks :
    (forall cs ns, exists s' ms, run s cs ns = Ok (s', ms)) ->
    (forall e, In e tasks -> notm e = false -> exists o, change_operator_type small to_z (t_op e) = Ok o /\ forall m, exists v, evs m o = Ok v) ->
    exists r, avg s tasks = Ok r.
  Proof.
    intros Hrun He. unfold estimate_by_averaging. rewrite split_eq. rewrite (non_measured_ok aeqb Ha) by (intros e Hi; apply filter_In in Hi; tauto). cbn [rbind].
    set (yes := filter (fun e => negb (notm e)) tasks). destruct yes as [|e0 yes0] eqn:Ey; [cbn; eauto|]. rewrite <- Ey.
    destruct (Hrun (map t_circ yes) (map t_shots yes)) as (s' & ms & ->). cbn [rbind fst snd].
    destruct (mapM_total (fun om => let! o := change_operator_type small to_z (fst om) in evs (snd om) o) (combine (map t_op yes) ms)) as [l ->]; [|cbn; eauto].
    intros [o m] Hin. apply in_combine_l in Hin. apply in_map_iff in Hin as (e & <- & Hin). unfold yes in Hin. apply filter_In in Hin as [H1 H2]. apply Bool.negb_true_iff in H2.
    destruct (He e H1 H2) as (o & E1 & Ev). destruct (Ev m) as [v E2]. exists v. cbn [fst snd]. rewrite E1. exact E2.
  Qed.
  (** calculate_exact_expectation_values: one exact value per task, in order. *)
  Theorem C39_exact {F} (exact : Circ -> op -> result F) (tasks : list tk) r : calculate_exact_expectation_values exact tasks = Ok r ->
    length r = length tasks /\ forall i e, nth_error tasks i = Some e -> exists v, exact (t_circ e) (t_op e) = Ok v /\ nth_error r i = Some v.
  Proof. apply mapM_nth. Qed.
End C39.

(** ** C40 *)
Section C40.
  Context {Op Circ Map : Type} (bind : Circ -> Map -> result Circ).
  Notation tk := (task Op Circ).
  Theorem C40_positionwise (tasks : list tk) maps r : length maps = length tasks -> evaluate_estimation_circuits bind tasks maps = Ok r ->
    length r = length tasks /\ forall i e m, nth_error tasks i = Some e -> nth_error maps i = Some m ->
      exists c, bind (t_circ e) m = Ok c /\ nth_error r i = Some (Build_task (t_op e) c (t_shots e)).
  Proof.
    intros L E. destruct (mapM_nth _ _ _ E) as [L2 H]. rewrite combine_length in L2. split; [lia|]. intros i e m He Hm.
    assert (Hc : nth_error (combine tasks maps) i = Some (e, m)).
    { clear -He Hm. revert tasks maps He Hm. induction i as [|i IH]; intros [|x xs] [|y ys]; cbn; try discriminate; [congruence|auto]. }
    destruct (H i _ Hc) as (y & Ey & Hy). cbn [fst snd] in Ey. destruct (bind (t_circ e) m) as [c|]; cbn in Ey; [|discriminate]. injection Ey as <-. eauto.
  Qed.
  Theorem C40_succeeds (tasks : list tk) maps : (forall e m, In e tasks -> In m maps -> exists c, bind (t_circ e) m = Ok c) ->
    exists r, evaluate_estimation_circuits bind tasks maps = Ok r /\ length r = Nat.min (length tasks) (length maps).
  Proof.
    intros H. destruct (mapM_total (fun em => let! c := bind (t_circ (fst em)) (snd em) in Ok (Build_task (t_op (fst em)) c (t_shots (fst em)))) (combine tasks maps)) as [r E].
    - intros [e m] Hin. destruct (H e m) as [c Hc]; [eapply in_combine_l; eauto|eapply in_combine_r; eauto|]. cbn [fst snd]. rewrite Hc. cbn. eauto.
    - exists r. split; [exact E|]. destruct (mapM_nth _ _ _ E) as [L _]. rewrite L. apply combine_length.
  Qed.
  (** The documented use of a single map for all tasks drops every task but the first. *)
  Theorem C40_single_map_refuted (tasks : list tk) m : (forall e, In e tasks -> exists c, bind (t_circ e) m = Ok c) -> 2 <= length tasks ->
    exists r, evaluate_estimation_circuits bind tasks [m] = Ok r /\ length r = 1.
  Proof.
    intros H L. destruct (C40_succeeds tasks [m]) as (r & E & Lr); [intros e m' He [<-|[]]; auto|]. exists r. split; [exact E|]. rewrite Lr. cbn [length]. lia.
  Qed.
End C40.
Example C40_case : evaluate_estimation_circuits (fun c m => Ok (c + m)) [Build_task true 1 None; Build_task false 2 (Some 3%Z)] [10; 20] =
  Ok [Build_task true 11 None; Build_task false 22 (Some 3%Z)].
Proof. reflexivity. Qed.

(** ** C41 *)
Local Open Scope R_scope.
(** sum over the terms of a group of coefficient^2 times the variance of the term *)
Definition group_variance (g : rgroup) (variance : nat -> R) : R := sum_R (map (fun ic : nat * (term pauli * R) => snd (snd ic) ^ 2 * variance (fst ic)) (combine (seq 0 (length g)) g)).
Definition offset (groups : list rgroup) (i : nat) : nat := sum_nat (map (@length _) (firstn i groups)).
Definition nonconstant (g : rgroup) : rgroup := filter (fun tc => match fst tc with [] => false | _ => true end) g.

Lemma slices groups : forall vs, sum_nat (map (@length _) groups) = length vs -> length (variances_by_slices groups vs) = length groups /\
  forall i g, nth_error groups i = Some g -> nth_error (variances_by_slices groups vs) i = Some (group_variance g (fun j => nth (offset groups i + j) vs 0)).
Proof.
  assert (B : forall (g : rgroup) s vs, (length g <= length vs)%nat ->
     sum_R (map (fun cv => snd (fst cv) ^ 2 * snd cv) (combine g (firstn (length g) vs))) =
     sum_R (map (fun ic : nat * (term pauli * R) => snd (snd ic) ^ 2 * nth (fst ic - s) vs 0) (combine (seq s (length g)) g))).
  { induction g as [|tc g IH]; intros s [|v vs] L; cbn [length] in L; try lia; [reflexivity|reflexivity|]. cbn [length firstn combine map seq sum_R fst snd].
    rewrite Nat.sub_diag. cbn [nth]. f_equal. rewrite (IH (S s) vs) by lia. clear. revert s. assert (G : forall l : list (nat * (term pauli * R)), forall s, (forall x, In x l -> (S s <= fst x)%nat) ->
       sum_R (map (fun ic => snd (snd ic) ^ 2 * nth (fst ic - S s) vs 0) l) = sum_R (map (fun ic => snd (snd ic) ^ 2 * nth (fst ic - s) (v :: vs) 0) l)).
    { induction l as [|x l IH]; intros s H; cbn [map sum_R]; [reflexivity|]. rewrite IH by (intros; apply H; right; auto). f_equal. f_equal.
      specialize (H x (or_introl eq_refl)). replace (fst x - s)%nat with (S (fst x - S s)) by lia. reflexivity. }
    intros s. apply G. intros [i x] Hi. apply in_combine_l in Hi. apply in_seq in Hi. cbn. lia. }
  induction groups as [|g groups IH]; intros vs L; cbn [map sum_nat] in L; cbn [variances_by_slices].
  - split; [reflexivity|]. intros i g H. destruct i; discriminate.
  - cbn [fold_right] in L. destruct (IH (skipn (length g) vs)) as [I1 I2]; [rewrite skipn_length; lia|]. split; [cbn; auto|]. intros i h Hi. destruct i as [|i]; cbn [nth_error] in Hi |- *.
    + injection Hi as <-. f_equal. unfold group_variance, offset. cbn [firstn map sum_nat fold_right Nat.add]. rewrite (B g 0%nat) by lia. f_equal. apply map_ext_in. intros [j x] _. rewrite Nat.sub_0_r. reflexivity.
    + rewrite (I2 i h Hi). f_equal. unfold group_variance, offset. cbn [firstn map sum_nat fold_right]. f_equal. apply map_ext_in. intros [j x] _. cbn [fst snd]. f_equal.
      rewrite <- Nat.add_assoc. generalize (sum_nat (map (length (A := term pauli * R)) (firstn i groups)) + j)%nat. clear. intros k. revert vs. induction (length g) as [|m IHm]; intros vs; [reflexivity|].
      destruct vs as [|v vs]; cbn [skipn]; [rewrite !nth_overflow by (cbn; lia); reflexivity|]. rewrite IHm. reflexivity.
Qed.

(** With expectation values: one variance per group, the sum of c^2 (1 - <P>^2) over the terms of the group, taking the values in the order of the groups. *)
Theorem C41_variances groups values : length values = length (concat groups) -> (forall v, In v values -> -1 <= v <= 1) ->
  exists vs, compute_group_variances groups (Some values) = Ok vs /\ length vs = length groups /\
    forall i g, nth_error groups i = Some g -> nth_error vs i = Some (group_variance g (fun j => 1 - nth (offset groups i + j) values 0 ^ 2)) /\ 0 <= nth i vs 0.
Proof.
  intros L V. unfold compute_group_variances.
  assert (LC : sum_nat (map (@length _) groups) = length (concat groups)).
  { clear. induction groups as [|g gs IH]; [reflexivity|]. cbn [map sum_nat concat]. rewrite app_length, <- IH. reflexivity. }
  rewrite LC, <- L, Nat.eqb_refl. cbn [negb].
  assert (F : forallb in_range values = true).
  { apply forallb_forall. intros v Hv. destruct (V v Hv). unfold in_range. destruct (Rle_dec (-1) v); [|lra]. destruct (Rle_dec v 1); [reflexivity|lra]. }
  rewrite F. cbn [negb]. eexists. split; [reflexivity|]. destruct (slices groups (map (fun v => 1 - v ^ 2) values)) as [S1 S2]; [rewrite map_length; congruence|].
  split; [exact S1|]. intros i g Hi. pose proof (S2 i g Hi) as H.
  assert (E : group_variance g (fun j => nth (offset groups i + j) (map (fun v => 1 - v ^ 2) values) 0) = group_variance g (fun j => 1 - nth (offset groups i + j) values 0 ^ 2)).
  { unfold group_variance. f_equal. apply map_ext_in. intros [j tc] Hj. cbn [fst snd]. f_equal.
    assert (Hlt : (offset groups i + j < length values)%nat).
    { apply in_combine_l, in_seq in Hj. rewrite L. clear -Hi Hj. revert groups Hi. unfold offset. induction i as [|i IH]; intros [|h gs] Hi; try discriminate; cbn [nth_error firstn map sum_nat concat fold_right] in *; rewrite app_length.
      - injection Hi as ->. cbn in *. lia.
      - specialize (IH gs Hi). lia. }
    rewrite (nth_indep _ 0 (1 - 0 ^ 2)) by (rewrite map_length; exact Hlt). rewrite (map_nth (fun v => 1 - v ^ 2)). reflexivity. }
  rewrite H, E. split; [reflexivity|]. rewrite (nth_error_nth _ _ _ H). rewrite E. unfold group_variance. apply sum_R_nonneg. intros x Hx.
  apply in_map_iff in Hx as ([j tc] & <- & Hj). cbn [fst snd].
  assert (Hr : -1 <= nth (offset groups i + j) values 0 <= 1).
  { destruct (Nat.lt_ge_cases (offset groups i + j) (length values)) as [Hlt|Hge]; [apply V, nth_In, Hlt|]. rewrite nth_overflow by exact Hge. lra. }
  apply Rmult_le_pos; [nra|nra].
Qed.
(** Without expectation values: the sum of the squares of the coefficients of the non-constant terms. *)
Theorem C41_variance_bounds groups : (forall g, In g groups -> NoDup (map fst g)) ->
  exists vs, compute_group_variances groups None = Ok vs /\ length vs = length groups /\
    forall i g, nth_error groups i = Some g -> nth_error vs i = Some (sum_R (map (fun tc => snd tc ^ 2) (nonconstant g))) /\ 0 <= nth i vs 0.
Proof.
  intros ND. unfold compute_group_variances. eexists. split; [reflexivity|]. split; [apply map_length|]. intros i g Hi.
  assert (E : variance_upper_bound (remove_constant_term g) = sum_R (map (fun tc => snd tc ^ 2) (nonconstant g))).
  { specialize (ND g (nth_error_In _ _ Hi)). clear -ND. unfold variance_upper_bound, remove_constant_term.
    assert (T : forall g : rgroup, ~ In [] (map fst g) -> nonconstant g = g).
    { clear. induction g as [|[t c] g IH]; intros H; [reflexivity|]. destruct t as [|f t]; [exfalso; apply H; left; reflexivity|]. change (nonconstant ((f :: t, c) :: g)) with ((f :: t, c) :: nonconstant g). rewrite IH; [reflexivity|]. intros X; apply H; right; auto. }
    assert (X : forall g : rgroup, NoDup (map fst g) -> match dget (term_eqb pauli_eqb) [] g with
        | Some c => nonconstant g = ddel (term_eqb pauli_eqb) [] g /\ sum_R (map (fun tc => snd tc ^ 2) g) = c ^ 2 + sum_R (map (fun tc => snd tc ^ 2) (nonconstant g))
        | None => nonconstant g = g end).
    { clear -T. induction g as [|[t c] g IH]; intros N; [reflexivity|]. cbn [map fst] in N. inversion N as [|x l N1 N2]. specialize (IH N2).
      destruct t as [|f t].
      - cbn [dget ddel]. replace (term_eqb pauli_eqb [] []) with true by reflexivity. cbn iota. change (nonconstant (([], c) :: g)) with (nonconstant g). rewrite (T g N1). split; [reflexivity|]. reflexivity.
      - cbn [dget ddel]. replace (term_eqb pauli_eqb [] (f :: t)) with false by reflexivity. cbn iota. change (nonconstant ((f :: t, c) :: g)) with ((f :: t, c) :: nonconstant g). destruct (dget (term_eqb pauli_eqb) [] g) as [c'|].
        + destruct IH as [I1 I2]. split; [rewrite I1; reflexivity|]. cbn [map sum_R snd]. rewrite I2. cbn [map sum_R snd]. ring.
        + rewrite IH; reflexivity. }
    specialize (X g ND). destruct (dget (term_eqb pauli_eqb) [] g) as [c|]; [|congruence]. destruct X as [X1 X2]. destruct (Req_EM_T c 0) as [->|]; [|congruence].
    rewrite X2. ring. }
  assert (H : nth_error (map (fun g => variance_upper_bound (remove_constant_term g)) groups) i = Some (variance_upper_bound (remove_constant_term g))) by exact (map_nth_error (fun g => variance_upper_bound (remove_constant_term g)) i groups Hi).
  rewrite H, E. split; [reflexivity|]. rewrite (nth_error_nth _ _ _ H), E. apply sum_R_nonneg. intros x Hx. apply in_map_iff in Hx as (tc & <- & _). nra.
Qed.
Theorem C41_rejected groups values : length values <> length (concat groups) \/ (exists v, In v values /\ ~ -1 <= v <= 1) ->
  compute_group_variances groups (Some values) = Err ValueError /\ estimate_nmeas_for_frames groups (Some values) = Err ValueError.
Proof.
  intros H. assert (E : compute_group_variances groups (Some values) = Err ValueError); [|unfold estimate_nmeas_for_frames; rewrite E; auto].
  unfold compute_group_variances.
  assert (LC : sum_nat (map (@length _) groups) = length (concat groups)).
  { clear. induction groups as [|g gs IH]; [reflexivity|]. cbn [map sum_nat concat]. rewrite app_length, <- IH. reflexivity. }
  rewrite LC. destruct (Nat.eqb_spec (length (concat groups)) (length values)) as [E|]; [|reflexivity]. cbn [negb]. destruct H as [H|(v & Hv & Hn)]; [congruence|].
  destruct (forallb in_range values) eqn:F; [|reflexivity]. exfalso. rewrite forallb_forall in F. specialize (F v Hv). unfold in_range in F.
  destruct (Rle_dec (-1) v); [|discriminate]. destruct (Rle_dec v 1); [|discriminate]. apply Hn; auto.
Qed.

(** The counts: K2 is the square of the sum of the standard deviations, the per-frame counts add up to it, and the number of terms is counted. *)
Theorem C41_counts groups expecval K2 nterms frame_meas : estimate_nmeas_for_frames groups expecval = Ok (K2, nterms, frame_meas) ->
  exists vs, compute_group_variances groups expecval = Ok vs /\ nterms = length (concat groups) /\ length frame_meas = length vs /\
    K2 = (sum_R (map sqrt vs)) ^ 2 /\ K2 = sum_R frame_meas /\ forall i, (i < length vs)%nat -> nth i frame_meas 0 = sqrt (nth i vs 0) * sum_R (map sqrt vs).
Proof.
  unfold estimate_nmeas_for_frames. destruct (compute_group_variances groups expecval) as [vs|]; cbn [rbind]; [|discriminate]. intros E.
  assert (E2 : K2 = sum_R (map (fun v => sum_R (map sqrt vs) * sqrt v) vs) /\ nterms = sum_nat (map (@length _) groups) /\ frame_meas = map (fun v => sum_R (map sqrt vs) * sqrt v) vs) by (injection E; auto).
  clear E. destruct E2 as (EK & EN & EF). exists vs. split; [reflexivity|]. split.
  { rewrite EN. clear. induction groups as [|g gs IH]; [reflexivity|]. cbn [map sum_nat concat]. rewrite app_length, <- IH. reflexivity. }
  split; [rewrite EF; apply map_length|]. rewrite EF. split; [|split; [exact EK|]].
  - rewrite EK, (sum_R_scale _ sqrt). ring.
  - intros i Hi. rewrite (nth_indep _ 0 (sum_R (map sqrt vs) * sqrt 0)) by (rewrite map_length; exact Hi). rewrite (map_nth (fun v => sum_R (map sqrt vs) * sqrt v)). ring.
Qed.
(** They are optimal: measuring frame i frame_meas_i / eps^2 times gives the total variance eps^2, and no allocation that reaches this variance
    needs fewer than K2 / eps^2 measurements. *)
Theorem C41_optimal groups expecval K2 nterms frame_meas vs eps : estimate_nmeas_for_frames groups expecval = Ok (K2, nterms, frame_meas) ->
  compute_group_variances groups expecval = Ok vs -> (forall v, In v vs -> 0 < v) -> vs <> [] -> 0 < eps ->
  sum_R (map (fun vn => fst vn / (snd vn / eps ^ 2)) (combine vs frame_meas)) = eps ^ 2 /\
  sum_R (map (fun f => f / eps ^ 2) frame_meas) = K2 / eps ^ 2 /\
  forall ns, length ns = length vs -> (forall x, In x ns -> 0 < x) -> sum_R (map (fun vn => fst vn / snd vn) (combine vs ns)) <= eps ^ 2 -> K2 / eps ^ 2 <= sum_R ns.
Proof.
  intros E Ev Hpos Hne He. assert (He2 : 0 < eps ^ 2) by nra. unfold estimate_nmeas_for_frames in E. rewrite Ev in E. cbn [rbind] in E. set (S := sum_R (map sqrt vs)) in *.
  assert (E2 : K2 = sum_R (map (fun v => S * sqrt v) vs) /\ frame_meas = map (fun v => S * sqrt v) vs) by (injection E; auto). clear E. destruct E2 as [-> ->].
  rewrite (sum_R_scale S sqrt). fold S.
  assert (HS : 0 < S).
  { unfold S. destruct vs as [|v vs]; [congruence|]. cbn [map sum_R]. pose proof (sqrt_lt_R0 v (Hpos v (or_introl eq_refl))).
    assert (0 <= sum_R (map sqrt vs)); [|lra]. apply sum_R_nonneg. intros x Hx. apply in_map_iff in Hx as (y & <- & _). apply sqrt_pos. }
  split; [|split].
  - transitivity (eps ^ 2 / S * sum_R (map sqrt vs)); [|fold S; field; lra]. rewrite <- (sum_R_scale (eps ^ 2 / S) sqrt vs). clear Hne Ev. clearbody S. induction vs as [|v vs IH]; [reflexivity|]. cbn [map combine sum_R fst snd].
    rewrite IH by (intros; apply Hpos; right; auto). f_equal. pose proof (Hpos v (or_introl eq_refl)) as Hv. pose proof (sqrt_lt_R0 v Hv). rewrite <- (sqrt_sqrt v) at 1 by lra. field. lra.
  - rewrite map_map. transitivity (S / eps ^ 2 * sum_R (map sqrt vs)); [|fold S; field; lra]. rewrite <- (sum_R_scale (S / eps ^ 2) sqrt vs). f_equal. apply map_ext. intros v. field. lra.
  - intros ns Hl Hn Hb. pose proof (cauchy (combine (map sqrt vs) ns)) as C.
    assert (F1 : map fst (combine (map sqrt vs) ns) = map sqrt vs).
    { clear -Hl. revert ns Hl. induction vs as [|v vs IH]; intros [|x ns] Hl; cbn in *; try discriminate; [reflexivity|]. rewrite IH; auto. }
    assert (F2 : map snd (combine (map sqrt vs) ns) = ns).
    { clear -Hl. revert ns Hl. induction vs as [|v vs IH]; intros [|x ns] Hl; cbn in *; try discriminate; [reflexivity|]. rewrite IH; auto. }
    assert (F3 : map (fun sn => fst sn * fst sn / snd sn) (combine (map sqrt vs) ns) = map (fun vn => fst vn / snd vn) (combine vs ns)).
    { clear -Hpos. revert ns. induction vs as [|v vs IH]; intros [|x ns]; cbn [combine map fst snd]; [reflexivity|reflexivity|reflexivity|]. rewrite sqrt_sqrt by (left; apply Hpos; left; reflexivity).
      rewrite IH; [reflexivity|]. intros; apply Hpos; right; auto. }
    rewrite F1, F2, F3 in C. fold S in C.
    assert (HN : 0 <= sum_R ns) by (apply sum_R_nonneg; intros x Hx; left; auto).
    assert (X : S * S <= eps ^ 2 * sum_R ns).
    { eapply Rle_trans; [apply C|apply Rmult_le_compat_r; auto]. intros [s x] Hx. split; [apply in_combine_l in Hx; apply in_map_iff in Hx as (y & <- & _); apply sqrt_pos|]. apply Hn. eapply in_combine_r; eauto. }
    apply (Rmult_le_reg_r (eps ^ 2)); [exact He2|]. unfold Rdiv. rewrite Rmult_assoc, Rinv_l by lra. lra.
Qed.
Example C41_case : estimate_nmeas_for_frames [[([(0%nat, Pz)], 3)]; [([], 7); ([(0%nat, Px)], 4)]] None = Ok ((3 + 4) * 3 + (3 + 4) * 4, 3%nat, [(3 + 4) * 3; (3 + 4) * 4]).
Proof.
  unfold estimate_nmeas_for_frames, compute_group_variances. cbn [map]. unfold remove_constant_term; cbn -[Rmult Rplus pow sqrt Req_EM_T IZR]. destruct (Req_EM_T 7 0); [lra|].
  cbn -[Rmult Rplus pow sqrt IZR]. unfold variance_upper_bound. cbn -[Rmult Rplus pow sqrt IZR].
  replace (3 ^ 2 + 0) with (3 * 3) by ring. replace (4 ^ 2 + 0) with (4 * 4) by ring. rewrite !sqrt_square by lra. rewrite !Rplus_0_r. reflexivity.
Qed.
Print Assumptions C38_uniform.
Print Assumptions C38_proportional.
Print Assumptions C39_split.
Print Assumptions C39_averaging.
Print Assumptions C39_succeeds.
Print Assumptions C40_positionwise.
Print Assumptions C40_single_map_refuted.
Print Assumptions C41_variances.
Print Assumptions C41_variance_bounds.
Print Assumptions C41_counts.
Print Assumptions C41_optimal.
