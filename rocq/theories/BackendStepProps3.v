(** C94: cost functions made from specifications; concrete cases. *)
From Coq Require Import String Lia.
From Verif Require GaussQ.
From Verif Require Import Base BaseFacts Json MatModel UtilsModel CostModel CreateModel CreateProps BackendStepModel BackendStepSpec BackendStepProofs BackendStepProps BackendStepProps2.
Open Scope list_scope.

Section C94c.
  Context {V W Mod : Type} (import_module : V -> M W Mod) (getattr : Mod -> V -> result (creator V W)).
  Context {K : cring} (of_json : json K -> V) (call_value : V -> list V -> list (string * V) -> M W V).
  Context (of_created : created V W -> V) (of_list : list V -> V) (none : V) (text_of : V -> option string) (truthy : V -> bool).
  Context (loads : string -> result (jdict K)) (tracking_backend : V -> V -> V -> M W V).
  Notation dict := (list (string * V)).
  Notation get k d := (dget String.eqb k%string d).
  Notation backend_step := (backend_from_specs import_module getattr of_json call_value of_created none truthy loads tracking_backend).
  Notation eval_ansatz := (evaluate_ansatz import_module getattr of_json of_created text_of loads).
  Notation method_step := (estimation_method import_module getattr of_json of_created loads).
  Notation pre_step := (preprocessors import_module getattr of_json of_created loads).
  Notation evaluate := (evaluate_cost_function import_module getattr of_json call_value of_created of_list none text_of truthy loads tracking_backend).
  Notation specifies := (specifies (W := W) of_json loads).

  Lemma bind_inv {S A B} (m : M S A) (k : A -> M S B) s s' b : bindM m k s = (s', Ok b) -> exists s1 a, m s = (s1, Ok a) /\ k a s1 = (s', Ok b).
  Proof. unfold bindM. destruct (m s) as [s1 [a|e]]; [|discriminate]. intros H. now exists s1, a. Qed.
  Lemma bind_err_inv {S A B} (m : M S A) (k : A -> M S B) s : (exists e, snd (m s) = Err e) \/ (exists s1 a, m s = (s1, Ok a) /\ bindM m k s = k a s1).
  Proof. unfold bindM. destruct (m s) as [s1 [a|e]]; [right; now exists s1, a|left; now exists e]. Qed.
  (** the entry [k] of dictionary [r] *)
  Notation entry s r k x := (exists d, nth_error (dicts s) r = Some d /\ get k d = x).
  Lemma set_inv r k (v : V) (s s' : store V W) u : set_item r k v s = (s', Ok u) ->
    entry s' r k (Some v) /\ forall k' x, k' <> k -> entry s r k' x -> entry s' r k' x.
  Proof.
    unfold set_item. intros H. apply bind_inv in H as (s1 & d & H1 & H2). unfold contents in H1. destruct (nth_error (dicts s) r) as [d0|] eqn:E; [|discriminate]. injection H1 as <- <-. injection H2 as <- _.
    cbn [dicts]. split.
    - exists (dset String.eqb k v d0). split; [eapply put_same, E|apply (dget_dset_same _ string_eqb_ok)].
    - intros k' x N (d & G & Q). injection G as <-. exists (dset String.eqb k v d0). split; [eapply put_same, E|]. rewrite (dget_dset_other _ string_eqb_ok) by congruence. exact Q.
  Qed.
  Lemma only_entry (P : nat -> string -> Prop) (s s' : store V W) r k x : changes_only P s s' -> ~ P r k -> entry s r k x -> entry s' r k x.
  Proof. intros O N (d & G & Q). destruct (O r d G) as (d' & G' & A & _). exists d'. split; [exact G'|]. rewrite A by exact N. exact Q. Qed.

  Definition refused (d : dict) : Prop := In "estimator-specs"%string (dkeys d) \/ In "estimation-tasks-transformations-specs"%string (dkeys d).
  (** A cost function is made from its specification and the operator, the ansatz, the backend, the estimation method and, if they are given, the preprocessors. *)
  Theorem C94_cost_function ansatz_specs backend_specs cost_specs operator averaging method pre noise conn prior kwargs s s' v :
    evaluate ansatz_specs backend_specs cost_specs operator averaging method pre noise conn prior kwargs s = (s', Ok v) ->
    exists w0 target s1 ansatz s2 backend s3 s4 me s5 rc,
      operator (world s) = (w0, Ok target) /\ eval_ansatz ansatz_specs target {| dicts := dicts s; world := w0 |} = (s1, Ok ansatz) /\
      backend_step backend_specs noise conn s1 = (s2, Ok backend) /\ method_step averaging method s3 = (s4, Ok me) /\
      (forall r0, cost_specs = inr r0 -> rc = r0) /\
      new import_module getattr of_created rc [] s5 = (s', Ok v) /\
      entry s5 rc "target_operator" (Some target) /\ entry s5 rc "ansatz" (Some ansatz) /\ entry s5 rc "backend" (Some backend) /\ entry s5 rc "estimation_method" (Some me) /\
      (forall d k, specifies s2 cost_specs d -> ~ In k ["target_operator"; "ansatz"; "backend"; "estimation_method"; "estimation_preprocessors"; "prior_expectation_values"]%string -> entry s5 rc k (get k d)) /\
      (forall d, specifies s2 cost_specs d -> ~ refused d) /\
      match pre with
      | Some l => exists prior_values s6 s7 vs, pre_step prior_values kwargs l s6 = (s7, Ok vs) /\ (prior = None <-> prior_values = None) /\ entry s5 rc "estimation_preprocessors" (Some (of_list vs))
      | None => forall d, specifies s2 cost_specs d -> entry s5 rc "estimation_preprocessors" (get "estimation_preprocessors" d)
      end.
  Proof.
    unfold evaluate_cost_function. intros H. apply bind_inv in H as (sa & target & Ha & H). unfold on_world in Ha. destruct (operator (world s)) as [w0 [t|]] eqn:Eo; [|discriminate]. injection Ha as <- <-.
    apply bind_inv in H as (s1 & ansatz & H1 & H). apply bind_inv in H as (s2 & backend & H2 & H). apply bind_inv in H as (s3a & rc & Hd & H). apply bind_inv in H as (s3b & dc & Hc & H).
    unfold contents in Hc. destruct (nth_error (dicts s3a) rc) as [d0|] eqn:Ec; [|discriminate]. injection Hc as <- <-. destruct (_ || _) eqn:Ef; [discriminate|].
    apply bind_inv in H as (s3 & pv & Hp & H). apply bind_inv in H as (s4 & me & Hm & H). apply bind_inv in H as (sb & [] & Hsm & H). apply bind_inv in H as (sc & [] & Hpre & H).
    apply bind_inv in H as (sd & [] & Ht & H). apply bind_inv in H as (se & [] & Han & H). apply bind_inv in H as (sf & [] & Hb & H).
    exists w0, t, s1, ansatz, s2, backend, s3, s4, me, sf, rc.
    assert (Hrc : (forall r0, cost_specs = inr r0 -> rc = r0) /\ forall d, specifies s2 cost_specs d -> d = d0).
    { split.
      - intros r0 ->. cbn [dictionary] in Hd. injection Hd as _ <-. reflexivity.
      - intros d Q. destruct (dictionary_run of_json loads s2 cost_specs d Q) as (l & r & E & G & _ & _). rewrite Hd in E. injection E as -> ->. cbn [dicts] in Ec. congruence. }
    destruct Hrc as [Hrc Hd0].
    assert (Kp : kept s3a s3). { destruct prior as [load|]; [|injection Hp as <- _; apply kept_refl]. apply bind_inv in Hp as (sx & x & Q & R). injection R as <- _. unfold on_world in Q. destruct (load (world s3a)) as [w [y|]]; [|discriminate]. injection Q as <- _. intros r d G. exact G. }
    assert (Km : changes_nothing s3 s4). { pose proof (frames_method import_module getattr of_json call_value of_created none text_of truthy loads tracking_backend (length (dicts s3)) (fun r k => length (dicts s3) <= r \/ False) averaging method) as F. apply finish_frames in F. rewrite Hm in F. exact F. }
    assert (E3 : forall k x, get k d0 = x -> entry s4 rc k x). { intros k x Q. eapply only_entry; [exact Km|tauto|]. exists d0. split; [apply Kp; exact Ec|exact Q]. }
    destruct (set_inv _ _ _ _ _ _ Hsm) as [M1 M2]. destruct (set_inv _ _ _ _ _ _ Ht) as [T1 T2]. destruct (set_inv _ _ _ _ _ _ Han) as [A1 A2]. destruct (set_inv _ _ _ _ _ _ Hb) as [B1 B2].
    assert (Kpre : forall k x, k <> "estimation_preprocessors"%string -> k <> "prior_expectation_values"%string -> entry sb rc k x -> entry sc rc k x).
    { intros k x N1 N2 Q. destruct pre as [l|]; [|injection Hpre as <-; exact Q]. apply bind_inv in Hpre as (sx & vs & Hvs & Hset). destruct (set_inv _ _ _ _ _ _ Hset) as [_ S2]. apply S2; [exact N1|].
      pose proof (frames_pre import_module getattr of_json call_value of_created none text_of truthy loads tracking_backend (length (dicts sb)) (fun r k => length (dicts sb) <= r \/ k = "prior_expectation_values"%string) pv kwargs l) as F.
      specialize (F (fun r k Q => or_introl Q) (fun r _ _ => or_intror eq_refl)). apply finish_frames in F. rewrite Hvs in F. cbn [fst] in F. eapply only_entry; [exact F|exact N2|exact Q]. }
    split; [reflexivity|]. split; [exact H1|]. split; [exact H2|]. split; [exact Hm|]. split; [exact Hrc|]. split; [exact H|].
    split; [apply B2; [discriminate|]; apply A2; [discriminate|]; exact T1|]. split; [apply B2; [discriminate|]; exact A1|]. split; [exact B1|].
    split; [apply B2; [discriminate|]; apply A2; [discriminate|]; apply T2; [discriminate|]; apply Kpre; [discriminate..|]; exact M1|]. split; [|split].
    - intros d k Q N. rewrite (Hd0 d Q). cbn [In] in N. apply B2; [intros ->; apply N; auto 6|]. apply A2; [intros ->; apply N; auto 6|]. apply T2; [intros ->; apply N; auto 6|].
      apply Kpre; [intros ->; apply N; auto 8..|]. apply M2; [intros ->; apply N; auto 6|]. now apply E3.
    - intros d Q R. rewrite (Hd0 d Q) in R. apply orb_false_iff in Ef as [F1 F2]. destruct R as [R|R]; apply (memb_In _ string_eqb_ok) in R; congruence.
    - destruct pre as [l|].
      + apply bind_inv in Hpre as (sx & vs & Hvs & Hset). exists pv, sb, sx, vs. split; [exact Hvs|]. split.
        * destruct prior as [load|]; [|injection Hp as _ <-; tauto]. apply bind_inv in Hp as (sy & x & Q & R). injection R as _ <-. split; discriminate.
        * destruct (set_inv _ _ _ _ _ _ Hset) as [S1 _]. apply B2; [discriminate|]. apply A2; [discriminate|]. apply T2; [discriminate|]. exact S1.
      + intros d Q. rewrite (Hd0 d Q). injection Hpre as <-. apply B2; [discriminate|]. apply A2; [discriminate|]. apply T2; [discriminate|]. apply M2; [discriminate|]. now apply E3.
  Qed.
  (** Estimation settings inside the cost function's specification are refused before anything is written into it, but after the backend was made. *)
  Theorem C94_refused ansatz_specs backend_specs cost_specs operator averaging method pre noise conn prior kwargs s w0 target s1 ansatz s2 backend d :
    operator (world s) = (w0, Ok target) -> eval_ansatz ansatz_specs target {| dicts := dicts s; world := w0 |} = (s1, Ok ansatz) -> backend_step backend_specs noise conn s1 = (s2, Ok backend) ->
    specifies s2 cost_specs d -> refused d ->
    exists s', evaluate ansatz_specs backend_specs cost_specs operator averaging method pre noise conn prior kwargs s = (s', Err RuntimeError) /\ kept s2 s' /\ world s' = world s2.
  Proof.
    intros Ho Ha Hb Hs R. unfold evaluate_cost_function. erewrite bind_ok by (unfold on_world; rewrite Ho; reflexivity). rewrite (bind_ok _ _ _ _ _ Ha), (bind_ok _ _ _ _ _ Hb).
    destruct (dictionary_run of_json loads s2 cost_specs d Hs) as (l & r & E & G & _ & _). rewrite (bind_ok _ _ _ _ _ E), (bind_ok _ _ _ _ _ (contents_run _ _ _ _ G)).
    assert (X : memb String.eqb "estimator-specs"%string (dkeys d) || memb String.eqb "estimation-tasks-transformations-specs"%string (dkeys d) = true).
    { apply orb_true_iff. destruct R as [R|R]; [left|right]; now apply (memb_In _ string_eqb_ok). }
    rewrite X. eexists. split; [reflexivity|]. split; [apply extends_kept; now exists l|reflexivity].
  Qed.
End C94c.

(** ** Concrete cases *)
Inductive val := VText (s : string) | VTrue | VNone | VMade (name : string) (kwargs : list (string * val)) | VTracker (b f r : val) | VList (l : list val).
Definition ex_loads (t : string) : result (jdict GaussQ.GQ) :=
  Ok [("module_name"%string, JStr "m"%string); ("function_name"%string, JStr t)].
Definition ex_of_json (j : json GaussQ.GQ) : val := match j with JStr s => VText s | JBool true => VTrue | _ => VNone end.
Definition ex_import (v : val) : M (list string) unit := fun w => (w, Ok tt).
(** every name is a class, whose instances show how they were made; the names are logged *)
Definition ex_getattr (_ : unit) (f : val) : result (creator val (list string)) :=
  match f with
  | VText n => if contains "noise" n then Ok (Function {| parameters := [("data"%string, false)]; var_keyword := None |} (fun args _ w => (w ++ [n], Ok (VMade n []))))
               else Ok (Other (fun kw w => (w ++ [n], Ok (VMade n kw))))
  | _ => Err TypeError
  end.
Definition ex_call (v : val) (_ : list val) (_ : list (string * val)) : M (list string) val := fun w => (w, Ok v).
Definition ex_created (c : created val (list string)) : val := match c with Made v => v | _ => VNone end.
Definition ex_text (v : val) : option string := match v with VText t => Some t | _ => None end.
Definition ex_truthy (v : val) : bool := match v with VNone => false | _ => true end.
Definition ex_tracker (b f r : val) : M (list string) val := fun w => (w ++ ["tracker"%string], Ok (VTracker b f r)).
Definition ex_backend := backend_from_specs ex_import ex_getattr ex_of_json ex_call ex_created VNone ex_truthy ex_loads ex_tracker.
Definition ex_evaluate := evaluate_cost_function ex_import ex_getattr ex_of_json ex_call ex_created VList VNone ex_text ex_truthy ex_loads ex_tracker.
Definition specs_of (name : string) (l : list (string * val)) : list (string * val) := ("module_name"%string, VText "m"%string) :: ("function_name"%string, VText name) :: l.
Definition start (l : list (list (string * val))) : store val (list string) := {| dicts := l; world := [] |}.
Definition ex_noise : jdict GaussQ.GQ := save_noise_model JNull "m"%string "noise"%string.
Open Scope string_scope.

Example C94_tracked_example :
  ex_backend (inr 0) None None (start [specs_of "B" [("n_samples", VText "7"); ("track_measurements", VTrue); ("raw_data_file_name", VText "raw.json")]]) =
  ({| dicts := [specs_of "B" [("n_samples", VText "7"); ("track_measurements", VTrue); ("raw_data_file_name", VText "raw.json")];
                [("n_samples", VText "7"); ("track_measurements", VTrue); ("raw_data_file_name", VText "raw.json")]]; world := ["B"; "tracker"] |},
   Ok (VTracker (VMade "B" [("n_samples", VText "7"); ("track_measurements", VTrue); ("raw_data_file_name", VText "raw.json")]) (VText "raw.json") VNone)).
Proof. vm_compute. reflexivity. Qed.
(** The documentation asks only for track_measurements and promises the file raw_data.json: the step fails, with the backend made. *)
Theorem C94_documented_tracking_refuted : exists s', ex_backend (inr 0) None None (start [specs_of "B" [("track_measurements", VTrue)]]) = (s', Err KeyError) /\ world s' = ["B"].
Proof. eexists. split; [vm_compute; reflexivity|reflexivity]. Qed.
(** Two steps with one dictionary: the second asks for no noise model and gets the first one's. *)
Theorem C94_noise_remembered_refuted :
  let s := start [specs_of "B" []] in
  snd (ex_backend (inr 0) None None s) = Ok (VMade "B" []) /\
  snd (ex_backend (inr 0) None None (fst (ex_backend (inr 0) (Some ex_noise) None s))) = Ok (VMade "B" [("noise_model", VMade "noise" [])]).
Proof. split; vm_compute; reflexivity. Qed.
(** The same with preprocessors in the specification of a cost function. *)
Theorem C94_preprocessors_remembered_refuted :
  let s := start [specs_of "C" []] in
  let run pre := ex_evaluate (inl "A") (inl "B") (inr 0) (fun w => (w, Ok (VText "op"))) (VText "averaging") None pre None None None [] in
  (exists kw, snd (run None s) = Ok (VMade "C" kw) /\ dget String.eqb "estimation_preprocessors" kw = None) /\
  (exists kw, snd (run None (fst (run (Some [inl "P"]) s))) = Ok (VMade "C" kw) /\ dget String.eqb "estimation_preprocessors" kw = Some (VList [VMade "P" []])).
Proof. split; (eexists; split; [vm_compute; reflexivity|reflexivity]). Qed.
Example C94_specifies_example : specifies ex_of_json ex_loads (start [specs_of "B" []]) (inr 0) (specs_of "B" []) /\
  names_class ex_import ex_getattr (specs_of "B" []) [] [] (fun kw w => ((w ++ ["B"])%list, Ok (VMade "B" kw))) /\
  reads_noise ex_import ex_getattr ex_of_json ex_call ex_noise [] ["noise"] (VMade "noise" []).
Proof.
  split; [reflexivity|]. split; [exists (VText "m"), (VText "B"), tt; repeat split|].
  eapply C94_saved_noise with (mo := tt) (w' := []); reflexivity.
Qed.
Example C94_names_example : (exists a b, "QAOAFarhiAnsatz" = a ++ "QAOA" ++ b) /\ ~ (exists a b, "QAOAFarhiAnsatz" = a ++ "WarmStartQAOAAnsatz" ++ b).
Proof. split; [now exists "", "FarhiAnsatz"|]. intros Q. apply contains_spec in Q. discriminate Q. Qed.
Example C94_preprocessors_example :
  snd (preprocessors ex_import ex_getattr ex_of_json ex_created ex_loads (Some (VText "prior")) [("n", VTrue)] [inl "P"; inr 0; inl "R"] (start [specs_of "Q" [("x", VNone)]])) =
  Ok [VMade "P" [("prior_expectation_values", VText "prior"); ("n", VTrue)]; VMade "Q" [("x", VNone); ("prior_expectation_values", VText "prior"); ("n", VTrue)]; VMade "R" [("prior_expectation_values", VText "prior"); ("n", VTrue)]].
Proof. vm_compute. reflexivity. Qed.

Print Assumptions C94_backend_changes. Print Assumptions C94_optimize_changes. Print Assumptions C94_evaluate_changes. Print Assumptions C94_backend. Print Assumptions C94_tracking.
Print Assumptions C94_tracking_needs_name. Print Assumptions C94_remembered. Print Assumptions C94_optimize_qaoa. Print Assumptions C94_evaluate_qaoa. Print Assumptions C94_optimize_then_evaluate_refuted.
Print Assumptions C94_preprocessors. Print Assumptions C94_cost_function. Print Assumptions C94_refused. Print Assumptions C94_noise_remembered_refuted.
