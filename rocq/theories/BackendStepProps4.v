(** C94: what the optimization step minimizes. *)
From Coq Require Import String Lia.
From Verif Require GaussQ.
From Verif Require Import Base BaseFacts Json MatModel UtilsModel CostModel CreateModel CreateProps BackendStepModel BackendStepSpec BackendStepProofs BackendStepProps BackendStepProps2 BackendStepProps3.
Open Scope list_scope.

Section C94d.
  Context {V W Mod : Type} (import_module : V -> M W Mod) (getattr : Mod -> V -> result (creator V W)).
  Context {K : cring} (of_json : json K -> V) (call_value : V -> list V -> list (string * V) -> M W V).
  Context (of_created : created V W -> V) (of_list : list V -> V) (none : V) (text_of : V -> option string) (truthy : V -> bool).
  Context (loads : string -> result (jdict K)) (tracking_backend : V -> V -> V -> M W V).
  Notation backend_step := (backend_from_specs import_module getattr of_json call_value of_created none truthy loads tracking_backend).
  Notation opt_ansatz := (optimize_ansatz import_module getattr of_json of_created text_of loads).
  Notation pre_step := (preprocessors import_module getattr of_json of_created loads).
  Notation optimize := (optimize_ansatz_based_cost_function import_module getattr of_json call_value of_created none text_of truthy loads tracking_backend).
  Notation make := (new import_module getattr of_created).
  (** the object that a specification describes, made in state [s] *)
  Notation made s specs s' x := (exists s0 r, dictionary of_json loads specs s = (s0, Ok r) /\ make r [] s0 = (s', Ok x)).

  (** The optimization that is run gets the optimizer, the operator, the ansatz, the backend, the estimation method and the preprocessors, each made from its own
      specification, in that order; without a specification the estimation method is averaging and there are no preprocessors. *)
  Theorem C94_optimize_run optimizer_specs target ansatz_specs backend_specs averaging method pre thetas run s s' u :
    optimize optimizer_specs target ansatz_specs backend_specs averaging method pre thetas run s = (s', Ok u) ->
    exists s1 optimizer w operator s2 ansatz s3 backend s4 me s5 pres,
      made s optimizer_specs s1 optimizer /\ target (world s1) = (w, Ok operator) /\
      opt_ansatz ansatz_specs operator thetas {| dicts := dicts s1; world := w |} = (s2, Ok ansatz) /\
      backend_step backend_specs None None s2 = (s3, Ok backend) /\
      match method with Some m => made s3 m s4 me | None => s4 = s3 /\ me = averaging end /\
      match pre with Some l => pre_step None [] l s4 = (s5, Ok pres) /\ length pres = length l | None => s5 = s4 /\ pres = [] end /\
      run optimizer operator ansatz backend me pres (world s5) = (world s', Ok u) /\ dicts s' = dicts s5.
  Proof.
    unfold optimize_ansatz_based_cost_function. intros H. apply bind_inv in H as (s0 & r & H0 & H). apply bind_inv in H as (s1 & optimizer & H1 & H). apply bind_inv in H as (sa & operator & Ha & H).
    unfold on_world at 1 in Ha. destruct (target (world s1)) as [w [t|]] eqn:Et; [|discriminate]. injection Ha as <- <-.
    apply bind_inv in H as (s2 & ansatz & H2 & H). apply bind_inv in H as (s3 & backend & H3 & H). apply bind_inv in H as (s4 & me & H4 & H). apply bind_inv in H as (s5 & pres & H5 & H).
    exists s1, optimizer, w, t, s2, ansatz, s3, backend, s4, me, s5, pres.
    split; [now exists s0, r|]. split; [exact Et|]. split; [exact H2|]. split; [exact H3|]. split.
    { destruct method as [m|]; cbn in H4.
      - unfold estimation_method in H4. apply bind_inv in H4 as (sb & rb & Hb & H4). now exists sb, rb.
      - injection H4 as <- <-. now split. }
    split.
    { destruct pre as [l|]; [|injection H5 as <- <-; now split]. split; [exact H5|]. clear - H5. revert s4 s5 pres H5. induction l as [|x l IH]; intros s4 s5 pres H5; cbn in H5.
      - injection H5 as _ <-. reflexivity.
      - repeat (apply bind_inv in H5 as (? & ? & ? & H5)). unfold retM in H5. injection H5 as _ <-. cbn. f_equal. eapply IH; eassumption. }
    unfold on_world in H. destruct (run optimizer t ansatz backend me pres (world s5)) as [w' [[]|]] eqn:Er; [|discriminate]. injection H as <- <-. cbn. split; reflexivity.
  Qed.
End C94d.

Open Scope string_scope.
(** An optimization whose estimation method has its own specification: the run gets that method. *)
Definition ex_optimize := optimize_ansatz_based_cost_function ex_import ex_getattr ex_of_json ex_call ex_created VNone ex_text ex_truthy ex_loads ex_tracker.
Definition ex_run (o t a b m : val) (p : list val) : M (list string) unit :=
  fun w => match m, p with VMade n _, [VMade q _] => ((w ++ ["run"; n; q])%list, Ok tt) | _, _ => (w, Err TypeError) end.
Example C94_optimize_run_case :
  let r := ex_optimize (inr 0) (fun w => (w, Ok (VText "operator"))) (inr 1) (inr 2) VTrue (Some (inr 3)) (Some [inr 4]) None ex_run
             (start [specs_of "Opt" []; specs_of "Ansatz" []; specs_of "B" []; specs_of "Method" []; specs_of "Pre" []]) in
  snd r = Ok tt /\ world (fst r) = ["Opt"; "Ansatz"; "B"; "Method"; "Pre"; "run"; "Method"; "Pre"].
Proof. vm_compute. split; reflexivity. Qed.
Print Assumptions C94_optimize_run.
