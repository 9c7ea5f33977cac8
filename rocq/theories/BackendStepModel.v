(** Model of the workflow steps that build their backends, ansatzes and cost functions from specifications (steps/measure.py, steps/evaluation.py, steps/optimize.py).
    Dictionaries live in the store of CreateModel; a specification is text or a dictionary the caller holds.  Everything a step calls besides create_object and
    load_noise_model is an arbitrary program on the world.  Simplification: text that is no JSON object is an error of [loads]. *)
From Coq Require Import String.
From Verif Require Import Base Json MatModel UtilsModel CostModel CreateModel.
Open Scope list_scope.

(** [sub in s] for strings *)
Fixpoint contains (sub s : string) : bool :=
  String.prefix sub s || match s with EmptyString => false | String _ s' => contains sub s' end.

Section Steps.
  Context {V W Mod : Type} (import_module : V -> M W Mod) (getattr : Mod -> V -> result (creator V W)).
  Context {K : cring} (of_json : json K -> V) (call_value : V -> list V -> list (string * V) -> M W V).
  (** [of_created]: the object create_object returned as a value; [of_list]: a list of values as a value; [text_of]: the text of a str; [truthy]: bool() *)
  Context (of_created : created V W -> V) (of_list : list V -> V) (none : V) (text_of : V -> option string) (truthy : V -> bool).
  Context (loads : string -> result (jdict K)) (tracking_backend : V -> V -> V -> M W V).
  Notation dict := (list (string * V)).
  Notation create := (create_object import_module getattr).

  (** The first lines of every step: [if isinstance(specs, str): specs = json.loads(specs)] *)
  Definition dictionary (specs : string + nat) : M (store V W) nat :=
    match specs with
    | inl text => match loads text with Ok d => alloc (of_jdict of_json d) | Err e => liftM (Err e) end
    | inr r => retM r
    end.
  (** specs[key] = v *)
  Definition set_item (r : nat) (key : string) (v : V) : M (store V W) unit := do! d := contents r in write r (dset String.eqb key v d).
  (** specs[key] *)
  Definition get_item (r : nat) (key : string) : M (store V W) V :=
    do! d := contents r in match dget String.eqb key d with Some v => retM v | None => liftM (Err KeyError) end.
  Definition new (r : nat) (kwargs : dict) : M (store V W) V := do! c := create r kwargs in retM (of_created c).

  (** steps/measure.py:59-75, 93-108, 125-139, 180-196; steps/evaluation.py:76-85 and steps/optimize.py:86-94, 209-217 with no noise model and no connectivity.
      [noise_model] is the content of the file, [device_connectivity] reads the other file. *)
  Definition backend_from_specs (specs : string + nat) (noise_model : option (jdict K)) (device_connectivity : option (M W V)) : M (store V W) V :=
    do! r := dictionary specs in
    do! _ := match noise_model with Some file => do! v := load_noise_model import_module getattr of_json call_value file in set_item r "noise_model" v | None => retM tt end in
    do! _ := match device_connectivity with Some load => do! v := on_world load in set_item r "device_connectivity" v | None => retM tt end in
    do! backend := new r [] in
    do! d := contents r in
    if match dget String.eqb "track_measurements"%string d with Some v => truthy v | None => false end then
      do! file_name := get_item r "raw_data_file_name" in
      on_world (tracking_backend backend file_name match dget String.eqb "record_bitstrings"%string d with Some v => v | None => none end)
    else retM backend.

  (** [x in specs["function_name"]] and [specs["function_name"] == x] *)
  Definition name_contains (r : nat) (sub : string) : M (store V W) bool :=
    do! f := get_item r "function_name" in match text_of f with Some s => retM (contains sub s) | None => liftM (Err TypeError) end.
  Definition name_is (r : nat) (name : string) : M (store V W) bool :=
    do! f := get_item r "function_name" in match text_of f with Some s => retM (String.eqb s name) | None => retM false end.

  (** steps/optimize.py:199-207; [thetas]: reading the file named by the keyword thetas, or none given *)
  Definition optimize_ansatz (specs : string + nat) (target : V) (thetas : option (M W V)) : M (store V W) V :=
    do! r := dictionary specs in
    do! warm := name_contains r "WarmStartQAOAAnsatz" in
    do! _ :=
      if warm then
        do! t := match thetas with Some load => on_world load | None => liftM (Err KeyError) end in
        do! _ := set_item r "thetas" t in
        set_item r "cost_hamiltonian" target
      else
        do! qaoa := name_contains r "QAOA" in
        if qaoa then set_item r "cost_hamiltonian" target else retM tt in
    new r [].
  (** steps/measure.py:173-178 *)
  Definition evaluate_ansatz (specs : string + nat) (target : V) : M (store V W) V :=
    do! r := dictionary specs in
    do! farhi := name_is r "QAOAFarhiAnsatz" in
    if farhi then new r [("cost_hamiltonian"%string, target)] else new r [].

  (** steps/measure.py:214-219, steps/optimize.py:96-101 and 219-224; [averaging] is estimate_expectation_values_by_averaging *)
  Definition estimation_method (averaging : V) (specs : option (string + nat)) : M (store V W) V :=
    match specs with Some sp => do! r := dictionary sp in new r [] | None => retM averaging end.
  (** steps/optimize.py:103-112 and 226-235 (no prior values, no keywords); steps/measure.py:223-245 *)
  Fixpoint preprocessors (prior : option V) (kwargs : dict) (l : list (string + nat)) : M (store V W) (list V) :=
    match l with
    | [] => retM []
    | sp :: l' =>
        do! r := dictionary sp in
        do! _ := match prior with Some p => set_item r "prior_expectation_values" p | None => retM tt end in
        do! v := new r kwargs in
        do! rest := preprocessors prior kwargs l' in
        retM (v :: rest)
    end.

  (** steps/optimize.py:191-261 from the optimizer to the call of minimize: [run] is everything after *)
  Definition optimize_ansatz_based_cost_function (optimizer_specs : string + nat) (target : M W V) (ansatz_specs backend_specs : string + nat)
      (averaging : V) (estimation_method_specs : option (string + nat)) (preprocessors_specs : option (list (string + nat))) (thetas : option (M W V))
      (run : V -> V -> V -> V -> V -> list V -> M W unit) : M (store V W) unit :=
    do! ro := dictionary optimizer_specs in
    do! optimizer := new ro [] in
    do! operator := on_world target in
    do! ansatz := optimize_ansatz ansatz_specs operator thetas in
    do! backend := backend_from_specs backend_specs None None in
    do! method := estimation_method averaging estimation_method_specs in
    do! pre := match preprocessors_specs with Some l => preprocessors None [] l | None => retM [] end in
    on_world (run optimizer operator ansatz backend method pre).

  (** steps/measure.py:149-256: the cost function; [operator] is the target operator read from its file.  Simplification: the list of preprocessors is written
      into the dictionary once it is complete, the code writes the empty list first and appends. *)
  Definition evaluate_cost_function (ansatz_specs backend_specs cost_specs : string + nat) (operator : M W V) (averaging : V)
      (estimation_method_specs : option (string + nat)) (preprocessors_specs : option (list (string + nat)))
      (noise_model : option (jdict K)) (device_connectivity : option (M W V)) (prior : option (M W V)) (kwargs : dict) : M (store V W) V :=
    do! target := on_world operator in
    do! ansatz := evaluate_ansatz ansatz_specs target in
    do! backend := backend_from_specs backend_specs noise_model device_connectivity in
    do! rc := dictionary cost_specs in
    do! d := contents rc in
    if memb String.eqb "estimator-specs"%string (dkeys d) || memb String.eqb "estimation-tasks-transformations-specs"%string (dkeys d) then liftM (Err RuntimeError)
    else
      do! prior_values := match prior with Some load => do! v := on_world load in retM (Some v) | None => retM None end in
      do! method := estimation_method averaging estimation_method_specs in
      do! _ := set_item rc "estimation_method" method in
      do! _ := match preprocessors_specs with
               | Some l => do! pre := preprocessors prior_values kwargs l in set_item rc "estimation_preprocessors" (of_list pre)
               | None => retM tt
               end in
      do! _ := set_item rc "target_operator" target in
      do! _ := set_item rc "ansatz" ansatz in
      do! _ := set_item rc "backend" backend in
      new rc [].
End Steps.
