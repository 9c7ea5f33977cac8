(** Model of create_object and of the files built on it (utils.py).
    Values are arbitrary; imports and calls are arbitrary programs on a world.  Dictionaries the caller holds live in a store, because create_object removes keys
    from one.  Simplification: what the created functions do cannot reach these dictionaries, as ** hands over copies. *)
From Coq Require Import String.
From Verif Require Import Base Json MatModel UtilsModel CostModel.
Open Scope list_scope.

Section Create.
  Context {V W Mod : Type}.
  Notation dict := (list (string * V)).

  (** Python's functions: parameters that may be given by position or by name, with or without a default, and perhaps a ** parameter.  Other kinds of
      parameters are not modelled. *)
  Record signature := { parameters : list (string * bool); var_keyword : option string }.
  (** inspect.signature(creator).parameters.keys() *)
  Definition parameter_names (sg : signature) : list string := map fst (parameters sg) ++ match var_keyword sg with Some k => [k] | None => [] end.
  (** How Python binds arguments: None stands for a default, the dictionary is that of the ** parameter. *)
  Definition bind_arguments (sg : signature) (args : list V) (kwargs : dict) : result (list (option V) * dict) :=
    let names := map fst (parameters sg) in
    if Nat.ltb (length names) (length args) then Err TypeError
    else if existsb (fun k => memb String.eqb k (firstn (length args) names)) (dkeys kwargs) then Err TypeError
    else
      let extra := filter (fun kv => negb (memb String.eqb (fst kv) names)) kwargs in
      match var_keyword sg, extra with
      | None, _ :: _ => Err TypeError
      | _, _ =>
          let! rest := mapM (fun p : string * bool => match dget String.eqb (fst p) kwargs with Some v => Ok (Some v) | None => if snd p then Ok None else Err TypeError end)
                            (skipn (length args) (parameters sg)) in
          Ok (map Some args ++ rest, extra)
      end.
  (** A function with its signature, or something else that can be called, such as a class *)
  Inductive creator := Function (sg : signature) (body : list (option V) -> dict -> M W V) | Other (call : dict -> M W V).
  Definition call_function (sg : signature) (body : list (option V) -> dict -> M W V) (args : list V) (kwargs : dict) : M W V :=
    fun w => match bind_arguments sg args kwargs with Ok (bound, extra) => body bound extra w | Err e => (w, Err e) end.
  (** {**a, **b} *)
  Definition merge (a b : dict) : dict := fold_left (fun d kv => dset String.eqb (fst kv) (snd kv) d) b a.

  (** What create_object returns: the result of a call, the function itself, or functools.partial of it *)
  Inductive created := Made (v : V) | Plain (sg : signature) (body : list (option V) -> dict -> M W V) | Partial (sg : signature) (body : list (option V) -> dict -> M W V) (keywords : dict).
  (** calling it; the keywords of partial come first and are overridden *)
  Definition call_created (call_value : V -> list V -> dict -> M W V) (c : created) (args : list V) (kwargs : dict) : M W V :=
    match c with
    | Made v => call_value v args kwargs
    | Plain sg body => call_function sg body args kwargs
    | Partial sg body keywords => call_function sg body args (merge keywords kwargs)
    end.

  Record store := { dicts : list dict; world : W }.
  Definition on_world {A} (m : M W A) : M store A := fun s => let (w, r) := m (world s) in ({| dicts := dicts s; world := w |}, r).
  Definition alloc (d : dict) : M store nat := fun s => ({| dicts := dicts s ++ [d]; world := world s |}, Ok (length (dicts s))).
  Definition contents (r : nat) : M store dict := fun s => (s, match nth_error (dicts s) r with Some d => Ok d | None => Err RuntimeError end).
  Fixpoint put (r : nat) (d : dict) (l : list dict) : list dict := match l, r with [], _ => [] | _ :: l', 0 => d :: l' | x :: l', S r' => x :: put r' d l' end.
  Definition write (r : nat) (d : dict) : M store unit := fun s => ({| dicts := put r d (dicts s); world := world s |}, Ok tt).
  (** specs.pop(key) *)
  Definition pop (r : nat) (key : string) : M store V :=
    do! d := contents r in
    match dget String.eqb key d with
    | Some v => do! _ := write r (ddel String.eqb key d) in retM v
    | None => liftM (Err KeyError)
    end.

  Context (import_module : V -> M W Mod) (getattr : Mod -> V -> result creator).
  (** utils.py:413-449 *)
  Definition create_object (specs : nat) (kwargs : dict) : M store created :=
    do! d0 := contents specs in
    do! specs' := alloc d0 in
    do! module_name := pop specs' "module_name" in
    do! module := on_world (import_module module_name) in
    do! creator_name := pop specs' "function_name" in
    do! creator := (fun s => (s, getattr module creator_name)) in
    do! d := contents specs' in
    if existsb (fun k => memb String.eqb k (dkeys kwargs)) (dkeys d) then liftM (Err ValueError)
    else match creator with
         | Function sg body =>
             match kwargs, d with
             | [], [] => retM (Plain sg body)
             | _, _ => retM (Partial sg body (filter (fun kv => memb String.eqb (fst kv) (parameter_names sg)) (merge d kwargs)))
             end
         | Other call => do! v := on_world (call (merge d kwargs)) in retM (Made v)
         end.
  (** utils.py:393-410 [get_func_from_specs]; [warn] is the deprecation warning *)
  Definition get_func_from_specs (warn : M W unit) (specs : nat) : M store created :=
    do! _ := on_world warn in create_object specs [].

  Context {K : cring} (of_json : json K -> V) (call_value : V -> list V -> dict -> M W V).
  Definition of_jdict (d : jdict K) : dict := map (fun kv => (fst kv, of_json (snd kv))) d.
  (** utils.py:609-612 [load_from_specs]; [loads] is json.loads.  Text that is no JSON object is not modelled. *)
  Definition load_from_specs (loads : string -> result (jdict K)) (specs : string + nat) : M store created :=
    match specs with
    | inl text => match loads text with Ok d => do! r := alloc (of_jdict d) in create_object r [] | Err e => liftM (Err e) end
    | inr r => create_object r []
    end.
  (** utils.py:473-494 [save_noise_model]; a file holds a JSON object, as text that json reads back *)
  Definition save_noise_model (data : json K) (module_name function_name : string) : jdict K :=
    [("module_name"%string, JStr module_name); ("function_name"%string, JStr function_name); ("data"%string, data)].
  (** utils.py:452-470 [load_noise_model] *)
  Definition load_noise_model (file : jdict K) : M store V :=
    do! r := alloc (of_jdict file) in
    do! d := contents r in
    let data := match dget String.eqb "data"%string d with Some v => v | None => of_json JNull end in
    do! _ := write r (ddel String.eqb "data"%string d) in
    do! func := create_object r [] in
    on_world (call_created call_value func [data] []).
End Create.
Arguments creator : clear implicits. Arguments created : clear implicits. Arguments store : clear implicits.

(** utils.py:532-553 [save_nmeas_estimate]: the object written to the file *)
Definition save_nmeas_estimate {K : cring} (schema : string) (nmeas nterms : K) (frame_meas : option (ndarray K)) : jdict K :=
  [("schema"%string, JStr schema); ("K"%string, JNum nmeas); ("nterms"%string, JNum nterms)] ++
  match frame_meas with Some a => [("frame_meas"%string, JObj (convert_array_to_dict a))] | None => [] end.
(** utils.py:556-573 [load_nmeas_estimate] *)
Definition load_nmeas_estimate {K : cring} (isz : K -> bool) (file : jdict K) : result (json K * json K * ndarray K) :=
  let! f := jitem "frame_meas" file in
  let! frame_meas := match f with JObj d => convert_dict_to_array isz d | _ => Err TypeError end in
  let! k := jitem "K" file in
  let! n := jitem "nterms" file in
  Ok (k, n, frame_meas).
