(** Model of the files in which results are kept: the save_* and load_* functions of utils.py, measurement.py, serialization.py, circuits/layouts.py, graph.py,
    distribution/_measurement_outcome_distribution.py and openfermion/zapata_utils/_io.py, around the dictionaries modelled in UtilsModel.v, EvModel.v, MeasModel.v, LayoutModel.v,
    DistModel.v, GraphModel.v, ConvModel.v and CreateModel.v; and steps/utils.py, steps/operators.py:212-231. *)
From Coq Require Import String ZArith QArith.
From Verif Require Import Base Json MatModel CostModel.
From Verif Require UtilsModel EvModel MeasModel LayoutModel DistModel GraphModel ConvModel CreateModel OpModel.
Open Scope list_scope.
Local Open Scope nat_scope.

(** ** Files *)
Section Files.
  Context {K : Type}.
  (** What a file holds: text that is no JSON document, for instance none or the beginning of one, or a document. *)
  Inductive content := Torn | Doc (j : json K).
  Definition files := list (string * content).
  (** typing.py: AnyPath is a str, or bytes or an os.PathLike; a LoadSource is one of these or a file-like object, of which the text is [c]. *)
  Inductive path := Str (name : string) | PathLike (name : string).
  Definition name_of (p : path) : string := match p with Str n | PathLike n => n end.
  Inductive source := At (p : path) | Stream (c : content).

  (** with open(filename, "w") as f: f.write(json.dumps(...)).  The file is emptied first; [made] is what the second line computes. *)
  Definition write_document (p : path) (made : result (json K)) : M files unit := fun fs =>
    let fs := dset String.eqb (name_of p) Torn fs in
    match made with Ok j => (dset String.eqb (name_of p) (Doc j) fs, Ok tt) | Err e => (fs, Err e) end.
  (** What the files hold at the moments at which such a program may be stopped. *)
  Definition stopped (p : path) (made : result (json K)) (fs : files) : list files := [fs; dset String.eqb (name_of p) Torn fs; fst (write_document p made fs)].

  (** JSONDecodeError is a ValueError *)
  Definition parse (c : content) : result (json K) := match c with Torn => Err ValueError | Doc j => Ok j end.
  Definition read_file (fs : files) (name : string) : result (json K) :=
    match dget String.eqb name fs with None => Err FileNotFoundError | Some c => parse c end.
  (** Three ways to read: serialization.py:125-135 [ensure_open]; "if isinstance(file, str)", where anything else is handed to json.load, which needs an attribute read, or to
      rapidjson.load (in _io.py), which raises TypeError without one; and open(filename), as in utils.py:567. *)
  Inductive reader := EnsureOpen | IsStr (e : exn) | OpenOnly.
  Definition read (how : reader) (fs : files) (src : source) : result (json K) :=
    match how, src with
    | _, At (Str n) => read_file fs n
    | IsStr e, At (PathLike _) => Err e
    | _, At (PathLike n) => read_file fs n
    | OpenOnly, Stream _ => Err TypeError
    | _, Stream c => parse c
    end.
  Definition as_object (j : json K) : result (jdict K) := match j with JObj d => Ok d | _ => Err TypeError end.
  Definition load {A} (how : reader) (from : jdict K -> result A) (src : source) : M files A := fun fs =>
    (fs, let! j := read how fs src in let! d := as_object j in from d).
  Definition standard := IsStr AttributeError.
  Definition rapid := IsStr TypeError.
End Files.
Arguments content K : clear implicits. Arguments files K : clear implicits. Arguments source K : clear implicits.

(** ** Lists, dictionaries and values given by the caller *)
Section Values.
  Context {K : Type}.
  Notation estimate := (UtilsModel.value_estimate (K := K)).
  (** Python objects in a list or a dictionary; [PEst] is a ValueEstimate, [POther] an object json does not know, such as a numpy integer.  Dictionaries have strings as keys. *)
  Inductive pyobj := PNone | PBool (b : bool) | PNum (x : K) | PStr (s : string) | PList (l : list pyobj) | PTuple (l : list pyobj) | PDict (d : list (string * pyobj))
    | PEst (e : estimate) | POther.
  (** json.dumps: tuples are written as lists; a ValueEstimate is a float (utils.py:239) *)
  Fixpoint dumps (v : pyobj) : result (json K) :=
    let fix all l := match l with [] => Ok [] | x :: l' => let! j := dumps x in let! js := all l' in Ok (j :: js) end in
    let fix dict d := match d with [] => Ok [] | (k, x) :: d' => let! j := dumps x in let! js := dict d' in Ok ((k, j) :: js) end in
    match v with
    | PNone => Ok JNull
    | PBool b => Ok (JBool b)
    | PNum x => Ok (JNum x)
    | PStr s => Ok (JStr s)
    | PList l | PTuple l => let! js := all l in Ok (JArr js)
    | PDict d => let! js := dict d in Ok (JObj js)
    | PEst e => Ok (JNum (UtilsModel.ve_value e))
    | POther => Err TypeError
    end.
  (** utils.py:331-342 [save_value_estimate] and 312-328 [load_value_estimate] *)
  Definition save_value_estimate (e : estimate) (p : path) : M (files K) unit :=
    write_document p (Ok (JObj (jset "schema" (JStr "zapata-v1-value_estimate") (UtilsModel.ve_to_dict e)))).
  Definition load_value_estimate : source K -> M (files K) estimate := load standard UtilsModel.ve_from_dict.
  (** utils.py:364-377 [save_list] and 345-361 [load_list] *)
  Definition save_list (array : pyobj) (p : path) (artifact_name : string) : M (files K) unit :=
    write_document p (dumps (PDict [("schema"%string, PStr ("zapata-v1-" ++ artifact_name ++ "-list")); ("list"%string, array)])).
  Definition load_list : source K -> M (files K) (json K) := load standard (jitem "list").
  (** utils.py:380-390 [save_generic_dict] *)
  Definition save_generic_dict (d : list (string * pyobj)) (p : path) : M (files K) unit :=
    write_document p (dumps (PDict (fold_left (fun d kv => dset String.eqb (fst kv) (snd kv) d) d [("schema"%string, PStr "zapata-v1-dict")]))).
  (** utils.py:518-529 [save_timing] *)
  Definition save_timing (walltime : K) (p : path) : M (files K) unit := write_document p (Ok (JObj [("schema"%string, JStr "zapata-v1-timing"); ("walltime"%string, JNum walltime)])).

  (** _io.py:287-306 [save_parameter_grid_evaluation].  The caller's dictionaries are in a store; the list holds their positions.  Objects other than value estimates have no
      to_dict. *)
  Definition memory := list (list (string * pyobj)).
  Definition estimate_dict (e : estimate) : pyobj :=
    PDict (dset String.eqb "schema"%string (PStr "zapata-v1-value_estimate")
      [("schema"%string, PStr "zapata-v1-value_estimate"); ("value"%string, PNum (UtilsModel.ve_value e));
       ("precision"%string, match UtilsModel.ve_precision e with None => PNone | Some x => PNum (UtilsModel.pyval x) end)]).
  Fixpoint replace (r : nat) (d : list (string * pyobj)) (m : memory) : memory :=
    match m, r with [], _ => [] | _ :: m', O => d :: m' | x :: m', S r' => x :: replace r' d m' end.
  Fixpoint convert_evaluations (refs : list nat) : M memory unit := fun m =>
    match refs with
    | [] => (m, Ok tt)
    | r :: rest =>
        match nth_error m r with
        | None => (m, Err RuntimeError)
        | Some d =>
            match dget String.eqb "value"%string d with
            | None => (m, Err KeyError)
            | Some (PEst e) => convert_evaluations rest (replace r (dset String.eqb "value"%string (estimate_dict e) d) m)
            | Some _ => (m, Err AttributeError)
            end
        end
    end.
  Definition save_parameter_grid_evaluation (refs : list nat) (p : path) : M (memory * files K) unit := fun s =>
    match convert_evaluations refs (fst s) with
    | (m, Err e) => ((m, snd s), Err e)
    | (m, Ok _) =>
        let (fs, r) := write_document p (dumps (PDict [("schema"%string, PStr "zapata-v1-parameter_grid_evaluation"); ("values_set"%string, PList (map (fun r => PDict (nth r m [])) refs))])) (snd s) in
        ((m, fs), r)
    end.
  (** steps/utils.py:13-20 [generate_random_list_of_integers]; [integers] is np.random.default_rng(seed).integers with the given keywords, followed by tolist: of a scalar,
      that is a number *)
  Definition generate_random_list_of_integers {Kw} (integers : option Z -> Kw -> result pyobj) (seed : option Z) (kwargs : Kw) : M (files K) unit :=
    do! generated_integers := liftM (integers seed kwargs) in save_list generated_integers (Str "integers.json") "".
End Values.
Arguments pyobj K : clear implicits. Arguments memory K : clear implicits.

(** ** Arrays *)
Section Arrays.
  Context {K : cring} (isz : K -> bool).
  Import UtilsModel EvModel.
  Notation fstate := (files K).
  (** serialization.py:141-152 [save_array] and 155-168 [load_array] *)
  Definition save_array (a : ndarray K) (p : path) : M fstate unit := write_document p (Ok (JObj [("schema"%string, JStr "zapata-v1-array"); ("array"%string, JObj (convert_array_to_dict a))])).
  Definition load_array : source K -> M fstate (ndarray K) := load EnsureOpen (fun d => let! j := jitem "array" d in array_of isz j).
  (** measurement.py:37-50 and 53-66 *)
  Definition save_expectation_values (e : ev_obj K) (p : path) : M fstate unit := write_document p (Ok (JObj (jset "schema" (JStr "zapata-v1-expectation_values") (ev_to_dict e)))).
  Definition load_expectation_values : source K -> M fstate (ev_obj K) := load EnsureOpen (ev_from_dict isz).
  (** measurement.py:256-267 and 270-283 *)
  Definition save_parities (e : par_obj K) (p : path) : M fstate unit := write_document p (Ok (JObj (EvModel.save_parities e))).
  Definition load_parities : source K -> M fstate (par_obj K) := load EnsureOpen (par_from_dict isz).
  (** measurement.py:86-97 and 69-83; [mk] is the constructor of wavefunctions *)
  Definition save_wavefunction (amplitudes : ndarray K) (p : path) : M fstate unit := write_document p (Ok (JObj (EvModel.save_wavefunction amplitudes))).
  Definition load_wavefunction {W} (mk : ndarray K -> result W) : source K -> M fstate W := load EnsureOpen (EvModel.load_wavefunction isz mk).
  (** utils.py:532-551 and 554-573 *)
  Definition save_nmeas_estimate (nmeas nterms : K) (p : path) (frame_meas : option (ndarray K)) : M fstate unit :=
    write_document p (Ok (JObj (CreateModel.save_nmeas_estimate "zapata-v1-hamiltonian_analysis" nmeas nterms frame_meas))).
  Definition load_nmeas_estimate : source K -> M fstate (json K * json K * ndarray K) := load OpenOnly (CreateModel.load_nmeas_estimate isz).
  (** _io.py:72-84 and 54-69 *)
  Definition save_interaction_operator (o : ConvModel.interaction (K := K)) (p : path) : M fstate unit :=
    write_document p (Ok (JObj (ConvModel.interaction_to_dict "zapata-v1-interaction_op" o))).
  Definition load_interaction_operator : source K -> M fstate (ConvModel.interaction (K := K)) := load rapid (ConvModel.dict_to_interaction isz).
  (** A pair of reduced density matrices.  _io.py:309-321 [convert_interaction_rdm_to_dict] and 324-334 [convert_dict_to_interaction_rdm] *)
  Record rdm := { one_body : ndarray K; two_body : ndarray K }.
  Definition rdm_to_dict (r : rdm) : jdict K :=
    [("schema"%string, JStr "zapata-v1-interaction_rdm"); ("one_body_tensor"%string, JObj (convert_array_to_dict (one_body r))); ("two_body_tensor"%string, JObj (convert_array_to_dict (two_body r)))].
  Definition dict_to_rdm (d : jdict K) : result rdm :=
    let! o := ConvModel.array_field isz "one_body_tensor" d in
    let! t := ConvModel.array_field isz "two_body_tensor" d in
    Ok {| one_body := o; two_body := t |}.
  (** _io.py:355-364 and 337-352 *)
  Definition save_interaction_rdm (r : rdm) (p : path) : M fstate unit := write_document p (Ok (JObj (rdm_to_dict r))).
  Definition load_interaction_rdm : source K -> M fstate rdm := load rapid dict_to_rdm.
End Arrays.
Arguments rdm K : clear implicits.

(** ** Operators *)
Section Operators.
  Context {K : cring} {R : Type} (py : ConvModel.pynum K R) (im : K) (small : K -> bool).
  Import OpModel ConvModel.
  Notation fstate := (files (jnum R)).
  (** _io.py:141-149 and 152-166 *)
  Definition save_qubit_operator (a : qop K) (p : path) : M fstate unit := write_document p (Ok (JObj (operator_to_dict py pauli_name "zapata-v1-qubit_op" a))).
  Definition qubit_from : jdict (jnum R) -> result (qop K) := dict_to_operator py pauli_eqb (qubit_simplify im) small pauli_of_name.
  Definition load_qubit_operator : source (jnum R) -> M fstate (qop K) := load rapid qubit_from.
  (** _io.py:275-284 and 256-272 *)
  Definition save_ising_operator (a : isop K) (p : path) : M fstate unit := write_document p (Ok (JObj (operator_to_dict py z_name "zapata-v1-ising_op" a))).
  Definition ising_from : jdict (jnum R) -> result (isop K) := dict_to_operator py zact_eqb ising_simplify small z_of_name.
  Definition load_ising_operator : source (jnum R) -> M fstate (isop K) := load rapid ising_from.
  (** _io.py:169-184 and 187-205 *)
  Definition save_qubit_operator_set (l : list (qop K)) (p : path) : M fstate unit :=
    write_document p (Ok (JObj [("schema"%string, JStr "zapata-v1-circuit_set"); ("qubit_operators"%string, JArr (map (fun a => JObj (operator_to_dict py pauli_name "zapata-v1-qubit_op" a)) l))])).
  Definition load_qubit_operator_set : source (jnum R) -> M fstate (list (qop K)) :=
    load rapid (fun d => let! j := jitem "qubit_operators" d in
                         match j with JArr l => mapM (fun j => let! d := as_object j in qubit_from d) l | _ => Err TypeError end).
  (** steps/operators.py:212-231 *)
  Inductive operators := NamedOps (name : string) | GivenOps (l : list (qop K)).
  Definition operators_of (a : operators) : M fstate (list (qop K)) := match a with NamedOps n => load_qubit_operator_set (At (Str n)) | GivenOps l => retM l end.
  Definition concatenate_qubit_operator_lists (a b : operators) : M fstate unit :=
    do! x := operators_of a in
    do! y := operators_of b in
    save_qubit_operator_set (x ++ y) (Str "concatenated-qubit-operators.json").
  (** _io.py:208-226 [get_pauli_strings] *)
  Definition get_pauli_strings (a : qop K) : list string :=
    map (fun tc => fold_left (fun s f => (s ++ pauli_name (snd f) ++ UtilsModel.str_of_int (Z.of_nat (fst f)))%string) (fst tc) ""%string) a.
End Operators.
Arguments operators K : clear implicits.

(** ** Layouts, measurements, distributions and graphs *)
(** layouts.py:36-46 and 49-64; 120-130 and 133-148; 67-77 and 80-95 *)
Definition save_circuit_layers (l : list (list (list nat))) (p : path) : M (files nat) unit :=
  write_document p (Ok (LayoutModel.with_schema "zapata-v1-circuit_layers" (LayoutModel.layers_to_dict l))).
Definition load_circuit_layers : source nat -> M (files nat) (list (list (list nat))) := load standard (fun d => LayoutModel.layers_from_dict (JObj d)).
Definition save_circuit_connectivity (l : list (list nat)) (p : path) : M (files nat) unit :=
  write_document p (Ok (LayoutModel.with_schema "zapata-v1-circuit_connectivity" (LayoutModel.connectivity_to_dict l))).
Definition load_circuit_connectivity : source nat -> M (files nat) (list (list nat)) := load standard (fun d => LayoutModel.connectivity_from_dict (JObj d)).
Definition save_circuit_ordering (l : list nat) (p : path) : M (files nat) unit := write_document p (Ok (LayoutModel.ordering_to_dict l)).
Definition load_circuit_ordering : source nat -> M (files nat) (list nat) := load standard (fun d => LayoutModel.ordering_from_dict (JObj d)).
(** measurement.py:669-685 and 651-667 *)
Definition save_measurements (m : MeasModel.measurements) (p : path) : M (files Z) unit := write_document p (Ok (JObj (MeasModel.measurements_to_json m))).
Definition load_measurements : source Z -> M (files Z) MeasModel.measurements := load standard MeasModel.load_measurements.
(** _measurement_outcome_distribution.py:231-253 and 283-304; 256-280 and 307-338 *)
Definition save_distribution (d : DistModel.dist) (p : path) : M (files Q) unit := write_document p (Ok (JObj (DistModel.save_dist d))).
Definition load_distribution : source Q -> M (files Q) DistModel.dist := load standard DistModel.load_dist.
Definition save_distributions (l : list DistModel.dist) (p : path) : M (files Q) unit := write_document p (Ok (JObj (DistModel.save_dists l))).
Definition load_distributions : source Q -> M (files Q) (list DistModel.dist) := load standard DistModel.load_dists.
(** graph.py:19-31 and 34-44 *)
Definition save_graph (g : GraphModel.graph) (p : path) : M (files Q) unit := write_document p (Ok (JObj (GraphModel.save_graph g))).
Definition load_graph : source Q -> M (files Q) GraphModel.graph := load EnsureOpen GraphModel.load_graph.
