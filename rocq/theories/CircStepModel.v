(** Model of steps/circuit.py, on files; with save_circuit, save_circuitset, load_circuit, load_circuitset (circuits/_serde.py) and save_array, load_array
    (serialization.py). *)
From Coq Require Import String ZArith QArith.
From Verif Require Import Base Json MatModel CircuitModel SerdeModel CostModel.
Open Scope list_scope.
Local Open Scope nat_scope.

Section Steps.
  (** [X]: numbers in arrays *)
  Context {Num X : Type} (T : text_oracle Num).
  (** What a file holds: nothing that can be parsed, a document, or the document of a one-dimensional real array.  Documents are those of circuits and lists of circuits. *)
  Inductive content := Torn | Doc (j : js) | Numbers (l : list X).
  Definition files := list (string * content).
  (** an argument is an object or the name of a file *)
  Inductive arg (A : Type) := Named (name : string) | Given (a : A).

  (** open(name, "w") empties the file before the document is made: _serde.py:297-304, serialization.py:125-135 *)
  Definition save_document (name : string) (made : result content) : M files unit := fun fs =>
    let fs := dset String.eqb name Torn fs in
    match made with Ok c => (dset String.eqb name c fs, Ok tt) | Err e => (fs, Err e) end.
  (** _serde.py:297-299 *)
  Definition save_circuit (c : circuit Num) (name : string) : M files unit := save_document name (let! j := circuit_to_dict T c in Ok (Doc j)).
  (** _serde.py:302-304, of a list *)
  Definition save_circuitset (cs : list (circuit Num)) (name : string) : M files unit := save_document name (let! j := circuitset_to_dict T cs in Ok (Doc j)).
  (** JSONDecodeError is a ValueError *)
  Definition read (fs : files) (name : string) : result content :=
    match dget String.eqb name fs with None => Err FileNotFoundError | Some Torn => Err ValueError | Some c => Ok c end.
  (** _serde.py:287-289; an array has another schema *)
  Definition load_circuit (name : string) : M files (circuit Num) := fun fs =>
    (fs, let! c := read fs name in match c with Doc j => circuit_from_dict T j | _ => Err ValueError end).
  (** _serde.py:292-294 *)
  Definition load_circuitset (name : string) : M files (list (circuit Num)) := fun fs =>
    (fs, let! c := read fs name in match c with Doc j => circuitset_from_dict T j | _ => Err ValueError end).
  (** serialization.py:141-152 *)
  Definition save_array (l : list X) (name : string) : M files unit := save_document name (Ok (Numbers l)).
  (** serialization.py:155-168; data["array"] of a circuit *)
  Definition load_array (name : string) : M files (list X) := fun fs =>
    (fs, let! c := read fs name in match c with Numbers l => Ok l | _ => Err KeyError end).

  Definition circuit_arg (a : arg (circuit Num)) : M files (circuit Num) := match a with Named _ n => load_circuit n | Given _ c => retM c end.

  (** 22-39.  [load_from_specs] makes an ansatz, of which the number of parameters is read; [uniform seed low high n] is what np.random gives *)
  Definition generate_random_ansatz_params {Sp} (load_from_specs : Sp -> result Z) (uniform : option Z -> X -> X -> Z -> result (list X))
      (ansatz_specs : option Sp) (number_of_parameters : option Z) (min_value max_value : X) (seed : option Z) : M files unit :=
    match ansatz_specs, number_of_parameters with
    | Some _, Some _ | None, None => liftM (Err AssertionError)
    | Some s, None => do! n := liftM (load_from_specs s) in do! params := liftM (uniform seed min_value max_value n) in save_array params "params.json"
    | None, Some n => do! params := liftM (uniform seed min_value max_value n) in save_array params "params.json"
    end.
  (** 43-47 *)
  Definition combine_params (params1 params2 : string) : M files unit :=
    do! parameters1 := load_array params1 in
    do! parameters2 := load_array params2 in
    save_array (parameters1 ++ parameters2) "combined-params.json".
  (** an ansatz, as far as the step uses it *)
  Record ansatz := { get_executable_circuit : list X -> result (circuit Num); supports_parametrized_circuits : bool; parametrized_circuit : result (circuit Num) }.
  (** 51-70 *)
  Definition build_ansatz_circuit {Sp} (load_from_specs : Sp -> result ansatz) (specs : Sp) (params : option (arg (list X))) : M files unit :=
    do! a := liftM (load_from_specs specs) in
    do! circuit := match params with
                   | Some (Named _ n) => do! l := load_array n in liftM (get_executable_circuit a l)
                   | Some (Given _ l) => liftM (get_executable_circuit a l)
                   | None => if supports_parametrized_circuits a then liftM (parametrized_circuit a) else liftM (Err GenericException)
                   end in
    save_circuit circuit "circuit.json".
  (** 95-101 *)
  Definition add_ancilla_register_to_circuit (number_of_ancilla_qubits : nat) (circuit : arg (circuit Num)) : M files unit :=
    do! c := circuit_arg circuit in
    do! extended := liftM (add_ancilla_register c number_of_ancilla_qubits) in
    save_circuit extended "extended-circuit.json".
  (** 105-109; to_dict of a circuit is its own document, also in save_circuitset; an element that is no circuit is not considered *)
  Definition concatenate_circuits (circuit_set : arg (list (circuit Num))) : M files unit :=
    do! cs := match circuit_set with Named _ n => load_circuitset n | Given _ cs => retM cs end in
    do! empty := liftM (mk_circuit [] None) in
    do! result := liftM (foldM (fun acc c => circuit_add acc (AddCircuit c)) cs empty) in
    save_circuit result "result-circuit.json".
  (** 113-134.  The state is the files and the list of the caller, which is the one extended if the argument is [Own] *)
  Inductive set_arg := NoSet | Stored (name : string) | Own.
  Definition on_files {A} (m : M files A) : M (files * list (circuit Num)) A := fun s => let (fs, r) := m (fst s) in ((fs, snd s), r).
  Fixpoint append_loop (own : bool) (circuits : list (arg (circuit Num))) (l : list (circuit Num)) : M (files * list (circuit Num)) (list (circuit Num)) :=
    match circuits with
    | [] => retM l
    | a :: rest => do! c := on_files (circuit_arg a) in
                   fun s => append_loop own rest (l ++ [c]) (fst s, if own then l ++ [c] else snd s)
    end.
  Definition batch_circuits (circuits : list (arg (circuit Num))) (circuit_set : set_arg) : M (files * list (circuit Num)) unit :=
    do! l := match circuit_set with NoSet => retM [] | Stored n => on_files (load_circuitset n) | Own => (fun s => (s, Ok (snd s))) end in
    do! l := append_loop (match circuit_set with Own => true | _ => false end) circuits l in
    on_files (save_circuitset l "circuit-set.json").
  (** 137-149: circuits have no attribute symbolic_params; the arguments are evaluated first *)
  Definition evaluate_parametrized_circuit (parametrized_circuit : arg (circuit Num)) (parameters : arg (list X)) : M files unit :=
    do! c := circuit_arg parametrized_circuit in
    do! p := match parameters with Named _ n => load_array n | Given _ l => retM l end in
    liftM (Err AttributeError).
End Steps.
Arguments Named {A} name. Arguments Given {A} a. Arguments content : clear implicits. Arguments files : clear implicits. Arguments ansatz : clear implicits.
Arguments Numbers {X} l. Arguments Doc {X} j. Arguments Torn {X}.
