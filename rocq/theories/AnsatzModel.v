(** Model of interfaces/ansatz.py, interfaces/ansatz_utils.py and the mock ansatz: cached circuits. *)
From Coq Require Import List ZArith String Bool.
From Verif Require Import Base CircuitModel UtilsModel SymModel EstModel CostModel.
Import ListNotations.
Open Scope string_scope.
Open Scope list_scope.

Section Ansatz.
  Context {V Num Circ : Type}.
  (** Values of instance attributes: the cached circuit (or None), and other values. *)
  Inductive slot := SVal (v : V) | SCircuit (c : option Circ).
  (** the instance's __dict__ *)
  Definition attrs := list (string * slot).
  (** An ansatz: its attributes, and how often _generate_circuit was called without parameters *)
  Record obj := { o_attrs : attrs; o_made : nat }.
  Definition on_attrs {A} (m : M attrs A) : M obj A :=
    fun o => let (d, r) := m (o_attrs o) in ({| o_attrs := d; o_made := o_made o |}, r).
  Definition getattr (name : string) (d : attrs) : option slot := dget String.eqb name d.
  Definition setattr (name : string) (v : slot) (d : attrs) : attrs := dset String.eqb name v d.
  Definition cache : string := "_parametrized_circuit".

  (** ansatz_utils.py:53-70 [DynamicProperty] *)
  Definition attrname (name : string) : string := "_" ++ name.
  Definition dynamic_get (name : string) (default_value : V) : M attrs slot :=
    fun d => let d := match getattr (attrname name) d with Some _ => d | None => setattr (attrname name) (SVal default_value) d end in
             match getattr (attrname name) d with Some v => (d, Ok v) | None => (d, Err AttributeError) end.
  Definition dynamic_set (name : string) (v : V) : M attrs unit := fun d => (setattr (attrname name) (SVal v) d, Ok tt).
  (** 23-25, 42-48: what invalidates the circuit first runs (a setter or a method), and then resets the cache unless it raised *)
  Definition invalidating {A} (target : M attrs A) : M attrs A :=
    do! r := target in fun d => (setattr cache (SCircuit None) d, Ok r).
  (** 73-74 [ansatz_property] *)
  Definition property_get (name : string) (default_value : V) : M attrs slot := dynamic_get name default_value.
  Definition property_set (name : string) (v : V) : M attrs unit := invalidating (dynamic_set name v).

  (** What a subclass defines: whether it supports parametrized circuits, and _generate_circuit() without and with parameters. *)
  Context (supports_parametrized_circuits : bool) (generate : M attrs Circ) (generate_with : list Num -> M attrs Circ)
          (free_symbols : Circ -> list string) (bind : Circ -> list (string * Num) -> result Circ) (key_leb : string -> string -> bool).
  (** ansatz.py:25-48 [__init__] of the base class; [layers] is the value of the number of layers, which may be negative *)
  Definition init (negative : bool) (layers : V) : M attrs unit :=
    if negative then liftM (Err ValueError)
    else do! _ := property_set "number_of_layers" layers in fun d => (setattr cache (SCircuit None) d, Ok tt).
  (** ansatz.py:50-64 *)
  Definition parametrized_circuit : M obj Circ :=
    fun o =>
      match getattr cache (o_attrs o) with
      | None | Some (SVal _) => (o, Err AttributeError)
      | Some (SCircuit (Some c)) => (o, Ok c)
      | Some (SCircuit None) =>
          if supports_parametrized_circuits then
            match generate (o_attrs o) with
            | (d, Ok c) => ({| o_attrs := setattr cache (SCircuit (Some c)) d; o_made := S (o_made o) |}, Ok c)
            | (d, Err e) => ({| o_attrs := d; o_made := S (o_made o) |}, Err e)
            end
          else (o, Err NotImplementedError)
      end.
  (** 71-77 *)
  Definition number_of_params : M obj nat :=
    if supports_parametrized_circuits then do! c := parametrized_circuit in retM (length (free_symbols c)) else liftM (Err NotImplementedError).
  (** 79-94; [None] is the argument None *)
  Definition get_executable_circuit (params : option (list Num)) : M obj Circ :=
    match params with
    | None => liftM (Err GenericException)
    | Some params =>
        if supports_parametrized_circuits then
          do! c := parametrized_circuit in
          let symbols := sort_by key_leb (free_symbols c) in
          do! symbols_map := liftM (create_symbols_map symbols params) in
          do! c' := parametrized_circuit in
          liftM (bind c' symbols_map)
        else on_attrs (generate_with params)
    end.

  (** ** Programs that use an ansatz *)
  (** [AInvalidating]: a setter or method made invalidating by the decorator; [AOther]: any other code that uses the attributes *)
  Inductive action :=
  | ASet (name : string) (v : V) | AGet (name : string) (default_value : V)
  | AInvalidating (body : M attrs unit) | AOther (body : M attrs unit)
  | ACircuit | AParams | AExecute (params : option (list Num)).
  Definition run (a : action) : obj -> obj :=
    match a with
    | ASet n v => fun o => fst (on_attrs (property_set n v) o)
    | AGet n v => fun o => fst (on_attrs (property_get n v) o)
    | AInvalidating b => fun o => fst (on_attrs (invalidating b) o)
    | AOther b => fun o => fst (on_attrs b o)
    | ACircuit => fun o => fst (parametrized_circuit o)
    | AParams => fun o => fst (number_of_params o)
    | AExecute p => fun o => fst (get_executable_circuit p o)
    end.
  Definition run_all (l : list action) (o : obj) : obj := fold_left (fun o a => run a o) l o.
End Ansatz.
Arguments slot V Circ : clear implicits.
Arguments attrs V Circ : clear implicits.
Arguments obj V Circ : clear implicits.
Arguments action V Num Circ : clear implicits.

(** ** The mock ansatz *)
Section Mock.
  Context {Num : Type} (O : sympy_oracle Num).
  Definition circ := circuit Num.
  Notation at_ := (attrs Z circ).
  (** f"theta_{layer_index}" *)
  Definition theta (layer_index : nat) : string := "theta_" ++ str_of_int (Z.of_nat layer_index).
  (** Circuit() *)
  Definition empty_circuit : circ := Build_circuit [] 0%Z.
  (** mock_objects.py:149-152: the two loops *)
  Definition mock_loops (symbols : list string) (number_of_qubits : nat) : result circ :=
    foldM (fun c t => foldM (fun c q => circuit_add c (AddOp (GateOp (gate_RX (PExpr (ESym t))) [q]))) (seq 0 number_of_qubits) c) symbols empty_circuit.
  (** 144-156 [_generate_circuit].  The number of layers is read from the attribute _number_of_layers, the number of qubits from the property *)
  Definition mock_generate (parameters : option (list Num)) : M at_ circ :=
    fun d =>
      match getattr (attrname "number_of_layers") d with
      | Some (SVal layers) =>
          let symbols := map theta (seq 0 (Z.to_nat layers)) in
          match property_get "problem_size" 0%Z d with
          | (d', Ok (SVal n)) =>
              (d', let! c := mock_loops symbols (Z.to_nat n) in
                   match parameters with
                   | None => Ok c
                   | Some p => let! m := create_symbols_map symbols p in circuit_bind O c (map (fun kv => (fst kv, PNum (snd kv))) m)
                   end)
          | (d', Ok _) => (d', Err TypeError)
          | (d', Err e) => (d', Err e)
          end
      | _ => (d, Err AttributeError)
      end.
  (** 134-137.  The default value of the property is None in the code; it is never read, because the constructor sets the property. *)
  Definition mock_init (number_of_layers problem_size : Z) : M at_ unit :=
    do! _ := init (Z.ltb number_of_layers 0) number_of_layers in
    do! _ := property_set "number_of_layers" number_of_layers in
    property_set "problem_size" problem_size.
  (** ansatz.py:96-98: the default sort key *)
  Definition revlex_leb (a b : string) : bool :=
    match key_lt (natural_key_revlex b) (natural_key_revlex a) with Ok true => false | _ => true end.
  Definition mock_bind (c : circ) (m : list (string * Num)) : result circ := circuit_bind O c (map (fun kv => (fst kv, PNum (snd kv))) m).
  Definition mock_circuit : M (obj Z circ) circ := parametrized_circuit true (mock_generate None).
  Definition mock_executable (params : option (list Num)) : M (obj Z circ) circ :=
    get_executable_circuit true (mock_generate None) (fun p => mock_generate (Some p)) circuit_free_symbols mock_bind revlex_leb params.
End Mock.
