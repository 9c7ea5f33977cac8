(** Model of circuits/_serde.py, of the equality of gates and circuits, and of [collect_custom_gate_definitions]. *)
From Coq Require Import String ZArith QArith.
From Verif Require Import Base Json CircuitModel GateMatModel.
Open Scope list_scope.
Local Open Scope string_scope.

(** Numbers in circuit files are integers; expressions are written as text. *)
Definition js := json Z.

Section Serde.
  Context {Num : Type}.

  (** What is left to sympy: [ser p] is [str(p)] (_serde.py:19-20), [deser s names] is
      [sympify(s, locals=_make_symbols_map(names))] (23-45), and [elem_eq a b] is
      [_are_matrix_elements_equal(a, b)] (_gates.py:428-444). *)
  Record text_oracle := {
    ser : param Num -> string;
    deser : string -> list string -> expr Num;
    elem_eq : param Num -> param Num -> bool;
  }.
  Context (T : text_oracle).

  (** ** Equality *)
  (** [_are_matrices_equal] _gates.py:447-451: zip of the flattened (row-major) matrices *)
  Definition matrices_equal (m1 m2 : list (list (expr Num))) : bool :=
    forallb (fun ab => elem_eq T (PExpr (fst ab)) (PExpr (snd ab))) (combine (concat m1) (concat m2)).
  (** [CustomGateDefinition.__eq__] _gates.py:412-425 *)
  Definition def_eq (d1 d2 : custom_def Num) : bool :=
    String.eqb (cd_name d1) (cd_name d2) && list_eqb String.eqb (cd_ordering d1) (cd_ordering d2)
    && matrices_equal (cd_matrix d1) (cd_matrix d2).
  (** matrix factories: functions are compared by identity, [CustomGateMatrixFactory.__eq__] _gates.py:363-373 *)
  Definition factory_eq (f1 f2 : factory Num) : bool :=
    match f1, f2 with
    | FBuiltin a, FBuiltin b => String.eqb a b
    | FCustom d1, FCustom d2 =>
        list_eqb String.eqb (cd_ordering d1) (cd_ordering d2) && matrices_equal (cd_matrix d1) (cd_matrix d2)
    | _, _ => false
    end.
  (** [MatrixFactoryGate.__eq__] _gates.py:217-235 and the generated [__eq__] of the frozen dataclasses *)
  Fixpoint gate_eq (g1 g2 : gate Num) : bool :=
    match g1, g2 with
    | MFG n1 f1 p1 q1 h1, MFG n2 f2 p2 q2 h2 =>
        String.eqb n1 n2 && factory_eq f1 f2 && Z.eqb q1 q2 && Bool.eqb h1 h2 && Nat.eqb (length p1) (length p2)
        && forallb (fun ab => elem_eq T (fst ab) (snd ab)) (combine p1 p2)
    | Controlled w1 k1, Controlled w2 k2 => gate_eq w1 w2 && Z.eqb k1 k2
    | Dagger w1, Dagger w2 => gate_eq w1 w2
    | _, _ => false
    end.
  Definition op_eq (o1 o2 : operation Num) : bool :=
    match o1, o2 with
    | GateOp g1 q1, GateOp g2 q2 => gate_eq g1 g2 && list_eqb Nat.eqb q1 q2
    | _, _ => false   (* MultiPhaseOperation: not considered here *)
    end.
  (** [Circuit.__eq__] _circuit.py:86-93 *)
  Definition circuit_eq (c1 c2 : circuit Num) : bool :=
    Z.eqb (c_nq c1) (c_nq c2) && list_eqb op_eq (c_ops c1) (c_ops c2).

  (** ** Custom gate definitions *)
  (** [_n_qubits] _gates.py:337-341 for rectangular matrices; log2(0) is a ValueError *)
  Definition def_qubits (m : list (list (expr Num))) : result nat :=
    let n := Nat.log2 (length m) in
    if Nat.eqb (length m) 0 then Err ValueError
    else if Nat.eqb (2 ^ n) (length m) && forallb (fun r => Nat.eqb (length r) (2 ^ n)) m then Ok n else Err ValueError.
  (** [CustomGateDefinition(...)] _gates.py:396-402 *)
  Definition mk_def (name : string) (m : list (list (expr Num))) (ordering : list sym) : result (custom_def Num) :=
    let! _ := def_qubits m in Ok {| cd_name := name; cd_matrix := m; cd_ordering := ordering |}.
  (** [CustomGateDefinition.__call__] _gates.py:404-410 *)
  Definition call_def (d : custom_def Num) (ps : list (param Num)) : result (gate Num) :=
    let! n := def_qubits (cd_matrix d) in Ok (MFG (cd_name d) (FCustom d) ps (Z.of_nat n) false).

  (** _circuit.py:28-31 and the generator in 100-104; an operation without [gate] is an AttributeError *)
  Definition custom_of (o : operation Num) : result (list (custom_def Num)) :=
    match o with
    | GateOp (MFG _ (FCustom d) _ _ _) _ => Ok [d]
    | GateOp _ _ => Ok []
    | MultiPhase _ => Err AttributeError
    end.
  (** _circuit.py:105-116.  The generator is lazy; errors of either kind leave no trace, so the order of the two is
      the order in the list of operations. *)
  Definition add_def (u : list (string * custom_def Num)) (o : operation Num) : result (list (string * custom_def Num)) :=
    let! ds := custom_of o in
    foldM (fun u d =>
      match dget String.eqb (cd_name d) u with
      | None => Ok (dset String.eqb (cd_name d) d u)
      | Some d' => if negb (def_eq d' d) then Err ValueError else Ok u
      end) ds u.
  Definition collect_custom_gate_definitions (c : circuit Num) : result (list (custom_def Num)) :=
    let! u := foldM add_def (c_ops c) [] in
    Ok (sort_by (fun a b => String.leb (cd_name a) (cd_name b)) (dvals u)).

  (** ** Serialization *)
  Definition CIRCUIT_SCHEMA := "zapata-v1-circuit-v2".
  Definition CIRCUITSET_SCHEMA := "zapata-v1-circuitset-v2".
  Definition jopt {A} (l : list A) (k : string) (v : js) : jdict Z := match l with [] => [] | _ => [(k, v)] end.
  Definition jstrs (l : list string) : js := JArr (map JStr l).

  (** 125-134, 146-160 *)
  Fixpoint gate_to_dict (g : gate Num) : js :=
    match g with
    | MFG n _ ps _ _ =>
        let fs := get_free_symbols ps in
        JObj (("name", JStr n) :: jopt ps "params" (jstrs (map (ser T) ps))
                ++ jopt fs "free_symbols" (jstrs (sort_by String.leb fs)))
    | Controlled w k => JObj [("name", JStr "Control"); ("wrapped_gate", gate_to_dict w); ("num_control_qubits", JNum k)]
    | Dagger w => JObj [("name", JStr "Dagger"); ("wrapped_gate", gate_to_dict w)]
    end.
  (** 115-122 *)
  Definition op_to_dict (o : operation Num) : result js :=
    match o with
    | GateOp g qs => Ok (JObj [("type", JStr "gate_operation"); ("gate", gate_to_dict g);
                               ("qubit_indices", JArr (map (fun q => JNum (Z.of_nat q)) qs))])
    | MultiPhase _ => Err NotImplementedError
    end.
  (** 137-143 and 52-56; [serialize_expr] of a symbol is its name *)
  Definition def_to_dict (d : custom_def Num) : js :=
    JObj [("gate_name", JStr (cd_name d)); ("matrix", JArr (map (fun r => jstrs (map (fun e => ser T (PExpr e)) r)) (cd_matrix d)));
          ("params_ordering", jstrs (cd_ordering d))].
  (** 74-98 *)
  Definition circuit_to_dict (c : circuit Num) : result js :=
    let! defs := collect_custom_gate_definitions c in
    let! ops := mapM op_to_dict (c_ops c) in
    Ok (JObj (("schema", JStr CIRCUIT_SCHEMA) :: ("n_qubits", JNum (c_nq c)) :: jopt (c_ops c) "operations" (JArr ops)
                ++ jopt defs "custom_gate_definitions" (JArr (map def_to_dict defs)))).
  (** 101-112 *)
  Definition circuitset_to_dict (cs : list (circuit Num)) : result js :=
    let! l := mapM circuit_to_dict cs in Ok (JObj [("schema", JStr CIRCUITSET_SCHEMA); ("circuits", JArr l)]).

  (** ** Deserialization.  Values of an unexpected JSON type are a TypeError here. *)
  Definition as_dict (j : js) : result (jdict Z) := match j with JObj d => Ok d | _ => Err TypeError end.
  Definition as_str (j : js) : result string := match j with JStr s => Ok s | _ => Err TypeError end.
  Definition as_int (j : js) : result Z := match j with JNum n => Ok n | _ => Err TypeError end.
  Definition as_list (j : js) : result (list js) := match j with JArr l => Ok l | _ => Err TypeError end.
  Definition as_strs (j : js) : result (list string) := let! l := as_list j in mapM as_str l.
  (** [d.get(k, [])] *)
  Definition get_list (k : string) (d : jdict Z) : result (list js) := match jget k d with Some j => as_list j | None => Ok [] end.
  Definition get_strs (k : string) (d : jdict Z) : result (list string) := match jget k d with Some j => as_strs j | None => Ok [] end.

  (** What [globals()[name]] finds in the module _builtin_gates.py (24-30): a gate, a gate prototype, or one of the
      other module-level names, which is no gate. *)
  Inductive global := GGate (b : builtin) | GPrototype (b : builtin) | GOther.
  Definition other_globals : list string :=
    ["Callable"; "Union"; "_gates"; "_matrices"; "GatePrototype"; "GateRef"; "make_parametric_gate_prototype"; "builtin_gate_by_name";
     "__name__"; "__doc__"; "__package__"; "__loader__"; "__spec__"; "__file__"; "__cached__"; "__builtins__"].
  Definition builtin_gate_by_name (name : string) : result global :=
    match find (fun b => String.eqb (b_name b) name) builtins with
    | Some b => Ok (if Nat.eqb (b_arity b) 0 then GGate b else GPrototype b)
    | None => if memb String.eqb name other_globals then Ok GOther else Err KeyError
    end.
  Definition mk_builtin (b : builtin) (ps : list (param Num)) : gate Num := MFG (b_name b) (FBuiltin (b_fun b)) ps (b_nq b) (b_herm b).

  (** 207-220.  A result that is no gate (a prototype, another module-level object, or a gate applied to parameters) is
      written as the error GenericException. *)
  Definition builtin_gate_from_dict (d : jdict Z) : result (gate Num) :=
    let! jn := jitem "name" d in
    let! name := as_str jn in
    let! gate_ref := builtin_gate_by_name name in
    let! params := get_strs "params" d in
    match params with
    | [] => match gate_ref with GGate b => Ok (mk_builtin b []) | _ => Err GenericException end
    | _ =>
        let! fs := get_strs "free_symbols" d in
        match gate_ref with
        | GPrototype b => Ok (mk_builtin b (map (fun p => PExpr (deser T p fs)) params))
        | _ => Err GenericException
        end
    end.
  (** 246-265.  [symbol_names] is an iterator: the first parameter sees all names, the others none. *)
  Definition deser_with_iterator (names : list string) (params : list string) : list (param Num) :=
    match params with [] => [] | p :: ps => PExpr (deser T p names) :: map (fun p => PExpr (deser T p [])) ps end.
  Definition custom_gate_instance_from_dict (d : jdict Z) (defs : list (custom_def Num)) : result (gate Num) :=
    let! jn := jitem "name" d in
    let! name := as_str jn in
    match find (fun g => String.eqb (cd_name g) name) defs with
    | None => Err ValueError
    | Some gd => let! params := get_strs "params" d in call_def gd (deser_with_iterator (cd_ordering gd) params)
    end.
  (** [_gate_from_dict(dict_["wrapped_gate"], custom_gate_defs)] *)
  Definition wrapped_from (read : js -> result (gate Num)) : jdict Z -> result (gate Num) :=
    fix look (d : jdict Z) : result (gate Num) :=
      match d with
      | [] => Err KeyError
      | (k, v) :: d' => if String.eqb "wrapped_gate" k then read v else look d'
      end.
  (** 189-204, 223-233 *)
  Fixpoint gate_from_dict (defs : list (custom_def Num)) (j : js) {struct j} : result (gate Num) :=
    match j with
    | JObj d =>
        let wrapped := wrapped_from (gate_from_dict defs) d in
        match builtin_gate_from_dict d with
        | Err KeyError =>
            let special :=
              let! jn := jitem "name" d in
              let! name := as_str jn in
              if String.eqb name "Control" then
                let! w := wrapped in
                let! jk := jitem "num_control_qubits" d in
                let! k := as_int jk in mk_controlled w k
              else if String.eqb name "Dagger" then let! w := wrapped in Ok (Dagger w)
              else Err KeyError in
            match special with
            | Err KeyError => custom_gate_instance_from_dict d defs
            | r => r
            end
        | r => r
        end
    | _ => Err TypeError
    end.
  (** 182-186; negative indices, which the code accepts, are rejected here: the model's indices are natural numbers *)
  Definition as_index (j : js) : result nat := let! n := as_int j in if (n <? 0)%Z then Err ValueError else Ok (Z.to_nat n).
  Definition op_from_dict (defs : list (custom_def Num)) (j : js) : result (operation Num) :=
    let! d := as_dict j in
    let! jg := jitem "gate" d in
    let! g := gate_from_dict defs jg in
    let! jq := jitem "qubit_indices" d in
    let! lq := as_list jq in
    let! qs := mapM as_index lq in
    Ok (GateOp g qs).
  (** 236-243 *)
  Definition def_from_dict (j : js) : result (custom_def Num) :=
    let! d := as_dict j in
    let! ordering := get_strs "params_ordering" d in
    let! jn := jitem "gate_name" d in
    let! name := as_str jn in
    let! jm := jitem "matrix" d in
    let! rows := as_list jm in
    let! rows := mapM as_strs rows in
    mk_def name (map (map (fun s => deser T s ordering)) rows) ordering.
  (** 166-179 *)
  Definition circuit_from_dict (j : js) : result (circuit Num) :=
    let! d := as_dict j in
    match jget "schema" d with
    | Some (JStr s) =>
        if String.eqb s CIRCUIT_SCHEMA then
          let! jdefs := get_list "custom_gate_definitions" d in
          let! defs := mapM def_from_dict jdefs in
          let! jops := get_list "operations" d in
          let! ops := mapM (op_from_dict defs) jops in
          let! jn := jitem "n_qubits" d in
          let! n := as_int jn in
          mk_circuit_Z ops n
        else Err ValueError
    | _ => Err ValueError
    end.
  (** 268-273 *)
  Definition circuitset_from_dict (j : js) : result (list (circuit Num)) :=
    let! d := as_dict j in
    match jget "schema" d with
    | Some (JStr s) =>
        if String.eqb s CIRCUITSET_SCHEMA then
          let! jc := jitem "circuits" d in
          let! l := as_list jc in mapM circuit_from_dict l
        else Err ValueError
    | _ => Err ValueError
    end.
End Serde.
Arguments text_oracle Num : clear implicits.
