(** Model of decompositions/. *)
From Coq Require Import String.
From Verif Require Import Base CircuitModel.
Open Scope list_scope.

(** Nested list comprehension [[y for x in l for y in f(x)]]. *)
Definition concat_mapM {A B} (f : A -> result (list B)) (l : list A) : result (list B) :=
  let! ls := mapM f l in Ok (concat ls).

Section Generic.
  Context {Op : Type}.

  (** [DecompositionRule] _decomposition.py:12-24 *)
  Record rule := { r_predicate : Op -> result bool; r_production : Op -> result (list Op) }.

  (** _decomposition.py:27-45 *)
  Fixpoint decompose_operation (rules : list rule) (op : Op) : result (list Op) :=
    match rules with
    | [] => Ok [op]
    | current :: remaining =>
        let! b := r_predicate current op in
        let! new := if b then r_production current op else Ok [op] in
        concat_mapM (decompose_operation remaining) new
    end.

  (** _decomposition.py:48-56 *)
  Definition decompose_operations (ops : list Op) (rules : list rule) : result (list Op) :=
    concat_mapM (decompose_operation rules) ops.
End Generic.
Arguments rule Op : clear implicits.

Section U3.
  Context {Num : Type}.
  Local Open Scope string_scope.

  (** _builtin_gates.py:51-52 *)
  Definition gate_RY (p : param Num) : gate Num := MFG "RY" (FBuiltin "ry_matrix") [p] 1 false.
  Definition gate_RZ (p : param Num) : gate Num := MFG "RZ" (FBuiltin "rz_matrix") [p] 1 false.

  (** [U3GateToRotation.predicate] _zquantum_decompositions.py:21-27; a MultiPhaseOperation has no [gate]. *)
  Definition u3_predicate (o : operation Num) : result bool :=
    match o with
    | GateOp g _ =>
        Ok (String.eqb (gate_name g) "U3" ||
            match g with Controlled w _ => String.eqb (gate_name w) "U3" | _ => false end)
    | MultiPhase _ => Err AttributeError
    end.

  (** [U3GateToRotation.production] _zquantum_decompositions.py:29-46.  A gate that is called "Control" without
      being a ControlledGate (a custom gate) has no num_control_qubits. *)
  Definition preprocess_gate (g : gate Num) (rotation : gate Num) : result (gate Num) :=
    if String.eqb (gate_name g) "Control" then
      match g with Controlled _ k => controlled rotation k | _ => Err AttributeError end
    else Ok rotation.
  Definition u3_production (o : operation Num) : result (list (operation Num)) :=
    match o with
    | GateOp g qs =>
        match gate_params g with
        | [theta; phi; lambda] =>
            let! l := mapM (fun r => let! r' := preprocess_gate g r in Ok (GateOp r' qs))
                        [gate_RZ phi; gate_RY theta; gate_RZ lambda] in
            Ok (rev l)
        | _ => Err ValueError
        end
    | MultiPhase _ => Err AttributeError
    end.
  Definition u3_rule : rule (operation Num) := {| r_predicate := u3_predicate; r_production := u3_production |}.

  (** _zquantum_decompositions.py:49-52 *)
  Definition decompose_zquantum_circuit (c : circuit Num) (rules : list (rule (operation Num))) : result (circuit Num) :=
    let! ops := decompose_operations (c_ops c) rules in mk_circuit ops None.
End U3.
