(** What a row of the backend test cases must say: the result of running the circuit that the backend tests build from
    the row (interfaces/backend_test.py:212-350, 420-505) on the library's own gates. *)
From Coq Require Import String Reals.
From Verif Require Import Base MatModel CircuitModel CircuitSpec Cplx GateMatModel.
Open Scope list_scope.
Local Open Scope string_scope.

Section S.
  Context {Num : Type} (O : sympy_oracle Num) (IR : interp (Num := Num) R) (IC : interp (Num := Num) C) (rho : sym -> R).

  (** the gate that [builtin_gate_by_name] finds, called with parameters, then with qubits *)
  Definition op_named (name : string) (ps : list (param Num)) (qs : list nat) (o : operation Num) : Prop :=
    exists b, In b builtins /\ b_name b = name /\ length ps = b_arity b /\ o = GateOp (builtin_gate b ps) qs.

  (** the state |0...0> on n qubits *)
  Definition all_zero (n : nat) : vec CC := Build_vec (K := CC) (2 ^ n) (fun i => if Nat.eqb i 0 then c1 else c0).

  (** The operations, applied to |0...0> one after the other, give a vector with the property. *)
  Definition run_gives (n : nat) (ops : list (operation Num)) (P : vec CC -> Prop) : Prop :=
    exists v, apply_ops O IR IC rho ops (all_zero n) = Ok v /\ vlen v = (2 ^ n)%nat /\ P v.

  (** The circuits of a row with one and with two qubits; [ps] are the parameters of the tested gate. *)
  Definition row1 (init gate : string) (ps : list (param Num)) (P : vec CC -> Prop) : Prop :=
    (exists a b, op_named init [] [0] a /\ op_named gate ps [0] b) /\
    (forall a b, op_named init [] [0] a -> op_named gate ps [0] b -> run_gives 1 [a; b] P).
  Definition row2 (init : string * string) (gate : string) (ps : list (param Num)) (P : vec CC -> Prop) : Prop :=
    (exists a b c, op_named (fst init) [] [0] a /\ op_named (snd init) [] [1] b /\ op_named gate ps [0; 1] c) /\
    (forall a b c, op_named (fst init) [] [0] a -> op_named (snd init) [] [1] b -> op_named gate ps [0; 1] c ->
       run_gives 2 [a; b; c] P).

  (** A Pauli string as the operations that apply its factors, one per qubit. *)
  Definition pauli_ops (name : string) : list (string * nat) :=
    if String.eqb name "[X0]" then [("X", 0)] else if String.eqb name "[Y0]" then [("Y", 0)]
    else if String.eqb name "[Z0]" then [("Z", 0)] else if String.eqb name "[X1]" then [("X", 1)]
    else if String.eqb name "[X0 X1]" then [("X", 0); ("X", 1)] else if String.eqb name "[Y0 Y1]" then [("Y", 0); ("Y", 1)]
    else if String.eqb name "[Z0 Z1]" then [("Z", 0); ("Z", 1)] else [].
  (** [x] is <v|P|v> for the Pauli string of the given name, applied by the library's gates. *)
  Definition is_expectation (v : vec CC) (name : string) (x : C) : Prop :=
    (exists ops, Forall2 (fun f o => op_named (fst f) [] [snd f] o) (pauli_ops name) ops) /\
    forall ops, Forall2 (fun f o => op_named (fst f) [] [snd f] o) (pauli_ops name) ops ->
      exists w, apply_ops O IR IC rho ops v = Ok w /\ inner v w = x.
End S.
