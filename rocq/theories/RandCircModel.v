(** Model of circuits/_testing.py: random circuits.
    The generator is a record of three operations on its state: what numpy.random.Generator draws, for every seed and algorithm. *)
From Coq Require Import String ZArith.
From Verif Require Import Base MatModel CircuitModel GateMatModel CostModel.
Open Scope list_scope.

(** rng.choice of a population of n: the position of the one chosen; rng.choice(range(n), size=2, replace=False); rng.uniform(-pi, pi, size=1) as a float.
    Both choices are only made when the population is large enough: else numpy raises ValueError. *)
Record generator (G Num : Type) := { choice : nat -> G -> G * nat; choice_two : nat -> G -> G * (nat * nat); uniform : G -> G * Num }.
Arguments choice {G Num}. Arguments choice_two {G Num}. Arguments uniform {G Num}.

Definition gates_named (names : list string) : list builtin :=
  flat_map (fun n => match find (fun b => String.eqb (b_name b) n) builtins with Some b => [b] | None => [] end) names.
(** _testing.py:12-37 *)
Definition ONE_QUBIT_NO_PARAMS_GATES := gates_named ["X"; "Y"; "Z"; "H"; "S"; "T"]%string.
Definition ONE_QUBIT_ONE_PARAM_GATES := gates_named ["RX"; "RY"; "RZ"; "PHASE"]%string.
Definition TWO_QUBITS_NO_PARAMS_GATES := gates_named ["CNOT"; "CZ"; "SWAP"]%string.
Definition TWO_QUBITS_ONE_PARAM_GATES := gates_named ["CPHASE"]%string.
(** _testing.py:59-66 *)
Definition all_gates_lists : list (list builtin) := [ONE_QUBIT_NO_PARAMS_GATES; TWO_QUBITS_NO_PARAMS_GATES; ONE_QUBIT_ONE_PARAM_GATES; TWO_QUBITS_ONE_PARAM_GATES].

Section Random.
  Context {G Num : Type} (rng : generator G Num).
  Definition draw (n : nat) : M G nat := fun g => match n with 0 => (g, Err ValueError) | S _ => let (g', i) := choice rng n g in (g', Ok i) end.
  Definition draw_two (n : nat) : M G (nat * nat) :=
    fun g => if Nat.ltb n 2 then (g, Err ValueError) else let (g', ij) := choice_two rng n g in (g', Ok ij).
  Definition draw_angle : M G Num := fun g => let (g', x) := uniform rng g in (g', Ok x).
  (** the body of the loop, _testing.py:71-88; the four lists differ, so that comparing a list with them is comparing its position *)
  Definition add_random_gate (n_qubits : Z) (c : circuit Num) : M G (circuit Num) :=
    do! which := draw (length all_gates_lists) in
    let gates_list := nth which all_gates_lists [] in
    do! j := draw (length gates_list) in
    do! b := liftM (match nth_error gates_list j with Some b => Ok b | None => Err IndexError end) in
    do! qubits := (if (Nat.eqb which 0 || Nat.eqb which 2)%bool
                   then do! q := draw (Z.to_nat n_qubits) in retM [q]
                   else do! (q, q') := draw_two (Z.to_nat n_qubits) in retM [q; q']) in
    do! params := (if (Nat.eqb which 2 || Nat.eqb which 3)%bool then do! x := draw_angle in retM [PNum x] else retM []) in
    liftM (circuit_add c (AddOp (GateOp (builtin_gate b params) qubits))).
  Fixpoint repeatM {A} (k : nat) (f : A -> M G A) (a : A) : M G A := match k with 0 => retM a | S k' => do! a' := f a in repeatM k' f a' end.
  (** _testing.py:40-89 *)
  Definition create_random_circuit (n_qubits n_gates : Z) : M G (circuit Num) :=
    do! c := liftM (mk_circuit [] None) in repeatM (Z.to_nat n_gates) (add_random_gate n_qubits) c.
End Random.
