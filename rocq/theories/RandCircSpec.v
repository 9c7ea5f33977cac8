(** Specification for C91: what a generator may draw, and the operations a random circuit may have. *)
From Coq Require Import String ZArith.
From Verif Require Import Base MatModel CircuitModel GateMatModel RandCircModel.
Open Scope list_scope.

(** Every draw lies in its population, two positions drawn together differ, and angles lie in their range. *)
Definition fair {G Num} (in_range : Num -> bool) (rng : generator G Num) : Prop :=
  (forall n g, n <> 0 -> snd (choice rng n g) < n) /\
  (forall n g, 2 <= n -> let (i, j) := snd (choice_two rng n g) in i < n /\ j < n /\ i <> j) /\
  (forall g, in_range (snd (uniform rng g)) = true).

(** A gate of the set, with an angle when it has a parameter, on as many different qubits below n as it needs. *)
Definition gate_set : list string := ["X"; "Y"; "Z"; "H"; "S"; "T"; "RX"; "RY"; "RZ"; "PHASE"; "CNOT"; "CZ"; "SWAP"; "CPHASE"]%string.
Definition possible {Num} (in_range : Num -> bool) (n : Z) (o : operation Num) : Prop :=
  exists b angles qubits, In b builtins /\ In (b_name b) gate_set /\ o = GateOp (builtin_gate b (map PNum angles)) qubits /\
    length angles = b_arity b /\ Forall (fun x => in_range x = true) angles /\
    Z.of_nat (length qubits) = b_nq b /\ NoDup qubits /\ Forall (fun q => Z.of_nat q < n)%Z qubits.
