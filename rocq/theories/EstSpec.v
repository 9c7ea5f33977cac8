(** Vocabulary for grouping, context selection and estimation (C36-C41). *)
From Coq Require Import Reals QArith.
From Verif Require Import Base MatModel Cplx OpModel OpSpec EstModel.
Open Scope list_scope.
Local Open Scope nat_scope.

(** Two Pauli terms agree on every shared qubit. *)
Definition comeasurable (t u : term pauli) : Prop := forall q p p', In (q, p) t -> In (q, p') u -> p = p'.
(** All terms of a group are co-measurable with each other. *)
Definition comeasurable_group {K : cring} (g : qop K) : Prop := forall t c u d, In (t, c) g -> In (u, d) g -> comeasurable t u.

(** The operator on n qubits that is diagonal with the values of an Ising operator on the bit strings (qubit 0 first). *)
Definition diagonal_of {K : cring} (n : nat) (a : isop K) : mat K :=
  Build_mat (2 ^ n) (2 ^ n) (fun i j => if Nat.eqb i j then isop_value (fun q => nth q (bits n i) false) a else k0).

(** <v|A|v> *)
Definition expectation {K : cring} (A : mat K) (v : vec K) : K := bigsum (vlen v) (fun i => kmul (kconj (vent v i)) (vent (mvmul A v) i)).

(** The sum of the matrices of operators on n qubits. *)
Definition sum_matrices {K : cring} (im : K) (n : nat) (gs : list (qop K)) : mat K :=
  fold_right (fun g m => madd (qop_matrix im n g) m) (zeros (2 ^ n) (2 ^ n)) gs.
