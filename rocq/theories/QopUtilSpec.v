(** Specification vocabulary for helpers of qubit operators (C86). *)
From Coq Require Import ZArith.
From Verif Require Import Base MatModel OpModel OpSpec.
Open Scope list_scope.
Local Open Scope nat_scope.

(** The number that stands for a Pauli letter; the identity has no number of its own. *)
Definition letter_code (p : pauli) : Z := match p with Pid => 0 | Px => 1 | Py => 2 | Pz => 3 end.
(** The Pauli string of a vector of labels: letter p on qubit q exactly when entry q is the number of p. *)
Definition string_of_label (label : list Z) (t : term pauli) : Prop :=
  canonical t /\ forall q p, In (q, p) t <-> (p <> Pid /\ nth_error label q = Some (letter_code p)).
(** [l] lists the coefficients with their Pauli strings: [t] gets the sum of its coefficients. *)
Fixpoint total_of {K : cring} (l : list (K * term pauli)) (t : term pauli) : K :=
  match l with [] => k0 | (c, u) :: l' => if term_eqb pauli_eqb u t then kadd c (total_of l' t) else total_of l' t end.
(** The number of ways to choose k of n, by Pascal's rule. *)
Fixpoint choose (n k : nat) : nat :=
  match n, k with _, 0 => 1 | 0, S _ => 0 | S n', S k' => choose n' k' + choose n' (S k') end.
