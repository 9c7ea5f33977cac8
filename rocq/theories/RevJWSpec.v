(** Specification for C70. *)
From Verif Require Import Base MatModel OpModel OpSpec.
Open Scope list_scope.
Local Open Scope nat_scope.

(** Operators in the form the class QubitOperator keeps: each term once, qubits increasing, no identity factors. *)
Definition stored_form {K : cring} (a : qop K) : Prop := wf_op a /\ forall t c, In (t, c) a -> canonical t.
(** c + ... + c, k times *)
Definition times {K : cring} (k : nat) (c : K) : K := Nat.iter k (kadd c) k0.
(** how many of the first m modes are occupied *)
Definition occupied (m : nat) (c : list bool) : nat := length (filter (fun b => b) (firstn m c)).
(** the diagonal matrix with entries given by a function of the basis state *)
Definition diagonal {K : cring} (n : nat) (v : list bool -> K) : mat K :=
  Build_mat (2 ^ n) (2 ^ n) (fun i j => if Nat.eqb i j then v (bits n i) else k0).
