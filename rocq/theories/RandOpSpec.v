(** Specification for C93: symmetries of coefficients, spin orbitals, and numbers of different indices. *)
From Verif Require Import Base MatModel OpModel OpSpec TensorModel TensorSpec DiagSpec HermTensorProps.
Open Scope list_scope.
Local Open Scope nat_scope.

Definition one_body : key := [true; false].
Definition two_body : key := [true; true; false; false].
(** The number of different elements of a list. *)
Definition different (i : list nat) : nat := length (nodup Nat.eq_dec i).
(** Exchanging the two particles: h_pqrs = h_qpsr. *)
Definition particles_exchange {K : cring} (h : heap K) (a : ptensor K) : Prop :=
  forall p q r s, Forall (fun x => x < n_qubits a) [p; q; r; s] -> value h a two_body [q; p; s; r] = value h a two_body [p; q; r; s].
(** Real coefficients, and real orbitals: h_pqrs = h_rqps. *)
Definition real_orbitals {K : cring} (h : heap K) (a : ptensor K) : Prop :=
  (forall k i, In k (dkeys (n_body_tensors a)) -> addresses (n_qubits a) k i -> kconj (value h a k i) = value h a k i) /\
  forall p q r s, Forall (fun x => x < n_qubits a) [p; q; r; s] -> value h a two_body [r; q; p; s] = value h a two_body [p; q; r; s].
(** Orbital p with its two spins is the spin orbitals 2p and 2p+1. *)
Definition spin (p : nat) : nat := p mod 2.
Definition orbital (p : nat) : nat := p / 2.
(** The operator of the spin orbitals: the coefficient of the orbitals when creation and annihilation of each particle have the same spin, else nothing. *)
Definition spin_expanded {K : cring} (h : heap K) (a : ptensor K) (h' : heap K) (b : ptensor K) : Prop :=
  n_qubits b = 2 * n_qubits a /\ value h' b [] [] = value h a [] [] /\
  (forall p q, p < n_qubits b -> q < n_qubits b -> value h' b one_body [p; q] = if Nat.eqb (spin p) (spin q) then value h a one_body [orbital p; orbital q] else k0) /\
  forall p q r s, Forall (fun x => x < n_qubits b) [p; q; r; s] ->
    value h' b two_body [p; q; r; s] =
    if (Nat.eqb (spin p) (spin s) && Nat.eqb (spin q) (spin r))%bool then value h a two_body [orbital p; orbital q; orbital r; orbital s] else k0.
(** A list of factors on different qubits below n. *)
Definition on_different_qubits {A} (n : nat) (t : term A) : Prop := NoDup (map fst t) /\ forall f, In f t -> fst f < n.
