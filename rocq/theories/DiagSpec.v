(** Specification for C72: the operator a tensor stands for. *)
From Verif Require Import Base MatModel OpModel LiftSpec OpSpec FermiSpec TensorModel TensorSpec.
Open Scope list_scope.
Local Open Scope nat_scope.

Section Entry.
  Context {K : cring}.
  Open Scope K_scope.
  (** The sum over all lists of m numbers below n. *)
  Fixpoint sum_over (n m : nat) (f : list nat -> K) : K :=
    match m with O => f [] | S m' => bigsum n (fun p => sum_over n m' (fun i => f (p :: i))) end.
  (** The matrix entry between two occupation-number states: for each key and each list of indices, the number stored there times the product of the
      creation (1) and annihilation (0) operators of these indices. *)
  Definition tensor_entry (h : heap K) (a : ptensor K) (x y : list bool) : K :=
    fold_right (fun kv s => sum_over (n_qubits a) (length (fst kv)) (fun i => element h (snd kv) i * ent (fterm_matrix (n_qubits a) (combine i (fst kv))) (bval x) (bval y)) + s)
      0 (n_body_tensors a).
End Entry.
(** An index list that addresses an element of the array of a key. *)
Definition addresses (n : nat) (k : key) (i : list nat) : Prop := length i = length k /\ Forall (fun p => p < n) i.
(** What an interaction operator is: a number and the arrays of the one-body and two-body terms. *)
Definition interaction_ok {K : cring} (h : heap K) (a : ptensor K) : Prop :=
  tensor_ok h a /\ dkeys (n_body_tensors a) = [[]; [true; false]; [true; true; false; false]].
(** A diagonal part and a remainder of a tensor. *)
Definition is_split {K : cring} (h : heap K) (a : ptensor K) (h' : heap K) (d r : ptensor K) : Prop :=
  preserved h h' /\ tensor_ok h' d /\ tensor_ok h' r /\ n_qubits d = n_qubits a /\ n_qubits r = n_qubits a /\
  (forall k i, addresses (n_qubits a) k i -> kadd (value h' d k i) (value h' r k i) = value h a k i) /\
  forall x y, length x = n_qubits a -> length y = n_qubits a ->
    tensor_entry h' d x y = (if list_eqb Bool.eqb x y then tensor_entry h a x y else k0) /\
    tensor_entry h' r x y = (if list_eqb Bool.eqb x y then k0 else tensor_entry h a x y).
