(** Specification for C83 and C84: changes of the basis of modes. *)
From Verif Require Import Base MatModel OpModel LiftSpec OpSpec FermiSpec TensorModel TensorSpec DiagSpec RdmSpec.
Open Scope list_scope.
Local Open Scope nat_scope.

Section S.
  Context {K : cring}.
  Open Scope K_scope.
  (** The operator that takes the place of a ladder operator: a_p becomes the sum over A of R(p, A) a_A, and its adjoint the adjoint of that. *)
  Definition rotated_ladder (n : nat) (R : mat K) (f : factor bool) : mat K :=
    Build_mat (2 ^ n) (2 ^ n) (fun i j => bigsum n (fun A => (if snd f then kconj (ent R (fst f) A) else ent R (fst f) A) * ent (ladder_matrix n (A, snd f)) i j)).
  (** A product of such operators. *)
  Definition replaced_term (n : nat) (L : factor bool -> mat K) (t : term bool) : mat K := fold_right (fun f M => mmul (L f) M) (eye (2 ^ n)) t.
  (** The matrix, on n modes, of the operator of a tensor in which each ladder operator f is replaced by L f. *)
  Definition replaced (n : nat) (L : factor bool -> mat K) (h : heap K) (a : ptensor K) : mat K :=
    Build_mat (2 ^ n) (2 ^ n) (fun i j =>
      fold_right (fun kv s => sum_over (n_qubits a) (length (fst kv)) (fun l => element h (snd kv) l * ent (replaced_term n L (combine l (fst kv))) i j) + s) 0 (n_body_tensors a)).
  (** Two operators of the same size that are the same up to a change of basis of the states. *)
  Definition unitarily_equivalent (A B : mat K) : Prop := exists U, nr U = nr A /\ unitary U /\ meq B (mmul (mmul U A) (adjoint U)).
  (** The rotation of both spins of each orbital. *)
  Definition both_spins (R : mat K) : mat K := Build_mat (2 * nr R) (2 * nc R) (fun i j => if Nat.eqb (i mod 2) (j mod 2) then ent R (i / 2)%nat (j / 2)%nat else 0).
  (** The rotation of n modes that a matrix stands for: of all modes, or of both spins of n / 2 orbitals. *)
  Definition mode_rotation (n : nat) (R : mat K) : mat K := if Nat.eqb n (nr R) then R else both_spins R.
  Definition rotates (n : nat) (R : mat K) : Prop := nc R = nr R /\ (nr R = n \/ (2 * nr R)%nat = n).
End S.
