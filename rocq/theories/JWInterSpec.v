(** Specification for C73: what one-body terms, two-body terms and interaction operators do to occupation-number states. *)
From Verif Require Import Base MatModel OpModel LiftSpec OpSpec FermiSpec TensorModel TensorSpec DiagSpec.
Open Scope list_scope.
Local Open Scope nat_scope.

Section Spec.
  Context {K : cring}.
  Open Scope K_scope.
  (** The matrix entry between two occupation-number states of n modes of a product of ladder operators; (p, true) creates and (p, false) annihilates. *)
  Definition ladders (n : nat) (t : list (nat * bool)) (x y : list bool) : K := ent (fterm_matrix (K := K) n t) (bval x) (bval y).
  (** c a_p^ a_q and, unless this is diagonal, its Hermitian conjugate *)
  Definition one_body_entry (n p q : nat) (c : K) (x y : list bool) : K :=
    if Nat.eqb p q then c * ladders n [(p, true); (q, false)] x y
    else c * ladders n [(p, true); (q, false)] x y + kconj c * ladders n [(q, true); (p, false)] x y.
  (** c a_p^ a_q^ a_r a_s and, unless this is diagonal, its Hermitian conjugate *)
  Definition two_body_entry (n p q r s : nat) (c : K) (x y : list bool) : K :=
    if (Nat.eqb p r && Nat.eqb q s || Nat.eqb p s && Nat.eqb q r)%bool then c * ladders n [(p, true); (q, true); (r, false); (s, false)] x y
    else c * ladders n [(p, true); (q, true); (r, false); (s, false)] x y + kconj c * ladders n [(s, true); (r, true); (q, false); (p, false)] x y.
  (** A qubit operator has the matrix v on n qubits, once a bounded number of negligible terms that were dropped is added back. *)
  Definition acts_up_to (im : K) (small : K -> bool) (n bound : nat) (o : qop K) (v : list bool -> list bool -> K) : Prop :=
    exists r : qop K, all_small small r /\ (length r <= bound)%nat /\
      forall x y, length x = n -> length y = n -> ent (qop_matrix im n o) (bval x) (bval y) + ent (qop_matrix im n r) (bval x) (bval y) = v x y.
  (** The same with nothing dropped. *)
  Definition acts_exactly (im : K) (n : nat) (o : qop K) (v : list bool -> list bool -> K) : Prop :=
    forall x y, length x = n -> length y = n -> ent (qop_matrix im n o) (bval x) (bval y) = v x y.
  (** The Hermitian part of a matrix, except that the diagonal is left as it is. *)
  Definition hermitised (half : K) (v : list bool -> list bool -> K) (x y : list bool) : K :=
    if list_eqb Bool.eqb x y then v x y else half * (v x y + kconj (v y x)).
  Definition hermitian_tensor (h : heap K) (a : ptensor K) : Prop :=
    forall x y, length x = n_qubits a -> length y = n_qubits a -> kconj (tensor_entry h a y x) = tensor_entry h a x y.
End Spec.
(** Terms that may be dropped while an interaction operator on n modes is transformed: n diagonal terms, P pairs of modes and P (P - 1) / 2 pairs of pairs. *)
Definition pairs (n : nat) : nat := n * (n - 1) / 2.
Definition interaction_bound (n : nat) : nat := 4 * n + 16 * pairs n + 32 * pairs (pairs n).
