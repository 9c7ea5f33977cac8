(** Specification for C75: occupation numbers, sectors and eigenvectors. *)
From Verif Require Import Base MatModel.
Open Scope list_scope.
Local Open Scope nat_scope.

(** The number of occupied modes. *)
Fixpoint particles (b : list bool) : nat := match b with [] => 0 | x :: b' => (if x then 1 else 0) + particles b' end.
(** The occupation numbers of n modes with the listed modes occupied. *)
Definition occupation (n : nat) (occupied : list nat) : list bool := map (fun i => memb Nat.eqb i occupied) (seq 0 n).

Section S.
  Context {K : cring}.
  Open Scope K_scope.
  (** The vector is the basis state b. *)
  Definition is_basis_state (n : nat) (v : vec K) (b : list bool) : Prop :=
    vlen v = (2 ^ n)%nat /\ length b = n /\ forall c, length c = n -> vent v (bval c) = if list_eqb Bool.eqb c b then 1 else 0.
  (** The matrix does not connect states with different numbers of particles. *)
  Definition conserves_number (n : nat) (A : mat K) : Prop :=
    forall x y, length x = n -> length y = n -> particles x <> particles y -> ent A (bval x) (bval y) = 0.
  Definition eigenpair (A : mat K) (value : K) (v : vec K) : Prop :=
    nc A = vlen v /\ forall i, (i < nr A)%nat -> bigsum (nc A) (fun j => ent A i j * vent v j) = value * vent v i.
  (** The vector has k particles: it vanishes on states with another number. *)
  Definition in_sector (n k : nat) (v : vec K) : Prop := vlen v = (2 ^ n)%nat /\ forall b, length b = n -> particles b <> k -> vent v (bval b) = 0.
  Definition nonzero (v : vec K) : Prop := exists i, (i < vlen v)%nat /\ vent v i <> 0.
  (** The expectation value of a matrix in a pure state. *)
  Definition mean (A : mat K) (v : vec K) : K := bigsum (vlen v) (fun i => kconj (vent v i) * bigsum (vlen v) (fun j => ent A i j * vent v j)).
  Definition hermitian (A : mat K) : Prop := nr A = nc A /\ forall i j, (i < nr A)%nat -> (j < nr A)%nat -> ent A j i = kconj (ent A i j).
End S.
