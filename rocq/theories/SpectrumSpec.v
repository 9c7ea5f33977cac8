(** Specification for C104: eigenvalues, and what is expected of eigensolvers. *)
From Coq Require Import List Arith.
From Verif Require Import Base MatModel SectorSpec.

Section Spec.
  Context {K : cring}.
  Definition eigenvalue (A : mat K) (x : K) : Prop := exists v, nonzero v /\ eigenpair A x v.
  (** A solver for matrices of some kind returns their eigenvalues, all of them and nothing else, as many as there are rows. *)
  Definition finds_all (kind : mat K -> Prop) (solver : mat K -> result (list K)) : Prop :=
    forall A l, kind A -> solver A = Ok l -> length l = nr A /\ forall x, In x l <-> eigenvalue A x.
  (** A solver for a few eigenvectors returns eigenvectors, and one of them is of lowest eigenvalue. *)
  Definition finds_lowest (le : K -> K -> Prop) (eigsh : mat K -> option (vec K) -> result (list K * mat K)) : Prop :=
    forall A guess values vectors, eigsh A guess = Ok (values, vectors) ->
      length values = nc vectors /\ nr vectors = nc A /\
      (forall i x, nth_error values i = Some x -> let v := Build_vec (nr vectors) (fun j => ent vectors j i) in nonzero v /\ eigenpair A x v) /\
      exists x, In x values /\ forall y, eigenvalue A y -> le x y.
  (** The numbers on the diagonal after a change of the orthonormal basis: eigenvalues with their multiplicities. *)
  Definition diagonal_of (l : list K) : mat K := Build_mat (length l) (length l) (fun i j => if Nat.eqb i j then nth i l k0 else k0).
  Definition spectrum_of (A : mat K) (l : list K) : Prop := length l = nr A /\ exists U, nr U = nr A /\ unitary U /\ meq (mmul A U) (mmul U (diagonal_of l)).
End Spec.
