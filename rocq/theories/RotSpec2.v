(** Specification for C84: renaming modes, keeping some terms, and removing modes. *)
From Verif Require Import Base MatModel OpModel TensorModel TensorSpec DiagSpec RotModel.
Open Scope list_scope.
Local Open Scope nat_scope.

(** Column i has a one in row ordering[i]: with it [rotated_ladder] replaces a_p by the sum of the a_i for which ordering[i] is p, which is one operator if p occurs once. *)
Definition renaming {K : cring} (n : nat) (ordering : list nat) : mat K := Build_mat n (length ordering) (fun p i => if Nat.eqb (nth i ordering 0) p then k1 else k0).
(** The products of ladder operators a selection keeps: by the number of different modes in them, or by the modes.  The constant is the product without modes. *)
Definition keeps (sel : selection) (exact : bool) (i : list nat) : Prop :=
  match sel with
  | Count m => exists l, NoDup l /\ (forall p, In p l <-> In p i) /\ if exact then length l = m else length l <= m
  | Modes s => (forall p, In p i -> In p s) /\ (exact = true -> forall p, In p s -> In p i)
  end.
Definition selection_within (n : nat) (sel : selection) : Prop := match sel with Count _ => True | Modes s => forall p, In p s -> p < n end.
