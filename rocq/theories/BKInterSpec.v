(** Specification for C85: what a qubit operator does to Bravyi-Kitaev encoded occupation states. *)
From Verif Require Import Base MatModel OpModel LiftSpec OpSpec FermiSpec.
Open Scope list_scope.
Local Open Scope nat_scope.

Section Spec.
  Context {K : cring}.
  Open Scope K_scope.
  (** Between the encodings of the occupation states x and y the operator o has the entry v x y, once a bounded number of negligible terms that were dropped is added back. *)
  Definition encodes_up_to (im : K) (small : K -> bool) (n bound : nat) (o : qop K) (v : list bool -> list bool -> K) : Prop :=
    exists r : qop K, all_small small r /\ (length r <= bound)%nat /\
      forall x y, length x = n -> length y = n ->
        ent (qop_matrix im n o) (bval (bk_code n x)) (bval (bk_code n y)) + ent (qop_matrix im n r) (bval (bk_code n x)) (bval (bk_code n y)) = v x y.
  (** The same with nothing dropped. *)
  Definition encodes_exactly (im : K) (n : nat) (o : qop K) (v : list bool -> list bool -> K) : Prop :=
    forall x y, length x = n -> length y = n -> ent (qop_matrix im n o) (bval (bk_code n x)) (bval (bk_code n y)) = v x y.
End Spec.
