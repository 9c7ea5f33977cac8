(** What commutators are (C69). *)
From Verif Require Import Base MatModel OpModel OpSpec FermiSpec.
Open Scope list_scope.
Local Open Scope nat_scope.

Section S.
  Context {K : cring}.
  Definition bracket_matrix (A B : mat K) : mat K := msub (mmul A B) (mmul B A).
  Definition antibracket_matrix (A B : mat K) : mat K := madd (mmul A B) (mmul B A).
  (** A real hopping operator: the matrix of c (a_i^ a_j + a_j^ a_i) with i and j different, all its coefficients being c. *)
  Definition hopping (n : nat) (i j : nat) (c : K) (a : fop K) : Prop :=
    i <> j /\ i < n /\ j < n /\ a <> [] /\ (forall t e, In (t, e) a -> e = c) /\
    meq (fop_matrix n a) (mscale c (madd (fterm_matrix n [(i, true); (j, false)]) (fterm_matrix n [(j, true); (i, false)]))).
  (** the set of indices an operator on i and j is given with *)
  Definition index_set (i j : nat) (l : list nat) : Prop := forall q, In q l <-> q = i \/ q = j.
End S.
