(** What the steps may change in the dictionaries of their caller (C94). *)
From Coq Require Import String.
From Verif Require Import Base Json MatModel UtilsModel CostModel CreateModel.
Open Scope list_scope.

Section Spec.
  Context {V W : Type}.
  Notation dict := (list (string * V)).
  (** Every dictionary of [s] is still there in [s']; entry [k] of dictionary [r] may differ only where [P r k]; a dictionary with no such entry is the same. *)
  Definition changes_only (P : nat -> string -> Prop) (s s' : store V W) : Prop :=
    forall r d, nth_error (dicts s) r = Some d -> exists d', nth_error (dicts s') r = Some d' /\
      (forall k, ~ P r k -> dget String.eqb k d' = dget String.eqb k d) /\ ((forall k, ~ P r k) -> d' = d).
  Definition changes_nothing : store V W -> store V W -> Prop := changes_only (fun _ _ => False).
  (** the parameters in a specification: everything but the two names *)
  Definition parameters_in (d : dict) : dict := ddel String.eqb "function_name"%string (ddel String.eqb "module_name"%string d).
End Spec.
