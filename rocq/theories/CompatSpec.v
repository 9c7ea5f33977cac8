(** Specification for C89: the old objects inside a value, and the value with all of them replaced. *)
From Coq Require Import String.
From Verif Require Import Base CompatModel.
Open Scope list_scope.

Section S.
  Context {T : Type} (old : value T -> bool) (types : list nat).
  (** o is an old object that is v itself or lies in v, inside of sequences of the listed types that are not old themselves. *)
  Inductive lies_in (o : value T) : value T -> Prop :=
  | lies_itself : old o = true -> lies_in o o
  | lies_inside ty items v : old (Items ty items) = false -> In ty types -> In v items -> lies_in o v -> lies_in o (Items ty items).
  (** r is v with every such object replaced by its new version. *)
  Inductive replaced (new : value T -> value T) : value T -> value T -> Prop :=
  | replaced_old o : old o = true -> replaced new o (new o)
  | replaced_items ty items items' : old (Items ty items) = false -> In ty types -> Forall2 (replaced new) items items' -> replaced new (Items ty items) (Items ty items')
  | kept_items ty items : old (Items ty items) = false -> ~ In ty types -> replaced new (Items ty items) (Items ty items)
  | kept_object o : old (Obj o) = false -> replaced new (Obj o) (Obj o).
  (** the old objects from left to right *)
  Fixpoint old_objects (v : value T) : list (value T) :=
    if old v then [v]
    else match v with
         | Obj _ => []
         | Items ty items => if memb Nat.eqb ty types then (fix go (l : list (value T)) := match l with [] => [] | x :: l' => old_objects x ++ go l' end) items else []
         end.
  (** the old objects of all arguments, in the order in which they are to be translated: positional ones first *)
  Definition all_old (args : list (value T)) (kwargs : list (string * value T)) : list (value T) := flat_map old_objects (args ++ map snd kwargs).
End S.
