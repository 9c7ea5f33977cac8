(** Specification for C102: memories in which every pair is younger than what it is made of, chains of decorators, and usual signatures. *)
From Coq Require Import String List.
From Verif Require Import Base FuncModel.
Import ListNotations.

Section Spec.
  Context {V : Type}.
  Implicit Types (h : heap V).
  (** Pairs are made from objects that exist, and attributes refer to objects that exist. *)
  Definition proper h : Prop :=
    (forall l c storing f g, nth_error h l = Some c -> what c = Pair storing f g -> f < l /\ g < l) /\
    (forall l c name l', nth_error h l = Some c -> In (name, Object l') (attributes c) -> l' < length h).
  (** [e] is reached from [l] by following attributes __wrapped__ to the end. *)
  Inductive leads h : nat -> nat -> Prop :=
  | leads_stop l : hasattr h l "__wrapped__" = false -> leads h l l
  | leads_step l l' e : getattr h l "__wrapped__" = Ok (Object l') -> leads h l' e -> leads h l e.
  (** An attribute that is neither a field of the pair nor belongs to every tuple. *)
  Definition free_name (name : string) : Prop := name <> "function"%string /\ name <> "gradient"%string /\ ~ In name tuple_names.
  (** def f(params, store_artifact=None): *)
  Definition usual (ps : list (param V)) : Prop := exists p, p_kind p = Pos /\ p_name p <> "store_artifact"%string /\
    ps = [p; {| p_name := "store_artifact"; p_kind := Pos; p_default := Some PyNone |}].
  (** the object is called with these parameters *)
  Definition called_with h (l : nat) (ps : list (param V)) : Prop := exists c, nth_error h l = Some c /\
    (what c = Function ps \/ what c = Instance ps \/ exists storing f g, what c = Pair storing f g /\ ps = own_parameters storing).
End Spec.
