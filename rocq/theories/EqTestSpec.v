(** Specification for C105: when objects are to count as equal or as different, in every observable way. *)
From Coq Require Import List ZArith.
From Verif Require Import Base EqTestModel.
Import ListNotations.

Section Spec.
  Context {O : Type} (w : world O).
  (** v1 == v2 is true, v1 != v2 is false, and no method contradicts this. *)
  Definition seen_equal (v1 v2 : object O) : Prop :=
    py_eq w v1 v2 = Ok true /\ py_ne w v1 v2 = Ok false /\
    exists e n, call_eq w v1 v2 = Ok e /\ call_ne w v1 v2 = Ok n /\ e <> No /\ n <> Yes /\ (e = Yes -> n = No).
  Definition seen_different (v1 v2 : object O) : Prop :=
    py_eq w v1 v2 = Ok false /\ py_ne w v1 v2 = Ok true /\
    exists e n, call_eq w v1 v2 = Ok e /\ call_ne w v1 v2 = Ok n /\ e <> Yes /\ n <> No /\ (e = No -> n = Yes).
  Definition same_hash (a b : O) : Prop := exists h, hash w a = Ok h /\ hash w b = Ok h.
  Definition good_group (g : list O) : Prop := (forall a b, In a g -> In b g -> seen_equal (Subject a) (Subject b)) /\ (forall a b, In a g -> In b g -> same_hash a b).
  (** Items of a new group against the items of earlier groups and against an object of an unknown class *)
  Definition apart (g : list O) (older : list (list O)) : Prop :=
    (forall a, In a g -> seen_different (Subject a) Unknown) /\ (forall a b h, In a g -> In h older -> In b h -> seen_different (Subject a) (Subject b)).
  Inductive good_test : list (list O) -> Prop :=
  | good_nil : good_test []
  | good_snoc gs g : good_test gs -> good_group g -> apart g gs -> good_test (gs ++ [g]).
  (** No method raises an exception. *)
  Definition never_raises : Prop :=
    (forall o v, exists a, eq_method w o v = Ok a) /\ (forall o v, exists a, ne_method w o v = Ok a) /\ (forall o, exists h, hash w o = Ok h).

  (** A class of subjects with a sane equality: a relation decides it, != is its negation, objects of unknown classes are left to those. *)
  Record lawful (R : O -> O -> bool) : Prop := {
    lawful_eq : forall a b, eq_method w a (Subject b) = Ok (if R a b then Yes else No);
    lawful_ne : forall a b, ne_method w a (Subject b) = Ok (if R a b then No else Yes);
    lawful_unknown_eq : forall a, eq_method w a Unknown = Ok NotImplemented \/ eq_method w a Unknown = Ok No;
    lawful_unknown_ne : forall a, (eq_method w a Unknown = Ok NotImplemented /\ ne_method w a Unknown = Ok NotImplemented) \/ ne_method w a Unknown = Ok Yes;
    lawful_sym : forall a b, R a b = R b a;
    lawful_hash : forall a, exists h, hash w a = Ok h
  }.
End Spec.
