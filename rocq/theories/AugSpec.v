(** Specification vocabulary for augmentations. *)
From Coq Require Import List ZArith String Bool.
From Verif Require Import Base AugModel.
Import ListNotations.
Open Scope list_scope.

Section Spec.
  Context {A R V : Type}.
  Notation node := (node A R). Notation state := (state A R V). Notation behaviour := (behaviour A R V). Notation augmentation := (augmentation A R V).
  Context (body : nat -> behaviour) (code : nat -> behaviour -> behaviour).
  (** The behaviour b with augmentations around it, the first one innermost; those that make an object are numbered from i. *)
  Fixpoint nested (b : behaviour) (i : nat) (augs : list augmentation) : behaviour :=
    match augs with
    | [] => b
    | MakeClosure _ :: rest => nested (code i b) (S i) rest
    | MakeLogger p _ _ :: rest => nested (logger_call i p b) (S i) rest
    | Same :: rest => nested b i rest
    end.
  (** Number of objects that augmentations make. *)
  Definition made (augs : list augmentation) : nat := length (filter (fun a => match a with Same => false | _ => true end) augs).
  (** Names that an augmentation puts on the object that it makes. *)
  Definition names_of (a : augmentation) : list string :=
    match a with MakeClosure d => map fst d | MakeLogger _ _ _ => ["function"; "call_number"; "level"; "message"]%string | Same => [] end.
  (** The names that a wrapper keeps for itself. *)
  Definition internal (name : string) : Prop := name = "_function"%string \/ name = "_additional_attribute_source"%string.
  (** A callable that can come up in a program: its objects are among the first k, and each is newer than what is inside it. *)
  Inductive callable : node -> nat -> Prop :=
  | c_fun i k : i < k -> callable (Fun i) k
  | c_closure i m k : callable m i -> i < k -> callable (Closure i m) k
  | c_logger i m p k : callable m i -> i < k -> callable (Logger i m p) k
  | c_wrap_closure i m g k : callable m i -> i < k -> callable (Wrap (Closure i m) m g) k
  | c_wrap_logger i m p g k : callable m i -> i < k -> callable (Wrap (Logger i m p) m g) k
  | c_wrap_same m g k : callable m k -> callable (Wrap m m g) k.
  (** No wrapper of the callable overrides gradient. *)
  Fixpoint no_override (n : node) : Prop :=
    match n with Wrap f source g => g = None /\ no_override f /\ no_override source | _ => True end.
  (** Calls with the arguments of a list, one after the other. *)
  Fixpoint calls (b : behaviour) (args : list A) (s : state) : list (result R) * state :=
    match args with
    | [] => ([], s)
    | a :: rest => let '(r, s1) := b false a s in let '(rs, s2) := calls b rest s1 in (r :: rs, s2)
    end.
  (** States that differ only in the attributes of the i-th object and in the log. *)
  Definition same_but (i : nat) (s t : state) : Prop := length (dicts s) = length (dicts t) /\ forall j, j <> i -> dict_of s j = dict_of t j.
  (** A behaviour that neither uses nor changes the attributes of the i-th object and the log. *)
  Definition independent (i : nat) (b : behaviour) : Prop :=
    (forall a s t, same_but i s t -> fst (b false a s) = fst (b false a t) /\ same_but i (snd (b false a s)) (snd (b false a t))) /\
    (forall a s, dict_of (snd (b false a s)) i = dict_of s i /\ log (snd (b false a s)) = log s /\ length (dicts (snd (b false a s))) = length (dicts s)).
  (** The successful ones among calls, with arguments and values. *)
  Definition successful (args : list A) (rs : list (result R)) : list (A * R) :=
    flat_map (fun ar => match snd ar with Ok r => [(fst ar, r)] | Err _ => [] end) (combine args rs).
  (** Those that satisfy a condition, numbered from k. *)
  Definition chosen (decide : R -> A -> nat -> bool) (k : nat) (l : list (A * R)) : list (nat * (A * R)) :=
    filter (fun x => decide (snd (snd x)) (fst (snd x)) (fst x)) (combine (seq k (length l)) l).
End Spec.
