(** Model of wip/compatibility_tools.py.
    The world (warnings, effects of the functions) is an arbitrary state; functions are arbitrary programs on it.  Sequences are values: the rebuilt list is
    another object with equal items, which is not visible here. *)
From Coq Require Import String.
From Verif Require Import Base.
Open Scope list_scope.

(** What a call does: a value, the exception TranslationFailed (compatibility_tools.py:9-15), or another one *)
Inductive outcome (A : Type) := Ret (a : A) | Failed | Raised (e : exn).
Arguments Ret {A}. Arguments Failed {A}. Arguments Raised {A}.

(** Objects, and sequences of some exact type *)
Inductive value (T : Type) := Obj (o : T) | Items (ty : nat) (items : list (value T)).
Arguments Obj {T}. Arguments Items {T}.

Section Compat.
  Context {T W : Type}.
  Notation prog A := (W -> W * outcome A).
  Definition pret {A} (a : A) : prog A := fun w => (w, Ret a).
  Definition pbind {A B} (m : prog A) (f : A -> prog B) : prog B :=
    fun w => match m w with (w', Ret a) => f a w' | (w', Failed) => (w', Failed) | (w', Raised e) => (w', Raised e) end.
  Fixpoint pmap {A B} (f : A -> prog B) (l : list A) : prog (list B) :=
    match l with [] => pret [] | a :: l' => pbind (f a) (fun b => pbind (pmap f l') (fun bs => pret (b :: bs))) end.

  (** isinstance(obj, old_type); translate_old_to_wip; warnings.warn, which may raise when warnings are errors *)
  Context (old : value T -> bool) (translate : value T -> prog (value T)) (warn : string -> prog unit).
  (** a message that is None or empty is not used *)
  Definition if_message (deprecation_msg : option string) : prog unit :=
    match deprecation_msg with Some msg => if String.eqb msg "" then pret tt else warn msg | None => pret tt end.
  (** try: ... except Exception: raise TranslationFailed; SystemExit is no Exception *)
  Definition or_failed {A} (m : prog A) : prog A :=
    fun w => match m w with (w', Ret a) => (w', Ret a) | (w', Raised SystemExit) => (w', Raised SystemExit) | (w', _) => (w', Failed) end.
  (** compatibility_tools.py:18-42 *)
  Fixpoint translate_if_needed (deprecation_msg : option string) (considered_iterables : list nat) (obj : value T) : prog (value T) :=
    if old obj then or_failed (pbind (if_message deprecation_msg) (fun _ => translate obj))
    else match obj with
         | Items ty items =>
             if memb Nat.eqb ty considered_iterables then
               pbind ((fix go (l : list (value T)) : prog (list (value T)) :=
                 match l with [] => pret [] | o :: l' => pbind (translate_if_needed deprecation_msg considered_iterables o) (fun b => pbind (go l') (fun bs => pret (b :: bs))) end) items)
                 (fun l => pret (Items ty l))
             else pret obj
         | Obj _ => pret obj
         end.
  Definition func := list (value T) -> list (string * value T) -> prog (value T).
  (** compatibility_tools.py:45-113; [fallback_text] is the text of the warning of lines 101-105 *)
  Definition compatible_with_old_type (deprecation_msg : option string) (fallback_function : option func) (consider_iterable_types : option (list nat)) (fallback_text : string)
      (wrapped : func) : func := fun args kwargs w =>
    let considered := match consider_iterable_types with Some l => l | None => [] end in
    let attempt := pbind (pmap (translate_if_needed deprecation_msg considered) args) (fun new_args =>
      pbind (pmap (fun kv => pbind (translate_if_needed deprecation_msg considered (snd kv)) (fun v => pret (fst kv, v))) kwargs) (fun new_kwargs => wrapped new_args new_kwargs)) in
    match attempt w with
    | (w', Failed) =>
        match fallback_function with
        | Some fallback => pbind (warn fallback_text) (fun _ => fallback args kwargs) w'
        | None => (w', Failed)
        end
    | r => r
    end.
End Compat.
Arguments func : clear implicits.
