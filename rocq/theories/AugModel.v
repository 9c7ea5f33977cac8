(** Model of cost_function_augmentations.py: augmentations of cost functions and of their gradients. *)
From Coq Require Import List ZArith String Bool Lia.
From Verif Require Import Base.
Import ListNotations.
Open Scope list_scope.

Section Augment.
  (** Parameters, values of functions, other values of attributes. *)
  Context {A R V : Type}.
  (** history/save_conditions.py:11 *)
  Definition condition := R -> A -> nat -> result bool.
  (** Callable objects. The attributes of the i-th object are the i-th dictionary of the state.
      [Fun i]: a function that is not the result of an augmentation.
      [Closure i n]: the result of an augmentation that makes a new callable around n.
      [Logger i n p]: cost_function_augmentations.py:179-258, a FunctionLogger with function n and predicate p
        (simplification: later assignments to its attributes function and predicate have no effect on calls).
      [Wrap f n g]: 51-126, an _AttributePropagatingWrapper of f with the source n of further attributes; its dictionary of overrides
        has at most the key gradient. *)
  Inductive node := Fun (i : nat) | Closure (i : nat) (inner : node) | Logger (i : nat) (inner : node) (p : condition) | Wrap (f source : node) (gradient : option node).
  Inductive value := VNode (n : node) | VNat (k : nat) | VOther (v : V).
  Definition attributes := list (string * value).
  (** What is logged: the attributes level and message of the logger, the call number and the value of the function. *)
  Record log_line := { l_level : option value; l_message : option value; l_number : value; l_value : R }.
  Record state := { dicts : list attributes; log : list log_line }.
  Definition dict_of (s : state) (i : nat) : attributes := nth i (dicts s) [].
  Definition update_dict (s : state) (i : nat) (name : string) (v : value) : state :=
    {| dicts := map (fun ix => if Nat.eqb (fst ix) i then dset String.eqb name v (snd ix) else snd ix) (combine (seq 0 (length (dicts s))) (dicts s)); log := log s |}.

  (** getattr: attributes of the object itself, and for wrappers (66-79, 88-107) the three attributes that they set on themselves, then
      the overrides, the wrapped function and the additional source *)
  Fixpoint get (n : node) (name : string) (s : state) : result value :=
    match n with
    | Fun i | Closure i _ | Logger i _ _ => match dget String.eqb name (dict_of s i) with Some v => Ok v | None => Err AttributeError end
    | Wrap f source g =>
        if String.eqb name "_function" then Ok (VNode f)
        else if String.eqb name "_additional_attribute_source" then Ok (VNode source)
        else match (if String.eqb name "gradient" then g else None) with
             | Some g' => Ok (VNode g')
             | None => match get f name s with Err AttributeError => get source name s | r => r end
             end
    end.
  Definition has (n : node) (name : string) (s : state) : bool := match get n name s with Ok _ => true | Err _ => false end.
  (** setattr, for wrappers 109-126 *)
  Fixpoint set (n : node) (name : string) (v : value) (s : state) : state :=
    match n with
    | Fun i | Closure i _ | Logger i _ _ => update_dict s i name v
    | Wrap f source _ => if has f name s then set f name v s else set source name v s
    end.

  (** Behaviour of the functions that are not modelled: of plain functions, and of augmentations given the function inside. The flag tells
      whether the argument store_artifact is passed. *)
  Definition behaviour := bool -> A -> state -> result R * state.
  Context (body : nat -> behaviour) (code : nat -> behaviour -> behaviour).
  (** 212-219 [ConditionalSideEffect.__call__] and 257-258 [_act]; the method takes no argument besides params *)
  Definition logger_call (i : nat) (p : condition) (inner : behaviour) : behaviour := fun stores a s =>
    if stores then (Err TypeError, s) else
    let '(r, s1) := inner false a s in
    match r with
    | Err e => (Err e, s1)
    | Ok v =>
        match dget String.eqb "call_number" (dict_of s1 i) with
        | Some (VNat k) =>
            match p v a k with
            | Err e => (Err e, s1)
            | Ok act =>
                let s2 := if act then {| dicts := dicts s1; log := log s1 ++ [{| l_level := dget String.eqb "level" (dict_of s1 i); l_message := dget String.eqb "message" (dict_of s1 i);
                                                                                l_number := VNat k; l_value := v |}] |} else s1 in
                (Ok v, update_dict s2 i "call_number" (VNat (S k)))
            end
        | _ => (Err TypeError, s1)
        end
    end%string.
  Fixpoint call (n : node) : behaviour :=
    match n with
    | Fun i => body i
    | Closure i inner => code i (call inner)
    | Logger i inner p => logger_call i p (call inner)
    | Wrap f _ _ => call f
    end.

  (** An augmentation: one that makes a new callable with some attributes, 261-275 [function_logger], or one that returns its argument. *)
  Inductive augmentation := MakeClosure (d : attributes) | MakeLogger (p : condition) (level message : value) | Same.
  Definition apply_augmentation (a : augmentation) (n : node) (s : state) : node * state :=
    let i := length (dicts s) in
    match a with
    | MakeClosure d => (Closure i n, {| dicts := dicts s ++ [d]; log := log s |})
    | MakeLogger p level message =>
        (Logger i n p, {| dicts := dicts s ++ [[("function", VNode n); ("call_number", VNat 0); ("level", level); ("message", message)]%string]; log := log s |})
    | Same => (n, s)
    end.
  (** 129-139 [_augment_function] *)
  Definition augment_function (n : node) (augs : list augmentation) (gradient : option node) (s : state) : node * state :=
    fold_left (fun ns a => let '(n, s) := ns in let '(m, s') := apply_augmentation a n s in (Wrap m n gradient, s')) augs (n, s).
  (** 142-176 [augment_cost_function]; an attribute gradient that is None does not count; other
      attributes gradient that are not callable are not modelled *)
  Definition augment_cost_function (n : node) (augs gradient_augs : list augmentation) (s : state) : node * state :=
    match get n "gradient" s with
    | Ok (VNode g) => let '(g', s1) := augment_function g gradient_augs None s in augment_function n augs (Some g') s1
    | _ => augment_function n augs None s
    end.
End Augment.
Arguments node A R : clear implicits. Arguments value A R V : clear implicits. Arguments attributes A R V : clear implicits. Arguments state A R V : clear implicits.
Arguments augmentation A R V : clear implicits. Arguments condition A R : clear implicits. Arguments behaviour A R V : clear implicits. Arguments log_line A R V : clear implicits.
