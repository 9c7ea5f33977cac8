(** Model of interfaces/functions.py:52-115: callables with attributes and signatures, and their pairing with a gradient. *)
From Coq Require Import String List Bool Arith.
From Verif Require Import Base.
Import ListNotations.
Open Scope list_scope.

Section Functions.
  Context {V : Type}.
  (** A value of an attribute or argument: None, another piece of data, an object in memory, or a method or class attribute of the tuple at [l]. *)
  Inductive value := PyNone | Data (v : V) | Object (l : nat) | Own (l : nat) (name : string).
  (** Parameters of a signature.  Simplification: no positional-only parameters. *)
  Inductive pkind := Pos | KeywordOnly | VarPos | VarKeyword.
  Record param := { p_name : string; p_kind : pkind; p_default : option value }.
  (** A function, an instance of a class with __call__ (parameters without self), a callable without signature such as a numpy ufunc, an object that is not callable,
      or a pair of functions: functions.py:68-81 [FunctionWithGradient] if not [storing], 84-100 [FunctionWithGradientStoringArtifacts] if so. *)
  Inductive thing := Function (ps : list param) | Instance (ps : list param) | Builtin (ps : list param) | NotCallable | Pair (storing : bool) (function gradient : nat).
  Record cell := { what : thing; attributes : list (string * value) }.
  Definition heap := list cell.

  (** ** Attributes.  Instances of a NamedTuple class have no attributes of their own but those of the class; dir(FunctionWithGradient) without the two fields. *)
  Definition tuple_names : list string := ["__add__"; "__annotations__"; "__call__"; "__class__"; "__class_getitem__"; "__contains__"; "__delattr__"; "__dir__"; "__doc__"; "__eq__";
    "__format__"; "__ge__"; "__getattr__"; "__getattribute__"; "__getitem__"; "__getnewargs__"; "__gt__"; "__hash__"; "__init__"; "__init_subclass__"; "__iter__"; "__le__"; "__len__"; "__lt__";
    "__module__"; "__mul__"; "__ne__"; "__new__"; "__reduce__"; "__reduce_ex__"; "__repr__"; "__rmul__"; "__setattr__"; "__sizeof__"; "__slots__"; "__str__"; "__subclasshook__";
    "_asdict"; "_field_defaults"; "_fields"; "_make"; "_replace"; "count"; "index"]%string.
  (** functions.py:77-78, 96-97 [__getattr__]: only for names that are not found on the tuple.  A function field is an older object: [S l] bounds the depth. *)
  Fixpoint getattr_within (fuel : nat) (h : heap) (l : nat) (name : string) : result value :=
    match fuel with
    | 0 => Err OutOfFuel
    | S fuel' =>
        match nth_error h l with
        | None => Err RuntimeError
        | Some c =>
            match what c with
            | Pair _ f g =>
                if String.eqb name "function" then Ok (Object f) else if String.eqb name "gradient" then Ok (Object g)
                else if existsb (String.eqb name) tuple_names then Ok (Own l name)
                else getattr_within fuel' h f name
            | _ => match dget String.eqb name (attributes c) with Some v => Ok v | None => Err AttributeError end
            end
        end
    end.
  Definition getattr (h : heap) (l : nat) (name : string) : result value := getattr_within (S l) h l name.
  (** [hasattr] *)
  Definition hasattr (h : heap) (l : nat) (name : string) : bool := match getattr h l name with Ok _ => true | Err _ => false end.
  Definition with_cell (h : heap) (l : nat) (c : cell) : heap := firstn l h ++ c :: skipn (S l) h.
  (** functions.py:80-81, 99-100 [__setattr__], for every name.  A callable without signature has no room for attributes. *)
  Fixpoint setattr_within (fuel : nat) (h : heap) (l : nat) (name : string) (v : value) : result heap :=
    match fuel with
    | 0 => Err OutOfFuel
    | S fuel' =>
        match nth_error h l with
        | None => Err RuntimeError
        | Some c =>
            match what c with
            | Pair _ f _ => setattr_within fuel' h f name v
            | Builtin _ => Err AttributeError
            | _ => Ok (with_cell h l {| what := what c; attributes := dset String.eqb name v (attributes c) |})
            end
        end
    end.
  Definition setattr (h : heap) (l : nat) (name : string) (v : value) : result heap := setattr_within (S l) h l name v.

  (** ** Signatures: inspect.signature with follow_wrapped, that is inspect.unwrap with its memory of objects already met, and then the parameters of the object.
      Simplifications: no attribute __signature__; a wrapped object that is not callable is a TypeError. *)
  Fixpoint unwrap (fuel : nat) (h : heap) (memo : list nat) (l : nat) : result nat :=
    match fuel with
    | 0 => Err OutOfFuel
    | S fuel' =>
        match getattr h l "__wrapped__" with
        | Err _ => Ok l
        | Ok (Object l') => if existsb (Nat.eqb l') memo then Err ValueError else unwrap fuel' h (l' :: memo) l'
        | Ok _ => Err TypeError
        end
    end.
  (** parameters of the two classes' __call__ (functions.py:74, 90-92) *)
  Definition own_parameters (storing : bool) : list param :=
    {| p_name := "params"; p_kind := Pos; p_default := None |} :: (if storing then [{| p_name := "store_artifact"; p_kind := Pos; p_default := Some PyNone |}] else []).
  Definition parameters_of (t : thing) : result (list param) :=
    match t with Function ps | Instance ps => Ok ps | Builtin _ => Err ValueError | NotCallable => Err TypeError | Pair storing _ _ => Ok (own_parameters storing) end.
  Definition is_callable (t : thing) : bool := match t with NotCallable => false | _ => true end.
  Definition signature (h : heap) (l : nat) : result (list param) :=
    match nth_error h l with
    | None => Err RuntimeError
    | Some c =>
        if negb (is_callable (what c)) then Err TypeError
        else let! e := unwrap (S (length h)) h [l] l in match nth_error h e with Some c' => parameters_of (what c') | None => Err RuntimeError end
    end.
  (** functions.py:52-65 [has_store_artifact_param] *)
  Definition has_store_artifact_param (h : heap) (l : nat) : result bool :=
    match signature h l with
    | Ok ps => Ok (existsb (fun p => String.eqb (p_name p) "store_artifact") ps)
    | Err ValueError => Ok false
    | Err e => Err e
    end.
  (** functions.py:103-119 [function_with_gradient] *)
  Definition function_with_gradient (h : heap) (function gradient : nat) : result (heap * nat) :=
    let! storing := has_store_artifact_param h function in
    Ok (h ++ [{| what := Pair storing function gradient; attributes := [] |}], length h).
  (** history/recorder.py:266-267: what decides about the kind of recorder *)
  Definition recorder_kind (h : heap) (l : nat) : result (bool * bool) := let! a := has_store_artifact_param h l in Ok (a, hasattr h l "gradient").

  (** ** Calls.  [bind]: Python's rules for arguments; a call ends in the body of a function, entered with the named arguments, the rest of the positional ones and of the keywords. *)
  Record arguments := { named : list (string * value); rest : list value; keywords : list (string * value) }.
  Definition is_kind (k : pkind) (p : param) : bool := match k, p_kind p with Pos, Pos | KeywordOnly, KeywordOnly | VarPos, VarPos | VarKeyword, VarKeyword => true | _, _ => false end.
  Definition bind (ps : list param) (positional : list value) (kw : list (string * value)) : result arguments :=
    let slots := map p_name (filter (is_kind Pos) ps) in
    let by_name := map p_name (filter (fun p => is_kind Pos p || is_kind KeywordOnly p) ps) in
    if (length slots <? length positional) && negb (existsb (is_kind VarPos) ps) then Err TypeError
    else
      let given := combine slots positional in
      let! gk := foldM (fun (gk : list (string * value) * list (string * value)) kv =>
          if existsb (String.eqb (fst kv)) (map fst (fst gk)) then Err TypeError
          else if existsb (String.eqb (fst kv)) by_name then Ok (fst gk ++ [kv], snd gk)
          else if existsb (is_kind VarKeyword) ps then Ok (fst gk, snd gk ++ [kv])
          else Err TypeError) kw (given, []) in
      let! bound := mapM (fun p => match dget String.eqb (p_name p) (fst gk) with
                                   | Some v => Ok (p_name p, v)
                                   | None => match p_default p with Some v => Ok (p_name p, v) | None => Err TypeError end
                                   end) (filter (fun p => is_kind Pos p || is_kind KeywordOnly p) ps) in
      Ok {| named := bound; rest := skipn (length slots) positional; keywords := snd gk |}.
  Definition argument (a : arguments) (name : string) : value := match dget String.eqb name (named a) with Some v => v | None => PyNone end.
  (** functions.py:74-75 and 90-94: the arguments are handed on by position *)
  Fixpoint call_within (fuel : nat) (h : heap) (l : nat) (positional : list value) (kw : list (string * value)) : result (nat * arguments) :=
    match fuel with
    | 0 => Err OutOfFuel
    | S fuel' =>
        match nth_error h l with
        | None => Err RuntimeError
        | Some c =>
            match what c with
            | Function ps | Instance ps | Builtin ps => let! a := bind ps positional kw in Ok (l, a)
            | NotCallable => Err TypeError
            | Pair storing f _ =>
                let! a := bind (own_parameters storing) positional kw in
                call_within fuel' h f (argument a "params" :: if storing then [argument a "store_artifact"] else []) []
            end
        end
    end.
  Definition call (h : heap) (l : nat) (positional : list value) (kw : list (string * value)) : result (nat * arguments) := call_within (S l) h l positional kw.
End Functions.
Arguments value V : clear implicits.
Arguments param V : clear implicits.
Arguments thing V : clear implicits.
Arguments cell V : clear implicits.
Arguments heap V : clear implicits.
