(** Model of history/recorder.py, history/save_conditions.py and interfaces/functions.py: recorders of calls.
    Arrays live in a store of cells, because the recorder copies its arguments and keeps references to returned values;
    the lists of history entries live in a store too, because copies of a recorder share them. *)
From Coq Require Import List ZArith String Bool Lia.
From Verif Require Import Base.
Import ListNotations.
Open Scope list_scope.

Section History.
  (** Contents of arrays, other (immutable) values, and the state that the recorded function keeps for itself. *)
  Context {A V E : Type}.

  (** A Python object: an immutable value or a reference to an array. *)
  Inductive obj := Imm (v : V) | Ref (l : nat).
  (** What can be read from an object. *)
  Inductive content := CImm (v : V) | CArr (a : A).
  (** What a function returns: a value, a new array, or the very object that it was given. *)
  Inductive ret := RVal (v : V) | RArr (a : A) | RParam.
  (** A call of store_artifact(name, artifact, force); artifacts are taken to be immutable. *)
  Definition event : Type := string * V * bool.
  (** Outcome of the body of a function: the returned value or exception, the contents of its argument afterwards
      (for arrays), the artifacts stored meanwhile, and the new private state. *)
  Record outcome := { o_ret : result ret; o_arg : A; o_events : list event; o_env : E }.
  (** interfaces/functions.py:21-52: a function, whether it has a parameter store_artifact, and its attribute gradient.
      Simplification: functions do not keep references to their arguments, or to store_artifact, after they return. *)
  Inductive fn := Fn (body : content -> E -> outcome) (artifacts : bool) (gradient : option fn).
  Definition f_body (f : fn) := let '(Fn b _ _) := f in b.
  Definition f_artifacts (f : fn) := let '(Fn _ a _) := f in a.
  Definition f_gradient (f : fn) := let '(Fn _ _ g) := f in g.

  (** recorder.py:40-55 [HistoryEntry] (no artifacts) and [HistoryEntryWithArtifacts] *)
  Record entry := { e_call : nat; e_params : obj; e_value : obj; e_artifacts : option (list (string * V)) }.
  Record world := { arrays : list A; lists : list (list entry); env : E }.

  Definition set_nth {X} (l : list X) (i : nat) (x : X) : list X :=
    match nth_error l i with Some _ => firstn i l ++ x :: skipn (S i) l | None => l end.
  (** contents of an object; a reference always has a cell in reachable states *)
  Definition look (w : world) (o : obj) : option content :=
    match o with Imm v => Some (CImm v) | Ref l => match nth_error (arrays w) l with Some a => Some (CArr a) | None => None end end.
  Definition alloc (w : world) (a : A) : obj * world :=
    (Ref (length (arrays w)), {| arrays := arrays w ++ [a]; lists := lists w; env := env w |}).
  (** copy.copy of a value or an array *)
  Definition copy_obj (o : obj) (w : world) : obj * world :=
    match o with Imm v => (Imm v, w) | Ref l => match nth_error (arrays w) l with Some a => alloc w a | None => (o, w) end end.

  (** Calling a function: it may change its array argument and its own state, also if it raises. *)
  Definition call_fn (f : fn) (o : obj) (w : world) : result obj * list event * world :=
    match look w o with
    | None => (Err RuntimeError, [], w)
    | Some c =>
        let out := f_body f c (env w) in
        let w1 := {| arrays := match o with Imm _ => arrays w | Ref l => set_nth (arrays w) l (o_arg out) end; lists := lists w; env := o_env out |} in
        match o_ret out with
        | Err e => (Err e, o_events out, w1)
        | Ok (RVal v) => (Ok (Imm v), o_events out, w1)
        | Ok (RArr a) => let '(r, w2) := alloc w1 a in (Ok r, o_events out, w2)
        | Ok RParam => (Ok o, o_events out, w1)
        end
    end.

  (** history/save_conditions.py:11: a condition on value, parameters and call number, which may raise *)
  Definition save_condition := content -> content -> nat -> result bool.
  (** save_conditions.py:34-38 *)
  Definition always : save_condition := fun _ _ _ => Ok true.
  (** save_conditions.py:41-58; Python's % raises for 0 *)
  Definition every_nth (n : Z) : save_condition := fun _ _ k =>
    if Z.eqb n 0 then Err ZeroDivisionError else Ok (Z.eqb (Z.of_nat k mod n) 0).

  (** recorder.py:83-138 and 141-198: the attributes of a recorder; whether it is one of the classes that
      handle artifacts; history is a reference to a list *)
  Inductive recorder_obj := Rec (target : fn) (predicate : save_condition) (with_artifacts : bool) (call_number : nat) (history : nat) (gradient : option recorder_obj).
  Definition r_target r := let '(Rec t _ _ _ _ _) := r in t.
  Definition r_predicate r := let '(Rec _ p _ _ _ _) := r in p.
  Definition r_artifacts r := let '(Rec _ _ a _ _ _) := r in a.
  Definition r_call_number r := let '(Rec _ _ _ n _ _) := r in n.
  Definition r_history r := let '(Rec _ _ _ _ h _) := r in h.
  Definition r_gradient r := let '(Rec _ _ _ _ _ g) := r in g.

  Definition new_list (w : world) (l : list entry) : nat * world :=
    (length (lists w), {| arrays := arrays w; lists := lists w ++ [l]; env := env w |}).
  (** recorder.py:241-276 [recorder] with the initialisers 93-97, 140-142, 151-157, 182-189: an empty history, and a recorder of
      the gradient (made by the same function) if there is one *)
  Fixpoint recorder (f : fn) (p : save_condition) (w : world) {struct f} : recorder_obj * world :=
    let '(Fn b a g) := f in
    let '(h, w1) := new_list w [] in
    match g with
    | None => (Rec f p a 0 h None, w1)
    | Some g' => let '(rg, w2) := recorder g' p w1 in (Rec f p a 0 h (Some rg), w2)
    end.

  (** recorder.py:192-216 [store_artifact] applied to the events of one call: the artifacts by name and the flag forced *)
  Definition store_events (es : list event) : list (string * V) * bool :=
    fold_left (fun s e => let '(n, v, f) := e in (dset String.eqb n v (fst s), orb (snd s) f)) es ([], false).

  (** recorder.py:99-115 [SimpleRecorder.__call__] and 159-170 [ArtifactRecorder.__call__] *)
  Definition call_recorder (r : recorder_obj) (o : obj) (w : world) : result obj * recorder_obj * world :=
    let '(Rec f p a n h g) := r in
    let '(res, es, w1) := call_fn f o w in
    match res with
    | Err e => (Err e, r, w1)
    | Ok v =>
        let '(store, forced) := store_events es in
        match look w1 v, look w1 o with
        | Some cv, Some co =>
            match p cv co n with
            | Err e => (Err e, r, w1)
            | Ok save =>
                let w3 := if save || (a && forced) then
                  let '(o', w2) := copy_obj o w1 in
                  {| arrays := arrays w2;
                     lists := set_nth (lists w2) h (nth h (lists w2) [] ++ [{| e_call := n; e_params := o'; e_value := v; e_artifacts := if a then Some store else None |}]);
                     env := env w2 |}
                  else w1 in
                (Ok v, Rec f p a (S n) h g, w3)
            end
        | _, _ => (Err RuntimeError, r, w1)
        end
    end.
  (** the call recorder.gradient(params): the recorder of the gradient if there is one, and otherwise (117-118, [__getattr__]) the attribute of the target *)
  Definition call_recorder_gradient (r : recorder_obj) (o : obj) (w : world) : result obj * recorder_obj * world :=
    let '(Rec f p a n h g) := r in
    match g with
    | Some rg => let '(res, rg', w') := call_recorder rg o w in (res, Rec f p a n h (Some rg'), w')
    | None => (Err AttributeError, r, w)
    end.
  Definition call_gradient (f : fn) (o : obj) (w : world) : result obj * world :=
    match f_gradient f with
    | Some g => let '(res, _, w') := call_fn g o w in (res, w')
    | None => (Err AttributeError, w)
    end.
  Definition history_of (r : recorder_obj) (w : world) : list entry := nth (r_history r) (lists w) [].

  (** recorder.py:58-67 [copy_recorder]: a new recorder of the same target, with the call number and the very list of entries *)
  Definition copy_recorder (r : recorder_obj) (w : world) : recorder_obj * world :=
    let '(c, w1) := recorder (r_target r) (r_predicate r) w in
    (Rec (r_target c) (r_predicate c) (r_artifacts c) (r_call_number r) (r_history r) (r_gradient c), w1).
  (** recorder.py:70-80 [deepcopy_recorder] for a target and a condition that are plain functions, which deepcopy does not copy.
      Simplification: two references to one array in the history become two arrays. *)
  Fixpoint deepcopy_entries (l : list entry) (w : world) : list entry * world :=
    match l with
    | [] => ([], w)
    | e :: l' =>
        let '(p, w1) := copy_obj (e_params e) w in
        let '(v, w2) := copy_obj (e_value e) w1 in
        let '(l'', w3) := deepcopy_entries l' w2 in
        ({| e_call := e_call e; e_params := p; e_value := v; e_artifacts := e_artifacts e |} :: l'', w3)
    end.
  Definition deepcopy_recorder (r : recorder_obj) (w : world) : recorder_obj * world :=
    let '(c, w1) := recorder (r_target r) (r_predicate r) w in
    let '(l, w2) := deepcopy_entries (history_of r w1) w1 in
    let '(h, w3) := new_list w2 l in
    (Rec (r_target c) (r_predicate c) (r_artifacts c) (r_call_number r) h (r_gradient c), w3).

  (** ** Attributes: recorder.py:22-28, 117-123 and 172-178; an object's attributes are a dictionary *)
  Definition native_attributes : list string := ["predicate"; "history"; "target"; "call_number"; "gradient"]%string.
  Record attrs X := { own : list (string * X); of_target : list (string * X) }.
  Definition get_attribute {X} (r : attrs X) (name : string) : result X :=
    match dget String.eqb name (own _ r) with
    | Some x => Ok x
    | None => match dget String.eqb name (of_target _ r) with Some x => Ok x | None => Err AttributeError end
    end.
  Definition set_attribute {X} (r : attrs X) (name : string) (x : X) : attrs X :=
    if memb String.eqb name native_attributes then {| own := dset String.eqb name x (own _ r); of_target := of_target _ r |}
    else {| own := own _ r; of_target := dset String.eqb name x (of_target _ r) |}.
End History.
Arguments obj V : clear implicits. Arguments content A V : clear implicits. Arguments ret A V : clear implicits. Arguments event V : clear implicits.
Arguments outcome A V E : clear implicits. Arguments fn A V E : clear implicits. Arguments entry V : clear implicits. Arguments world A V E : clear implicits.
Arguments save_condition A V : clear implicits. Arguments recorder_obj A V E : clear implicits.
