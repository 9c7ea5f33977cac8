(** What a program that calls a function can observe, independently of recorders. *)
From Coq Require Import List ZArith String Bool.
From Verif Require Import Base HistModel.
Import ListNotations.
Open Scope list_scope.

Section Spec.
  Context {A V E : Type}.
  Notation obj := (obj V). Notation world := (world A V E). Notation fn := (fn A V E).
  (** Statements of a program. Variables are numbered in the order of assignment; arguments are earlier variables.
      New array; constant; y = f(x); y = f.gradient(x); overwriting the contents of the array x. *)
  Inductive stmt := New (a : A) | Const (v : V) | Call (x : nat) | Gradient (x : nat) | Write (x : nat) (a : A).
  (** The values of the variables: an assignment that raised leaves the exception. *)
  Definition vars := list (result obj).
  Definition var (vs : vars) (x : nat) : result obj := match nth_error vs x with Some r => r | None => Err IndexError end.
  (** How calls are made, with some state S of the called object. *)
  Definition caller (S : Type) := S -> obj -> world -> result obj * S * world.
  (** One statement. *)
  Definition exec {S} (f g : caller S) (st : stmt) (m : S * world * vars) : S * world * vars :=
    let '(s, w, vs) := m in
    match st with
    | New a => let '(o, w') := alloc w a in (s, w', vs ++ [Ok o])
    | Const v => (s, w, vs ++ [Ok (Imm v)])
    | Call x => match var vs x with Err e => (s, w, vs ++ [Err e]) | Ok o => let '(r, s', w') := f s o w in (s', w', vs ++ [r]) end
    | Gradient x => match var vs x with Err e => (s, w, vs ++ [Err e]) | Ok o => let '(r, s', w') := g s o w in (s', w', vs ++ [r]) end
    | Write x a =>
        match var vs x with
        | Ok (Ref l) => (s, {| arrays := set_nth (arrays w) l a; lists := lists w; env := env w |}, vs)
        | _ => (s, w, vs)
        end
    end.
  Definition run {S} (f g : caller S) (p : list stmt) (m : S * world * vars) : S * world * vars := fold_left (fun m st => exec f g st m) p m.

  (** Direct calls of a function and its gradient; the state is the log of the successful calls of each: contents of the
      parameters and of the value after the call, the value itself, and the artifacts stored. *)
  Record logged := { g_params : content A V; g_value : content A V; g_obj : obj; g_events : list (event V) }.
  Definition log_call (f : fn) (s : list logged) (o : obj) (w : world) : result obj * list logged * world :=
    let '(r, es, w') := call_fn f o w in
    match r with
    | Ok v => match look w' v, look w' o with
              | Some cv, Some co => (r, s ++ [{| g_params := co; g_value := cv; g_obj := v; g_events := es |}], w')
              | _, _ => (r, s, w')
              end
    | Err _ => (r, s, w')
    end.
  Definition direct (f : fn) : caller (list logged * list logged) := fun s o w =>
    let '(r, log, w') := log_call f (fst s) o w in (r, (log, snd s), w').
  Definition direct_gradient (f : fn) : caller (list logged * list logged) := fun s o w =>
    match f_gradient f with
    | Some g => let '(r, log, w') := log_call g (snd s) o w in (r, (fst s, log), w')
    | None => (Err AttributeError, s, w)
    end.
  (** Calls through a recorder. *)
  Definition recorded : caller (recorder_obj A V E) := fun r o w => call_recorder r o w.
  Definition recorded_gradient : caller (recorder_obj A V E) := fun r o w => call_recorder_gradient r o w.

  (** Two states look the same to a program: same exceptions and values, same contents of arrays, and two variables are the same
      array in one state iff they are in the other. *)
  Definition same_view (w1 : world) (vs1 : vars) (w2 : world) (vs2 : vars) : Prop :=
    env w1 = env w2 /\
    Forall2 (fun r1 r2 => match r1, r2 with
      | Err e1, Err e2 => e1 = e2
      | Ok o1, Ok o2 => look w1 o1 = look w2 o2 /\ look w1 o1 <> None
      | _, _ => False end) vs1 vs2 /\
    forall i j l1 l1' l2 l2', nth_error vs1 i = Some (Ok (Ref l1)) -> nth_error vs1 j = Some (Ok (Ref l1')) ->
      nth_error vs2 i = Some (Ok (Ref l2)) -> nth_error vs2 j = Some (Ok (Ref l2')) -> (l1 = l1' <-> l2 = l2').

  (** A condition that always answers. *)
  Definition total_condition (p : save_condition A V) (decide : content A V -> content A V -> nat -> bool) : Prop :=
    forall cv co k, p cv co k = Ok (decide cv co k).
  (** An artifact was stored with force. *)
  Definition forced (es : list (event V)) : bool := existsb (fun e => snd e) es.
  (** The last artifact stored under a name. *)
  Definition last_stored (es : list (event V)) (name : string) : option V :=
    match find (fun e => String.eqb (fst (fst e)) name) (rev es) with Some e => Some (snd (fst e)) | None => None end.
  (** The calls that must be in the history, with their numbers: those that satisfy the condition or force an artifact. *)
  Definition saved (decide : content A V -> content A V -> nat -> bool) (artifacts : bool) (log : list logged) : list (nat * logged) :=
    filter (fun kg => decide (g_value (snd kg)) (g_params (snd kg)) (fst kg) || (artifacts && forced (g_events (snd kg)))) (combine (seq 0 (length log)) log).
End Spec.
