(** Optimizations without recorders, with a log of all calls. *)
From Coq Require Import List ZArith String Bool.
From Verif Require Import Base HistModel HistSpec OptModel.
Import ListNotations.
Open Scope list_scope.

Section Spec.
  Context {A V E : Type}.
  Notation obj := (obj V). Notation world := (world A V E). Notation fn := (fn A V E). Notation logged := (logged (A := A) (V := V)).
  (** One optimization of a function that is called directly: the logs of the calls of the function and of its gradient, and the outcome *)
  Record found := { f_value : obj; f_params : obj; f_nit : nat; f_nfev : nat }.
  Definition optimize (algorithm : optimizer A V) (f : fn) (initial_params : obj) (w : world) : list logged * list logged * world * result found :=
    let '(logs, w', vs, fin) := play (direct f) (direct_gradient f) (algorithm (seen w [Ok initial_params])) (([], []), w, [Ok initial_params]) in
    (logs, w', let! f := fin in let '(x, y, n, k) := f in let! v := var vs x in let! p := var vs y in
               Ok {| f_value := v; f_params := p; f_nit := n; f_nfev := k |}).
  (** Optimizations of several functions, one after the other, always with the same array of initial parameters, up to the first exception *)
  Fixpoint optimize_all (algorithm : optimizer A V) (fs : list fn) (initial_params : obj) (w : world) : list (fn * (list logged * list logged)) * world * result (list found) :=
    match fs with
    | [] => ([], w, Ok [])
    | f :: fs' =>
        let '(logs, w', r) := optimize algorithm f initial_params w in
        match r with
        | Err e => ([(f, logs)], w', Err e)
        | Ok x => let '(more, w'', r') := optimize_all algorithm fs' initial_params w' in
                  ((f, logs) :: more, w'', let! xs := r' in Ok (x :: xs))
        end
    end.
  Definition total_nfev (l : list found) : nat := fold_right (fun x n => f_nfev x + n) 0 l.

  (** The calls that a history must contain, and whether their entries have artifacts *)
  Definition expected (decide : content A V -> content A V -> nat -> bool) (logs : list (fn * (list logged * list logged))) : list (bool * (nat * logged)) :=
    flat_map (fun x => map (fun kg => (f_artifacts (fst x), kg)) (saved decide (f_artifacts (fst x)) (fst (snd x)))) logs.
  Definition expected_gradient (decide : content A V -> content A V -> nat -> bool) (logs : list (fn * (list logged * list logged))) : list (bool * (nat * logged)) :=
    flat_map (fun x => match f_gradient (fst x) with
                       | Some g => map (fun kg => (f_artifacts g, kg)) (saved decide (f_artifacts g) (snd (snd x)))
                       | None => [] end) logs.
  (** Equal results for someone who looks at the contents *)
  Definition same_objects (w1 : world) (v1 p1 : obj) (w2 : world) (v2 p2 : obj) : Prop := look w2 v2 = look w1 v1 /\ look w2 p2 = look w1 p1.
End Spec.
