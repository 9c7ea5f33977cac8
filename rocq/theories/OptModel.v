(** Model of interfaces/optimizer.py and of the mock optimizers: recording the history of an optimization. *)
From Coq Require Import List ZArith String Bool.
From Verif Require Import Base HistModel HistSpec.
Import ListNotations.
Open Scope string_scope.
Open Scope list_scope.

Section Optimizer.
  Context {A V E : Type}.
  Notation obj := (obj V). Notation world := (world A V E). Notation fn := (fn A V E). Notation recorder_obj := (recorder_obj A V E).
  Notation content := (content A V). Notation stmt := (stmt (A := A) (V := V)). Notation vars := (vars (V := V)).
  (** What the algorithm of an optimizer does: statements that make arrays, change arrays and call the cost function or its gradient, chosen
      according to everything it has seen so far, until it returns four things: the variables with the value and the parameters found,
      the number of iterations and the number of evaluations. The first variable is initial_params. *)
  Inductive strategy := Finish (opt_value opt_params nit nfev : nat) | Fail (e : exn) | Step (st : stmt) (next : list (result content) -> strategy).
  Definition optimizer := list (result content) -> strategy.
  (** the contents of the variables *)
  Definition seen (w : world) (vs : vars) : list (result content) :=
    map (fun r => match r with Ok o => match look w o with Some c => Ok c | None => Err RuntimeError end | Err e => Err e end) vs.
  Fixpoint play {S} (f g : caller (A := A) (E := E) S) (t : strategy) (m : S * world * vars) : S * world * vars * result (nat * nat * nat * nat) :=
    match t with
    | Finish x y nit nfev => (m, Ok (x, y, nit, nfev))
    | Fail e => (m, Err e)
    | Step st next => let m' := exec f g st m in play f g (next (seen (snd (fst m')) (snd m'))) m'
    end.
  (** calls of a function that is not recorded *)
  Definition plain (f : fn) : caller (A := A) (E := E) unit := fun s o w => let '(r, _, w') := call_fn f o w in (r, s, w').
  Definition plain_gradient (f : fn) : caller (A := A) (E := E) unit := fun s o w => let '(r, w') := call_gradient f o w in (r, s, w').

  (** optimizer.py:85-103 [optimization_result]; histories are given by their entries at the end of the optimization *)
  Definition histories := list (string * list (entry V)).
  Record opt_result := { opt_value : obj; opt_params : obj; nit : nat; nfev : nat; kwargs : histories }.
  (** mock_objects.py:54-60: the end of _minimize *)
  Definition finish (vs : vars) (fin : result (nat * nat * nat * nat)) (h : histories) : result opt_result :=
    let! f := fin in let '(x, y, n, k) := f in
    let! v := var vs x in let! p := var vs y in Ok {| opt_value := v; opt_params := p; nit := n; nfev := k; kwargs := h |}.

  (** optimizer.py:106-122 [construct_history_info]; None: the cost function is not a recorder *)
  Definition construct_history_info (cost_function : option recorder_obj) (keep_history : bool) (w : world) : histories :=
    if keep_history then
      match cost_function with
      | None => []
      | Some r =>
          let h := [] in
          let h := if r_artifacts r then dset String.eqb "history" (history_of r w) h else h in
          let h := if negb (r_artifacts r) then dset String.eqb "history" (history_of r w) h else h in
          match r_gradient r with
          | None => h
          | Some g =>
              let h := if r_artifacts r then dset String.eqb "gradient_history" (history_of g w) h else h in
              if negb (r_artifacts r) then dset String.eqb "gradient_history" (history_of g w) h else h
          end
      end
    else dset String.eqb "history" [] [].
  (** histories[name] of a dict, or of a defaultdict(list) *)
  Definition getitem (default : bool) (name : string) (h : histories) : result (list (entry V)) :=
    match dget String.eqb name h with Some l => Ok l | None => if default then Ok [] else Err KeyError end.
  (** optimizer.py:125-134 [extend_histories] *)
  Definition extend_histories (cost_function : recorder_obj) (default : bool) (h : histories) (w : world) : result histories :=
    let new := construct_history_info (Some cost_function) true w in
    let! old := getitem default "history" h in
    let! more := getitem false "history" new in
    let updated := dset String.eqb "history" (old ++ more) [] in
    match r_gradient cost_function with
    | None => Ok updated
    | Some _ =>
        let! old := getitem default "gradient_history" h in
        let! more := getitem false "gradient_history" new in
        Ok (dset String.eqb "gradient_history" (old ++ more) updated)
    end.

  Context (condition : save_condition A V).
  (** optimizer.py:35-53 [Optimizer.minimize] with the recorder of the library; [preprocess] is _preprocess_cost_function.
      Every implementation of _minimize is taken to pass on construct_history_info(cost_function, keep_history) as in mock_objects.py:45-61. *)
  Definition minimize (algorithm : optimizer) (preprocess : fn -> fn) (cost_function : fn) (initial_params : obj) (keep_history : bool) (w : world) : result opt_result * world :=
    let f := preprocess cost_function in
    let vs := [Ok initial_params] in
    if keep_history then
      let '(r, w1) := recorder f condition w in
      let '(r', w2, vs', fin) := play recorded recorded_gradient (algorithm (seen w1 vs)) (r, w1, vs) in
      (finish vs' fin (construct_history_info (Some r') true w2), w2)
    else
      let '(_, w2, vs', fin) := play (plain f) (plain_gradient f) (algorithm (seen w vs)) (tt, w, vs) in
      (finish vs' fin (construct_history_info None false w2), w2).

  (** mock_objects.py:44-60 [MockOptimizer]; [perturb] adds the random numbers to the parameters, in place, for an array of parameters *)
  Definition mock_optimizer (perturb : A -> A) : optimizer := fun s =>
    match s with
    | Ok (CArr a) :: _ => Step (Write 0 (perturb a)) (fun _ => Step (New (perturb a)) (fun _ => Step (Call 1) (fun _ => Finish 2 1 1 1)))
    | _ => Fail TypeError
    end.

  (** mock_objects.py:93-127 [MockNestedOptimizer._minimize]: the loop. The inner optimizer is called without keep_history and does not
      preprocess. The array made by np.append in line 109 is never used. *)
  Record nested_state := { n_histories : histories; n_default : bool; n_nfev : nat; n_last : option (obj * obj) }.
  Fixpoint nested_loop (inner : optimizer) (factory : nat -> fn) (initial_params : obj) (keep_history : bool) (iterations : list nat) (s : nested_state) (w : world) : result nested_state * world :=
    match iterations with
    | [] => (Ok s, w)
    | i :: rest =>
        let vs := [Ok initial_params] in
        if keep_history then
          let '(r, w1) := recorder (factory i) condition w in
          let '(r', w2, vs', fin) := play recorded recorded_gradient (inner (seen w1 vs)) (r, w1, vs) in
          match (let! res := finish vs' fin [] in let! h := extend_histories r' (n_default s) (n_histories s) w2 in
                 Ok {| n_histories := h; n_default := false; n_nfev := n_nfev s + nfev res; n_last := Some (opt_value res, opt_params res) |}) with
          | Ok s' => nested_loop inner factory initial_params keep_history rest s' w2
          | Err e => (Err e, w2)
          end
        else
          match minimize inner (fun f => f) (factory i) initial_params false w with
          | (Ok res, w2) => nested_loop inner factory initial_params keep_history rest
              {| n_histories := n_histories s; n_default := n_default s; n_nfev := n_nfev s + nfev res; n_last := Some (opt_value res, opt_params res) |} w2
          | (Err e, w2) => (Err e, w2)
          end
    end.
  (** The variable opt_result is unbound after a loop without iterations (UnboundLocalError). *)
  Definition nested_minimize (inner : optimizer) (n_iters : nat) (factory : nat -> fn) (initial_params : obj) (keep_history : bool) (w : world) : result opt_result * world :=
    match nested_loop inner factory initial_params keep_history (seq 0 n_iters) {| n_histories := [("history", [])]; n_default := true; n_nfev := 0; n_last := None |} w with
    | (Err e, w') => (Err e, w')
    | (Ok s, w') =>
        (match n_last s with
         | Some (v, p) => Ok {| opt_value := v; opt_params := p; nit := n_iters; nfev := n_nfev s; kwargs := n_histories s |}
         | None => Err GenericException
         end, w')
    end.
End Optimizer.
Arguments strategy A V : clear implicits. Arguments optimizer A V : clear implicits. Arguments opt_result V : clear implicits. Arguments histories V : clear implicits.
Arguments nested_state V : clear implicits.
