(** Model of cost_function.py and gradients.py: cost functions made from estimation tasks, and their gradients. *)
From Coq Require Import List ZArith String Bool Reals.
From Verif Require Import Base UtilsModel EvModel EstModel.
Import ListNotations.
Open Scope list_scope.

(** Python code with side effects: from a state to a new state and a value or an exception. *)
Definition M (S A : Type) : Type := S -> S * result A.
Definition retM {S A} (a : A) : M S A := fun s => (s, Ok a).
Definition liftM {S A} (r : result A) : M S A := fun s => (s, r).
Definition bindM {S A B} (m : M S A) (k : A -> M S B) : M S B :=
  fun s => match m s with (s', Ok a) => k a s' | (s', Err e) => (s', Err e) end.
Notation "'do!' x := m 'in' k" := (bindM m (fun x => k)) (at level 200, x pattern, m at level 100, k at level 200).
(** [for f in fs: x = f(x)] *)
Fixpoint chainM {S A} (fs : list (A -> M S A)) (a : A) : M S A :=
  match fs with [] => retM a | f :: fs' => do! a' := f a in chainM fs' a' end.

Notation vec := (list R) (only parsing).
(** [a + b] for one-dimensional arrays of the same length *)
Definition vplus (a b : vec) : vec := map (fun xy => fst xy + snd xy)%R (combine a b).
Fixpoint rsum (l : list R) : R := match l with [] => 0%R | x :: l' => (x + rsum l')%R end.

(** ** gradients.py *)
(** [a[i] += d] on a fresh copy *)
Fixpoint bump (i : nat) (d : R) (p : vec) : vec :=
  match p, i with
  | [], _ => []
  | x :: p', O => (x + d)%R :: p'
  | x :: p', S i' => x :: bump i' d p'
  end.
(** gradients.py:8-34.  Numbers are exact; [function] returns Python floats, so that a zero step is a ZeroDivisionError
    (after the two evaluations). *)
Definition difference_quotient (d step : R) : result R :=
  if Req_EM_T (2 * step) 0 then Err ZeroDivisionError else Ok (d / (2 * step))%R.
Fixpoint gradient_loop {S} (function : vec -> M S R) (step : R) (parameters : vec) (idx : list nat) (gradient : vec) : M S vec :=
  match idx with
  | [] => retM gradient
  | i :: idx' =>
      do! plus := function (bump i step parameters) in
      do! minus := function (bump i (- step) parameters) in
      do! q := liftM (difference_quotient (plus - minus) step) in
      gradient_loop function step parameters idx' (gradient ++ [q])
  end.
Definition finite_differences_gradient {S} (function : vec -> M S R) (step : R) (parameters : vec) : M S vec :=
  gradient_loop function step parameters (seq 0 (length parameters)) [].

(** ** Sums of expectation values *)
(** A ValueEstimate: precision is a number, nan (the square root of a negative number) or None. *)
Inductive precision := NoPrecision | Precision (x : R) | NaN.
Record estimate := { est_value : R; est_precision : precision }.
Definition np_sqrt (x : R) : precision := if Rlt_dec x 0 then NaN else Precision (sqrt x).
(** [np.sum(frame, (0, 1))] *)
Definition frame_sum (frame : list (list R)) : R := rsum (map rsum frame).
(** cost_function.py:166-198 [sum_expectation_values]; the estimator covariances are None or a list of two-dimensional arrays *)
Definition sum_expectation_values (values : list R) (covariances : option (list (list (list R)))) : estimate :=
  {| est_value := rsum values;
     est_precision := match covariances with
                      | None | Some [] => NoPrecision
                      | Some frames => np_sqrt (fold_left (fun v frame => v + frame_sum frame)%R frames 0%R)
                      end |}.
Definition real_part (v : scalar R) : R := match v with SReal x => x | SCplx re _ => re end.
(** What an estimation method returns: ExpectationValues objects, whose lists of arrays are held by reference (EvModel.v). *)
Definition evs : Type := list (list (list (list R))) * list (@ev_ref (scalar R)).
(** 400-404: [sum_expectation_values(expectation_values_to_real(concatenate_expectation_values(...)))] *)
Definition combine_and_sum (e : evs) : estimate :=
  let (h, c) := concatenate_expectation_values (fst e) (snd e) in
  let (values, _) := expectation_values_to_real (er_values c) (er_correlations c) in
  sum_expectation_values (map real_part values) (match er_covariances c with None => None | Some r => Some (hget h r) end).

Section Cost.
  (** [W]: the world outside (backend, estimation method, preprocessors ...); [G]: random number generators. *)
  Context {W G Op Circ : Type}.
  Notation tk := (task Op Circ).
  Record state := { gens : list G; world : W }.
  (** np.random.default_rng(seed): determined by a seed, taken from the world if there is none; [normal] draws numbers. *)
  Context (seeded : Z -> G) (entropy : W -> W * G) (normal : G -> R -> R -> nat -> G * vec).
  Definition default_rng (seed : option Z) : M state G :=
    fun s => match seed with
             | Some z => (s, Ok (seeded z))
             | None => let (w, g) := entropy (world s) in ({| gens := gens s; world := w |}, Ok g)
             end.

  (** interfaces/cost_function.py:33-44 *)
  Definition preprocessor := vec -> M state vec.
  (** interfaces/ansatz_utils.py:77-87 *)
  Definition combine_ansatz_params (params1 params2 : vec) : vec := params1 ++ params2.
  (** cost_function.py:305-317 *)
  Definition fix_parameters (fixed_parameters : vec) : preprocessor :=
    fun parameters => retM (combine_ansatz_params fixed_parameters parameters).
  (** [rng.normal(0.0, sd, n)]: a negative standard deviation is a ValueError *)
  Definition draw (g : G) (sd : R) (n : nat) : result (G * vec) :=
    if Rlt_dec sd 0 then Err ValueError else Ok (normal g 0 sd n).
  Fixpoint set_gen (i : nat) (g : G) (l : list G) : list G :=
    match l, i with [], _ => [] | _ :: l', O => g :: l' | x :: l', S i' => x :: set_gen i' g l' end.
  (** 320-340 [add_normal_noise]: the generator is created with the preprocessor and kept in a new slot *)
  Definition noise_preprocessor (slot : nat) (sd : R) : preprocessor :=
    fun parameters s =>
      match nth_error (gens s) slot with
      | None => (s, Err GenericException)
      | Some g => match draw g sd (length parameters) with
                  | Err e => (s, Err e)
                  | Ok (g', noise) => ({| gens := set_gen slot g' (gens s); world := world s |}, Ok (vplus parameters noise))
                  end
      end.
  Definition add_normal_noise (parameter_precision : R) (parameter_precision_seed : option Z) : M state preprocessor :=
    do! rng := default_rng parameter_precision_seed in
    fun s => ({| gens := gens s ++ [rng]; world := world s |}, Ok (noise_preprocessor (length (gens s)) parameter_precision)).

  (** ** create_cost_function *)
  (** The argument parameter_preprocessors: None, a list, or an iterator, which is left with fewer elements. *)
  Inductive iterable := INone | IList (l : list preprocessor) | IIterator (l : list preprocessor).
  Fixpoint consume (l : list preprocessor) (p : vec) (s : state) : list preprocessor * (state * result vec) :=
    match l with
    | [] => ([], (s, Ok p))
    | f :: l' => match f p s with (s', Ok p') => consume l' p' s' | (s', Err e) => (l', (s', Err e)) end
    end.
  Definition preprocess (p : vec) : M (state * iterable) vec :=
    fun '(s, it) =>
      match it with
      | INone => ((s, it), Ok p)
      | IList l => let (s', r) := chainM l p s in ((s', it), r)
      | IIterator l => let '(l', (s', r)) := consume l p s in ((s', IIterator l'), r)
      end.
  Definition inner {A} (m : M state A) : M (state * iterable) A := fun '(s, it) => let (s', r) := m s in ((s', it), r).
  (** 391-404 [_cost_function]; [method] is estimation_method(backend, -) *)
  Definition cost_function (factory : vec -> M state (list tk)) (method : list tk -> M state evs) (parameters : vec)
      : M (state * iterable) estimate :=
    do! parameters := preprocess parameters in
    do! estimation_tasks := inner (factory parameters) in
    do! expectation_values_list := inner (method estimation_tasks) in
    retM (combine_and_sum expectation_values_list).
  (** a ValueEstimate is a float *)
  Definition as_float {S} (f : vec -> M S estimate) (p : vec) : M S R := do! v := f p in retM (est_value v).
  (** 343-406: the function, and gradient_function applied to it (default: finite differences with step 1e-5) *)
  Record with_gradient := { wg_function : vec -> M (state * iterable) estimate; wg_gradient : vec -> M (state * iterable) vec }.
  Definition create_cost_function (factory : vec -> M state (list tk)) (method : list tk -> M state evs)
      (gradient_function : (vec -> M (state * iterable) estimate) -> vec -> M (state * iterable) vec) : with_gradient :=
    let f := cost_function factory method in {| wg_function := f; wg_gradient := gradient_function f |}.
  Definition default_gradient (f : vec -> M (state * iterable) estimate) : vec -> M (state * iterable) vec :=
    finite_differences_gradient (as_float f) (/ 100000).

  (** ** Factories of estimation tasks *)
  (** Circuit.free_symbols, Circuit.bind, the order in which a set of symbols is traversed, the comparison of sort keys *)
  Context (free_symbols : Circ -> list string) (bind : Circ -> list (string * R) -> result Circ)
          (set_order : list string -> list string) (key_leb : string -> string -> bool).
  (** 45-54 *)
  Definition sorted_circuit_symbols (tasks : list tk) : list string :=
    sort_by key_leb (set_order (uniq String.eqb (flat_map (fun t => free_symbols (t_circ t)) tasks))).
  Definition task_preprocessor := list tk -> M state (list tk).
  Definition bind_tasks (tasks : list tk) (symbols : list string) (parameters : vec) : result (list tk) :=
    let! symbols_map := create_symbols_map symbols parameters in
    evaluate_estimation_circuits bind tasks (map (fun _ => symbols_map) tasks).
  (** 409-461; [None] is the empty list *)
  Definition expectation_value_estimation_tasks_factory (target_operator : Op) (parametrized_circuit : Circ)
      (estimation_preprocessors : option (list task_preprocessor)) : M state (vec -> M state (list tk)) :=
    do! estimation_tasks := chainM (match estimation_preprocessors with None => [] | Some l => l end)
                              [Build_task target_operator parametrized_circuit None] in
    let circuit_symbols := sorted_circuit_symbols estimation_tasks in
    retM (fun parameters => liftM (bind_tasks estimation_tasks circuit_symbols parameters)).
  (** 464-493 [substitution_based_estimation_tasks_factory]; [parametrized_circuit] reads the ansatz when the factory is made *)
  Definition substitution_based_estimation_tasks_factory (target_operator : Op) (parametrized_circuit : M state Circ)
      (estimation_preprocessors : option (list task_preprocessor)) : M state (vec -> M state (list tk)) :=
    do! c := parametrized_circuit in
    expectation_value_estimation_tasks_factory target_operator c estimation_preprocessors.
  (** 496-545 *)
  Definition dynamic_circuit_estimation_tasks_factory (target_operator : Op) (generate_circuit : vec -> M state Circ)
      (estimation_preprocessors : option (list task_preprocessor)) : vec -> M state (list tk) :=
    fun parameters =>
      do! circuit := generate_circuit parameters in
      chainM (match estimation_preprocessors with None => [] | Some l => l end) [Build_task target_operator circuit None].

  (** ** The deprecated cost functions *)
  (** 137-143 and 283-291: fixed parameters first, then noise from a generator that is created in every call *)
  Definition fixed_and_noise (fixed_parameters : option vec) (parameter_precision : option R) (seed : option Z) (parameters : vec) : M state vec :=
    let parameters := match fixed_parameters with Some f => combine_ansatz_params f parameters | None => parameters end in
    match parameter_precision with
    | None => retM parameters
    | Some sd => do! rng := default_rng seed in do! gn := liftM (draw rng sd (length parameters)) in retM (vplus parameters (snd gn))
    end.
  (** 125-159: the function that [get_ground_state_cost_function] returns.  [is_complex] tells whether an array of values has a
      complex type; arrays of integers are not modelled. *)
  Definition ground_state_cost_function (is_complex : list (scalar R) -> bool) (estimation_tasks : list tk) (circuit_symbols : list string)
      (fixed_parameters : option vec) (parameter_precision : option R) (seed : option Z) (method : list tk -> M state evs)
      (parameters : vec) : M state estimate :=
    do! parameters := fixed_and_noise fixed_parameters parameter_precision seed parameters in
    do! tasks := liftM (bind_tasks estimation_tasks circuit_symbols parameters) in
    do! e := method tasks in
    if existsb (fun ev => is_complex (er_values ev)) (snd e) then liftM (Err ValueError)
    else retM {| est_value := rsum (map (fun ev => rsum (map real_part (er_values ev))) (snd e)); est_precision := NoPrecision |}.
  (** 274-302 [AnsatzBasedCostFunction.__call__] *)
  Definition ansatz_based_cost_function (estimation_tasks : list tk) (circuit_symbols : list string)
      (fixed_parameters : option vec) (parameter_precision : option R) (seed : option Z) (method : list tk -> M state evs)
      (parameters : vec) : M state estimate :=
    do! full_parameters := fixed_and_noise fixed_parameters parameter_precision seed parameters in
    do! tasks := liftM (bind_tasks estimation_tasks circuit_symbols full_parameters) in
    do! e := method tasks in
    retM (combine_and_sum e).
  (** 60-123 and 229-272: the tasks and the symbols are computed once *)
  Definition prepare_tasks (target_operator : Op) (parametrized_circuit : Circ) (estimation_preprocessors : option (list task_preprocessor))
      : M state (list tk * list string) :=
    do! estimation_tasks := chainM (match estimation_preprocessors with None => [] | Some l => l end)
                              [Build_task target_operator parametrized_circuit None] in
    retM (estimation_tasks, sorted_circuit_symbols estimation_tasks).
End Cost.
Arguments state W G : clear implicits.
Arguments iterable W G : clear implicits.
Arguments preprocessor W G : clear implicits.
