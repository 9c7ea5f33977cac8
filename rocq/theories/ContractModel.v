(** Model of the contracts: interfaces/estimator_contract.py, and the contracts of interfaces/optimizer_test.py:185-261. *)
From Coq Require Import String ZArith Reals.
From Verif Require Import Base MatModel Cplx CircuitModel OpModel EstModel CostModel HistModel HistSpec OptModel.
Open Scope list_scope.
Local Open Scope nat_scope.

Section Estimators.
  (** [V]: the arrays of values, compared by np.array_equal; [S]: the state of an estimator, for instance of its random numbers *)
  Context {Num V S : Type} (angle : R -> Num) (array_equal : V -> V -> bool).
  Notation tk := (task (isop CC) (circuit Num)).
  (** estimator(backend=_backend, estimation_tasks=tasks), with the values of each result *)
  Definition estimator := list tk -> M S (list V).

  Definition real (x : R) : CC := (x, 0%R).
  Definition g_H : gate Num := MFG "H"%string (FBuiltin "h_matrix"%string) [] 1 true.
  Definition g_RX (a : R) : gate Num := MFG "RX"%string (FBuiltin "rx_matrix"%string) [PNum (angle a)] 1 false.
  Definition g_RY (a : R) : gate Num := MFG "RY"%string (FBuiltin "ry_matrix"%string) [PNum (angle a)] 1 false.
  Definition g_RZ (a : R) : gate Num := MFG "RZ"%string (FBuiltin "rz_matrix"%string) [PNum (angle a)] 1 false.
  Definition Z_ (q : nat) : term zact := [(q, ZZ)].
  Definition a_task (o : isop CC) (ops : list (operation Num)) (n : Z) : tk := {| t_op := o; t_circ := {| c_ops := ops; c_nq := n |}; t_shots := Some 10000%Z |}.
  (** 30-50 *)
  Definition _estimation_tasks : list tk :=
    [a_task [(Z_ 0, real 1)] [GateOp g_H [0]] 1;
     a_task [(Z_ 0, real 1); (Z_ 1, real 1); (Z_ 2, real 1)] [GateOp g_H [0]; GateOp (g_RX (PI / 3)) [0]; GateOp g_H [2]] 3;
     a_task [(Z_ 0, real 1); (Z_ 1, real 4)] [GateOp (g_RX PI) [0]; GateOp (g_RY (12 / 100)) [1]; GateOp (g_RZ (PI / 3)) [1]; GateOp (g_RY (19213 / 10000)) [0]] 2].

  (** l[i] for i >= 0 *)
  Definition item (l : list V) (i : nat) : result V := match nth_error l i with Some v => Ok v | None => Err IndexError end.
  (** 53-63 *)
  Definition each_task_returns_one_expectation_value (e : estimator) : M S bool :=
    do! values := e _estimation_tasks in retM (Nat.eqb (length values) (length _estimation_tasks)).
  (** 74-85: the list of comparisons; expectation_values[i] is taken before the estimator is called *)
  Fixpoint compare_outputs (e : estimator) (values : list V) (i : nat) (tasks : list tk) : M S bool :=
    match tasks with
    | [] => retM true
    | t :: rest =>
        do! v := liftM (item values i) in
        do! single := e [t] in
        do! w := liftM (item single 0) in
        do! others := compare_outputs e values (Datatypes.S i) rest in
        retM (array_equal v w && others)
    end.
  (** 66-85 *)
  Definition order_of_outputs_matches_order_of_inputs (e : estimator) : M S bool :=
    do! values := e _estimation_tasks in compare_outputs e values 0 _estimation_tasks.
  Definition factor_19 : R := (19971997 / 1000000)%R.
  Definition coefficient_tasks : list tk :=
    [a_task [(Z_ 0, real 1)] [GateOp (g_RX (PI / 3)) [0]] 1; a_task [(Z_ 0, real factor_19)] [GateOp (g_RX (PI / 3)) [0]] 1].
  Definition constant_tasks : list tk :=
    [a_task [(Z_ 0, real 1)] [GateOp g_H [0]] 1; a_task [(Z_ 0, real 1); ([], real factor_19)] [GateOp g_H [0]] 1].
  (** 98-105, 120-127 *)
  Definition results_differ (e : estimator) (tasks : list tk) : M S bool :=
    do! values := e tasks in
    do! v := liftM (item values 0) in
    do! w := liftM (item values 1) in
    retM (negb (array_equal v w)).
  (** 88-105 *)
  Definition expectation_value_includes_coefficients (e : estimator) : M S bool := results_differ e coefficient_tasks.
  (** 108-127 *)
  Definition constant_terms_are_included_in_output (e : estimator) : M S bool := results_differ e constant_tasks.
  (** 130-135 *)
  Definition ESTIMATOR_CONTRACTS : list (estimator -> M S bool) :=
    [each_task_returns_one_expectation_value; order_of_outputs_matches_order_of_inputs; expectation_value_includes_coefficients; constant_terms_are_included_in_output].
End Estimators.

Section Optimizers.
  Context {A V E : Type}.
  Notation world := (world A V E). Notation fn := (fn A V E). Notation obj := (obj V).
  (** optimizer.minimize(factory, initial_params, keep_history); the default of keep_history is False *)
  Definition nested_optimizer := (nat -> fn) -> obj -> bool -> world -> result (opt_result V) * world.
  (** [with_gradient f] is FunctionWithGradient(f, finite_differences_gradient(f)) *)
  Context (with_gradient : fn -> fn).
  (** result.history; OptimizeResult gives its items as attributes *)
  Definition history_attribute (r : opt_result V) : result (list (entry V)) :=
    match dget String.eqb "history"%string (kwargs r) with Some h => Ok h | None => Err AttributeError end.
  Definition validate (check : opt_result V -> result bool) (run : world -> result (opt_result V) * world) (w : world) : result bool * world :=
    let '(r, w') := run w in (let! r := r in check r, w').
  (** 198-206 *)
  Definition records_history_if_keep_history_is_true (o : nested_optimizer) (factory : nat -> fn) (x : obj) : world -> result bool * world :=
    validate (fun r => let! h := history_attribute r in Ok (negb (Nat.eqb (length h) 0))) (o factory x true).
  (** 209-223 *)
  Definition records_gradient_history_if_keep_history_is_true (o : nested_optimizer) (factory : nat -> fn) (x : obj) : world -> result bool * world :=
    validate (fun r => Ok (match dget String.eqb "gradient_history"%string (kwargs r) with Some _ => true | None => false end)) (o (fun i => with_gradient (factory i)) x true).
  (** 226-234 *)
  Definition does_not_record_history_if_keep_history_is_false (o : nested_optimizer) (factory : nat -> fn) (x : obj) : world -> result bool * world :=
    validate (fun r => let! h := history_attribute r in Ok (Nat.eqb (length h) 0)) (o factory x false).
  (** 237-244 *)
  Definition does_not_record_history_by_default (o : nested_optimizer) (factory : nat -> fn) (x : obj) : world -> result bool * world :=
    validate (fun r => let! h := history_attribute r in Ok (match h with [] => true | _ => false end)) (o factory x false).
  (** the fields of a result (optimizer.py:85-103): the four mandatory ones are arguments of optimization_result *)
  Definition fields (r : opt_result V) : list string := ["opt_value"; "opt_params"; "nit"; "nfev"]%string ++ map fst (kwargs r).
  (** 247-253; line 21 *)
  Definition returns_all_the_mandatory_fields_in_results (o : nested_optimizer) (factory : nat -> fn) (x : obj) : world -> result bool * world :=
    validate (fun r => Ok (forallb (fun f => memb String.eqb f (fields r)) ["nfev"; "nit"; "opt_value"; "opt_params"]%string)) (o factory x false).
  (** 256-262 *)
  Definition NESTED_OPTIMIZER_CONTRACTS : list (nested_optimizer -> (nat -> fn) -> obj -> world -> result bool * world) :=
    [records_history_if_keep_history_is_true; records_gradient_history_if_keep_history_is_true; does_not_record_history_if_keep_history_is_false;
     does_not_record_history_by_default; returns_all_the_mandatory_fields_in_results].
End Optimizers.
