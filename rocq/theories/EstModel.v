(** Model of hamiltonian.py (grouping, variances, measurement counts) and estimation/_estimation.py. *)
From Coq Require Import String QArith Reals.
From Verif Require Import Base MatModel Cplx CircuitModel DecompModel UtilsModel OpModel.
Open Scope list_scope.
Local Open Scope nat_scope.

(** interfaces/estimation.py:16-30 [EstimationTask] *)
Record task (Op Circ : Type) := { t_op : Op; t_circ : Circ; t_shots : option Z }.
Arguments Build_task {Op Circ} t_op t_circ t_shots.
Arguments t_op {Op Circ} _.
Arguments t_circ {Op Circ} _.
Arguments t_shots {Op Circ} _.

(** ** Grouping *)
(** hamiltonian.py:17-44 *)
Definition is_comeasureable (t1 t2 : term pauli) : bool :=
  forallb (fun f1 : factor pauli => forallb (fun f2 : factor pauli => negb (Nat.eqb (fst f1) (fst f2)) || pauli_eqb (snd f1) (snd f2)) t2) t1.

Section Grouping.
  (** [absle x y]: abs(x) <= abs(y) *)
  Context {K : cring} (im : K) (small : K -> bool) (absle : K -> K -> bool).
  Notation qubit_op := (mk_op (qubit_simplify im)).
  (** 75-91: the first group all of whose terms are co-measurable with the term, or a new group *)
  Fixpoint assign_term (t : term pauli) (c : K) (groups : list (qop K)) : list (qop K) :=
    match groups with
    | [] => [qubit_op t c]
    | g :: gs => if forallb (is_comeasureable t) (dkeys g) then op_add pauli_eqb small g (qubit_op t c) :: gs
                 else g :: assign_term t c gs
    end.
  (** 47-98; [sorted(..., reverse=True)] keeps the order of equal keys *)
  Definition group_comeasureable_terms_greedy (a : qop K) (sort_terms : bool) : list (qop K) :=
    let terms := if sort_terms then sort_by (fun x y : term pauli * K => absle (snd y) (snd x)) a else a in
    let '(groups, constant_term) := fold_left (fun st (tc : term pauli * K) =>
        match fst tc with
        | [] => (fst st, Some (qubit_op [] (snd tc)))
        | _ => (assign_term (fst tc) (snd tc) (fst st), snd st)
        end) terms ([], None) in
    groups ++ match constant_term with Some g => [g] | None => [] end.
  (** 107-131 *)
  Definition get_decomposition_function (name : string) : result (qop K -> list (qop K)) :=
    if String.eqb name "greedy" then Ok (fun a => group_comeasureable_terms_greedy a false)
    else if String.eqb name "greedy-sorted" then Ok (fun a => group_comeasureable_terms_greedy a true)
    else Err ValueError.
  (** _estimation.py:95-119 (the printed message is left out) *)
  Definition group_greedily {Circ} (tasks : list (task (qop K) Circ)) (sort_terms : bool) : list (task (qop K) Circ) :=
    flat_map (fun e => map (fun g => Build_task g (t_circ e) (t_shots e)) (group_comeasureable_terms_greedy (t_op e) sort_terms)) tasks.
  (** 76-92 *)
  Definition group_individually {Circ} (tasks : list (task (qop K) Circ)) : list (task (qop K) Circ) :=
    flat_map (fun e => map (fun g => Build_task g (t_circ e) (t_shots e)) (get_operators (qubit_simplify im) (t_op e))) tasks.
End Grouping.

(** ** Context selection *)
Section Context_selection.
  Context {K : cring} (small : K -> bool) {Num : Type} (angle : R -> Num).
  (** _estimation.py:34-39: extending the context by the factors of one term *)
  Fixpoint extend_context (t : term pauli) (context : list (factor pauli)) : result (list (factor pauli)) :=
    match t with
    | [] => Ok context
    | f :: t' =>
        if existsb (fun e : factor pauli => Nat.eqb (fst e) (fst f) && negb (pauli_eqb (snd e) (snd f))) context then Err ValueError
        else extend_context t' (if memb (factor_eqb pauli_eqb) f context then context else context ++ [f])
    end.
  (** 33, 40 *)
  Definition frame_term (t : term pauli) : isop K :=
    fold_left (fun o (f : factor pauli) => op_mul zact_eqb ising_simplify o (mk_op ising_simplify [(fst f, ZZ)] k1)) t (mk_op ising_simplify [] k1).
  (** 30-41 *)
  Definition build_context (a : qop K) : result (list (factor pauli) * isop K) :=
    foldM (fun st (tc : term pauli * K) =>
        let! context := extend_context (fst tc) (fst st) in
        Ok (context, op_add zact_eqb small (snd st) (op_scale (frame_term (fst tc)) (snd tc)))) a ([], []).
  (** _builtin_gates.py:49 *)
  Definition gate_RX (p : param Num) : gate Num := MFG "RX"%string (FBuiltin "rx_matrix"%string) [p] 1 false.
  (** 43-47 *)
  Definition basis_change (f : factor pauli) : list (operation Num) :=
    match snd f with
    | Px => [GateOp (gate_RY (PNum (angle (- PI / 2)%R))) [fst f]]
    | Py => [GateOp (gate_RX (PNum (angle (PI / 2)%R))) [fst f]]
    | _ => []
    end.
  (** 19-49 *)
  Definition get_context_selection_circuit_for_group (a : qop K) : result (circuit Num * isop K) :=
    let! c0 := mk_circuit [] None in
    let! ct := build_context a in
    let! c := foldM (fun c o => circuit_add c (AddOp o)) (flat_map basis_change (fst ct)) c0 in
    Ok (c, snd ct).
  (** 52-73 *)
  Definition perform_context_selection (tasks : list (task (qop K) (circuit Num))) : result (list (task (isop K) (circuit Num))) :=
    mapM (fun e =>
        let! ci := get_context_selection_circuit_for_group (t_op e) in
        let! frame_circuit := circuit_add (t_circ e) (AddCircuit (fst ci)) in
        Ok (Build_task (snd ci) frame_circuit (t_shots e))) tasks.
End Context_selection.

(** ** Variances and numbers of measurements (real coefficients) *)
Definition rgroup := list (term pauli * R).
Fixpoint sum_R (l : list R) : R := match l with [] => 0%R | x :: l' => (x + sum_R l')%R end.
(** hamiltonian.py:134-136 *)
Definition variance_upper_bound (g : rgroup) : R := sum_R (map (fun tc => snd tc ^ 2)%R g).
(** 139-143: [if new_group.terms.get(())] is false for an absent or a zero constant *)
Definition remove_constant_term (g : rgroup) : rgroup :=
  match dget (term_eqb pauli_eqb) [] g with
  | Some c => if Req_EM_T c 0 then g else ddel (term_eqb pauli_eqb) [] g
  | None => g
  end.
Definition in_range (v : R) : bool := if Rle_dec (-1) v then if Rle_dec v 1 then true else false else false.
(** 171-186: [values] are the real parts of the expectation values; each group takes its slice *)
Fixpoint variances_by_slices (groups : list rgroup) (pauli_variances : list R) : list R :=
  match groups with
  | [] => []
  | g :: gs => sum_R (map (fun cv => (snd (fst cv)) ^ 2 * snd cv)%R (combine g (firstn (length g) pauli_variances)))
               :: variances_by_slices gs (skipn (length g) pauli_variances)
  end.
(** 146-188 *)
Definition compute_group_variances (groups : list rgroup) (expecval : option (list R)) : result (list R) :=
  match expecval with
  | None => Ok (map (fun g => variance_upper_bound (remove_constant_term g)) groups)
  | Some values =>
      if negb (Nat.eqb (sum_nat (map (@length _) groups)) (length values)) then Err ValueError
      else if negb (forallb in_range values) then Err ValueError
      else Ok (variances_by_slices groups (map (fun v => 1 - v ^ 2)%R values))
  end.
(** 262-302 *)
Definition estimate_nmeas_for_frames (groups : list rgroup) (expecval : option (list R)) : result (R * nat * list R) :=
  let! frame_variances := compute_group_variances groups expecval in
  let sqrt_lambda := sum_R (map sqrt frame_variances) in
  let frame_meas := map (fun v => sqrt_lambda * sqrt v)%R frame_variances in
  Ok (sum_R frame_meas, sum_nat (map (@length _) groups), frame_meas).

(** ** Shots *)
Section Shots.
  Context {Op Circ : Type}.
  Notation tk := (task Op Circ).
  (** _estimation.py:122-141 *)
  Definition allocate_shots_uniformly (tasks : list tk) (number_of_shots : Z) : result (list tk) :=
    if (number_of_shots <=? 0)%Z then Err ValueError
    else Ok (map (fun e => Build_task (t_op e) (t_circ e) (Some number_of_shots)) tasks).
  (** 144-183.  [estimate] returns the relative measurements per frame (the third result of [estimate_nmeas_for_frames] on the
      operators), as the exact rational values of the floats; [argsort] as in [scale_and_discretize].  A zero sum of the relative
      measurements is an error here and in the code, where with numpy numbers it is the ValueError of floor(nan). *)
  Definition allocate_shots_proportionally (argsort : list Q -> list nat) (estimate : list Op -> result (list Q))
      (tasks : list tk) (total_n_shots : Z) : result (list tk) :=
    if (total_n_shots <=? 0)%Z then Err ValueError
    else
      let! relative := estimate (map t_op tasks) in
      let! shots := scale_and_discretize argsort relative total_n_shots in
      Ok (map (fun es => Build_task (t_op (fst es)) (t_circ (fst es)) (Some (snd es))) (combine tasks shots)).
  (** 186-208; [bind] is Circuit.bind *)
  Definition evaluate_estimation_circuits {Map} (bind : Circ -> Map -> result Circ) (tasks : list tk) (maps : list Map) : result (list tk) :=
    mapM (fun em => let! c := bind (t_circ (fst em)) (snd em) in Ok (Build_task (t_op (fst em)) c (t_shots (fst em)))) (combine tasks maps).
End Shots.

(** ** Averaging *)
Section Averaging.
  Context {K : cring} {A : Type} (aeqb : A -> A -> bool) (small : K -> bool) {Circ Meas EV : Type}.
  Notation op := (sop A K).
  Notation tk := (task op Circ).
  Definition has_constant (o : op) : bool := dmem (term_eqb aeqb) [] o.
  (** 240-242 *)
  Definition not_measured (e : tk) : bool :=
    (Nat.eqb (length (t_op e)) 1 && has_constant (t_op e)) || match t_shots e with Some n => Z.eqb n 0 | None => false end.
  (** 211-254 *)
  Definition split_estimation_tasks_to_measure (tasks : list tk) : list tk * list tk * list nat * list nat :=
    fold_left (fun st (ie : nat * tk) =>
        let '(yes, no, iyes, ino) := st in
        if not_measured (snd ie) then (yes, no ++ [snd ie], iyes, ino ++ [fst ie]) else (yes ++ [snd ie], no, iyes ++ [fst ie], ino))
      (combine (seq 0 (length tasks)) tasks) ([], [], [], []).
  (** 257-295; [exact_value c] is the ExpectationValues object with value [c] and zero correlations and covariances *)
  Definition evaluate_non_measured (exact_value : K -> EV) (tasks : list tk) : result (list EV) :=
    mapM (fun e =>
        if (1 <? length (t_op e)) || negb (has_constant (t_op e)) then
          match t_shots e with
          | Some n => if (0 <? n)%Z then Err RuntimeError else Ok (exact_value k0)
          | None => Ok (exact_value k0)
          end
        else match dget (term_eqb aeqb) [] (t_op e) with Some c => Ok (exact_value c) | None => Err KeyError end) tasks.
  (** openfermion/zapata_utils/_utils.py:327-341 [change_operator_type] to IsingOperator.  [to_z] is None for an action other than Z,
      which IsingOperator rejects with ValueError (symbolic_operator.py:236-239). *)
  Definition change_operator_type (to_z : A -> option zact) (o : op) : result (isop K) :=
    foldM (fun new (tc : term A * K) =>
        let! t := mapM (fun f : factor A => match to_z (snd f) with Some z => Ok (fst f, z) | None => Err ValueError end) (fst tc) in
        Ok (op_add zact_eqb small new (mk_op ising_simplify t (snd tc)))) o [].
  (** [full_expectation_values[i] = v] *)
  Fixpoint fill {V} (l : list V) (idx : list nat) (full : list (option V)) : list (option V) :=
    match l, idx with
    | v :: l', i :: idx' => fill l' idx' (firstn i full ++ match skipn i full with [] => [] | _ :: r => Some v :: r end)
    | _, _ => full
    end.
  (** 298-361.  [St] is the backend's state; [run] its run_circuitset_and_measure; [evs] is get_expectation_values followed by
      expectation_values_to_real. *)
  Definition estimate_by_averaging {St} (exact_value : K -> EV) (to_z : A -> option zact)
      (run : St -> list Circ -> list (option Z) -> result (St * list Meas)) (evs : Meas -> isop K -> result EV)
      (s : St) (tasks : list tk) : result (St * list (option EV)) :=
    let '(yes, no, iyes, ino) := split_estimation_tasks_to_measure tasks in
    let! exact := evaluate_non_measured exact_value no in
    let! sm := match yes with
               | [] => Ok (s, [])
               | _ => let! sm := run s (map t_circ yes) (map t_shots yes) in
                      let! l := mapM (fun om => let! o := change_operator_type to_z (fst om) in evs (snd om) o) (combine (map t_op yes) (snd sm)) in
                      Ok (fst sm, l)
               end in
    Ok (fst sm, fill (snd sm) iyes (fill exact ino (repeat None (length no + length yes)))).
  (** 364-380; [exact] is the simulator's get_exact_expectation_values *)
  Definition calculate_exact_expectation_values (exact : Circ -> op -> result EV) (tasks : list tk) : result (list EV) :=
    mapM (fun e => exact (t_circ e) (t_op e)) tasks.
End Averaging.
