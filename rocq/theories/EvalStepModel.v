(** Model of the workflow steps of steps/measure.py and steps/evaluation.py that work on results kept in files, around the functions modelled in RdmModel.v, SparseModel.v,
    QopUtilModel.v, EstModel.v, MeasModel.v and CostModel.v.
    A file is the object that loading it returns (C99 relates the two).  Simplification: files hold one of the kinds of objects named in [artifact]; reading another kind is the
    KeyError of a missing entry, reading text that is no JSON document is a ValueError. *)
From Coq Require Import String ZArith QArith Qreals Reals.
From Verif Require Import Base MatModel OpModel TensorModel SparseModel QopUtilModel DiagModel RdmModel CostModel.
From Verif Require MeasModel EstModel.
Open Scope list_scope.
Local Open Scope nat_scope.

Section Steps.
  Context {K : cring} (im half : K) (small isz : K -> bool).
  Notation arr := (TensorModel.ndarray K).
  Inductive artifact :=
  | Broken
  | Operator (a : qop K)
  | Operators (l : list (qop K))
  | Rdm (one two : arr)
  | Values (values : list K)
  | Estimate (value : K) (precision : precision)
  | State (amplitudes : MatModel.vec K)
  | Analysis (nmeas : R) (nterms : nat) (frame_meas : list R)
  | Outcomes (m : MeasModel.measurements).
  Definition disk := list (string * artifact).

  Definition open_file (name : string) : M disk artifact := fun d =>
    (d, match dget String.eqb name d with None => Err FileNotFoundError | Some Broken => Err ValueError | Some x => Ok x end).
  Definition load {A} (from : artifact -> option A) (name : string) : M disk A :=
    do! x := open_file name in match from x with Some y => retM y | None => liftM (Err KeyError) end.
  Definition save (name : string) (x : artifact) : M disk unit := fun d => (dset String.eqb name x d, Ok tt).
  Definition load_qubit_operator : string -> M disk (qop K) := load (fun x => match x with Operator a => Some a | _ => None end).
  Definition load_qubit_operator_set : string -> M disk (list (qop K)) := load (fun x => match x with Operators l => Some l | _ => None end).
  Definition load_expectation_values : string -> M disk (list K) := load (fun x => match x with Values l => Some l | _ => None end).
  Definition load_measurements : string -> M disk MeasModel.measurements := load (fun x => match x with Outcomes m => Some m | _ => None end).
  (** The arrays are new ones, so the heap on which the tensor lives is empty before. *)
  Definition load_interaction_rdm (name : string) : M disk (heap K * ptensor K) :=
    do! a := load (fun x => match x with Rdm one two => Some (one, two) | _ => None end) name in liftM (interaction_rdm [] (fst a) (snd a)).
  (** _io.py:309-321: one_body_tensor and two_body_tensor of the object *)
  Definition save_interaction_rdm (r : heap K * ptensor K) (name : string) : M disk unit :=
    do! one := liftM (array_at (fst r) (snd r) [true; false]) in
    do! two := liftM (array_at (fst r) (snd r) [true; true; false; false]) in
    save name (Rdm one two).

  (** An argument that is a name or an object. *)
  Definition given {A} (load : string -> M disk A) (x : string + A) : M disk A := match x with inl name => load name | inr a => retM a end.

  (** ** steps/evaluation.py *)
  Context (eigensolver : mat K -> result (K * MatModel.vec K)).
  (** 96-107 [get_ground_state_rdm_from_qubit_operator]: the operator is always loaded; of an object that is no file, rapidjson.load raises TypeError *)
  Definition get_ground_state_rdm_from_qubit_operator (qubit_operator : string + qop K) (n_particles : nat) : M disk unit :=
    do! a := match qubit_operator with inl name => load_qubit_operator name | inr _ => liftM (Err TypeError) end in
    do! rdm := liftM (get_ground_state_rdm_from_qubit_op im half small isz eigensolver [] a n_particles) in
    save_interaction_rdm rdm "rdms.json".
  (** 110-133 [jw_get_ground_state_at_particle_number]; [normalized] is the test in the constructor of wavefunctions (C22), which always gets 2^n amplitudes here *)
  Definition jw_get_ground_state_at_particle_number (normalized : MatModel.vec K -> bool) (particle_number : nat) (qubit_operator : string + qop K) : M disk unit :=
    do! a := given load_qubit_operator qubit_operator in
    do! A := liftM (get_sparse_operator im half small isz (OQubit a) None) in
    do! ground := liftM (SparseModel.jw_get_ground_state_at_particle_number eigensolver A particle_number) in
    do! _ := if normalized (snd ground) then retM tt else liftM (Err ValueError) in
    do! _ := save "ground-state.json" (State (snd ground)) in
    save "value-estimate.json" (Estimate (fst ground) NoPrecision).
  (** 136-150 [evaluate_qubit_operator_list]; [re] is numpy.real *)
  Definition evaluate_qubit_operator_list (re : K -> K) (operators : string + list (qop K)) (expectation_values : string + list K) : M disk unit :=
    do! l := given load_qubit_operator_set operators in
    do! values := given load_expectation_values expectation_values in
    do! v := liftM (QopUtilModel.evaluate_qubit_operator_list re l values) in
    save "value-estimate.json" (Estimate v NoPrecision).

  (** ** steps/measure.py *)
  (** 254-297 [grouped_hamiltonian_analysis]; [real] are the real numbers that coefficients and values are *)
  Definition grouped_hamiltonian_analysis (real : K -> R) (groups : string) (expectation_values : option string) : M disk unit :=
    do! grouped := load_qubit_operator_set groups in
    do! expecval := match expectation_values with Some name => do! v := load_expectation_values name in retM (Some v) | None => retM None end in
    do! r := liftM (EstModel.estimate_nmeas_for_frames (map (map (fun tc : term pauli * K => (fst tc, real (snd tc)))) grouped) (option_map (map real) expecval)) in
    let '(nmeas, nterms, frame_meas) := r in
    save "hamiltonian_analysis.json" (Analysis nmeas nterms frame_meas).
  (** 300-308 [expectation_values_from_rdms]; [larger], [complex] and [clip] as in RdmModel.v *)
  Definition expectation_values_from_rdms (larger : K -> K -> bool) (complex : K -> bool) (clip : K -> K) (interactionrdm qubit_operator : string) (sort_terms : bool) : M disk unit :=
    do! a := load_qubit_operator qubit_operator in
    do! r := load_interaction_rdm interactionrdm in
    do! values := liftM (get_expectation_values_from_rdms im small larger complex clip (fst r) (snd r) a sort_terms) in
    save "expectation_values.json" (Values values).
  (** 311-334 [expectation_values_from_rdms_for_qubitoperator_list] *)
  Definition expectation_values_from_rdms_list (larger : K -> K -> bool) (complex : K -> bool) (clip : K -> K) (interactionrdm operators : string) (sort_terms : bool) : M disk unit :=
    do! l := load_qubit_operator_set operators in
    do! r := load_interaction_rdm interactionrdm in
    do! values := liftM (get_expectation_values_list im small larger complex clip (fst r) (snd r) l sort_terms) in
    save "expectation_values.json" (Values values).
  (** 337-352 [get_summed_expectation_values].  The name IsingOperator is not imported in this module: once the file is read, the next line raises NameError (here
      GenericException).  [ONotIsing]: an object that is no IsingOperator, measurement.py:748-749.  [of_R]: the number as it is written. *)
  Inductive observable := OIsing (op : MeasModel.ising) | ONotIsing.
  Definition real_matrix (c : list (list Q)) : list (list R) := map (map Q2R) c.
  (** cost_function.py:166-198 on the values of measurement.py: a covariance matrix that was divided by zero holds NaN or infinities, and so does the sum of its entries unless
      there are none *)
  Definition summed (e : MeasModel.expectation_values) : estimate :=
    let values := map Q2R (MeasModel.ev_values e) in
    match MeasModel.ev_covariances e with
    | None => sum_expectation_values values None
    | Some l =>
        match mapM (fun c : option (list (list Q)) => match c with Some c => Ok (real_matrix c) | None => match values with [] => Ok [] | _ => Err ZeroDivisionError end end) l with
        | Ok frames => sum_expectation_values values (Some frames)
        | Err _ => {| est_value := rsum values; est_precision := NaN |}
        end
    end.
  Definition get_summed_expectation_values (of_R : R -> K) (setorder : list nat -> list nat) (operator : string + observable) (measurements : string + MeasModel.measurements)
      (use_bessel_correction : bool) : M disk unit :=
    do! op := match operator with inl name => do! _ := load_qubit_operator name in liftM (Err GenericException) | inr op => retM op end in
    do! m := given load_measurements measurements in
    do! e := match op with OIsing op => liftM (MeasModel.get_expectation_values setorder m op use_bessel_correction) | ONotIsing => liftM (Err TypeError) end in
    save "value-estimate.json" (Estimate (of_R (est_value (summed e))) (est_precision (summed e))).
End Steps.
Arguments artifact K : clear implicits. Arguments disk K : clear implicits.
