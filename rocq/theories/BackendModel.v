(** Model of interfaces/backend.py, symbolic_simulator.py and trackers.py. *)
From Coq Require Import String Reals.
From Verif Require Import Base MatModel LiftModel CircuitModel CircuitSpec Cplx GateMatModel WfModel.
Open Scope list_scope.

(** number_of_circuits_run and number_of_jobs_run *)
Record counters := { n_circuits : nat; n_jobs : nat }.
Definition count_one (c : counters) : counters := {| n_circuits := S (n_circuits c); n_jobs := S (n_jobs c) |}.

(** ** QuantumBackend *)
Section Backend.
  Context {Circ Meas : Type}.
  (** The hardware or library behind the backend: what a job of several circuits returns. *)
  Context (exec : Circ -> Z -> result Meas).

  (** [QuantumBackend.__init__] backend.py:43-49; [batch_size] is [None] when the class attribute is not an integer. *)
  Definition backend_init (supports_batching : bool) (batch_size : option Z) : result counters :=
    if supports_batching then
      match batch_size with
      | None => Err AssertionError
      | Some b => if (b >? 0)%Z then Ok {| n_circuits := 0; n_jobs := 0 |} else Err AssertionError
      end
    else Ok {| n_circuits := 0; n_jobs := 0 |}.

  (** [QuantumBackend.run_circuit_and_measure] backend.py:51-67 *)
  Definition base_run (n_samples : Z) (s : counters) : counters * result unit :=
    if (n_samples <? 1)%Z then (s, Err ValueError) else (count_one s, Ok tt).

  (** The backend as the user sees it: the counters, and the jobs handed to the hardware so far (each a list of circuits).
      The log is what really ran; it is kept by the hardware, not by the class. *)
  Record backend_state := { b_cnt : counters; b_log : list (list Circ) }.

  (** A subclass without batching: the base method first, then its own execution, as in mock_objects.py:39-44. *)
  Definition sub_run (c : Circ) (n_samples : Z) (s : backend_state) : backend_state * result Meas :=
    match base_run n_samples (b_cnt s) with
    | (cnt, Err e) => ({| b_cnt := cnt; b_log := b_log s |}, Err e)
    | (cnt, Ok _) => ({| b_cnt := cnt; b_log := b_log s ++ [[c]] |}, exec c n_samples)
    end.

  (** [run_circuitset_and_measure] backend.py:69-92 without batching: a loop over zip(circuits, n_samples) *)
  Fixpoint run_pairs (l : list (Circ * Z)) (s : backend_state) : backend_state * result (list Meas) :=
    match l with
    | [] => (s, Ok [])
    | (c, n) :: l' =>
        match sub_run c n s with
        | (s1, Err e) => (s1, Err e)
        | (s1, Ok m) => match run_pairs l' s1 with (s2, Ok ms) => (s2, Ok (m :: ms)) | (s2, Err e) => (s2, Err e) end
        end
    end.
  Definition run_set (circuits : list Circ) (n_samples : list Z) : backend_state -> backend_state * result (list Meas) :=
    run_pairs (combine circuits n_samples).

  (** Ceiling of a quotient: [int(np.ceil(a / b))] (the float division is exact enough below 2^53). *)
  Definition ceil_div (a b : nat) : nat := (a + b - 1) / b.
  (** [run_circuitset_and_measure] backend.py:93-102 with batching: only the counters, and an empty list *)
  Definition base_run_set_batching (batch_size : nat) (circuits : list Circ) (s : counters) : counters * result (list Meas) :=
    ({| n_circuits := n_circuits s + length circuits; n_jobs := n_jobs s + ceil_div (length circuits) batch_size |}, Ok []).
  (** Consecutive groups of at most [b] elements (fuel: the number of elements). *)
  Fixpoint batches {A} (fuel b : nat) (l : list A) : list (list A) :=
    match fuel, l with
    | _, [] => []
    | O, _ => []
    | S fuel', _ => firstn b l :: batches fuel' b (skipn b l)
    end.
  (** A batching subclass: the base method, then one job per group of at most [batch_size] circuits.  What it returns is
      the business of the subclass ([collect]). *)
  Definition sub_run_set_batching (collect : list Circ -> list Z -> result (list Meas)) (batch_size : nat)
      (circuits : list Circ) (n_samples : list Z) (s : backend_state) : backend_state * result (list Meas) :=
    let '(cnt, _) := base_run_set_batching batch_size circuits (b_cnt s) in
    ({| b_cnt := cnt; b_log := b_log s ++ batches (length circuits) batch_size circuits |}, collect circuits n_samples).

  (** Calls of the user.  get_measurement_outcome_distribution and get_bitstring_distribution (backend.py:104-140) run
      the circuit once through run_circuit_and_measure. *)
  Inductive call := Run (c : Circ) (n : Z) | RunSet (cs : list Circ) (ns : list Z) | Distribution (c : Circ) (n : Z).
  Definition step (batching : option nat) (collect : list Circ -> list Z -> result (list Meas)) (s : backend_state) (k : call) : backend_state :=
    match k with
    | Run c n => fst (sub_run c n s)
    | Distribution c n => fst (sub_run c n s)
    | RunSet cs ns =>
        match batching with
        | None => fst (run_set cs ns s)
        | Some b => fst (sub_run_set_batching collect b cs ns s)
        end
    end.
End Backend.
Arguments backend_state Circ : clear implicits.
Arguments call Circ : clear implicits.

(** ** QuantumSimulator *)
Section Simulator.
  Context {Num : Type} {State WF : Type}.
  Context (apply_op : operation Num -> State -> result State)        (* operation.apply *)
          (native : circuit Num -> State -> result State)            (* _get_wavefunction_from_native_circuit *)
          (supported : operation Num -> bool)                        (* is_natively_supported *)
          (zeros_with_one : Z -> State)                              (* np.zeros(2 ** n); state[0] = 1 *)
          (mk_wavefunction : State -> result WF).                    (* Wavefunction(...) *)

  Definition apply_all (ops : list (operation Num)) (st : State) : result State := foldM (fun v o => apply_op o v) ops st.

  (** The loop of get_wavefunction backend.py:206-217; the generator split_circuit is evaluated beforehand (for a valid
      circuit it does not raise). *)
  Fixpoint run_chunks (chunks : list (bool * circuit Num)) (st : State) (cnt : counters) : counters * result State :=
    match chunks with
    | [] => (cnt, Ok st)
    | (is_supported, sub) :: rest =>
        let '(cnt1, r) := if is_supported : bool then (count_one cnt, native sub st) else (cnt, apply_all (c_ops sub) st) in
        match r with Err e => (cnt1, Err e) | Ok st1 => run_chunks rest st1 cnt1 end
    end.
  (** [get_wavefunction] backend.py:189-219 *)
  Definition get_wavefunction (c : circuit Num) (initial : option State) (cnt : counters) : counters * result WF :=
    let st := match initial with None => zeros_with_one (c_nq c) | Some s => s end in
    match split_circuit c supported with
    | Err e => (cnt, Err e)
    | Ok chunks =>
        let '(cnt1, r) := run_chunks chunks st cnt in
        (cnt1, rbind r mk_wavefunction)
    end.
End Simulator.

(** [QuantumSimulator.is_natively_supported] backend.py:182-187 and [SymbolicSimulator.is_natively_supported]
    symbolic_simulator.py:63-64 *)
Definition default_supported {Num} (o : operation Num) : bool := match o with GateOp _ _ => true | MultiPhase _ => false end.
Definition symbolic_supported {Num} (o : operation Num) : bool := true.

Section Symbolic.
  Context {Num State WF Meas : Type} (O : sympy_oracle Num).
  Context (apply_op : operation Num -> State -> result State) (zeros_with_one : Z -> State) (mk_wavefunction : State -> result WF)
          (free_symbols : WF -> list sym) (sample : WF -> Z -> result Meas).
  (** symbolic_simulator.py:53-61 *)
  Definition symbolic_native (c : circuit Num) (st : State) : result State := apply_all apply_op (c_ops c) st.
  Definition symbolic_get_wavefunction := get_wavefunction apply_op symbolic_native symbolic_supported zeros_with_one mk_wavefunction.
  (** [SymbolicSimulator.run_circuit_and_measure] symbolic_simulator.py:29-51 ([sample]: sample_from_wavefunction with the
      seed, then Measurements) *)
  Definition symbolic_run (c : circuit Num) (n_samples : Z) (symbol_map : option (symbols_map Num)) (cnt : counters) : counters * result Meas :=
    match (match symbol_map with None => Ok c | Some m => circuit_bind O c m end) with
    | Err e => (cnt, Err e)
    | Ok c' =>
        let '(cnt1, r) := symbolic_get_wavefunction c' None cnt in
        (cnt1, let! wf := r in
               match free_symbols wf with
               | _ :: _ => Err ValueError
               | [] => sample wf n_samples
               end)
    end.
End Symbolic.

(** Numeric instance: amplitude vectors, and the Wavefunction constructor of WfModel on them. *)
Definition basis_state0 (n : Z) : vec CC := Build_vec (K := CC) (2 ^ Z.to_nat n) (fun k => if Nat.eqb k 0 then c1 else c0).
Definition amps_of_vec (v : vec CC) : list amp := map (fun k => ENum (vent v k : C)) (seq 0 (vlen v)).
Definition wavefunction_of_vec (F : string -> list C -> C) (v : vec CC) : result wavefunction := mk_wf F (amps_of_vec v).

(** ** MeasurementTrackingBackend *)
Section Tracker.
  Context {Circ Meas Dist CircD : Type}.
  (** The wrapped backend (with whatever internal state) and the serialisation of circuits, which may raise. *)
  Context {Inner : Type}
          (inner_run : Circ -> Z -> Inner -> Inner * result Meas)
          (inner_run_set : list Circ -> list Z -> Inner -> Inner * result (list Meas))
          (inner_dist : Circ -> Z -> Inner -> Inner * result Dist)
          (to_dict : Circ -> result CircD) (n_operations : Circ -> nat)
          (counts : Meas -> list (string * nat)) (shots : Meas -> list (list nat))
          (record_bitstrings : bool).

  (** The records: trackers.py:79-91, 108-117 and 136-145 (the device name is constant and left out). *)
  Inductive record :=
  | RMeasurement (circuit : CircD) (cts : list (string * nat)) (number_of_gates number_of_shots : nat) (bits : option (list (list nat)))
  | RDistribution (circuit : CircD) (d : Dist) (number_of_gates : nat) (number_of_shots : Z).
  (** [file]: the contents of the raw data file, if it exists *)
  Record tracker := { t_inner : Inner; t_cnt : counters; raw_data : list record; file : option (list record) }.

  (** [__init__] trackers.py:20-39 (super().__init__() without batching); an existing file is left alone *)
  Definition tracker_init (i : Inner) (existing : option (list record)) : tracker :=
    {| t_inner := i; t_cnt := {| n_circuits := 0; n_jobs := 0 |}; raw_data := []; file := existing |}.
  Definition with_inner (t : tracker) (i : Inner) := {| t_inner := i; t_cnt := t_cnt t; raw_data := raw_data t; file := file t |}.
  Definition append_record (t : tracker) (r : record) := {| t_inner := t_inner t; t_cnt := t_cnt t; raw_data := raw_data t ++ [r]; file := file t |}.
  (** [save_raw_data] trackers.py:149-156: mode "w+" truncates the file *)
  Definition save_raw_data (t : tracker) : tracker := {| t_inner := t_inner t; t_cnt := t_cnt t; raw_data := []; file := Some (raw_data t) |}.
  (** [record_raw_measurement_data] trackers.py:70-91 *)
  Definition measurement_record (c : Circ) (m : Meas) : result record :=
    let! d := to_dict c in
    Ok (RMeasurement d (counts m) (n_operations c) (length (shots m)) (if record_bitstrings then Some (shots m) else None)).
  Definition record_raw (c : Circ) (m : Meas) (t : tracker) : tracker * result unit :=
    match measurement_record c m with Ok r => (append_record t r, Ok tt) | Err e => (t, Err e) end.
  Fixpoint record_all (l : list (Circ * Meas)) (t : tracker) : tracker * result unit :=
    match l with
    | [] => (t, Ok tt)
    | (c, m) :: l' => match record_raw c m t with (t1, Ok _) => record_all l' t1 | (t1, Err e) => (t1, Err e) end
    end.
  (** trackers.py:41-51 *)
  Definition t_run (c : Circ) (n : Z) (t : tracker) : tracker * result Meas :=
    let '(i, r) := inner_run c n (t_inner t) in
    let t1 := with_inner t i in
    match r with
    | Err e => (t1, Err e)
    | Ok m => match record_raw c m t1 with (t2, Ok _) => (save_raw_data t2, Ok m) | (t2, Err e) => (t2, Err e) end
    end.
  (** trackers.py:53-68 *)
  Definition t_run_set (cs : list Circ) (ns : list Z) (t : tracker) : tracker * result (list Meas) :=
    let '(i, r) := inner_run_set cs ns (t_inner t) in
    let t1 := with_inner t i in
    match r with
    | Err e => (t1, Err e)
    | Ok ms => match record_all (combine cs ms) t1 with (t2, Ok _) => (save_raw_data t2, Ok ms) | (t2, Err e) => (t2, Err e) end
    end.
  (** trackers.py:93-119 and 121-147 (they differ in the type tag and class only) *)
  Definition t_dist (c : Circ) (n : Z) (t : tracker) : tracker * result Dist :=
    let '(i, r) := inner_dist c n (t_inner t) in
    let t1 := with_inner t i in
    match r with
    | Err e => (t1, Err e)
    | Ok d => match to_dict c with
              | Ok cd => (save_raw_data (append_record t1 (RDistribution cd d (n_operations c) n)), Ok d)
              | Err e => (t1, Err e)
              end
    end.
  Inductive tcall := TRun (c : Circ) (n : Z) | TRunSet (cs : list Circ) (ns : list Z) | TDist (c : Circ) (n : Z).
  Definition t_step (t : tracker) (k : tcall) : tracker :=
    match k with TRun c n => fst (t_run c n t) | TRunSet cs ns => fst (t_run_set cs ns t) | TDist c n => fst (t_dist c n t) end.
End Tracker.
