(** Model of the steps that run circuits: steps/measure.py:52-146 and steps/evaluation.py:42-93, after the backend is made from its specification (C94), on files; with the
    calls that the classes of interfaces/backend.py, symbolic_simulator.py and trackers.py admit. *)
From Coq Require Import String ZArith QArith.
From Verif Require Import Base Json MatModel CircuitModel SerdeModel CostModel OpModel.
From Verif Require MeasModel DistModel EstModel BackendModel.
Open Scope list_scope.
Local Open Scope nat_scope.

(** An entry of a measured bitstring: a Python int, or one of numpy's integers, which json.dumps rejects. *)
Inductive bit := PyInt (z : Z) | NpInt (z : Z).
Definition bit_value (b : bit) : Z := match b with PyInt z | NpInt z => z end.
Definition python_int (b : bit) : bool := match b with PyInt _ => true | NpInt _ => false end.
(** What a run returns: the attribute bitstrings of Measurements. *)
Definition shots := list (list bit).
Definition outcomes (m : shots) : MeasModel.measurements := map (map bit_value) m.

Section Steps.
  Context {Num : Type} (T : text_oracle Num) {K : cring}.
  Notation Circ := (circuit Num).

  (** ** Files *)
  (** What a file holds: no document, a document of a circuit or a list of circuits, or one of the results. *)
  Inductive artifact :=
  | Torn
  | Circuits (j : js)
  | Operator (a : qop K)
  | Outcomes (m : MeasModel.measurements)
  | OutcomeLists (l : list MeasModel.measurements)
  | Distribution (d : DistModel.dist)
  | Expectations (e : MeasModel.expectation_values).
  Definition disk := list (string * artifact).
  (** open(name, "w"), then the document is made and written *)
  Definition save (name : string) (made : result artifact) : M disk unit := fun d =>
    let d := dset String.eqb name Torn d in
    match made with Ok x => (dset String.eqb name x d, Ok tt) | Err e => (d, Err e) end.
  Definition read (d : disk) (name : string) : result artifact :=
    match dget String.eqb name d with None => Err FileNotFoundError | Some Torn => Err ValueError | Some x => Ok x end.
  (** circuits/_serde.py:287-294; other documents have another schema *)
  Definition load_circuit (name : string) : M disk Circ := fun d =>
    (d, let! x := read d name in match x with Circuits j => circuit_from_dict T j | _ => Err ValueError end).
  Definition load_circuitset (name : string) : M disk (list Circ) := fun d =>
    (d, let! x := read d name in match x with Circuits j => circuitset_from_dict T j | _ => Err ValueError end).
  (** _io.py:152-166 *)
  Definition load_qubit_operator (name : string) : M disk (qop K) := fun d =>
    (d, let! x := read d name in match x with Operator a => Ok a | _ => Err KeyError end).

  (** ** Backends *)
  (** What the steps use of a backend with state [S]: the methods run_circuit_and_measure and run_circuitset_and_measure with a number of samples that may be None,
      get_bitstring_distribution with the circuit alone, and the attribute n_samples. *)
  Record device (S : Type) := {
    run : Circ -> option Z -> M S shots;
    run_set : list Circ -> list (option Z) -> M S (list shots);
    distribution : Circ -> M S DistModel.dist;
    n_samples : result (option Z) }.
  Arguments run {S}. Arguments run_set {S}. Arguments distribution {S}. Arguments n_samples {S}.
  (** backend.py:83-92: without batching *)
  Fixpoint run_each {S} (run : Circ -> option Z -> M S shots) (l : list (Circ * option Z)) : M S (list shots) :=
    match l with
    | [] => retM []
    | (c, n) :: l' => do! m := run c n in do! ms := run_each run l' in retM (m :: ms)
    end.
  (** A subclass of QuantumBackend without batching (backend.py:51-140, BackendModel.sub_run): None < 1 is a TypeError, and so is the missing argument n_samples of
      get_bitstring_distribution; there is no attribute n_samples unless the subclass adds it. *)
  Definition plain_run (exec : Circ -> Z -> result shots) (c : Circ) (n : option Z) : M (BackendModel.backend_state Circ) shots :=
    match n with None => liftM (Err TypeError) | Some n => BackendModel.sub_run exec c n end.
  Definition plain (exec : Circ -> Z -> result shots) (attribute : option (option Z)) : device (BackendModel.backend_state Circ) := {|
    run := plain_run exec;
    run_set := fun cs ns => run_each (plain_run exec) (combine cs ns);
    distribution := fun _ => liftM (Err TypeError);
    n_samples := match attribute with Some n => Ok n | None => Err AttributeError end |}.
  (** A simulator such as symbolic_simulator.py:29-51: [probabilities] simulates the circuit, and then samples are drawn; measurement.py:197-198.
      backend.py:244-291: without a number of samples the distribution is that of the probabilities, as the dictionary of another object. *)
  Definition simulator_run {S} (probabilities : Circ -> M S (list Q)) (sample : list Q -> Z -> result shots) (c : Circ) (n : option Z) : M S shots :=
    do! p := probabilities c in
    match n with None => liftM (Err TypeError) | Some n => if (n <? 1)%Z then liftM (Err ValueError) else liftM (sample p n) end.
  Definition simulator {S} (probabilities : Circ -> M S (list Q)) (sample : list Q -> Z -> result shots) : device S := {|
    run := simulator_run probabilities sample;
    run_set := fun cs ns => run_each (simulator_run probabilities sample) (combine cs ns);
    distribution := fun c => do! p := probabilities c in do! d := liftM (DistModel.dist_of_probabilities p) in liftM (DistModel.mk_dist (DistModel.of_tuples d) true);
    n_samples := Err AttributeError |}.
  (** trackers.py: a wrapper around another backend; the file of raw data is part of its state.  Its get_bitstring_distribution needs n_samples, and it hands on no attributes. *)
  Definition tracker (S : Type) := BackendModel.tracker (Dist := DistModel.dist) (CircD := js) (Inner := S).
  Definition tracked {S} (inner : device S) (record_bitstrings : bool) : device (tracker S) := {|
    run := fun c n => BackendModel.t_run (fun c _ => run inner c n) (circuit_to_dict T) (fun c => length (c_ops c))
                        (fun m => MeasModel.get_counts (outcomes m)) (fun m => map (map Z.to_nat) (outcomes m)) record_bitstrings c 0%Z;
    run_set := fun cs ns => BackendModel.t_run_set (fun cs _ => run_set inner cs ns) (circuit_to_dict T) (fun c => length (c_ops c))
                        (fun m => MeasModel.get_counts (outcomes m)) (fun m => map (map Z.to_nat) (outcomes m)) record_bitstrings cs [];
    distribution := fun _ => liftM (Err TypeError);
    n_samples := Err AttributeError |}.

  (** ** Steps *)
  Section On.
    Context {S : Type} (dev : device S).
    Definition state := (disk * S)%type.
    Definition on_disk {A} (m : M disk A) : M state A := fun s => let (d, r) := m (fst s) in ((d, snd s), r).
    Definition on_device {A} (m : M S A) : M state A := fun s => let (t, r) := m (snd s) in ((fst s, t), r).
    (** measure.py:77-83: the name of a file or a dictionary; Measurements.save (measurement.py:669-684) turns all entries into Python ints *)
    Definition run_circuit_and_measure (circuit : string + js) (samples : option Z) : M state unit :=
      do! c := match circuit with inl name => on_disk (load_circuit name) | inr j => liftM (circuit_from_dict T j) end in
      do! m := on_device (run dev c samples) in
      on_disk (save "measurements.json" (Ok (Outcomes (outcomes m)))).
    (** measure.py:100-116: the bitstrings are given to json.dumps as they are *)
    Definition run_circuitset_and_measure (circuitset : string) (samples : option Z) : M state unit :=
      do! cs := on_disk (load_circuitset circuitset) in
      do! ms := on_device (run_set dev cs (map (fun _ => samples) cs)) in
      on_disk (save "measurements-set.json" (if forallb (forallb (forallb python_int)) ms then Ok (OutcomeLists (map outcomes ms)) else Err TypeError)).
    (** measure.py:141-146 *)
    Definition get_bitstring_distribution (circuit : string) : M state unit :=
      do! c := on_disk (load_circuit circuit) in
      do! d := on_device (distribution dev c) in
      on_disk (save "bitstring-distribution.json" (Ok (Distribution d))).
    (** evaluation.py:66-93; an operator is given as an object or by name.  Simplification: coefficients are real numbers, [real].
        [exact_value] as in EstModel.v.  EstModel's functions have no state after an error: it is the one after the only call of the backend. *)
    Definition z_of_pauli (p : pauli) : option zact := match p with Pz => Some ZZ | _ => None end.
    Definition ising_of (real : K -> Q) (o : isop K) : MeasModel.ising := map (fun tc => (map fst (fst tc), real (snd tc))) o.
    Definition exact_value (real : K -> Q) (c : K) : MeasModel.expectation_values :=
      {| MeasModel.ev_values := [real c]; MeasModel.ev_correlations := Some [[[0%Q]]]; MeasModel.ev_covariances := Some [Some [[0%Q]]] |}.
    Definition get_expectation_values_for_qubit_operator (small : K -> bool) (real : K -> Q) (setorder : list nat -> list nat) (circuit : string + Circ) (qubit_operator : string + qop K) : M state unit :=
      do! c := match circuit with inl name => on_disk (load_circuit name) | inr c => retM c end in
      do! a := match qubit_operator with inl name => on_disk (load_qubit_operator name) | inr a => retM a end in
      do! n := liftM (n_samples dev) in
      do! evs := on_device (fun s =>
        match EstModel.estimate_by_averaging pauli_eqb small (exact_value real) z_of_pauli
                (fun s cs ns => match run_set dev cs ns s with (s', Ok ms) => Ok (s', ms) | (_, Err e) => Err e end)
                (fun m o => MeasModel.get_expectation_values setorder (outcomes m) (ising_of real o) false) s [EstModel.Build_task a c n] with
        | Ok (s', l) => (s', Ok l)
        | Err e => ((if EstModel.not_measured pauli_eqb (EstModel.Build_task a c n) then s else fst (run_set dev [c] [n] s)), Err e)
        end) in
      match evs with
      | Some e :: _ => on_disk (save "expectation-values.json" (Ok (Expectations e)))
      | _ => liftM (Err AttributeError)
      end.
  End On.
End Steps.
