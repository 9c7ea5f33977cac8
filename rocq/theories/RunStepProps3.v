(** C101, part 3: operators that need no measurement, tracked backends, and a concrete case; stated over RunStepModel.v and RunStepSpec.v. *)
From Coq Require Import String ZArith QArith Lia Permutation.
From Verif Require Import Base BaseFacts Json MatModel CircuitModel SerdeModel CostModel OpModel OpSpec RevJWSpec DiagSpec GateMatProps SerdeProps CircStepProps RunStepModel RunStepSpec RunStepProps RunStepProps2.
From Verif Require MeasModel MeasSpec MeasProps DistModel EstModel BackendModel BackendProps.
Open Scope list_scope.
Local Open Scope nat_scope.

Section C101c.
  Context {Num : Type} (T : text_oracle Num) {K : cring} (small : K -> bool) (real : K -> Q) (setorder : list nat -> list nat).
  Notation Circ := (circuit Num).
  Notation disk := (disk (K := K)).
  Implicit Types (d : disk).
  (** The value of a constant is known without running the circuit. *)
  Theorem C101_expectation_constant exec d s x y c b n : given_circuit T d x c -> means_operator d y [([], b)] ->
    exists d' e, get_expectation_values_for_qubit_operator T (plain exec (Some n)) small real setorder x y (d, s) = ((d', s), Ok tt) /\
      holds d' "expectation-values.json" (Expectations e) /\ only_file "expectation-values.json" d d' /\ MeasModel.ev_values e = [real b].
  Proof.
    intros Hc Ha. rewrite (step_reads T small real setorder _ d _ x y c _ Hc Ha). rewrite (run_ok _ _ (d, s) (d, s) n) by reflexivity.
    rewrite (run_ok _ _ (d, s) (d, s) [Some (exact_value real b)]) by (apply device_ok; reflexivity).
    destruct (saved d s "expectation-values.json" (Expectations (exact_value real b))) as (d' & E1 & E2 & E3). exists d', (exact_value real b). auto.
  Qed.

  (** ** Tracked backends: the step writes what it would have written, and the backend is left as it would have been; the circuit must be one that can be stored. *)
  Theorem C101_tracked {S} (inner : device (Num := Num) S) record d (t : tracker S) x c n : means_circuit T d x c -> (exists j, circuit_to_dict T c = Ok j) ->
    let plainly := run_circuit_and_measure T inner x n (d, BackendModel.t_inner t) in
    let recorded := run_circuit_and_measure T (tracked T inner record) x n (d, t) in
    fst (fst recorded) = fst (fst plainly) /\ BackendModel.t_inner (snd (fst recorded)) = snd (fst plainly) /\ snd recorded = snd plainly.
  Proof.
    intros Hc (j & Hj). cbv zeta. unfold run_circuit_and_measure. rewrite !(run_ok _ _ _ _ c) by (apply meant, Hc).
    pose proof (BackendProps.C18_forwards_run (fun c _ => run S inner c n) (circuit_to_dict T) (fun c => length (c_ops c)) (fun m => MeasModel.get_counts (outcomes m)) (fun m => map (map Z.to_nat) (outcomes m)) record c 0%Z t) as (Hi & Hr).
    destruct Hr as [Hr|(e & E & _)]; [|congruence].
    destruct (run S inner c n (BackendModel.t_inner t)) as [i r] eqn:Ei. cbn [fst snd] in Hi, Hr.
    destruct (BackendModel.t_run _ _ _ _ _ record c 0%Z t) as [t' r'] eqn:Et in Hi, Hr. cbn [fst snd] in Hi, Hr. subst r' i.
    assert (Er : run _ (tracked T inner record) c n t = (t', r)) by exact Et.
    destruct r as [m|e].
    - rewrite (run_ok _ _ (d, t) (d, t') m) by (apply device_ok, Er). rewrite (run_ok _ _ (d, BackendModel.t_inner t) (d, BackendModel.t_inner t') m) by (apply device_ok, Ei). cbn. auto.
    - rewrite (run_err _ _ (d, t) (d, t') e) by (apply device_err, Er). rewrite (run_err _ _ (d, BackendModel.t_inner t) (d, BackendModel.t_inner t') e) by (apply device_err, Ei). cbn. auto.
  Qed.
  (** So do the runs of a list of circuits. *)
  Theorem C101_tracked_set {S} (inner : device (Num := Num) S) record d (t : tracker S) name cs n : has_circuits T d name cs -> (forall c, In c cs -> exists j, circuit_to_dict T c = Ok j) ->
    let plainly := run_circuitset_and_measure T inner name n (d, BackendModel.t_inner t) in
    let recorded := run_circuitset_and_measure T (tracked T inner record) name n (d, t) in
    fst (fst recorded) = fst (fst plainly) /\ BackendModel.t_inner (snd (fst recorded)) = snd (fst plainly) /\ snd recorded = snd plainly.
  Proof.
    intros Hc Hj. cbv zeta. unfold run_circuitset_and_measure. rewrite !(run_ok _ _ _ _ cs) by (apply loaded_set, Hc).
    pose proof (BackendProps.C18_forwards_run_set (fun cs' _ => run_set S inner cs' (map (fun _ => n) cs)) (circuit_to_dict T) (fun c => length (c_ops c)) (fun m => MeasModel.get_counts (outcomes m)) (fun m => map (map Z.to_nat) (outcomes m)) record cs [] t) as (Hi & Hr).
    destruct Hr as [Hr|(c & e & Hin & E & _)]; [|destruct (Hj c Hin); congruence].
    destruct (run_set S inner cs (map (fun _ => n) cs) (BackendModel.t_inner t)) as [i r] eqn:Ei. cbn [fst snd] in Hi, Hr.
    destruct (BackendModel.t_run_set _ _ _ _ _ record cs [] t) as [t' r'] eqn:Et in Hi, Hr. cbn [fst snd] in Hi, Hr. subst r' i.
    assert (Er : run_set _ (tracked T inner record) cs (map (fun _ => n) cs) t = (t', r)) by exact Et.
    destruct r as [m|e].
    - rewrite (run_ok _ _ (d, t) (d, t') m) by (apply device_ok, Er). rewrite (run_ok _ _ (d, BackendModel.t_inner t) (d, BackendModel.t_inner t') m) by (apply device_ok, Ei).
      destruct (forallb (forallb (forallb python_int)) m); cbn; auto.
    - rewrite (run_err _ _ (d, t) (d, t') e) by (apply device_err, Er). rewrite (run_err _ _ (d, BackendModel.t_inner t) (d, BackendModel.t_inner t') e) by (apply device_err, Ei). cbn. auto.
  Qed.
End C101c.

(** ** Concrete case: two circuits in files, an operator 3 Z0 Z1 + 5 on two qubits, four samples 00, 01, 11, 11 *)
Definition ex_circuit : js := match circuit_to_dict toy toys with Ok j => j | Err _ => JNull end.
Definition ex_set : js := match circuitset_to_dict toy [toys; wide] with Ok j => j | Err _ => JNull end.
Definition ex_operator : qop ZR := [([(0, Pz); (1, Pz)], 3%Z); ([], 5%Z)].
Definition ex_disk : disk (K := ZR) := [("circuit.json", Circuits ex_circuit); ("set.json", Circuits ex_set); ("op.json", Operator ex_operator)]%string.
Definition ex_shots : shots := [[PyInt 0; PyInt 0]; [PyInt 0; PyInt 1]; [PyInt 1; PyInt 1]; [PyInt 1; PyInt 1]]%Z.
Definition ex_exec (c : circuit Z) (n : Z) : result shots := Ok ex_shots.
Definition ex_state : BackendModel.backend_state (circuit Z) := {| BackendModel.b_cnt := {| BackendModel.n_circuits := 0; BackendModel.n_jobs := 0 |}; BackendModel.b_log := [] |}.
Definition first_of (d : disk (K := ZR)) : list Q := match dget String.eqb "expectation-values.json"%string d with Some (Expectations e) => MeasModel.ev_values e | _ => [] end.
Example C101_case : (exists c, has_circuit toy ex_disk "circuit.json" c /\ c_nq c = 4%Z) /\ (exists cs, has_circuits toy ex_disk "set.json" cs /\ length cs = 2) /\
  (let a := ex_operator in means_operator ex_disk (inl "op.json"%string) a /\ stored_form a /\ only_z a /\ on_qubits 2 a /\ forall b, a <> [([], b)]) /\
  plain_ints ex_shots /\ MeasProps.enumerates (fun l => l) /\
  match get_expectation_values_for_qubit_operator toy (K := ZR) (plain ex_exec (Some (Some 4%Z))) (fun z : ZR => Z.eqb z 0) (fun z : ZR => inject_Z z) (fun l => l) (inl "circuit.json"%string) (inl "op.json"%string) (ex_disk, ex_state) with
  | ((d', s'), Ok tt) => map Qred (first_of d') = [3 # 2; 5 # 1]%Q /\ length (BackendModel.b_log s') = 1
  | _ => False
  end.
Proof.
  split; [eexists; split; [eexists; split; [reflexivity|vm_compute; reflexivity]|reflexivity]|].
  split; [eexists; split; [eexists; split; [reflexivity|vm_compute; reflexivity]|reflexivity]|].
  split.
  { cbv zeta. split; [reflexivity|]. split; [split|].
    - unfold wf_op. cbn. constructor; [intros [E|[]]; discriminate|]. constructor; [intros []|constructor].
    - intros t c [E|[E|[]]]; injection E as <- <-; cbn; intuition (congruence || lia).
    - split; [intros t c f [E|[E|[]]] Hf; injection E as <- <-; cbn in Hf; intuition (subst; reflexivity)|].
      split; [|intros b E; discriminate]. intros t c [E|[E|[]]]; injection E as <- <-; intros f Hf; cbn in Hf; intuition (subst; cbn; lia). }
  split; [intros o b Ho Hb; cbn in Ho; intuition (subst; cbn in Hb; intuition (subst; eexists; reflexivity))|].
  split; [intros l _; apply Permutation_refl|].
  vm_compute. split; reflexivity.
Qed.

Print Assumptions C101_expectation_constant.
Print Assumptions C101_tracked.
Print Assumptions C101_tracked_set.
