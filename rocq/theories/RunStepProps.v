(** C101: the steps that run circuits; stated over RunStepModel.v and RunStepSpec.v. *)
From Coq Require Import String ZArith QArith Lia.
From Verif Require Import Base BaseFacts Json MatModel CircuitModel SerdeModel CostModel OpModel RunStepModel RunStepSpec.
From Verif Require MeasModel DistModel DistSpec DistProofs DistProps EstModel BackendModel BackendSpec UtilsSpec.
Open Scope list_scope.
Local Open Scope nat_scope.

Section C101.
  Context {Num : Type} (T : text_oracle Num) {K : cring}.
  Notation Circ := (circuit Num).
  Notation disk := (disk (K := K)).
  Implicit Types (d : disk).

  Lemma run_ok {S A B} (m : M S A) (k : A -> M S B) s s1 a : m s = (s1, Ok a) -> bindM m k s = k a s1.
  Proof. unfold bindM. intros ->. reflexivity. Qed.
  Lemma run_err {S A B} (m : M S A) (k : A -> M S B) s s1 e : m s = (s1, Err e) -> bindM m k s = (s1, Err e).
  Proof. unfold bindM. intros ->. reflexivity. Qed.
  Lemma loaded {S} d (s : S) name c : has_circuit T d name c -> on_disk (load_circuit T name) (d, s) = ((d, s), Ok c).
  Proof. intros (j & H & E). unfold on_disk, load_circuit, read. cbn [fst snd]. unfold holds in H. rewrite H. cbn [rbind]. now rewrite E. Qed.
  Lemma loaded_set {S} d (s : S) name cs : has_circuits T d name cs -> on_disk (load_circuitset T name) (d, s) = ((d, s), Ok cs).
  Proof. intros (j & H & E). unfold on_disk, load_circuitset, read. cbn [fst snd]. unfold holds in H. rewrite H. cbn [rbind]. now rewrite E. Qed.
  Lemma meant {S} d (s : S) x c : means_circuit T d x c -> (match x with inl name => on_disk (load_circuit T name) | inr j => liftM (circuit_from_dict T j) end) (d, s) = ((d, s), Ok c).
  Proof. destruct x as [name|j]; cbn [means_circuit]; [apply loaded|]. intros E. unfold liftM. now rewrite E. Qed.
  Lemma saved {S} d (s : S) name x : exists d', on_disk (save name (Ok x)) (d, s) = ((d', s), Ok tt) /\ holds d' name x /\ only_file name d d'.
  Proof.
    unfold on_disk, save. cbn [fst snd]. eexists. split; [reflexivity|]. split; [apply (dget_dset_same _ String.eqb_eq)|].
    intros other N. rewrite !(dget_dset_other _ String.eqb_eq) by congruence. reflexivity.
  Qed.
  Lemma device_ok {S A} (m : M S A) d s s' a : m s = (s', Ok a) -> on_device m (d, s) = ((d, s'), Ok a).
  Proof. unfold on_device. cbn [fst snd]. intros ->. reflexivity. Qed.
  Lemma device_err {S A} (m : M S A) d s s' e : m s = (s', Err e) -> on_device m (d, s) = ((d, s'), Err e).
  Proof. unfold on_device. cbn [fst snd]. intros ->. reflexivity. Qed.

  (** ** One circuit *)
  (** What the backend measured is written, and nothing else changes; if the backend fails nothing is written. *)
  Theorem C101_run {S} (dev : device (Num := Num) S) d s x c n : means_circuit T d x c ->
    match run S dev c n s with
    | (s', Ok m) => exists d', run_circuit_and_measure T dev x n (d, s) = ((d', s'), Ok tt) /\ holds d' "measurements.json" (Outcomes (map (map bit_value) m)) /\ only_file "measurements.json" d d'
    | (s', Err e) => run_circuit_and_measure T dev x n (d, s) = ((d, s'), Err e)
    end.
  Proof.
    intros H. unfold run_circuit_and_measure. rewrite (run_ok _ _ _ _ _ (meant d s x c H)). destruct (run S dev c n s) as [s' [m|e]] eqn:E.
    - rewrite (run_ok _ _ _ _ _ (device_ok _ d _ _ _ E)). apply saved.
    - apply run_err, device_err, E.
  Qed.
  (** A backend of the interface executes the circuit once, with that many samples, and counts it. *)
  Theorem C101_run_once exec attribute d s x c n m : means_circuit T d x c -> (1 <= n)%Z -> exec c n = Ok m ->
    exists d' s', run_circuit_and_measure T (plain exec attribute) x (Some n) (d, s) = ((d', s'), Ok tt) /\ holds d' "measurements.json" (Outcomes (map (map bit_value) m)) /\
      BackendModel.b_log s' = BackendModel.b_log s ++ [[c]] /\ (BackendSpec.counters_exact s -> BackendSpec.counters_exact s').
  Proof.
    intros H Hn E. pose proof (C101_run (plain exec attribute) d s x c (Some n) H) as R. cbn [plain run plain_run] in R. unfold BackendModel.sub_run, BackendModel.base_run in R.
    destruct (Z.ltb_spec n 1); [lia|]. rewrite E in R. destruct R as (d' & R1 & R2 & _). eexists d', _. split; [exact R1|]. split; [exact R2|]. split; [reflexivity|].
    unfold BackendSpec.counters_exact. cbn. rewrite concat_app, !app_length. cbn. lia.
  Qed.
  (** A simulator simulates the circuit once and draws that many samples from what it found; a number below 1 is an error, after the simulation. *)
  Theorem C101_run_simulated {S} (probabilities : Circ -> M S (list Q)) sample d s s' x c n p : means_circuit T d x c -> probabilities c s = (s', Ok p) ->
    (forall m, (1 <= n)%Z -> sample p n = Ok m -> exists d', run_circuit_and_measure T (simulator probabilities sample) x (Some n) (d, s) = ((d', s'), Ok tt) /\ holds d' "measurements.json" (Outcomes (map (map bit_value) m)) /\ only_file "measurements.json" d d') /\
    ((n < 1)%Z -> run_circuit_and_measure T (simulator probabilities sample) x (Some n) (d, s) = ((d, s'), Err ValueError)).
  Proof.
    intros H E. pose proof (C101_run (simulator probabilities sample) d s x c (Some n) H) as R. cbn [simulator run] in R. unfold simulator_run in R. rewrite (run_ok _ _ _ _ _ E) in R. split.
    - intros m Hn Em. destruct (Z.ltb_spec n 1); [lia|]. unfold liftM in R. rewrite Em in R. exact R.
    - intros Hn. destruct (Z.ltb_spec n 1); [|lia]. exact R.
  Qed.
  (** The number of samples is optional, and without it every backend of the interface fails, be it tracked or a simulator. *)
  Theorem C101_run_default_refuted d x c : means_circuit T d x c ->
    (forall exec attribute s, run_circuit_and_measure T (plain exec attribute) x None (d, s) = ((d, s), Err TypeError)) /\
    (forall S (probabilities : Circ -> M S (list Q)) sample s s' p, probabilities c s = (s', Ok p) -> run_circuit_and_measure T (simulator probabilities sample) x None (d, s) = ((d, s'), Err TypeError)) /\
    (forall exec attribute record t, run_circuit_and_measure T (tracked T (plain exec attribute) record) x None (d, t) = ((d, t), Err TypeError)).
  Proof.
    intros H. split; [|split].
    - intros exec attribute s. exact (C101_run (plain exec attribute) d s x c None H).
    - intros S probabilities sample s s' p E. pose proof (C101_run (simulator probabilities sample) d s x c None H) as R. cbn [simulator run] in R. unfold simulator_run in R.
      rewrite (run_ok _ _ _ _ _ E) in R. exact R.
    - intros exec attribute record t. pose proof (C101_run (tracked T (plain exec attribute) record) d t x c None H) as R. cbn [tracked run plain plain_run] in R.
      unfold BackendModel.t_run, liftM in R. rewrite R. destruct t. reflexivity.
  Qed.

  (** ** A list of circuits *)
  Notation log := (BackendModel.b_log).
  Lemma each_ok exec attribute n : (1 <= n)%Z -> forall cs ms (s : BackendModel.backend_state Circ), length ms = length cs -> (forall i c m, nth_error cs i = Some c -> nth_error ms i = Some m -> exec c n = Ok m) ->
    exists s', run_set _ (plain exec attribute) cs (map (fun _ => Some n) cs) s = (s', Ok ms) /\ log s' = log s ++ map (fun c => [c]) cs.
  Proof.
    intros Hn. cbn [plain run_set]. induction cs as [|c cs IH]; intros [|m ms] s L Hx; try discriminate.
    - exists s. split; [reflexivity|]. cbn. now rewrite app_nil_r.
    - cbn [map combine run_each]. unfold plain_run at 1, BackendModel.sub_run at 1, BackendModel.base_run. unfold bindM at 1. destruct (Z.ltb_spec n 1); [lia|]. rewrite (Hx 0 c m eq_refl eq_refl).
      destruct (IH ms {| BackendModel.b_cnt := BackendModel.count_one (BackendModel.b_cnt s); BackendModel.b_log := log s ++ [[c]] |}) as (s' & E & Lg).
      { now injection L. } { intros i c' m' H1 H2. exact (Hx (Datatypes.S i) c' m' H1 H2). }
      exists s'. rewrite (run_ok _ _ _ _ _ E). split; [reflexivity|]. rewrite Lg. cbn. now rewrite <- app_assoc.
  Qed.
  Lemma each_fails exec attribute n : (1 <= n)%Z -> forall cs i c e (s : BackendModel.backend_state Circ), nth_error cs i = Some c -> exec c n = Err e ->
    (forall j c', j < i -> nth_error cs j = Some c' -> exists m, exec c' n = Ok m) ->
    exists s', run_set _ (plain exec attribute) cs (map (fun _ => Some n) cs) s = (s', Err e) /\ log s' = log s ++ map (fun c => [c]) (firstn (Datatypes.S i) cs).
  Proof.
    intros Hn. cbn [plain run_set]. induction cs as [|c0 cs IH]; intros [|i] c e s Hi He Hb; try discriminate.
    - injection Hi as ->. cbn [map combine run_each]. unfold plain_run at 1, BackendModel.sub_run at 1, BackendModel.base_run. unfold bindM at 1. destruct (Z.ltb_spec n 1); [lia|]. rewrite He.
      eexists. split; [reflexivity|]. reflexivity.
    - destruct (Hb 0 c0 ltac:(lia) eq_refl) as [m0 E0]. cbn [map combine run_each]. unfold plain_run at 1, BackendModel.sub_run at 1, BackendModel.base_run. unfold bindM at 1. destruct (Z.ltb_spec n 1); [lia|]. rewrite E0.
      destruct (IH i c e {| BackendModel.b_cnt := BackendModel.count_one (BackendModel.b_cnt s); BackendModel.b_log := log s ++ [[c0]] |} Hi He) as (s' & E & Lg).
      { intros j c' Hj Hc. apply (Hb (Datatypes.S j) c'); [lia|exact Hc]. }
      exists s'. rewrite (run_err _ _ _ _ _ E). split; [reflexivity|]. rewrite Lg. cbn [BackendModel.b_log]. now rewrite <- app_assoc.
  Qed.
  Lemma all_ints ms : (forall m, In m ms -> plain_ints m) -> forallb (forallb (forallb python_int)) ms = true.
  Proof. intros H. apply forallb_forall. intros m Hm. apply forallb_forall. intros o Ho. apply forallb_forall. intros b Hb. destruct (H m Hm o b Ho Hb) as [z ->]. reflexivity. Qed.
  (** Each circuit is run once, in order, with the given number of samples, and the lists of bitstrings are written in that order. *)
  Theorem C101_set exec attribute d s name cs n ms : has_circuits T d name cs -> (1 <= n)%Z -> length ms = length cs ->
    (forall i c m, nth_error cs i = Some c -> nth_error ms i = Some m -> exec c n = Ok m) -> (forall m, In m ms -> plain_ints m) ->
    exists d' s', run_circuitset_and_measure T (plain exec attribute) name (Some n) (d, s) = ((d', s'), Ok tt) /\ log s' = log s ++ map (fun c => [c]) cs /\
      holds d' "measurements-set.json" (OutcomeLists (map (map (map bit_value)) ms)) /\ only_file "measurements-set.json" d d'.
  Proof.
    intros H Hn L Hx Hp. unfold run_circuitset_and_measure. rewrite (run_ok _ _ _ _ _ (loaded_set d s name cs H)). destruct (each_ok exec attribute n Hn cs ms s L Hx) as (s' & E & Lg).
    rewrite (run_ok _ _ _ _ _ (device_ok _ d _ _ _ E)). rewrite (all_ints ms Hp). destruct (saved d s' "measurements-set.json" (OutcomeLists (map outcomes ms))) as (d' & E1 & E2 & E3).
    exists d', s'. auto.
  Qed.
  (** If one circuit fails, nothing is written, though all circuits before it were run: their results are lost. *)
  Theorem C101_set_failed exec attribute d s name cs n i c e : has_circuits T d name cs -> (1 <= n)%Z -> nth_error cs i = Some c -> exec c n = Err e ->
    (forall j c', j < i -> nth_error cs j = Some c' -> exists m, exec c' n = Ok m) ->
    exists s', run_circuitset_and_measure T (plain exec attribute) name (Some n) (d, s) = ((d, s'), Err e) /\ log s' = log s ++ map (fun c => [c]) (firstn (Datatypes.S i) cs).
  Proof.
    intros H Hn Hi He Hb. unfold run_circuitset_and_measure. rewrite (run_ok _ _ _ _ _ (loaded_set d s name cs H)). destruct (each_fails exec attribute n Hn cs i c e s Hi He Hb) as (s' & E & Lg).
    exists s'. split; [|exact Lg]. apply run_err, device_err, E.
  Qed.
  (** With samples of numpy integers, one circuit at a time works, but as a list the step fails after running all of them, and destroys the file of an earlier run. *)
  Theorem C101_set_numpy_refuted {S} (dev : device (Num := Num) S) d s s' name cs n ms m o b : has_circuits T d name cs -> run_set S dev cs (map (fun _ => n) cs) s = (s', Ok ms) ->
    In m ms -> In o m -> In b o -> python_int b = false ->
    exists d', run_circuitset_and_measure T dev name n (d, s) = ((d', s'), Err TypeError) /\ holds d' "measurements-set.json" Torn.
  Proof.
    intros H E Hm Ho Hb Hp. unfold run_circuitset_and_measure. rewrite (run_ok _ _ _ _ _ (loaded_set d s name cs H)), (run_ok _ _ _ _ _ (device_ok _ d _ _ _ E)).
    assert (F : forallb (forallb (forallb python_int)) ms = false).
    { destruct (forallb (forallb (forallb python_int)) ms) eqn:F; [|reflexivity]. rewrite forallb_forall in F. specialize (F m Hm). rewrite forallb_forall in F. specialize (F o Ho).
      rewrite forallb_forall in F. specialize (F b Hb). congruence. }
    rewrite F. unfold on_disk, save. cbn [fst snd]. eexists. split; [reflexivity|]. apply (dget_dset_same _ String.eqb_eq).
  Qed.
  Theorem C101_set_default_refuted exec attribute d s name cs : has_circuits T d name cs -> cs <> [] ->
    run_circuitset_and_measure T (plain exec attribute) name None (d, s) = ((d, s), Err TypeError).
  Proof.
    intros H N. unfold run_circuitset_and_measure. rewrite (run_ok _ _ _ _ _ (loaded_set d s name cs H)). apply run_err, device_err. destruct cs as [|c cs]; [congruence|]. reflexivity.
  Qed.

  (** ** Distributions *)
  (** A simulator: the distribution that is written gives bitstring number i (qubit 0 first) the i-th probability. *)
  Theorem C101_distribution {S} (probabilities : Circ -> M S (list Q)) sample d s s' name c n p : has_circuit T d name c -> probabilities c s = (s', Ok p) ->
    length p = 2 ^ n -> (forall x, In x p -> 0 <= x)%Q -> DistSpec.near_one (DistSpec.total_mass p) ->
    exists d' w, get_bitstring_distribution T (simulator probabilities sample) name (d, s) = ((d', s'), Ok tt) /\ holds d' "bitstring-distribution.json" (Distribution w) /\
      only_file "bitstring-distribution.json" d d' /\ length w = 2 ^ n /\
      forall i, i < 2 ^ n -> exists k, nth_error w i = Some (k, nth i p 0%Q) /\ length k = n /\ UtilsSpec.binary k /\ UtilsSpec.number_of k = Z.of_nat i.
  Proof.
    intros H E L P N. destruct (DistProps.C22_distribution n p L P N) as (w & Ew & Lw & Hw). unfold get_bitstring_distribution. rewrite (run_ok _ _ _ _ _ (loaded d s name c H)).
    assert (Ed : distribution S (simulator probabilities sample) c s = (s', Ok w)).
    { cbn [simulator distribution]. rewrite (run_ok _ _ _ _ _ E). unfold liftM at 1. rewrite (run_ok _ _ s' s' w) by (now rewrite Ew). unfold liftM. f_equal.
      assert (C : DistSpec.proper_dist w /\ DistSpec.near_one (DistSpec.total_mass (map snd w))).
      { unfold DistModel.dist_of_probabilities in Ew. destruct p as [|p0 p]; [discriminate|]. destruct (DistProps.C32_constructed _ _ _ Ew) as [C1 C2]. auto. }
      destruct C as [C1 C2]. pose proof C1 as (_ & ND & _). rewrite (DistProofs.mk_dist_tuples w true ND), (proj2 (DistProofs.is_mod_spec w ND) C1). unfold DistModel.is_normalized.
      rewrite DistProofs.mass_total, (proj2 (DistProofs.isclose_near _) C2). reflexivity. }
    rewrite (run_ok _ _ _ _ _ (device_ok _ d _ _ _ Ed)). destruct (saved d s' "bitstring-distribution.json" (Distribution w)) as (d' & E1 & E2 & E3). exists d', w. auto 8.
  Qed.
  (** The step passes no number of samples, so it works with simulators alone, and not if their measurements are tracked. *)
  Theorem C101_distribution_refuted d name c : has_circuit T d name c ->
    (forall exec attribute s, get_bitstring_distribution T (plain exec attribute) name (d, s) = ((d, s), Err TypeError)) /\
    (forall S (inner : device S) record t, get_bitstring_distribution T (tracked T inner record) name (d, t) = ((d, t), Err TypeError)).
  Proof.
    intros H. split; intros; unfold get_bitstring_distribution; rewrite (run_ok _ _ _ _ _ (loaded d _ name c H)); reflexivity.
  Qed.
End C101.
