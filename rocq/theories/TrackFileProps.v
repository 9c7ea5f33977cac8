(** C108: the raw data file of a tracking backend when writing can fail or stop. *)
From Coq Require Import String ZArith Lia.
From Verif Require Import Base BackendModel TrackFileModel TrackFileSpec.
Open Scope list_scope.

Section Props.
  Context {Circ Meas Dist CircD Inner : Type}
          (inner_run : Circ -> Z -> Inner -> Inner * result Meas)
          (inner_run_set : list Circ -> list Z -> Inner -> Inner * result (list Meas))
          (inner_dist : Circ -> Z -> Inner -> Inner * result Dist)
          (to_dict : Circ -> result CircD) (n_operations : Circ -> nat)
          (counts : Meas -> list (string * nat)) (shots : Meas -> list (list nat))
          (record_bitstrings : bool) (serialisable : @record Dist CircD -> bool).
  Notation call := (call inner_run inner_run_set inner_dist to_dict n_operations counts shots record_bitstrings serialisable).
  Notation history := (history inner_run inner_run_set inner_dist to_dict n_operations counts shots record_bitstrings serialisable).
  Notation asks := (asks inner_run inner_run_set inner_dist).
  Notation asks_all := (asks_all inner_run inner_run_set inner_dist).
  Notation belongs := (belongs to_dict n_operations counts shots record_bitstrings).
  Notation record_of := (record_of to_dict n_operations counts shots record_bitstrings).
  Notation note_all := (note_all to_dict n_operations counts shots record_bitstrings).
  Implicit Types (t : @tracked Dist CircD Inner) (k : @tcall Circ).

  Definition with_raw t (l : list (@record Dist CircD)) : tracked := {| k_inner := k_inner t; k_raw := l; k_file := k_file t |}.
  Lemma note_all_spec l t : exists rs, k_raw (fst (note_all l t)) = k_raw t ++ rs /\ k_inner (fst (note_all l t)) = k_inner t /\ k_file (fst (note_all l t)) = k_file t /\
    match snd (note_all l t) with Ok _ => Forall2 record_of l rs | Err e => exists c m, In (c, m) l /\ to_dict c = Err e end.
  Proof.
    revert t. induction l as [|[c m] l IH]; intros t; cbn [TrackFileModel.note_all].
    - exists []. rewrite app_nil_r. repeat split. constructor.
    - unfold note. destruct (to_dict c) as [d|e] eqn:E.
      + match goal with |- context [note_all l ?x] => destruct (IH x) as (rs & R & I & F & O) end. eexists. split; [rewrite R; cbn [k_raw add_record]; rewrite <- app_assoc; reflexivity|]. split; [exact I|]. split; [exact F|].
        destruct (snd (note_all l _)) as [u|e]; [constructor; [exists d; auto|exact O]|]. destruct O as (c' & m' & H & H'). exists c', m'. split; [now right|exact H'].
      + exists []. rewrite app_nil_r. repeat split. exists c, m. split; [now left|exact E].
  Qed.
  (** the records of the call are noted, or a circuit cannot be written as a dictionary *)
  Lemma call_spec k t : exists t1, k_inner t1 = fst (asks k (k_inner t)) /\ k_file t1 = k_file t /\
    match snd (asks k (k_inner t)) with
    | Err e => k_raw t1 = k_raw t /\ forall crash, call crash k t = (t1, Err e)
    | Ok a => exists rs, k_raw t1 = k_raw t ++ rs /\
        ((belongs k a rs /\ forall crash, call crash k t = finish serialisable crash a (t1, Ok tt)) \/ (exists c e, In c (circuits_of k) /\ to_dict c = Err e /\ forall crash, call crash k t = (t1, Err e)))
    end.
  Proof.
    destruct k as [c n|cs ns|c n]; cbn [TrackFileModel.call TrackFileSpec.asks circuits_of]; unfold wrap.
    - destruct (inner_run c n (k_inner t)) as [i [m|e]]; cbn [fst snd]; [|exists (set_inner t i); auto]. unfold note. destruct (to_dict c) as [d|e] eqn:E.
      + eexists. split; [|split; [|eexists; split; [|left; split; [|reflexivity]]]]; [reflexivity..|]. cbn [TrackFileSpec.belongs]. constructor; [exists d; auto|constructor].
      + exists (set_inner t i). split; [reflexivity|]. split; [reflexivity|]. exists []. rewrite app_nil_r. split; [reflexivity|]. right. exists c, e. split; [now left|]. split; [exact E|reflexivity].
    - destruct (inner_run_set cs ns (k_inner t)) as [i [ms|e]]; cbn [fst snd]; [|exists (set_inner t i); auto].
      destruct (note_all_spec (combine cs ms) (set_inner t i)) as (rs & R & I & F & O). destruct (note_all (combine cs ms) (set_inner t i)) as [t1 [u|e]]; cbn [fst snd] in *; exists t1.
      + split; [exact I|]. split; [exact F|]. exists rs. split; [exact R|]. left. split; [exact O|]. destruct u. reflexivity.
      + split; [exact I|]. split; [exact F|]. exists rs. split; [exact R|]. right. destruct O as (c & m & H & H'). exists c, e. split; [exact (in_combine_l _ _ _ _ H)|]. split; [exact H'|reflexivity].
    - destruct (inner_dist c n (k_inner t)) as [i [d|e]]; cbn [fst snd]; [|exists (set_inner t i); auto]. destruct (to_dict c) as [cd|e] eqn:E.
      + eexists. split; [|split; [|eexists; split; [|left; split; [|reflexivity]]]]; [reflexivity..|]. exists cd. auto.
      + exists (set_inner t i). split; [reflexivity|]. split; [reflexivity|]. exists []. rewrite app_nil_r. split; [reflexivity|]. right. exists c, e. split; [now left|]. split; [exact E|reflexivity].
  Qed.
  Lemma finish_none (a : @answer Meas Dist) t : finish serialisable None a (t, Ok tt) =
    if forallb serialisable (k_raw t) then ({| k_inner := k_inner t; k_raw := []; k_file := Some (Whole (k_raw t)) |}, Ok a)
    else ({| k_inner := k_inner t; k_raw := k_raw t; k_file := Some Empty |}, Err TypeError).
  Proof. unfold finish, save, save_steps. cbn [do_steps truncate]. unfold dump. cbn [k_raw k_inner k_file]. destruct (forallb serialisable (k_raw t)); reflexivity. Qed.

  (** Every call reaches the wrapped backend once.  If that fails, the tracker fails in the same way and nothing else changes.  Otherwise the records of the call join
      those that are left over; if all of them can be serialised the file holds them, none is left over and the answer is the backend's;
      else the answer is lost, the file is empty and everything is left over. *)
  Theorem C108_call k t : k_inner (fst (call None k t)) = fst (asks k (k_inner t)) /\
    match snd (asks k (k_inner t)) with
    | Err e => snd (call None k t) = Err e /\ k_raw (fst (call None k t)) = k_raw t /\ k_file (fst (call None k t)) = k_file t
    | Ok a => (forall c, In c (circuits_of k) -> exists d, to_dict c = Ok d) -> exists rs, belongs k a rs /\
        if forallb serialisable (k_raw t ++ rs)
        then snd (call None k t) = Ok a /\ k_raw (fst (call None k t)) = [] /\ k_file (fst (call None k t)) = Some (Whole (k_raw t ++ rs))
        else snd (call None k t) = Err TypeError /\ k_raw (fst (call None k t)) = k_raw t ++ rs /\ k_file (fst (call None k t)) = Some Empty
    end.
  Proof.
    destruct (call_spec k t) as (t1 & I & F & H). destruct (snd (asks k (k_inner t))) as [a|e].
    - destruct H as (rs & R & [[B E]|(c & e & Ic & Ed & E)]); rewrite E.
      + rewrite finish_none, R. destruct (forallb serialisable (k_raw t ++ rs)) eqn:Fs; (split; [exact I|]); intros _; exists rs; rewrite Fs; auto.
      + split; [exact I|]. intros A. destruct (A c Ic) as [d Hd]. congruence.
    - destruct H as [R E]. rewrite E. auto.
  Qed.
  (** When everything can be serialised, a tracked backend answers every call of every history as the backend alone does, and nothing is left over. *)
  Theorem C108_healthy l t : (forall c, exists d, to_dict c = Ok d) -> (forall r, serialisable r = true) -> k_raw t = [] ->
    snd (history l t) = snd (asks_all l (k_inner t)) /\ k_inner (fst (history l t)) = fst (asks_all l (k_inner t)) /\ k_raw (fst (history l t)) = [].
  Proof.
    intros D S. revert t. induction l as [|k l IH]; intros t N; [auto|]. cbn [TrackFileModel.history TrackFileSpec.asks_all]. pose proof (C108_call k t) as [I H].
    destruct (call None k t) as [t1 o]. cbn [fst snd] in *. destruct (asks k (k_inner t)) as [i r]. cbn [fst snd] in *.
    assert (o = r /\ k_raw t1 = []) as [-> N1].
    { destruct r as [a|e]; [|destruct H as (-> & R & _); now rewrite R, N]. destruct (H (fun c _ => D c)) as (rs & _ & Q). replace (forallb serialisable (k_raw t ++ rs)) with true in Q; [now destruct Q as (-> & -> & _)|].
      symmetry. apply forallb_forall. intros x _. apply S. }
    destruct (IH t1 N1) as (A & B & C). rewrite I in A, B. destruct (history l t1) as [t2 os]. destruct (asks_all l i) as [i2 rs]. cbn [fst snd] in *. subst. auto.
  Qed.
  (** Once a record that cannot be serialised is left over, no call of any later history returns an answer: the backend still runs, but every answer is lost and the file is
      untouched or empty. *)
  Theorem C108_poisoned l t r : In r (k_raw t) -> serialisable r = false ->
    Forall (fun o => exists e, o = Err e) (snd (history l t)) /\ In r (k_raw (fst (history l t))) /\ k_inner (fst (history l t)) = fst (asks_all l (k_inner t)) /\
    (k_file (fst (history l t)) = k_file t \/ k_file (fst (history l t)) = Some Empty).
  Proof.
    intros Hr Hs. revert t Hr. induction l as [|k l IH]; intros t Hr; [cbn; auto|]. cbn [TrackFileModel.history TrackFileSpec.asks_all].
    assert (Q : (exists e, snd (call None k t) = Err e) /\ In r (k_raw (fst (call None k t))) /\ k_inner (fst (call None k t)) = fst (asks k (k_inner t)) /\
      (k_file (fst (call None k t)) = k_file t \/ k_file (fst (call None k t)) = Some Empty)).
    { destruct (call_spec k t) as (t1 & I & F & H). destruct (snd (asks k (k_inner t))) as [a|e].
      - destruct H as (rs & R & [[B E]|(c & e & Ic & Ed & E)]); rewrite E.
        + rewrite finish_none. assert (forallb serialisable (k_raw t1) = false) as ->.
          { apply Bool.not_true_is_false. intros C. rewrite forallb_forall in C. rewrite (C r) in Hs; [discriminate|]. rewrite R. apply in_or_app. now left. }
          cbn. split; [eauto|]. split; [rewrite R; apply in_or_app; now left|]. auto.
        + cbn. split; [eauto|]. split; [rewrite R; apply in_or_app; now left|]. auto.
      - destruct H as [R E]. rewrite E. cbn. split; [eauto|]. rewrite R. auto. }
    destruct Q as (O & Hr1 & I & F). destruct (call None k t) as [t1 o]. cbn [fst snd] in *. destruct (IH t1 Hr1) as (A & B & C & G). destruct (asks k (k_inner t)) as [i q]. cbn [fst] in I. rewrite I in C.
    destruct (history l t1) as [t2 os]. destruct (asks_all l i) as [i2 rs]. cbn [fst snd] in *. split; [now constructor|]. split; [exact B|]. split; [exact C|].
    destruct G as [G|G]; [rewrite G; exact F|now right].
  Qed.
  (** A process that dies while it writes leaves the old file, an empty one, or the one that the whole call leaves; it is the whole one only if the call returns. *)
  Theorem C108_crash j k t : let file := k_file (fst (call (Some j) k t)) in
    file = k_file t \/ file = Some Empty \/ (exists a, snd (call None k t) = Ok a /\ file = k_file (fst (call None k t))).
  Proof.
    intros file. unfold file. clear file. destruct (call_spec k t) as (t1 & I & F & H). destruct (snd (asks k (k_inner t))) as [a|e].
    - destruct H as (rs & R & [[B E]|(c & e & Ic & Ed & E)]); rewrite !E; [|left; exact F]. rewrite finish_none, R.
      unfold finish, save, save_steps. destruct j as [|[|j]]; cbn [firstn do_steps truncate fst]; [left; exact F|right; now left|].
      unfold dump. cbn [k_raw k_inner k_file]. rewrite R. destruct (forallb serialisable (k_raw t ++ rs)); [right; right; exists a; destruct j as [|j]; [cbn; auto|]; destruct j; cbn; auto|right; left; reflexivity].
    - destruct H as [R E]. rewrite E. left. exact F.
  Qed.
  (** ** The model of C18 is this one when nothing fails to be serialised *)
  Definition as_tracker (n : counters) t : @tracker Dist CircD Inner :=
    {| t_inner := k_inner t; t_cnt := n; raw_data := k_raw t; file := match k_file t with Some (Whole l) => Some l | _ => None end |}.
  Definition answer_of {A} (f : A -> @answer Meas Dist) (r : result A) : result answer := match r with Ok a => Ok (f a) | Err e => Err e end.
  Lemma note_agrees n l t : record_all to_dict n_operations counts shots record_bitstrings l (as_tracker n t) = (as_tracker n (fst (note_all l t)), snd (note_all l t)).
  Proof.
    revert t. induction l as [|[c m] l IH]; intros t; [reflexivity|]. cbn [record_all TrackFileModel.note_all]. unfold record_raw, measurement_record, note. destruct (to_dict c) as [d|e]; cbn [rbind]; [|reflexivity].
    apply (IH (add_record t _)).
  Qed.
  Lemma finish_agrees n (a : @answer Meas Dist) t : (forall r, serialisable r = true) -> finish serialisable None a (t, Ok tt) = (fst (finish serialisable None a (t, Ok tt)), Ok a) /\
    as_tracker n (fst (finish serialisable None a (t, Ok tt))) = save_raw_data (as_tracker n t).
  Proof. intros S. rewrite finish_none. assert (forallb serialisable (k_raw t) = true) as -> by (apply forallb_forall; auto). split; reflexivity. Qed.
  Theorem C108_agrees n t : (forall r, serialisable r = true) ->
    (forall c s, let r := t_run inner_run to_dict n_operations counts shots record_bitstrings c s (as_tracker n t) in
       as_tracker n (fst (call None (TRun c s) t)) = fst r /\ snd (call None (TRun c s) t) = answer_of AMeas (snd r)) /\
    (forall cs ns, let r := t_run_set inner_run_set to_dict n_operations counts shots record_bitstrings cs ns (as_tracker n t) in
       as_tracker n (fst (call None (TRunSet cs ns) t)) = fst r /\ snd (call None (TRunSet cs ns) t) = answer_of AMeass (snd r)) /\
    (forall c s, let r := t_dist inner_dist to_dict n_operations c s (as_tracker n t) in
       as_tracker n (fst (call None (TDist c s) t)) = fst r /\ snd (call None (TDist c s) t) = answer_of ADist (snd r)).
  Proof.
    intros S. split; [|split].
    - intros c s. cbn [TrackFileModel.call]. unfold t_run. change (t_inner (as_tracker n t)) with (k_inner t). destruct (inner_run c s (k_inner t)) as [i [m|e]]; [|split; reflexivity].
      unfold record_raw, measurement_record, note. destruct (to_dict c) as [d|e]; cbn [rbind]; [|split; reflexivity].
      match goal with |- context [finish serialisable None ?a (?x, Ok tt)] => destruct (finish_agrees n a x S) as [A B] end. rewrite A. cbn [fst snd]. rewrite B. split; reflexivity.
    - intros cs ns. cbn [TrackFileModel.call]. unfold t_run_set. change (t_inner (as_tracker n t)) with (k_inner t). destruct (inner_run_set cs ns (k_inner t)) as [i [ms|e]]; [|split; reflexivity].
      change (with_inner (as_tracker n t) i) with (as_tracker n (set_inner t i)). rewrite note_agrees. destruct (note_all (combine cs ms) (set_inner t i)) as [t1 [[]|e]]; cbn [fst snd]; [|split; reflexivity].
      destruct (finish_agrees n (AMeass ms) t1 S) as [A B]. rewrite A. cbn [fst snd]. rewrite B. split; reflexivity.
    - intros c s. cbn [TrackFileModel.call]. unfold t_dist. change (t_inner (as_tracker n t)) with (k_inner t). destruct (inner_dist c s (k_inner t)) as [i [m|e]]; [|split; reflexivity].
      destruct (to_dict c) as [d|e]; [|split; reflexivity].
      match goal with |- context [finish serialisable None ?a (?x, Ok tt)] => destruct (finish_agrees n a x S) as [A B] end. rewrite A. cbn [fst snd]. rewrite B. split; reflexivity.
  Qed.
End Props.

(** ** Examples: circuits are numbers, the backend counts its calls and fails for the circuit 9; the number of samples 64 stands for a number of numpy *)
Definition run_ (c : nat) (n : Z) (i : nat) : nat * result (list (list nat)) := (S i, if Nat.eqb c 9 then Err RuntimeError else Ok [[c]; [i]]).
Definition set_ (cs : list nat) (ns : list Z) (i : nat) : nat * result (list (list (list nat))) := (S i, Ok (map (fun c => [[c]]) cs)).
Definition dist_ (c : nat) (n : Z) (i : nat) : nat * result nat := (S i, Ok c).
Definition ser (r : @record nat nat) : bool := match r with RDistribution _ _ _ n => negb (Z.eqb n 64) | RMeasurement _ _ _ _ _ => true end.
Notation hist := (history run_ set_ dist_ Ok (fun c => c) (fun _ => []) (fun m => m) true ser).
Definition t0 : @tracked nat nat nat := tracked_init 0 None.
Example ex_history : let '(t, os) := hist [TRun 3 1%Z; TRun 9 1%Z; TRunSet [4; 5] [1%Z; 1%Z]; TDist 6 2%Z] t0 in
  os = [Ok (AMeas [[3]; [0]]); Err RuntimeError; Ok (AMeass [[[4]]; [[5]]]); Ok (ADist 6)] /\ k_inner t = 4 /\ k_file t = Some (Whole [RDistribution 6 6 6 2%Z]) /\ k_raw t = [].
Proof. vm_compute. auto. Qed.
Example ex_poisoned : let '(t, os) := hist [TRun 3 1%Z; TDist 6 64%Z] t0 in (exists r, In r (k_raw t) /\ ser r = false) /\ snd (hist [TRun 3 1%Z; TRun 9 1%Z; TDist 6 2%Z] t) = [Err TypeError; Err RuntimeError; Err TypeError].
Proof. vm_compute. split; [|reflexivity]. eexists. split; [left; reflexivity|reflexivity]. Qed.
(** A call that fails can erase the file, although the backend has answered it. *)
Theorem C108_keeps_file_refuted : exists (t : @tracked nat nat nat) k a rs, k_file t = Some (Whole rs) /\ rs <> [] /\ k_raw t = [] /\ snd (asks run_ set_ dist_ k (k_inner t)) = Ok a /\
  snd (call run_ set_ dist_ Ok (fun c => c) (fun _ => []) (fun m => m) true ser None k t) = Err TypeError /\ k_file (fst (call run_ set_ dist_ Ok (fun c => c) (fun _ => []) (fun m => m) true ser None k t)) = Some Empty.
Proof.
  exists (fst (hist [TRun 3 1%Z] t0)), (TDist 6 64%Z), (ADist 6). eexists. split; [vm_compute; reflexivity|]. repeat split; discriminate.
Qed.
Print Assumptions C108_call.
Print Assumptions C108_healthy.
Print Assumptions C108_poisoned.
Print Assumptions C108_crash.
Print Assumptions C108_agrees.
