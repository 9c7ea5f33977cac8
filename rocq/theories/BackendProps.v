(** C16-C18: simulators, backend counters, measurement tracking. *)
From Coq Require Import String Reals Lra.
From Verif Require Import Base BaseFacts MatModel MatFacts LiftModel CircuitModel CircuitSpec CircuitProofs Cplx GateMatModel GateMatSpec GateMatProofs
  GateMatProps WfModel WfSpec WfProofs WfProofs2 BackendModel BackendSpec BackendProofs.
Open Scope list_scope.
Local Open Scope nat_scope.

(** *** C16 *)
Section C16.
  Context {Num State WF : Type} (apply_op : operation Num -> State -> result State) (native : circuit Num -> State -> result State)
    (supported : operation Num -> bool) (zeros : Z -> State) (mk : State -> result WF).

  (** Whatever the native predicate, the result (or exception) is that of applying all operations in order. *)
  Theorem C16_any_split (c : circuit Num) initial cnt : valid_circuit c -> native_correct apply_op supported native ->
    snd (get_wavefunction apply_op native supported zeros mk c initial cnt) =
    (let! st := foldM (fun v o => apply_op o v) (c_ops c) (match initial with None => zeros (c_nq c) | Some s => s end) in mk st).
  Proof.
    intros Hc HN. unfold get_wavefunction. rewrite split_spec by auto.
    match goal with |- snd (let '(_, _) := run_chunks _ _ ?ch ?st ?cn in _) = _ => pose proof (run_chunks_spec apply_op native supported (c_nq c) (c_ops c) HN st cn) as H;
      destruct (run_chunks apply_op native ch st cn) as [cnt1 r] end.
    cbn [snd] in *. rewrite H. reflexivity.
  Qed.

  (** Two simulators whose native back ends are correct agree, however differently they divide circuits. *)
  Corollary C16_simulators_agree native' supported' (c : circuit Num) initial cnt cnt' : valid_circuit c ->
    native_correct apply_op supported native -> native_correct apply_op supported' native' ->
    snd (get_wavefunction apply_op native supported zeros mk c initial cnt) =
    snd (get_wavefunction apply_op native' supported' zeros mk c initial cnt').
  Proof.
    intros Hc H1 H2. rewrite (C16_any_split c initial cnt Hc H1). unfold get_wavefunction. rewrite split_spec by auto.
    match goal with |- _ = snd (let '(_, _) := run_chunks _ _ ?ch ?st ?cn in _) => pose proof (run_chunks_spec apply_op native' supported' (c_nq c) (c_ops c) H2 st cn) as H;
      destruct (run_chunks apply_op native' ch st cn) as [cnt1 r] end.
    cbn [snd] in *. rewrite H. reflexivity.
  Qed.

  (** Each maximal run of natively supported operations counts as one circuit and one job. *)
  Theorem C16_counts_native_runs (c : circuit Num) initial cnt wf : valid_circuit c ->
    snd (get_wavefunction apply_op native supported zeros mk c initial cnt) = Ok wf ->
    fst (get_wavefunction apply_op native supported zeros mk c initial cnt) =
    {| n_circuits := n_circuits cnt + native_runs supported false (c_ops c); n_jobs := n_jobs cnt + native_runs supported false (c_ops c) |}.
  Proof.
    intros Hc. unfold get_wavefunction. rewrite split_spec by auto.
    match goal with |- context [run_chunks _ _ ?ch ?st ?cn] => pose proof (run_chunks_counters apply_op native ch st cn) as H;
      destruct (run_chunks apply_op native ch st cn) as [cnt1 r] end.
    cbn [fst snd] in *. destruct r as [st1|]; cbn [rbind]; [|discriminate]. intros _. rewrite (H _ eq_refl), filter_chunks.
    destruct (native_runs_groupby supported (c_ops c) false) as [-> _]. destruct (groupby supported (c_ops c)) as [|[b g] rest]; [reflexivity|].
    cbn [andb]. rewrite Nat.sub_0_r. reflexivity.
  Qed.
  (** So a non-empty circuit of natively supported operations counts once... *)
  Corollary C16_native_circuit_counts_once (c : circuit Num) initial cnt wf : valid_circuit c -> c_ops c <> [] ->
    Forall (fun o => supported o = true) (c_ops c) ->
    snd (get_wavefunction apply_op native supported zeros mk c initial cnt) = Ok wf ->
    fst (get_wavefunction apply_op native supported zeros mk c initial cnt) = {| n_circuits := S (n_circuits cnt); n_jobs := S (n_jobs cnt) |}.
  Proof.
    intros Hc Hne Hf H. rewrite (C16_counts_native_runs _ _ _ _ Hc H). destruct (c_ops c) as [|o ops]; [congruence|]. inversion Hf as [|? ? Ho Hf']; subst.
    cbn [native_runs]. rewrite Ho. cbn [andb negb]. assert (Z : native_runs supported true ops = 0).
    { clear -Hf'. induction Hf' as [|o ops Ho Hf IH]; cbn; [auto|]. rewrite Ho. cbn. auto. }
    rewrite Z. f_equal; lia.
  Qed.
  (** ... but the empty circuit does not count at all, contrary to the class documentation. *)
  Theorem C16_empty_circuit_counted_refuted (c : circuit Num) initial cnt wf : valid_circuit c -> c_ops c = [] ->
    snd (get_wavefunction apply_op native supported zeros mk c initial cnt) = Ok wf ->
    fst (get_wavefunction apply_op native supported zeros mk c initial cnt) = cnt.
  Proof. intros Hc E H. rewrite (C16_counts_native_runs _ _ _ _ Hc H), E. cbn. destruct cnt; cbn. f_equal; lia. Qed.
End C16.

(** The symbolic simulator: native execution is correct by construction, sampling needs a symbol-free state. *)
Section Symbolic.
  Context {Num State WF Meas : Type} (O : sympy_oracle Num).
  Context (apply_op : operation Num -> State -> result State) (zeros : Z -> State) (mk : State -> result WF)
          (free_symbols : WF -> list sym) (sample : WF -> Z -> result Meas).
  Theorem C16_symbolic_simulator (c : circuit Num) initial cnt : valid_circuit c ->
    snd (symbolic_get_wavefunction apply_op zeros mk c initial cnt) =
    (let! st := foldM (fun v o => apply_op o v) (c_ops c) (match initial with None => zeros (c_nq c) | Some s => s end) in mk st).
  Proof. intros Hc. apply C16_any_split; [auto|]. intros c' st _. reflexivity. Qed.
  Theorem C16_symbolic_run_free_symbols (c : circuit Num) n cnt st wf s : valid_circuit c ->
    foldM (fun v o => apply_op o v) (c_ops c) (zeros (c_nq c)) = Ok st -> mk st = Ok wf -> In s (free_symbols wf) ->
    snd (symbolic_run O apply_op zeros mk free_symbols sample c n None cnt) = Err ValueError.
  Proof.
    intros Hc E1 E2 Hs. unfold symbolic_run. pose proof (C16_symbolic_simulator c None cnt Hc) as H.
    destruct (symbolic_get_wavefunction apply_op zeros mk c None cnt) as [cnt1 r]. cbn [snd] in *. rewrite H, E1. cbn [rbind]. rewrite E2. cbn [rbind].
    destruct (free_symbols wf); [contradiction|reflexivity].
  Qed.
  (** Passing a symbol map is binding the circuit first. *)
  Theorem C16_symbolic_run_binds (c c' : circuit Num) n m cnt : circuit_bind O c m = Ok c' ->
    symbolic_run O apply_op zeros mk free_symbols sample c n (Some m) cnt =
    symbolic_run O apply_op zeros mk free_symbols sample c' n None cnt.
  Proof. intros H. unfold symbolic_run. rewrite H. reflexivity. Qed.
End Symbolic.

(** On actual amplitude vectors. *)
Section Numeric.
  Context {Num : Type} (O : sympy_oracle Num) (IR : interp (Num := Num) R) (IC : interp (Num := Num) C) (rho : sym -> R) (F : string -> list C -> C).
  Context (native : circuit Num -> vec CC -> result (vec CC)) (supported : operation Num -> bool).
  Notation simulate := (get_wavefunction (op_apply O IR IC rho) native supported basis_state0 (wavefunction_of_vec F)).

  (** For any circuit of built-in based gates and multi-phase operations, starting from any normalised state: if the
      operations apply, the simulator returns exactly the resulting amplitudes (the norm check never gets in the way). *)
  Theorem C16_wavefunction_amplitudes (c : circuit Num) n (v w : vec CC) cnt : valid_circuit c -> native_correct (op_apply O IR IC rho) supported native ->
    c_nq c = Z.of_nat n -> vlen v = 2 ^ n -> norm2 v = c1 ->
    Forall (fun o => well_placed O (c_nq c) o \/ exists ps, o = MultiPhase ps) (c_ops c) ->
    apply_ops O IR IC rho (c_ops c) v = Ok w ->
    exists wf, snd (simulate c (Some v) cnt) = Ok wf /\ w_amps wf = map (fun k => ENum (vent w k : C)) (seq 0 (2 ^ n)).
  Proof.
    intros Hc HN Hn Hv Hu Hf Hr. rewrite C16_any_split by auto. unfold apply_ops in Hr. rewrite Hr. cbn [rbind].
    destruct (C08_norm_preserved O IR IC rho (Z.of_nat n) (c_ops c) v w) as [Hl Hw]; try lia; [rewrite Nat2Z.id; auto|rewrite <- Hn; auto|exact Hr|].
    rewrite (wavefunction_of_unit_vec F w n) by congruence. eexists. split; [reflexivity|]. cbn [w_amps]. unfold amps_of_vec. rewrite Hl, Hv. reflexivity.
  Qed.
  (** A non-empty circuit of built-in based gates is always simulated, and the amplitudes are the first column of its
      unitary. *)
  Theorem C16_first_column (c : circuit Num) n cnt : valid_circuit c -> native_correct (op_apply O IR IC rho) supported native ->
    c_nq c = Z.of_nat n -> c_ops c <> [] -> Forall (well_placed O (c_nq c)) (c_ops c) ->
    exists U wf, to_unitary O IR IC rho c = Ok U /\ snd (simulate c None cnt) = Ok wf /\
      w_amps wf = map (fun k => ENum (ent U k 0 : C)) (seq 0 (2 ^ n)).
  Proof.
    intros Hc HN Hn Hne Hf. destruct (C08_circuit_unitary O IR IC rho c Hc Hne Hf) as (U & EU & HU & Hr).
    assert (Hv : vlen (basis_state0 (c_nq c)) = 2 ^ n) by (cbn; rewrite Hn, Nat2Z.id; auto).
    destruct (C07_unitary_is_sequential_application O IR IC rho c U n (basis_state0 (c_nq c)) EU Hn Hv) as (w & Ew & Hw).
    destruct (C16_wavefunction_amplitudes c n (basis_state0 (c_nq c)) w cnt Hc HN Hn Hv (basis_norm _)) as (wf & Es & Ea).
    { eapply Forall_impl; [|exact Hf]. auto. }
    { exact Ew. }
    exists U, wf. split; [auto|]. split; [|].
    - rewrite C16_any_split in * by auto. exact Es.
    - rewrite Ea. apply map_ext_in. intros k Hk. apply in_seq in Hk. f_equal. destruct Hw as [Hl Hw]. rewrite Hw.
      2:{ rewrite Hl. cbn [vlen mvmul]. rewrite Hr, Hn, Nat2Z.id. lia. }
      cbn [mvmul vent]. assert (NC : nc U = 2 ^ n).
      { destruct HU as [HU _]. rewrite Hr, Hn, Nat2Z.id in HU. congruence. }
      rewrite NC. rewrite (bigsum_single (K := CC) _ 0).
      + cbn [basis_state0 vent Nat.eqb kmul CC]. apply c_eq; cbn; ring.
      + apply pow2_pos.
      + intros i Hi Hi0. cbn [basis_state0 vent]. destruct (Nat.eqb_spec i 0); [congruence|]. cbn [kmul CC]. apply c_eq; cbn; ring.
  Qed.
End Numeric.

(** *** C17 *)
Section C17.
  Context {Circ Meas : Type} (exec : Circ -> Z -> result Meas) (collect : list Circ -> list Z -> result (list Meas)).
  Notation st := (backend_state Circ).

  Lemma sub_run_exact c n (s : st) : counters_exact s -> counters_exact (fst (sub_run exec c n s)).
  Proof.
    intros [H1 H2]. unfold sub_run, base_run. destruct (Z.ltb n 1); [split; auto|]. cbn [fst]. split; cbn [b_cnt b_log count_one n_circuits n_jobs].
    - rewrite concat_app, app_length. cbn. lia.
    - rewrite app_length. cbn. lia.
  Qed.
  Lemma run_pairs_exact l : forall s : st, counters_exact s -> counters_exact (fst (run_pairs exec l s)).
  Proof.
    induction l as [|[c n] l IH]; intros s Hs; [auto|]. cbn [run_pairs]. pose proof (sub_run_exact c n s Hs) as H1.
    destruct (sub_run exec c n s) as [s1 [m|e]]; [|auto]. cbn [fst] in H1. specialize (IH s1 H1). destruct (run_pairs exec l s1) as [s2 [ms|e]]; auto.
  Qed.
  Lemma batching_exact b cs ns (s : st) : 1 <= b -> counters_exact s -> counters_exact (fst (sub_run_set_batching collect b cs ns s)).
  Proof.
    intros Hb [H1 H2]. unfold sub_run_set_batching. destruct (batches_concat b Hb (length cs) cs (le_n _)) as (E1 & E2 & _). cbn [base_run_set_batching fst].
    split; cbn [b_cnt b_log n_circuits n_jobs].
    - rewrite concat_app, app_length, E1. lia.
    - rewrite app_length, E2. lia.
  Qed.

  (** After any history of calls, including failing ones, on a backend with or without batching, the counters equal the
      number of circuits and of jobs that were handed to the hardware. *)
  Theorem C17_counters_after_any_history supports size cnt0 (calls : list (call Circ)) :
    backend_init supports size = Ok cnt0 ->
    counters_exact (fold_left (step exec (if supports then option_map Z.to_nat size else None) collect) calls {| b_cnt := cnt0; b_log := [] |}).
  Proof.
    intros Hi.
    assert (Hb : match (if supports then option_map Z.to_nat size else None) with Some b => 1 <= b | None => True end /\ cnt0 = {| n_circuits := 0; n_jobs := 0 |}).
    { unfold backend_init in Hi. destruct supports; [|injection Hi as <-; auto]. destruct size as [b|]; [|discriminate]. cbn. destruct (Z.gtb_spec b 0); [|discriminate]. injection Hi as <-. split; [lia|auto]. }
    destruct Hb as [Hb ->]. revert Hb. generalize (if supports then option_map Z.to_nat size else None) as batching. intros batching Hb.
    assert (G : forall calls s, counters_exact s -> counters_exact (fold_left (step exec batching collect) calls s)).
    { clear -Hb. induction calls as [|k calls IH]; intros s Hs; [auto|]. cbn [fold_left]. apply IH. destruct k as [c n|cs ns|c n]; cbn [step].
      - apply sub_run_exact; auto.
      - destruct batching as [b|]; [apply batching_exact; auto|]. apply run_pairs_exact; auto.
      - apply sub_run_exact; auto. }
    apply G. split; reflexivity.
  Qed.
  (** An invalid batch size is refused at construction. *)
  Theorem C17_batch_size_checked size : (match size with Some b => (b <= 0)%Z | None => True end) -> backend_init true size = Err AssertionError.
  Proof. intros H. unfold backend_init. destruct size as [b|]; [|auto]. destruct (Z.gtb_spec b 0); [lia|auto]. Qed.
  (** Jobs of a batching backend: groups of at most [b] circuits, in order, ceil(length / b) of them. *)
  Theorem C17_batches b (cs : list Circ) : 1 <= b ->
    concat (batches (length cs) b cs) = cs /\ length (batches (length cs) b cs) = ceil_div (length cs) b /\
    (forall g, In g (batches (length cs) b cs) -> 1 <= length g <= b) /\
    ceil_div (length cs) b * b >= length cs /\ ceil_div (length cs) b * b < length cs + b.
  Proof.
    intros Hb. destruct (batches_concat b Hb (length cs) cs (le_n _)) as (E1 & E2 & E3). repeat split; auto; try apply E3; auto.
    - unfold ceil_div. pose proof (Nat.div_mod (length cs + b - 1) b ltac:(lia)). pose proof (Nat.mod_upper_bound (length cs + b - 1) b ltac:(lia)). nia.
    - unfold ceil_div. pose proof (Nat.div_mod (length cs + b - 1) b ltac:(lia)). nia.
  Qed.

  (** Results of run_circuitset_and_measure without batching: one per pair of circuit and sample count, in order. *)
  Theorem C17_set_results cs ns (s s' : st) ms : run_set exec cs ns s = (s', Ok ms) ->
    Forall2 (fun cn m => exec (fst cn) (snd cn) = Ok m /\ (1 <= snd cn)%Z) (combine cs ns) ms /\ b_log s' = b_log s ++ map (fun cn => [fst cn]) (combine cs ns).
  Proof.
    unfold run_set. revert s s' ms. induction (combine cs ns) as [|[c n] l IH]; intros s s' ms; cbn [run_pairs].
    - intros [= <- <-]. split; [constructor|]. cbn. rewrite app_nil_r. auto.
    - unfold sub_run, base_run. destruct (Z.ltb_spec n 1); [discriminate|]. destruct (exec c n) as [m|] eqn:E; [|discriminate].
      match goal with |- context [run_pairs exec l ?x] => specialize (IH x); destruct (run_pairs exec l x) as [s2 [ms2|]] end; [|discriminate].
      intros [= <- <-]. destruct (IH _ _ eq_refl) as [H1 H2]. split; [constructor; auto|]. rewrite H2. cbn. rewrite <- app_assoc. reflexivity.
  Qed.
  Corollary C17_set_one_result_per_circuit cs ns (s s' : st) ms : length cs = length ns -> run_set exec cs ns s = (s', Ok ms) -> length ms = length cs.
  Proof. intros L H. apply C17_set_results in H as [H _]. apply Forall2_len in H. rewrite combine_length in H. lia. Qed.
  Theorem C17_zero_samples_rejected c n (s : st) : (n < 1)%Z -> sub_run exec c n s = (s, Err ValueError).
  Proof. intros H. unfold sub_run, base_run. destruct (Z.ltb_spec n 1); [|lia]. destruct s; reflexivity. Qed.
  (** A list of sample counts that is too short is not rejected: the remaining circuits are silently not run. *)
  Theorem C17_mismatch_rejected_refuted c1 c2 n m (s : st) : (1 <= n)%Z -> exec c1 n = Ok m ->
    exists s', run_set exec [c1; c2] [n] s = (s', Ok [m]) /\ b_log s' = b_log s ++ [[c1]].
  Proof. intros Hn E. unfold run_set. cbn. unfold sub_run, base_run. destruct (Z.ltb_spec n 1); [lia|]. rewrite E. eexists. split; reflexivity. Qed.
  (** The base implementation with batching returns no measurements at all. *)
  Theorem C17_batching_base_returns_nothing b cs cnt : snd (base_run_set_batching (Circ := Circ) (Meas := Meas) b cs cnt) = Ok [].
  Proof. reflexivity. Qed.
End C17.

(** *** C18 *)
Section C18.
  Context {Circ Meas Dist CircD Inner : Type}
          (inner_run : Circ -> Z -> Inner -> Inner * result Meas)
          (inner_run_set : list Circ -> list Z -> Inner -> Inner * result (list Meas))
          (inner_dist : Circ -> Z -> Inner -> Inner * result Dist)
          (to_dict : Circ -> result CircD) (n_operations : Circ -> nat)
          (counts : Meas -> list (string * nat)) (shots : Meas -> list (list nat)) (record_bitstrings : bool).
  Notation trun := (t_run (Dist := Dist) inner_run to_dict n_operations counts shots record_bitstrings).
  Notation trunset := (t_run_set (Dist := Dist) inner_run_set to_dict n_operations counts shots record_bitstrings).
  Notation tdist := (t_dist inner_dist to_dict n_operations).
  Notation trk := (@tracker Dist CircD Inner).
  Notation rec_of := (fun cm r => exists d, to_dict (fst cm) = Ok d /\
    r = RMeasurement (Dist := Dist) d (counts (snd cm)) (n_operations (fst cm)) (length (shots (snd cm))) (if record_bitstrings then Some (shots (snd cm)) else None)).

  (** Results and exceptions of the wrapped backend are forwarded unchanged (a call can fail in addition only if the circuit
      cannot be serialised), and the wrapped backend goes through the same states. *)
  Theorem C18_forwards_run c n (t : trk) :
    t_inner (fst (trun c n t)) = fst (inner_run c n (t_inner t)) /\
    (snd (trun c n t) = snd (inner_run c n (t_inner t)) \/ exists e, to_dict c = Err e /\ snd (trun c n t) = Err e).
  Proof.
    unfold t_run, record_raw, measurement_record. destruct (inner_run c n (t_inner t)) as [i [m|e]]; cbn; [|auto].
    destruct (to_dict c); cbn; eauto.
  Qed.
  Lemma record_all_spec l : forall t : trk,
    let t' := fst (record_all to_dict n_operations counts shots record_bitstrings l t) in
    t_inner t' = t_inner t /\ file t' = file t /\ t_cnt t' = t_cnt t /\
    match snd (record_all to_dict n_operations counts shots record_bitstrings l t) with
    | Ok _ => exists rs, raw_data t' = raw_data t ++ rs /\ Forall2 rec_of l rs
    | Err e => exists c, In c (map fst l) /\ to_dict c = Err e
    end.
  Proof.
    induction l as [|[c m] l IH]; intros t; cbn [record_all].
    - cbn. repeat split; auto. exists []. rewrite app_nil_r. auto.
    - unfold record_raw, measurement_record. destruct (to_dict c) as [d|e] eqn:E; cbn [rbind].
      + match goal with |- context [record_all _ _ _ _ _ l ?x] => specialize (IH x) end. cbv zeta in *. destruct IH as (H1 & H2 & H3 & H4).
        rewrite H1, H2, H3. cbn [append_record t_inner file t_cnt raw_data] in *. repeat split; auto.
        destruct (snd _).
        * destruct H4 as (rs & -> & HF). eexists (_ :: rs). rewrite <- app_assoc. split; [reflexivity|]. constructor; [|auto]. exists d. auto.
        * destruct H4 as (c' & Hc & Hd). exists c'. split; [right; auto|auto].
      + cbn. repeat split; auto. exists c. split; [left; auto|auto].
  Qed.
  Theorem C18_forwards_run_set cs ns (t : trk) :
    t_inner (fst (trunset cs ns t)) = fst (inner_run_set cs ns (t_inner t)) /\
    (snd (trunset cs ns t) = snd (inner_run_set cs ns (t_inner t)) \/ exists c e, In c cs /\ to_dict c = Err e /\ snd (trunset cs ns t) = Err e).
  Proof.
    unfold t_run_set. destruct (inner_run_set cs ns (t_inner t)) as [i [ms|e]]; cbn [fst snd]; [|cbn; auto].
    pose proof (record_all_spec (combine cs ms) (with_inner t i)) as H. cbv zeta in H. destruct H as (H1 & H2 & H3 & H4).
    destruct (record_all _ _ _ _ _ (combine cs ms) (with_inner t i)) as [t2 [u|e]]; cbn [fst snd] in *.
    - cbn. split; auto.
    - cbn. split; [auto|]. right. destruct H4 as (c & Hc & Hd). exists c, e. split; [|auto]. clear -Hc. revert ms Hc. induction cs as [|x cs IH]; intros [|m ms]; cbn; try tauto. intros [->|H]; [auto|right; eauto].
  Qed.
  Theorem C18_forwards_distribution c n (t : trk) :
    t_inner (fst (tdist c n t)) = fst (inner_dist c n (t_inner t)) /\
    (snd (tdist c n t) = snd (inner_dist c n (t_inner t)) \/ exists e, to_dict c = Err e /\ snd (tdist c n t) = Err e).
  Proof. unfold t_dist. destruct (inner_dist c n (t_inner t)) as [i [m|e]]; cbn; [|auto]. destruct (to_dict c); cbn; eauto. Qed.

  (** When all circuits can be serialised, raw_data is empty between calls, for any history; so a call writes its own records only. *)
  Definition clean (t : trk) : Prop := raw_data t = [].
  Notation tstep := (t_step inner_run inner_run_set inner_dist to_dict n_operations counts shots record_bitstrings).
  Theorem C18_clean_between_calls i existing calls : (forall c, exists d, to_dict c = Ok d) ->
    clean (fold_left tstep calls (tracker_init i existing)).
  Proof.
    intros HD. assert (G : forall calls (t : trk), clean t -> clean (fold_left tstep calls t)).
    { induction calls0 as [|k calls0 IH]; intros t Ht; [auto|]. cbn [fold_left]. apply IH. unfold clean in *. destruct k as [c n|cs ns|c n]; cbn [t_step].
      - unfold t_run, record_raw, measurement_record. destruct (inner_run c n (t_inner t)) as [i' [m|e]]; [|exact Ht]. destruct (HD c) as [d ->]. reflexivity.
      - unfold t_run_set. destruct (inner_run_set cs ns (t_inner t)) as [i' [ms|e]]; [|exact Ht].
        pose proof (record_all_spec (combine cs ms) (with_inner t i')) as H. cbv zeta in H. destruct H as (H1 & H2 & H3 & H4).
        destruct (record_all _ _ _ _ _ (combine cs ms) (with_inner t i')) as [t2 [u|e]]; cbn [fst snd] in *; [reflexivity|].
        destruct H4 as (c & _ & Hd). destruct (HD c) as [d E]. congruence.
      - unfold t_dist. destruct (inner_dist c n (t_inner t)) as [i' [m|e]]; [|exact Ht]. destruct (HD c) as [d ->]. reflexivity. }
    apply G. reflexivity.
  Qed.
  (** The file after a successful call holds one record per circuit measured by this call, in order, and nothing else. *)
  Theorem C18_file_after_run c n (t : trk) m : clean t -> snd (trun c n t) = Ok m ->
    exists r, file (fst (trun c n t)) = Some [r] /\ rec_of (c, m) r.
  Proof.
    intros Ht. unfold t_run, record_raw, measurement_record. destruct (inner_run c n (t_inner t)) as [i [m'|e]]; cbn; [|discriminate].
    destruct (to_dict c) as [d|] eqn:E; cbn; [|discriminate]. intros [= ->]. unfold clean in Ht. rewrite Ht. eexists. split; [reflexivity|]. exists d. auto.
  Qed.
  Theorem C18_file_after_run_set cs ns (t : trk) ms : clean t -> snd (trunset cs ns t) = Ok ms ->
    exists rs, file (fst (trunset cs ns t)) = Some rs /\ Forall2 rec_of (combine cs ms) rs.
  Proof.
    intros Ht. unfold t_run_set. destruct (inner_run_set cs ns (t_inner t)) as [i [ms'|e]]; cbn [fst snd]; [|discriminate].
    pose proof (record_all_spec (combine cs ms') (with_inner t i)) as H. cbv zeta in H. destruct H as (H1 & H2 & H3 & H4).
    destruct (record_all _ _ _ _ _ (combine cs ms') (with_inner t i)) as [t2 [u|e]]; cbn [fst snd] in *; [|discriminate].
    intros [= <-]. destruct H4 as (rs & Hr & HF). cbn. exists rs. split; [|auto]. f_equal. rewrite Hr. unfold clean in Ht. cbn. rewrite Ht. reflexivity.
  Qed.
  Theorem C18_file_after_distribution c n (t : trk) x : clean t -> snd (tdist c n t) = Ok x ->
    exists d, to_dict c = Ok d /\ file (fst (tdist c n t)) = Some [RDistribution d x (n_operations c) n].
  Proof.
    intros Ht. unfold t_dist. destruct (inner_dist c n (t_inner t)) as [i [m'|e]]; cbn; [|discriminate].
    destruct (to_dict c) as [d|] eqn:E; cbn; [|discriminate]. intros [= ->]. unfold clean in Ht. rewrite Ht. exists d. auto.
  Qed.
  (** A failing call of the wrapped backend leaves the file alone. *)
  Theorem C18_failed_run_keeps_file c n (t : trk) e : snd (inner_run c n (t_inner t)) = Err e -> file (fst (trun c n t)) = file t /\ raw_data (fst (trun c n t)) = raw_data t.
  Proof. unfold t_run. destruct (inner_run c n (t_inner t)) as [i [m'|e']]; cbn; [discriminate|auto]. Qed.
  (** The wrapper is announced as tracking all measurements, but a second successful call erases the first one's record:
      the file never holds more than one record after two single runs. *)
  Theorem C18_keeps_all_measurements_refuted c1 c2 n1 n2 i existing m1 m2 :
    (forall c, exists d, to_dict c = Ok d) ->
    let t1 := fst (trun c1 n1 (tracker_init i existing)) in
    snd (trun c1 n1 (tracker_init i existing)) = Ok m1 -> snd (trun c2 n2 t1) = Ok m2 ->
    exists r, file (fst (trun c2 n2 t1)) = Some [r] /\ rec_of (c2, m2) r.
  Proof.
    intros HD t1 H1 H2. apply C18_file_after_run; [|auto]. apply (C18_clean_between_calls i existing [TRun c1 n1] HD).
  Qed.
  (** The wrapper's own counters never move. *)
  Theorem C18_wrapper_counters_stay_zero i existing calls :
    t_cnt (fold_left tstep calls (tracker_init i existing)) = {| n_circuits := 0; n_jobs := 0 |}.
  Proof.
    assert (G : forall calls (t : trk), t_cnt (fold_left tstep calls t) = t_cnt t).
    { induction calls0 as [|k calls0 IH]; intros t; [auto|]. cbn [fold_left]. rewrite IH. destruct k as [c n|cs ns|c n]; cbn [t_step].
      - unfold t_run, record_raw. destruct (inner_run c n (t_inner t)) as [i' [m|e]]; [|reflexivity]. destruct (measurement_record _ _ _ _ _ _ _); reflexivity.
      - unfold t_run_set. destruct (inner_run_set cs ns (t_inner t)) as [i' [ms|e]]; [|reflexivity].
        pose proof (record_all_spec (combine cs ms) (with_inner t i')) as H. cbv zeta in H. destruct H as (H1 & H2 & H3 & H4).
        destruct (record_all _ _ _ _ _ (combine cs ms) (with_inner t i')) as [t2 [u|e]]; cbn [fst snd] in *; cbn; auto.
      - unfold t_dist. destruct (inner_dist c n (t_inner t)) as [i' [m|e]]; [|reflexivity]. destruct (to_dict c); reflexivity. }
    apply G.
  Qed.
End C18.

(** *** The hypotheses are met *)
(** A simulator that runs gates natively: H, a multi-phase operation, H: two native runs. *)
Example ex_native_runs : native_runs (Num := R) default_supported false
  [GateOp gate_I [0]; GateOp gate_I [1]; MultiPhase []; GateOp gate_I [0]] = 2.
Proof. reflexivity. Qed.
Example ex_native_correct {Num State} (ap : operation Num -> State -> result State) sup : native_correct ap sup (symbolic_native ap).
Proof. intros c st _. reflexivity. Qed.
Example ex_history : let exec := fun (c : nat) (n : Z) => Ok (c, n) in
  let s := fold_left (step exec (Some 2) (fun _ _ => Ok [])) [Run 7 1; Run 8 0; RunSet [1; 2; 3; 4; 5] [1; 1; 1; 1; 1]%Z] {| b_cnt := {| n_circuits := 0; n_jobs := 0 |}; b_log := [] |} in
  b_cnt s = {| n_circuits := 6; n_jobs := 4 |} /\ b_log s = [[7]; [1; 2]; [3; 4]; [5]].
Proof. split; reflexivity. Qed.
Example ex_tracker : let run := fun (c : nat) (n : Z) (i : unit) => (i, Ok [[c]]) in
  let t := fold_left (t_step (CircD := nat) (Dist := unit) run (fun _ _ i => (i, Ok [])) (fun _ _ i => (i, Ok tt)) (fun c => Ok c) (fun c => c) (fun _ => []) (fun m => m) false)
    [TRun 3 1; TRun 5 1] (tracker_init tt None) in
  file t = Some [RMeasurement 5 [] 5 1 None].
Proof. reflexivity. Qed.

Print Assumptions C16_any_split.
Print Assumptions C16_first_column.
Print Assumptions C17_counters_after_any_history.
Print Assumptions C18_file_after_run_set.
