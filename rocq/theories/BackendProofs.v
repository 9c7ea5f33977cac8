(** Proofs about backends and simulators. *)
From Coq Require Import String Reals Lra.
From Verif Require Import Base BaseFacts MatModel MatFacts LiftModel CircuitModel CircuitSpec CircuitProofs Cplx GateMatModel GateMatSpec GateMatProofs
  WfModel WfSpec WfProofs WfProofs2 BackendModel BackendSpec.
Open Scope list_scope.
Local Open Scope nat_scope.

Lemma foldM_app {A B} (f : A -> B -> result A) l1 l2 a : foldM f (l1 ++ l2) a = rbind (foldM f l1 a) (foldM f l2).
Proof. revert a. induction l1 as [|x l1 IH]; intros a; cbn; [auto|]. destruct (f a x); cbn; auto. Qed.

Section Sim.
  Context {Num State WF : Type} (apply_op : operation Num -> State -> result State) (native : circuit Num -> State -> result State)
    (supported : operation Num -> bool) (zeros : Z -> State) (mk : State -> result WF).
  Notation applyall := (apply_all apply_op).

  Lemma run_chunks_spec nq ops : native_correct apply_op supported native -> forall st cnt,
    snd (run_chunks apply_op native (map (fun bg => (fst bg, Build_circuit (snd bg) nq)) (groupby supported ops)) st cnt) = applyall ops st.
  Proof.
    intros HN st cnt. rewrite <- (groupby_concat supported ops) at 2.
    assert (G : forall b g, In (b, g) (groupby supported ops) -> Forall (fun o => supported o = b) g).
    { intros b g Hin. apply groupby_const in Hin as [_ H]. apply Forall_forall. auto. }
    revert G st cnt. generalize (groupby supported ops) as l. induction l as [|[b g] l IH]; intros G st cnt; [reflexivity|].
    cbn [map run_chunks fst snd flat_map]. unfold apply_all. rewrite foldM_app.
    assert (G' : forall b0 g0, In (b0, g0) l -> Forall (fun o => supported o = b0) g0) by (intros; eapply G; right; eauto).
    destruct b.
    - rewrite HN by (apply (G true); left; auto). cbn [c_ops].
      destruct (foldM (fun v o => apply_op o v) g st) as [st1|e]; cbn [rbind]; [|reflexivity]. apply IH; auto.
    - cbn [c_ops]. destruct (foldM (fun v o => apply_op o v) g st) as [st1|e]; cbn [rbind]; [|reflexivity]. apply IH; auto.
  Qed.
  Lemma native_runs_groupby ops : forall prev, native_runs supported prev ops =
    match groupby supported ops with
    | [] => 0
    | (b, _) :: _ => length (filter (fun bg => fst bg) (groupby supported ops)) - (if prev && b then 1 else 0)
    end /\ (match groupby supported ops with [] => ops = [] | (b, _) :: _ => match ops with [] => False | o :: _ => supported o = b end end).
  Proof.
    induction ops as [|o ops IH]; intros prev; [split; reflexivity|]. cbn [native_runs groupby]. destruct (IH (supported o)) as [E1 E2]. rewrite E1.
    destruct (groupby supported ops) as [|[b g] rest] eqn:Gr.
    - destruct (supported o), prev; cbn; auto.
    - destruct ops as [|o2 ops]; [contradiction|]. destruct (supported o), b, prev; cbn; split; auto; lia.
  Qed.
  Lemma run_chunks_counters chunks : forall st cnt st', snd (run_chunks apply_op native chunks st cnt) = Ok st' ->
    fst (run_chunks apply_op native chunks st cnt) =
      {| n_circuits := n_circuits cnt + length (filter (fun bc => fst bc) chunks); n_jobs := n_jobs cnt + length (filter (fun bc => fst bc) chunks) |}.
  Proof.
    induction chunks as [|[b c] chunks IH]; intros st cnt st' H.
    - cbn. destruct cnt; cbn. f_equal; lia.
    - cbn [run_chunks] in *. destruct b; cbn [filter fst length].
      + destruct (native c st) as [st1|]; [|discriminate]. rewrite (IH _ _ _ H). unfold count_one; cbn. f_equal; lia.
      + destruct (apply_all apply_op (c_ops c) st) as [st1|]; [|discriminate]. rewrite (IH _ _ _ H). reflexivity.
  Qed.
  Lemma filter_chunks nq l : length (filter (fun bc : bool * circuit Num => fst bc) (map (fun bg => (fst bg, Build_circuit (snd bg) nq)) l)) =
    length (filter (fun bg : bool * list (operation Num) => fst bg) l).
  Proof. induction l as [|[b g] l IH]; cbn; [auto|]. destruct b; cbn; auto. Qed.
End Sim.

(** ** Norms *)
Lemma bigsum_cabs2 (f : nat -> C) n : bigsum (K := CC) n (fun k => cmul (cconj (f k)) (f k)) = rc (sum_R (map (fun k => cabs2 (f k)) (seq 0 n))).
Proof.
  induction n as [|n IH]; [reflexivity|]. cbn [bigsum kadd CC]. rewrite IH, cconj_mul_abs.
  rewrite seq_S, map_app. cbn [map Nat.add]. assert (S1 : forall l x, sum_R (l ++ [x]) = (sum_R l + x)%R).
  { intros l x. induction l as [|y l IHl]; cbn [app sum_R]; [lra|]. rewrite IHl. lra. }
  rewrite S1. apply c_eq; cbn; ring.
Qed.
Lemma amps_prob F v : prob_sum F (amps_of_vec v) = sum_R (map (fun k => cabs2 (vent v k : C)) (seq 0 (vlen v))).
Proof. unfold prob_sum, amps_of_vec. rewrite map_map. reflexivity. Qed.
Lemma wavefunction_of_unit_vec F (v : vec CC) n : vlen v = 2 ^ n -> norm2 v = c1 ->
  wavefunction_of_vec F v = Ok {| w_repr := RNumpy; w_amps := amps_of_vec v |}.
Proof.
  intros Hv Hn. unfold wavefunction_of_vec. apply mk_wf_numbers.
  - exists n. unfold amps_of_vec. rewrite map_length, seq_length. auto.
  - intros e He. apply in_map_iff in He. destruct He as (k & <- & _). reflexivity.
  - rewrite amps_prob. unfold norm2 in Hn. cbn [kmul kconj CC] in Hn. rewrite (bigsum_cabs2 (vent v)) in Hn. apply (f_equal fst) in Hn. exact Hn.
Qed.
Lemma basis_norm n : norm2 (basis_state0 n) = c1.
Proof.
  unfold norm2, basis_state0. cbn [vlen vent kmul kconj CC]. rewrite (bigsum_cabs2 (fun k => if Nat.eqb k 0 then c1 else c0)).
  rewrite (map_ext _ (fun i => if Nat.eqb i 0 then 1%R else 0%R)).
  2:{ intros i. destruct (Nat.eqb i 0); unfold cabs2; cbn; ring. }
  rewrite sum_R_two. pose proof (pow2_pos (Z.to_nat n)). destruct (2 ^ Z.to_nat n) as [|N]; [lia|]. cbn [seq filter Nat.eqb length].
  rewrite filter_none; [cbn; unfold rc, c1; f_equal; ring|]. intros x Hx. apply in_seq in Hx. apply Nat.eqb_neq. lia.
Qed.

(** ** Batching *)
Lemma batches_concat {A} b : 1 <= b -> forall fuel (l : list A), length l <= fuel -> concat (batches fuel b l) = l /\ length (batches fuel b l) = ceil_div (length l) b /\
  forall g, In g (batches fuel b l) -> 1 <= length g <= b.
Proof.
  intros Hb. induction fuel as [|fuel IH]; intros [|x l] Hl; cbn [length] in Hl; try lia.
  - cbn. split; [auto|]. split; [symmetry; unfold ceil_div; apply Nat.div_small; lia|tauto].
  - cbn. split; [auto|]. split; [symmetry; unfold ceil_div; apply Nat.div_small; lia|tauto].
  - cbn [batches]. set (l0 := x :: l) in *. assert (L0 : length l0 = S (length l)) by reflexivity.
    destruct (IH (skipn b l0)) as (H1 & H2 & H3); [rewrite skipn_length; lia|]. cbn [concat length]. rewrite H1, H2, firstn_skipn. split; [auto|]. split.
    + rewrite skipn_length. unfold ceil_div. destruct (Nat.le_gt_cases (length l0) b).
      * replace (length l0 - b) with 0 by lia. rewrite (Nat.div_small (0 + b - 1)) by lia. apply Nat.div_unique with (length l0 - 1); lia.
      * replace (length l0 + b - 1) with ((length l0 - b + b - 1) + 1 * b) by lia. rewrite Nat.div_add by lia. lia.
    + intros g [<-|Hg]; [rewrite firstn_length; lia|auto].
Qed.
