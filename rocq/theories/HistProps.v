(** Properties of the history recorder (C56). *)
From Coq Require Import List ZArith String Bool Lia.
From Verif Require Import Base BaseFacts HistModel HistSpec HistProofs.
Import ListNotations.
Open Scope list_scope.

Section Props.
  Context {A V E : Type}.
  Notation world := (world A V E). Notation fn := (fn A V E). Notation recorder_obj := (recorder_obj A V E).

  (** An entry of the history of the second state tells about the logged call of the first. *)
  Definition describes (w1 w2 : world) (artifacts : bool) (e : entry V) (kg : nat * logged (A := A) (V := V)) : Prop :=
    e_call e = fst kg /\ look w2 (e_params e) = Some (g_params (snd kg)) /\ look w2 (e_value e) = look w1 (g_obj (snd kg)) /\
    match e_artifacts e with Some d => artifacts = true /\ forall name, dget String.eqb name d = last_stored (g_events (snd kg)) name | None => artifacts = false end.

  Lemma hist_describes p decide ren (w1 w2 : world) f r log : sim ren w1 w2 -> hist_ok p decide ren w2 f r log ->
    r_call_number r = length log /\ Forall2 (describes w1 w2 (f_artifacts f)) (history_of r w2) (saved decide (f_artifacts f) log).
  Proof.
    intros S (_ & _ & _ & H4 & _ & H6). split; [auto|]. eapply Forall2_weaken; [|exact H6]. intros e [k g] (E1 & E2 & E3 & E4 & _ & E6). cbn [fst snd] in *. repeat split; auto.
    - cbn [snd]. rewrite E2. apply sim_look; [auto|]. rewrite <- (s_len _ _ _ S). auto.
    - cbn [snd]. rewrite E6. destruct (f_artifacts f); [split; [auto|]|auto]. intros name. apply store_events_get.
  Qed.

  (** A program cannot tell a recorded function from the function itself. *)
  Theorem C56_transparent (f : fn) p decide prog w0 r0 w0' logs w1 vs1 r w2 vs2 : total_condition p decide -> recorder f p w0 = (r0, w0') ->
    run (direct f) (direct_gradient f) prog (([], []), w0, []) = (logs, w1, vs1) ->
    run recorded recorded_gradient prog (r0, w0', []) = (r, w2, vs2) -> same_view w1 vs1 w2 vs2.
  Proof.
    intros Hp ER E1 E2. pose proof (run_inv p decide Hp [] f prog _ _ (start_inv p decide f w0 r0 w0' ER)) as H. rewrite E1, E2 in H. destruct H as (ren & S & EV & RV & _). subst vs2. split; [apply S|]. split.
    - clear -S RV. induction RV as [|[o|e] vs H F IH]; cbn [map rename_result]; constructor; auto. destruct (sim_look ren w1 w2 o S H). auto.
    - intros i j l1 l1' l2 l2' H1 H2 H3 H4. rewrite nth_error_map, H1 in H3. rewrite nth_error_map, H2 in H4. cbn in H3, H4. injection H3 as <-. injection H4 as <-.
      rewrite Forall_forall in RV. assert (B1 := RV _ (nth_error_In _ _ H1)). assert (B2 := RV _ (nth_error_In _ _ H2)). cbn in B1, B2. rewrite <- (s_len _ _ _ S) in B1, B2.
      split; [congruence|]. intros N. apply (NoDup_nth_error ren); [apply S|auto|]. rewrite !ren_nth by auto. congruence.
  Qed.
  (** The history holds the calls that satisfy the condition (or force an artifact), in order, with their numbers among all successful calls, the
      parameters as they were at the end of the call, the value, and for each name the last artifact stored; later changes of arrays by the program
      do not affect the recorded parameters. *)
  Theorem C56_history (f : fn) p decide prog w0 r0 w0' logs w1 vs1 r w2 vs2 : total_condition p decide -> recorder f p w0 = (r0, w0') ->
    run (direct f) (direct_gradient f) prog (([], []), w0, []) = (logs, w1, vs1) ->
    run recorded recorded_gradient prog (r0, w0', []) = (r, w2, vs2) ->
    r_call_number r = length (fst logs) /\ Forall2 (describes w1 w2 (f_artifacts f)) (history_of r w2) (saved decide (f_artifacts f) (fst logs)).
  Proof.
    intros Hp ER E1 E2. pose proof (run_inv p decide Hp [] f prog _ _ (start_inv p decide f w0 r0 w0' ER)) as H. rewrite E1, E2 in H. destruct H as (ren & S & _ & _ & HO & _).
    apply (hist_describes p decide ren w1 w2 f r (fst logs) S HO).
  Qed.
  (** The gradient has a recorder of its own, with its own numbers. *)
  Theorem C56_gradient_history (f g : fn) p decide prog w0 r0 w0' logs w1 vs1 r w2 vs2 : total_condition p decide -> f_gradient f = Some g -> recorder f p w0 = (r0, w0') ->
    run (direct f) (direct_gradient f) prog (([], []), w0, []) = (logs, w1, vs1) ->
    run recorded recorded_gradient prog (r0, w0', []) = (r, w2, vs2) ->
    exists rg, r_gradient r = Some rg /\ r_call_number rg = length (snd logs) /\ Forall2 (describes w1 w2 (f_artifacts g)) (history_of rg w2) (saved decide (f_artifacts g) (snd logs)).
  Proof.
    intros Hp Eg ER E1 E2. pose proof (run_inv p decide Hp [] f prog _ _ (start_inv p decide f w0 r0 w0' ER)) as H. rewrite E1, E2 in H. destruct H as (ren & S & _ & _ & _ & HG & _). rewrite Eg in HG.
    destruct (r_gradient r) as [rg|]; [|contradiction]. exists rg. split; [auto|]. apply (hist_describes p decide ren w1 w2 g rg (snd logs) S), HG.
  Qed.
  (** Which calls are saved by the two conditions of the library, if no artifact is forced. *)
  Theorem C56_always_every_nth (log : list (logged (A := A) (V := V))) n : n <> 0%Z ->
    total_condition (A := A) (V := V) always (fun _ _ _ => true) /\ map fst (saved (fun _ _ _ => true) false log) = seq 0 (length log) /\
    total_condition (A := A) (V := V) (every_nth n) (fun _ _ k => Z.eqb (Z.of_nat k mod n) 0) /\
    forall k, In k (map fst (saved (fun _ _ k => Z.eqb (Z.of_nat k mod n) 0) false log)) <-> k < length log /\ exists m, (Z.of_nat k = n * m)%Z.
  Proof.
    intros Hn. assert (C : map fst (combine (seq 0 (length log)) log) = seq 0 (length log)).
    { generalize 0. induction log as [|x log IH]; intros s; cbn; [auto|]. rewrite IH. auto. }
    split; [intros cv co k; reflexivity|]. split; [|split].
    - etransitivity; [|exact C]. f_equal. unfold saved. clear. generalize (combine (seq 0 (length log)) log). intros l. induction l as [|x l IH]; cbn in *; [auto|]. rewrite IH. auto.
    - intros cv co k. unfold every_nth. destruct (Z.eqb_spec n 0); [congruence|auto].
    - intros k. unfold saved. rewrite in_map_iff. split.
      + intros ([k' g] & <- & H). apply filter_In in H as [H1 H2]. cbn [fst snd] in *. rewrite andb_false_l, orb_false_r in H2. apply Z.eqb_eq in H2. split.
        * apply (in_map fst) in H1. rewrite C in H1. apply in_seq in H1. cbn in H1. lia.
        * exists (Z.of_nat k' / n)%Z. rewrite (Z.div_mod (Z.of_nat k') n) at 1 by auto. lia.
      + intros [H1 (m & H2)]. assert (H3 : In k (map fst (combine (seq 0 (length log)) log))) by (rewrite C; apply in_seq; lia). apply in_map_iff in H3 as ([k' g] & E' & H3). cbn in E'. subst k'.
        exists (k, g). split; [auto|]. apply filter_In. split; [auto|]. cbn [fst snd]. rewrite H2, Z.mul_comm, Z.mod_mul by auto. reflexivity.
  Qed.
  (** The kind of recorder: artifacts iff the function takes store_artifact, a gradient iff it has one; no calls yet. *)
  Theorem C56_kinds (f : fn) p w : exists r w', recorder f p w = (r, w') /\ r_artifacts r = f_artifacts f /\ (r_gradient r = None <-> f_gradient f = None) /\
    r_call_number r = 0 /\ history_of r w' = [] /\ arrays w' = arrays w /\ env w' = env w.
  Proof.
    destruct (recorder f p w) as [r w'] eqn:ER. exists r, w'. split; [auto|]. destruct (recorder_new p f w r w' ER) as (H1 & H2 & (ext & H3) & H4 & H5 & H6 & H7 & H8 & H9).
    split; [auto|]. split; [destruct (f_gradient f), (r_gradient r); try contradiction; split; congruence|]. split; [auto|]. split; [|auto].
    unfold history_of. rewrite H3, H8, app_nth2, Nat.sub_diag by lia. reflexivity.
  Qed.

  (** A condition that raises makes the call raise, although the function was called; the call is not counted. *)
  Theorem C56_raising_condition (f : fn) p a n h g o w v es w1 cv co e : call_fn f o w = (Ok v, es, w1) -> look w1 v = Some cv -> look w1 o = Some co -> p cv co n = Err e ->
    call_recorder (Rec f p a n h g) o w = (Err e, Rec f p a n h g, w1).
  Proof. intros H1 H2 H3 H4. cbn [call_recorder]. rewrite H1. destruct (store_events es). rewrite H2, H3, H4. reflexivity. Qed.
  Theorem C56_every_zeroth cv co k : every_nth (A := A) (V := V) 0 cv co k = Err ZeroDivisionError.
  Proof. reflexivity. Qed.
  (** A function that raises is not recorded. *)
  Theorem C56_raising_function (f : fn) p a n h g o w e es w1 : call_fn f o w = (Err e, es, w1) -> call_recorder (Rec f p a n h g) o w = (Err e, Rec f p a n h g, w1).
  Proof. intros H. cbn [call_recorder]. rewrite H. reflexivity. Qed.

  (** ** Copies *)
  (** copy.copy: one list of entries for both, whatever either of them records later; separate call numbers. *)
  Theorem C56_copy_shares (r : recorder_obj) w c w' : copy_recorder r w = (c, w') ->
    r_target c = r_target r /\ r_predicate c = r_predicate r /\ r_call_number c = r_call_number r /\ forall w'', history_of c w'' = history_of r w''.
  Proof.
    intros H. unfold copy_recorder in H. destruct (recorder (r_target r) (r_predicate r) w) as [c0 w0] eqn:E0. injection H as <- <-. destruct (recorder_new _ _ _ _ _ E0) as (_ & _ & _ & H4 & H5 & _). cbn. auto.
  Qed.
  (** The recorder of the gradient is new in a copy or deep copy: its history is lost. *)
  Theorem C56_copies_forget_gradient_history (r : recorder_obj) w c w' : copy_recorder r w = (c, w') \/ deepcopy_recorder r w = (c, w') -> f_gradient (r_target r) <> None ->
    exists rg, r_gradient c = Some rg /\ r_call_number rg = 0 /\ history_of rg w' = [].
  Proof.
    intros H N.
    assert (K : forall c0 w0, recorder (r_target r) (r_predicate r) w = (c0, w0) -> exists rg, r_gradient c0 = Some rg /\ r_call_number rg = 0 /\ r_history rg < length (lists w0) /\ history_of rg w0 = []).
    { intros c0 w0 E0. destruct (recorder_new _ _ _ _ _ E0) as (_ & _ & _ & _ & _ & _ & _ & _ & H9). destruct (f_gradient (r_target r)) as [g|]; [|congruence]. destruct (r_gradient c0) as [rg|]; [|contradiction].
      destruct H9 as (u1 & u2 & G1 & G2 & ->). destruct (recorder_new _ _ _ _ _ G1) as (_ & _ & (ext & H3) & _ & _ & _ & H7 & H8 & _). exists rg. split; [auto|]. split; [auto|]. unfold history_of. rewrite H3, H8.
      split; [rewrite app_length; cbn; lia|]. rewrite app_nth2, Nat.sub_diag by lia. reflexivity. }
    unfold copy_recorder, deepcopy_recorder in H. destruct (recorder (r_target r) (r_predicate r) w) as [c0 w0] eqn:E0. destruct (K c0 w0 eq_refl) as (rg & K1 & K2 & K3 & K4).
    exists rg. destruct H as [H|H].
    - injection H as <- <-. cbn. auto.
    - destruct (deepcopy_entries (history_of r w0) w0) as [l w1] eqn:El. cbn [new_list] in H. injection H as <- <-. cbn [r_gradient]. split; [auto|]. split; [auto|].
      assert (LL : forall l w l' w', deepcopy_entries l w = (l', w') -> lists w' = lists (E := E) (A := A) (V := V) w).
      { clear. induction l as [|e l IH]; intros w l' w' H; cbn [deepcopy_entries] in H; [injection H as <- <-; auto|].
        assert (CO : forall o u o' u', copy_obj o u = (o', u') -> lists u' = lists (E := E) (A := A) (V := V) u) by (intros [v|k] u o' u' Hc; cbn in Hc; [injection Hc as <- <-; auto|destruct (nth_error (arrays u) k); injection Hc as <- <-; auto]).
        destruct (copy_obj (e_params e) w) as [q1 u1] eqn:E1. destruct (copy_obj (e_value e) u1) as [q2 u2] eqn:E2. destruct (deepcopy_entries l u2) as [q3 u3] eqn:E3. injection H as <- <-.
        rewrite (IH _ _ _ E3), (CO _ _ _ _ E2), (CO _ _ _ _ E1). reflexivity. }
      unfold history_of in *; cbn [lists]. rewrite (LL _ _ _ _ El). rewrite app_nth1 by auto. exact K4.
  Qed.

  (** ** Attributes *)
  (** Attributes other than the five of the recorder are those of the function, for reading and writing. *)
  Theorem C56_attributes {X} (r : attrs X) name (x : X) : ~ In name native_attributes -> (forall n, dget String.eqb n (own _ r) <> None -> In n native_attributes) ->
    get_attribute r name = match dget String.eqb name (of_target _ r) with Some y => Ok y | None => Err AttributeError end /\
    get_attribute (set_attribute r name x) name = Ok x /\ dget String.eqb name (of_target _ (set_attribute r name x)) = Some x /\
    (forall other, other <> name -> get_attribute (set_attribute r name x) other = get_attribute r other).
  Proof.
    intros N H. assert (D : dget String.eqb name (own _ r) = None) by (destruct (dget String.eqb name (own _ r)) eqn:F; [exfalso; apply N, H; congruence|auto]).
    assert (M : memb String.eqb name native_attributes = false). { destruct (memb String.eqb name native_attributes) eqn:F; [|auto]. apply (memb_In String.eqb String.eqb_eq) in F. contradiction. }
    unfold get_attribute, set_attribute. rewrite M, D. cbn [own of_target]. rewrite D, (dget_dset_same String.eqb String.eqb_eq). repeat split; auto.
    intros other No. rewrite (dget_dset_other String.eqb String.eqb_eq) by auto. reflexivity.
  Qed.
  Theorem C56_native_attributes {X} (r : attrs X) name (x : X) : In name native_attributes ->
    get_attribute (set_attribute r name x) name = Ok x /\ of_target _ (set_attribute r name x) = of_target _ r.
  Proof.
    intros N. unfold get_attribute, set_attribute. assert (M : memb String.eqb name native_attributes = true) by (apply (memb_In String.eqb String.eqb_eq); auto). rewrite M. cbn [own of_target].
    rewrite (dget_dset_same String.eqb String.eqb_eq). auto.
  Qed.
End Props.

(** ** Concrete cases *)
Section Examples.
  Open Scope Z_scope.
  (** a function of arrays of integers: the sum of the entries, doubled on every odd call, raising for empty arrays; it overwrites its argument by its tail
      and stores two artifacts, the second with force if the sum is 7; its gradient returns an array of ones *)
  Definition total (l : list Z) : Z := fold_right Z.add 0 l.
  Definition xgrad : fn (list Z) Z Z := Fn (fun c e => {| o_ret := match c with CArr a => Ok (RArr (map (fun _ => 1) a)) | CImm _ => Err TypeError end; o_arg := match c with CArr a => a | _ => [] end; o_events := []; o_env := e + 100 |}) false None.
  Definition xf : fn (list Z) Z Z := Fn (fun c e => match c with
    | CArr (x :: a) => {| o_ret := Ok (RVal (total (x :: a) + e mod 2)); o_arg := a; o_events := [("first", x, false); ("rest", total a, Z.eqb (total (x :: a)) 7)]%string; o_env := e + 1 |}
    | CArr [] => {| o_ret := Err ValueError; o_arg := []; o_events := []; o_env := e |}
    | CImm v => {| o_ret := Ok RParam; o_arg := []; o_events := []; o_env := e |} end) true (Some xgrad).
  Definition xw : world (list Z) Z Z := {| arrays := []; lists := []; env := 0 |}.
  Definition xprog : list (stmt (A := list Z) (V := Z)) :=
    [New [1; 2; 3]; Call 0; Call 0; Call 0; Gradient 0; Write 0 [3; 4]; Call 0; New []; Call 6; Call 9; Gradient 6; Const 5; Call 10; Write 0 [9; 9]].
  Definition xp : save_condition (list Z) Z := every_nth 2.
  Definition xrun := let '(r, w) := recorder xf xp xw in run recorded recorded_gradient xprog (r, w, []).
  Example a_program : let '(r, w, vs) := xrun in
    map (fun e => (e_call e, look w (e_params e), look w (e_value e), e_artifacts e)) (history_of r w) =
      [(0%nat, Some (CArr [2; 3]), Some (CImm 6), Some [("first", 1); ("rest", 5)]%string); (2%nat, Some (CArr []), Some (CImm 3), Some [("first", 3); ("rest", 0)]%string);
       (3%nat, Some (CArr [4]), Some (CImm 8), Some [("first", 3); ("rest", 4)]%string); (4%nat, Some (CImm 5), Some (CImm 5), Some [])] /\
    match r_gradient r with Some rg => map (fun e => (e_call e, look w (e_params e), look w (e_value e))) (history_of rg w) = [(0%nat, Some (CArr []), Some (CArr []))] | None => False end /\
    vs = [Ok (Ref 0); Ok (Imm 6); Ok (Imm 6); Ok (Imm 3); Ok (Ref 3); Ok (Imm 8); Ok (Ref 6); Err ValueError; Err IndexError; Ok (Ref 7); Ok (Imm 5); Ok (Imm 5)].
  Proof. vm_compute. repeat split. Qed.
  Example the_condition : total_condition xp (fun _ _ k => Z.eqb (Z.of_nat k mod 2) 0).
  Proof. intros cv co k. reflexivity. Qed.

  (** The value of an entry is not a snapshot: if the program changes a returned array, the history changes with it. *)
  Definition grad_prog : list (stmt (A := list Z) (V := Z)) := [New [1; 2]; Call 0; Write 1 [7; 7]].
  Theorem C56_value_snapshot_refuted :
    let '(r, w) := recorder xgrad always xw in
    let '(_, _, vs0) := run (direct xgrad) (direct_gradient xgrad) [New [1; 2]; Call 0] (([], []), xw, []) in
    let '(logs, _, _) := run (direct xgrad) (direct_gradient xgrad) grad_prog (([], []), xw, []) in
    let '(r', w', _) := run recorded recorded_gradient grad_prog (r, w, []) in
    map g_value (fst logs) = [CArr [1; 1]] /\ map (fun e => look w' (e_value e)) (history_of r' w') = [Some (CArr [7; 7])].
  Proof. vm_compute. split; reflexivity. Qed.
  (** After copy.copy the call numbers of the two recorders run apart while the list is one: two entries with the same number. *)
  Theorem C56_copy_numbers_refuted :
    let '(r, w) := recorder xgrad always xw in
    let '(o, w) := alloc w [1] in
    let '(c, w) := copy_recorder r w in
    let '(_, r, w) := call_recorder r o w in
    let '(_, c, w) := call_recorder c o w in
    map e_call (history_of r w) = [0%nat; 0%nat].
  Proof. vm_compute. reflexivity. Qed.
  Definition xattrs : attrs Z := {| own := [("call_number", 4); ("history", 5)]%string; of_target := [("n_qubits", 3)]%string |}.
  Example attribute_cases : get_attribute xattrs "n_qubits" = Ok 3 /\ get_attribute xattrs "call_number" = Ok 4 /\ get_attribute xattrs "zzz" = Err AttributeError /\
    of_target _ (set_attribute xattrs "zzz" 8) = [("n_qubits", 3); ("zzz", 8)]%string /\ own _ (set_attribute xattrs "history" 8) = [("call_number", 4); ("history", 8)]%string.
  Proof. repeat split. Qed.
End Examples.

Print Assumptions C56_transparent.
Print Assumptions C56_history.
Print Assumptions C56_gradient_history.
