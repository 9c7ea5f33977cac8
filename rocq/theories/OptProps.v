(** C60: histories of optimizations. *)
From Coq Require Import List ZArith String Bool Lia.
From Verif Require Import Base BaseFacts HistModel HistSpec HistProofs HistProps OptModel OptSpec OptProofs.
Import ListNotations.
Open Scope string_scope.
Open Scope list_scope.

Section Props.
  Context {A V E : Type}.
  Notation obj := (obj V). Notation world := (world A V E). Notation fn := (fn A V E). Notation recorder_obj := (recorder_obj A V E).
  Context (p : save_condition A V) (decide : content A V -> content A V -> nat -> bool) (Hp : total_condition p decide).

  Lemma in_range_look (w : world) (o : obj) : look w o <> None -> in_range (length (arrays w)) o.
  Proof. destruct o as [v|l]; cbn; auto. intros H. apply nth_error_Some. destruct (nth_error (arrays w) l); congruence. Qed.
  Lemma rename_id n (o : obj) : in_range n o -> rename (seq 0 n) o = o.
  Proof. destruct o as [v|l]; cbn; auto. intros H. rewrite seq_nth by exact H. reflexivity. Qed.

  (** With keep_history an optimizer finds what it would find without it, and the result has the history of the calls of the cost function, and
      that of its gradient if (and only if) it has one. *)
  Theorem C60_minimize (algorithm : optimizer A V) (preprocess : fn -> fn) (f : fn) (o : obj) (w w1 w2 : world) logs res r2 : look w o <> None ->
    optimize algorithm (preprocess f) o w = (logs, w1, res) -> minimize p algorithm preprocess f o true w = (r2, w2) ->
    match res, r2 with
    | Err e1, Err e2 => e1 = e2
    | Ok x, Ok y =>
        same_objects w1 (f_value x) (f_params x) w2 (opt_value y) (opt_params y) /\ nit y = f_nit x /\ nfev y = f_nfev x /\
        (exists h, dget String.eqb "history" (kwargs y) = Some h /\ Forall2 (describes w1 w2 (f_artifacts (preprocess f))) h (saved decide (f_artifacts (preprocess f)) (fst logs))) /\
        match f_gradient (preprocess f) with
        | Some g => exists h, dget String.eqb "gradient_history" (kwargs y) = Some h /\ Forall2 (describes w1 w2 (f_artifacts g)) h (saved decide (f_artifacts g) (snd logs))
        | None => dget String.eqb "gradient_history" (kwargs y) = None
        end
    | _, _ => False
    end.
  Proof.
    intros L EO EM. unfold minimize in EM. destruct (recorder (preprocess f) p w) as [r w3] eqn:ER.
    destruct (play recorded recorded_gradient (algorithm (seen w3 [Ok o])) (r, w3, [Ok o])) as [[[r' w4] vs'] fin] eqn:EP. apply pair_equal_spec in EM as [<- <-].
    apply in_range_look in L. destruct (one_run p decide Hp [] (preprocess f) (seq 0 (length (arrays w))) w w o algorithm r w3 r' w4 vs' fin logs w1 res) as (ren & S & _ & _ & _ & HO & HG & AG); auto.
    { apply sim_refl; reflexivity. } { apply rename_id, L. } { constructor. }
    specialize (AG (construct_history_info (Some r') true w4)). destruct res as [x|e], (finish vs' fin (construct_history_info (Some r') true w4)) as [y|e']; cbn [agree] in AG; try contradiction; auto.
    destruct AG as (A1 & A2 & A3 & A4 & A5 & A6 & A7). rewrite A5. split; [unfold same_objects; rewrite A1, A2; split; apply sim_look; auto|]. split; [exact A3|]. split; [exact A4|]. split.
    - eexists. split; [apply history_info_history|]. apply (hist_describes p decide ren w1 w4 _ _ _ S HO).
    - rewrite history_info_gradient. unfold grad_ok in HG. destruct (f_gradient (preprocess f)) as [g|], (r_gradient r') as [rg|]; try contradiction; auto.
      eexists. split; [reflexivity|]. apply (hist_describes p decide ren w1 w4 _ _ _ S HG).
  Qed.
  (** Without keep_history nothing is recorded: the history is empty. *)
  Theorem C60_minimize_unrecorded (algorithm : optimizer A V) (preprocess : fn -> fn) (f : fn) (o : obj) (w w1 : world) logs res :
    optimize algorithm (preprocess f) o w = (logs, w1, res) ->
    minimize p algorithm preprocess f o false w =
      (let! x := res in Ok {| opt_value := f_value x; opt_params := f_params x; nit := f_nit x; nfev := f_nfev x; kwargs := [("history", [])] |}, w1).
  Proof.
    unfold optimize, minimize. intros EO.
    destruct (play (plain (preprocess f)) (plain_gradient (preprocess f)) (algorithm (seen w [Ok o])) (tt, w, [Ok o])) as [[[u w2] vs2] fin2] eqn:P1.
    destruct (play (direct (preprocess f)) (direct_gradient (preprocess f)) (algorithm (seen w [Ok o])) (([], []), w, [Ok o])) as [[[u1 w3] vs3] fin3] eqn:P2.
    destruct (play_plain' _ _ _ _ _ _ _ _ _ _ _ _ _ P1 P2) as (<- & <- & <-). injection EO as _ <- <-. f_equal. unfold finish. destruct fin2 as [[[[x y] n] k]|e]; cbn [rbind]; [|reflexivity].
    destruct (var vs2 x); cbn [rbind]; [|reflexivity]. destruct (var vs2 y); reflexivity.
  Qed.

  (** A nested optimizer: the value and parameters found in the last iteration, the number of all evaluations, and the histories of all
      iterations in order (each with call numbers from 0), if all cost functions have a gradient or none has. *)
  Theorem C60_nested (inner : optimizer A V) n (factory : nat -> fn) (o : obj) (w w1 w2 : world) logs res r2 hasg : look w o <> None ->
    (forall i, f_gradient (factory i) <> None <-> hasg = true) ->
    optimize_all inner (map factory (seq 0 n)) o w = (logs, w1, res) -> nested_minimize p inner n factory o true w = (r2, w2) ->
    match res, r2 with
    | Err e1, Err e2 => e1 = e2
    | Ok founds, Err e2 => n = 0 /\ founds = [] /\ e2 = GenericException
    | Ok founds, Ok y =>
        exists before x, founds = before ++ [x] /\
        same_objects w1 (f_value x) (f_params x) w2 (opt_value y) (opt_params y) /\ nit y = n /\ nfev y = total_nfev founds /\
        (exists h, dget String.eqb "history" (kwargs y) = Some h /\ Forall2 (fun e a => describes w1 w2 (fst a) e (snd a)) h (expected decide logs)) /\
        if hasg then exists h, dget String.eqb "gradient_history" (kwargs y) = Some h /\ Forall2 (fun e a => describes w1 w2 (fst a) e (snd a)) h (expected_gradient decide logs)
        else dget String.eqb "gradient_history" (kwargs y) = None
    | _, _ => False
    end.
  Proof.
    intros L HG EO EN. apply in_range_look in L. unfold nested_minimize in EN.
    set (s0 := {| n_histories := [("history", [])]; n_default := true; n_nfev := 0; n_last := None |}) in *.
    destruct (nested_loop p inner factory o true (seq 0 n) s0 w) as [rl wl] eqn:EL.
    assert (HG' : forall i, has_gradient (factory i) = hasg).
    { intros i. specialize (HG i). unfold has_gradient. destruct (f_gradient (factory i)), hasg; try reflexivity; destruct HG as [H1 H2]; [discriminate (H1 ltac:(discriminate))|exfalso; apply (H2 eq_refl); reflexivity]. }
    assert (C0 : collected (A := A) hasg s0 [] []) by (unfold collected, s0; cbn; repeat split; auto).
    assert (H := loop_spec p decide Hp hasg inner factory o HG' (seq 0 n) s0 w w (seq 0 (length (arrays w))) [] [] logs w1 res rl wl
      (sim_refl _ _ eq_refl eq_refl) L (rename_id _ _ L) (Forall_nil _) C0 EO EL).
    destruct res as [founds|e1], rl as [s'|e2]; try contradiction.
    2:{ injection EN as <- <-. exact H. }
    destruct H as (ren & nh & ng & H0 & S & HP & (C1 & C2 & C3) & X1 & X2 & X3 & X4). cbn [app] in *. injection EN as <- <-.
    destruct (rev founds) as [|x l] eqn:Er.
    { rewrite X4. unfold s0; cbn [n_last]. apply (f_equal (@rev _)) in Er. rewrite rev_involutive in Er. cbn in Er. subst founds. split; [|auto].
      destruct n as [|n]; [reflexivity|]. exfalso. cbn [seq map optimize_all] in EO. destruct (optimize inner (factory 0) o w) as [[l2 u2] [x2|e2]]; [|discriminate].
      destruct (optimize_all inner (map factory (seq 1 n)) o u2) as [[l3 u3] [x3|e3]]; discriminate. }
    destruct X4 as (X4 & X5 & X6). rewrite X4. exists (rev l), x. split; [apply (f_equal (@rev _)) in Er; rewrite rev_involutive in Er; exact Er|].
    cbn [opt_value opt_params nit nfev kwargs]. split; [split; apply sim_look; auto|]. split; [reflexivity|]. split; [exact X3|].
    unfold past_ok in HP. apply Forall_app in HP as [HP1 HP2].
    assert (D1 := past_describes nh ren w1 wl S HP1). assert (D2 := past_describes ng ren w1 wl S HP2). rewrite X1 in D1. rewrite X2 in D2.
    assert (ND : n_default s' = false).
    { destruct n as [|n].
      { cbn in EO. injection EO as <- <- <-. discriminate Er. }
      clear - EL. revert EL. generalize s0. generalize (seq_length (S n) 0). generalize (seq 0 (S n)). intros l Hl s EL.
      assert (G : forall l s w, (l <> [] \/ n_default s = false) -> forall s' w', nested_loop p inner factory o true l s w = (Ok s', w') -> n_default s' = false).
      { clear. induction l as [|i l IH]; intros s w Hs s' w' H; cbn [nested_loop] in H; [injection H as <- <-; destruct Hs; congruence|].
        destruct (recorder (factory i) p w) as [r w1]. destruct (play recorded recorded_gradient (inner (seen w1 [Ok o])) (r, w1, [Ok o])) as [[[r' w2] vs'] fin].
        destruct (finish vs' fin []) as [res|e]; cbn [rbind] in H; [|discriminate]. destruct (extend_histories r' (n_default s) (n_histories s) w2) as [h|e]; cbn [rbind] in H; [|discriminate].
        eapply IH; [|exact H]. right. reflexivity. }
      eapply G; [|exact EL]. left. destruct l; discriminate. }
    unfold getitem in C1, C2. rewrite ND in C1, C2. split.
    - destruct (dget String.eqb "history" (n_histories s')) as [h|]; [|discriminate]. injection C1 as ->. exists (map fst nh). auto.
    - destruct hasg; [|apply C3; reflexivity]. specialize (C2 eq_refl). destruct (dget String.eqb "gradient_history" (n_histories s')) as [h|]; [|discriminate].
      injection C2 as ->. exists (map fst ng). auto.
  Qed.
  (** Without keep_history: the same result with an empty history. *)
  Theorem C60_nested_unrecorded (inner : optimizer A V) n (factory : nat -> fn) (o : obj) (w w1 : world) logs res :
    optimize_all inner (map factory (seq 0 n)) o w = (logs, w1, res) ->
    nested_minimize p inner n factory o false w =
      (let! founds := res in
       match rev founds with
       | [] => Err GenericException
       | x :: _ => Ok {| opt_value := f_value x; opt_params := f_params x; nit := n; nfev := total_nfev founds; kwargs := [("history", [])] |}
       end, w1).
  Proof.
    intros EO. unfold nested_minimize. set (s0 := {| n_histories := [("history", [])]; n_default := true; n_nfev := 0; n_last := None |}).
    assert (G : forall is s w logs w1 res, optimize_all inner (map factory is) o w = (logs, w1, res) ->
      nested_loop p inner factory o false is s w = (let! founds := res in
        Ok {| n_histories := n_histories s; n_default := n_default s; n_nfev := n_nfev s + total_nfev founds; n_last := match rev founds with [] => n_last s | x :: _ => Some (f_value x, f_params x) end |}, w1)).
    { clear. induction is as [|i is IH]; intros s w logs w1 res EO; cbn [map optimize_all nested_loop] in *.
      - injection EO as <- <- <-. cbn. rewrite Nat.add_0_r. destruct s; reflexivity.
      - destruct (optimize inner (factory i) o w) as [[lg u1] r1] eqn:E1. rewrite (C60_minimize_unrecorded inner (fun f => f) (factory i) o w u1 lg r1 E1).
        destruct r1 as [x|e]; cbn [rbind]; [|injection EO as <- <- <-; reflexivity].
        destruct (optimize_all inner (map factory is) o u1) as [[more v1] rs] eqn:E2. injection EO as <- <- <-. rewrite (IH _ _ _ _ _ E2). cbn [n_histories n_default n_nfev n_last nfev opt_value opt_params].
        destruct rs as [xs|e]; cbn [rbind]; [|reflexivity]. f_equal. f_equal. cbn [total_nfev fold_right rev]. rewrite Nat.add_assoc. f_equal. destruct (rev xs); reflexivity. }
    rewrite (G _ s0 _ _ _ _ EO). destruct res as [founds|e]; cbn [rbind]; [|reflexivity]. cbn [n_last n_nfev n_histories s0 Nat.add]. destruct (rev founds); reflexivity.
  Qed.

  (** ** The two functions on their own *)
  (** construct_history_info: the histories of a recorder if they are wanted *)
  Theorem C60_construct (r : recorder_obj) (w : world) name :
    dget String.eqb name (construct_history_info (Some r) true w) =
      (if String.eqb name "history" then Some (history_of r w)
       else if String.eqb name "gradient_history" then match r_gradient r with Some g => Some (history_of g w) | None => None end else None) /\
    construct_history_info (None (A := recorder_obj)) true w = [] /\ forall c : option recorder_obj, construct_history_info c false w = [("history", [])].
  Proof.
    split; [|split; reflexivity]. unfold construct_history_info.
    destruct (r_artifacts r), (r_gradient r); cbn; destruct (String.eqb_spec name "history") as [->|N]; try reflexivity;
      repeat (destruct (String.eqb_spec name "gradient_history") as [->|M]; try reflexivity).
  Qed.
  (** extend_histories: old entries first, then those of the recorder; a missing history of the gradient is a KeyError except for a defaultdict. *)
  Theorem C60_extend (r : recorder_obj) default (h : histories V) (old : list (entry V)) (w : world) : dget String.eqb "history" h = Some old ->
    match r_gradient r with
    | None => extend_histories r default h w = Ok [("history", old ++ history_of r w)]
    | Some g =>
        match dget String.eqb "gradient_history" h with
        | Some oldg => extend_histories r default h w = Ok [("history", old ++ history_of r w); ("gradient_history", oldg ++ history_of g w)]
        | None => extend_histories r default h w = if default then Ok [("history", old ++ history_of r w); ("gradient_history", history_of g w)] else Err KeyError
        end
    end.
  Proof.
    intros H. unfold extend_histories, getitem. rewrite H, history_info_history, history_info_gradient. cbn [rbind]. destruct (r_gradient r) as [g|]; [|reflexivity].
    destruct (dget String.eqb "gradient_history" h); [reflexivity|]. destruct default; reflexivity.
  Qed.

  (** ** The mock optimizer changes the array of initial parameters of its caller, recorded or not, even if the cost function raises. *)
  Theorem C60_mock_changes_input (perturb : A -> A) (f : fn) l a keep (w w2 : world) r2 : look w (Ref l : obj) = Some (CArr a) ->
    minimize p (mock_optimizer perturb) (fun f => f) f (Ref l) keep w = (r2, w2) -> look w2 (Ref l : obj) = Some (CArr (perturb a)).
  Proof.
    assert (G : forall (w : world) logs w1 res, look w (Ref l : obj) = Some (CArr a) -> optimize (mock_optimizer perturb) f (Ref l) w = (logs, w1, res) -> look w1 (Ref l : obj) = Some (CArr (perturb a))).
    { clear. intros w logs w1 res L. unfold optimize. cbn [seen map]. rewrite L. cbn [mock_optimizer play exec fst snd var nth_error alloc arrays lists env app]. cbn in L.
      destruct (nth_error (arrays w) l) as [a'|] eqn:En; [|discriminate]. injection L as ->.
      assert (B : l < length (arrays w)) by (apply nth_error_Some; congruence). unfold var. cbn [nth_error].
      unfold direct at 1, log_call, call_fn. cbn [look arrays]. rewrite nth_error_app2, Nat.sub_diag by lia. cbn [nth_error].
      assert (T : forall X Y (u : content A V), let arr := set_nth (set_nth (arrays w) l (perturb a) ++ [X]) (length (set_nth (arrays w) l (perturb a))) Y in nth_error arr l = Some (perturb a)).
      { intros X Y _. cbv zeta. rewrite nth_set_nth, set_nth_length. destruct (Nat.eqb_spec l (length (arrays w))); [lia|]. rewrite nth_error_app1 by (rewrite set_nth_length; exact B).
        rewrite nth_set_nth, Nat.eqb_refl. destruct (Nat.ltb_spec l (length (arrays w))); [reflexivity|lia]. }
      cbv zeta in T. cbn [env lists]. destruct (f_body f (CArr (perturb a)) (env w)) as [ret arg evs en]. cbn [o_ret o_arg o_events o_env].
      destruct ret as [[v|b|]|e]; cbn [alloc look arrays fst snd].
      all: intros H; repeat (match type of H with context [match nth_error ?x ?y with _ => _ end] => destruct (nth_error x y) end); apply pair_equal_spec in H as [H _]; apply pair_equal_spec in H as [_ <-]; cbn [look arrays].
      all: first [rewrite (T _ _ (CArr a)); reflexivity | rewrite nth_error_app1; [rewrite (T _ _ (CArr a)); reflexivity|rewrite set_nth_length, app_length, set_nth_length; cbn; lia]]. }
    intros L EM. destruct (optimize (mock_optimizer perturb) f (Ref l) w) as [[logs w1] res] eqn:EO. assert (L1 := G _ _ _ _ L EO). destruct keep.
    2:{ rewrite (C60_minimize_unrecorded (mock_optimizer perturb) (fun f => f) f (Ref l) w w1 logs res EO) in EM. injection EM as _ <-. exact L1. }
    unfold minimize in EM. destruct (recorder f p w) as [r w3] eqn:ER.
    destruct (play recorded recorded_gradient (mock_optimizer perturb (seen w3 [Ok (Ref l)])) (r, w3, [Ok (Ref l)])) as [[[r' w4] vs'] fin] eqn:EP. injection EM as _ <-.
    assert (B : in_range (length (arrays w)) (Ref l : obj)) by (apply in_range_look; congruence).
    destruct (one_run p decide Hp [] f (seq 0 (length (arrays w))) w w (Ref l) (mock_optimizer perturb) r w3 r' w4 vs' fin logs w1 res) as (ren & S & Io & Ro & _); auto.
    { apply sim_refl; reflexivity. } { apply rename_id, B. } { constructor. }
    rewrite <- Io. rewrite (proj1 (sim_look ren w1 w4 _ S Ro)). exact L1.
  Qed.
End Props.

(** ** Concrete cases *)
Section Examples.
  Open Scope Z_scope.
  (** An optimizer that evaluates the function and the gradient twice and stops, if the second value is smaller than 10, with the second parameters *)
  Definition xopt : optimizer (list Z) Z := fun s =>
    Step (Call 0) (fun _ => Step (Gradient 0) (fun _ => Step (New [1; 4]) (fun _ => Step (Call 3) (fun s =>
      match nth_error s 4 with Some (Ok (CImm v)) => if v <? 10 then Finish 4 3 1 2 else Finish 1 0 1 2 | _ => Fail ValueError end)))).
  Definition xw1 : world (list Z) Z Z := {| arrays := [[1; 2; 3]]; lists := []; env := 0 |}.
  Definition summary (r : result (opt_result Z)) (w : world (list Z) Z Z) :=
    let! y := r in Ok (look w (opt_value y), look w (opt_params y), nit y, nfev y, map (fun kh => (fst kh, map (fun e => (e_call e, look w (e_params e), look w (e_value e))) (snd kh))) (kwargs y)).
  Example C60_minimize_example : let '(r, w) := minimize always xopt (fun f => f) xf (Ref 0) true xw1 in
    summary r w = Ok (Some (CImm 6), Some (CArr [4]), 1%nat, 2%nat,
      [("history", [(0%nat, Some (CArr [2; 3]), Some (CImm 6)); (1%nat, Some (CArr [4]), Some (CImm 6))]); ("gradient_history", [(0%nat, Some (CArr [2; 3]), Some (CArr [1; 1]))])]).
  Proof. vm_compute. reflexivity. Qed.
  Example C60_nested_example : look xw1 (Ref 0) <> None /\ (forall i : nat, f_gradient xf <> None <-> true = true) /\ total_condition (A := list Z) (V := Z) always (fun _ _ _ => true) /\
    let '(r, w) := nested_minimize always xopt 2 (fun _ => xf) (Ref 0) true xw1 in
    summary r w = Ok (Some (CImm 6), Some (CArr [4]), 2%nat, 4%nat,
      [("history", [(0%nat, Some (CArr [2; 3]), Some (CImm 6)); (1%nat, Some (CArr [4]), Some (CImm 6)); (0%nat, Some (CArr [3]), Some (CImm 5)); (1%nat, Some (CArr [4]), Some (CImm 6))]);
       ("gradient_history", [(0%nat, Some (CArr [2; 3]), Some (CArr [1; 1])); (0%nat, Some (CArr [3]), Some (CArr [1]))])]).
  Proof. split; [discriminate|]. split; [intros; split; auto; discriminate|]. split; [intros cv co k; reflexivity|]. vm_compute. reflexivity. Qed.
  (** If a gradient appears after the first iteration, the nested optimizer fails, although it works without keep_history. *)
  Definition yopt : optimizer (list Z) Z := fun s => Step (Call 0) (fun _ => Finish 1 0 1 1).
  Theorem C60_gradient_appears_refuted : exists factory : nat -> fn (list Z) Z Z,
    fst (nested_minimize always yopt 2 factory (Ref 0) true xw1) = Err KeyError /\ exists y, fst (nested_minimize always yopt 2 factory (Ref 0) false xw1) = Ok y.
  Proof. exists (fun i => match i with O => xgrad | _ => xf end). vm_compute. split; [reflexivity|]. eexists. reflexivity. Qed.
  (** If it disappears, its history is lost. *)
  Theorem C60_gradient_disappears_refuted : exists factory : nat -> fn (list Z) Z Z,
    match nested_minimize always (fun s => Step (Gradient 0) (fun _ => Step (Call 0) (fun _ => Finish 2 0 1 1))) 2 factory (Ref 0) true xw1 with
    | (Ok y, _) => f_gradient (factory 0%nat) <> None /\ dget String.eqb "gradient_history" (kwargs y) = None
    | _ => False
    end.
  Proof. exists (fun i => match i with O => xf | _ => xgrad end). vm_compute. split; [discriminate|reflexivity]. Qed.
  (** Every iteration starts from initial_params, not from the parameters found before, unless the inner optimizer changes that array. *)
  Theorem C60_continues_refuted : exists inner : optimizer (list Z) Z,
    let '(r, w) := nested_minimize always inner 3 (fun _ => xgrad) (Ref 0) true xw1 in
    match r with Ok y => match dget String.eqb "history" (kwargs y) with Some h => map (fun e => look w (e_params e)) h = [Some (CArr [1; 2; 3]); Some (CArr [1; 2; 3]); Some (CArr [1; 2; 3])] /\ look w (opt_params y) = Some (CArr [0])
                 | None => False end | _ => False end.
  Proof. exists (fun s => Step (Call 0) (fun _ => Step (New [0]) (fun _ => Finish 1 2 1 1))). vm_compute. split; reflexivity. Qed.
  Example C60_mock_example : let '(r, w) := nested_minimize always (mock_optimizer (map (Z.add 1))) 2 (fun _ => xf) (Ref 0) true xw1 in
    summary r w = Ok (Some (CImm 13), Some (CArr [4; 5]), 2%nat, 2%nat, [("history", [(0%nat, Some (CArr [3; 4]), Some (CImm 9)); (0%nat, Some (CArr [4; 5]), Some (CImm 13))]); ("gradient_history", [])]) /\
    look w (Ref 0) = Some (CArr [3; 4; 5]).
  Proof. vm_compute. split; reflexivity. Qed.
End Examples.

Print Assumptions C60_minimize.
Print Assumptions C60_minimize_unrecorded.
Print Assumptions C60_nested.
Print Assumptions C60_nested_unrecorded.
Print Assumptions C60_construct.
Print Assumptions C60_extend.
Print Assumptions C60_mock_changes_input.
Print Assumptions C60_gradient_appears_refuted.
Print Assumptions C60_gradient_disappears_refuted.
Print Assumptions C60_continues_refuted.
