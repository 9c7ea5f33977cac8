(** Proofs about optimizations that are recorded. *)
From Coq Require Import List ZArith String Bool Lia.
From Verif Require Import Base BaseFacts HistModel HistSpec HistProofs HistProps OptModel OptSpec.
Import ListNotations.
Open Scope string_scope.
Open Scope list_scope.

Section Proofs.
  Context {A V E : Type}.
  Notation obj := (obj V). Notation world := (world A V E). Notation fn := (fn A V E). Notation recorder_obj := (recorder_obj A V E).
  Notation logged := (logged (A := A) (V := V)).
  Context (p : save_condition A V) (decide : content A V -> content A V -> nat -> bool) (Hp : total_condition p decide).

  Lemma exec_prefix {S} (f g : caller (A := A) (V := V) (E := E) S) st m : exists ext, snd (exec f g st m) = snd m ++ ext.
  Proof.
    destruct m as [[s w] vs]. destruct st as [a|v|x|x|x a]; cbn [exec]; try (eexists; reflexivity).
    - destruct (var vs x) as [o|e]; [destruct (f s o w) as [[r s'] w']|]; eexists; reflexivity.
    - destruct (var vs x) as [o|e]; [destruct (g s o w) as [[r s'] w']|]; eexists; reflexivity.
    - exists []. rewrite app_nil_r. destruct (var vs x) as [[v|l]|]; reflexivity.
  Qed.
  Lemma play_prefix {S} (f g : caller (A := A) (V := V) (E := E) S) t : forall m, exists ext, snd (fst (play f g t m)) = snd m ++ ext.
  Proof.
    induction t as [x y n k|e|st next IH]; intros m; cbn [play fst]; try (exists []; rewrite app_nil_r; reflexivity).
    destruct (exec_prefix f g st m) as [e1 E1]. destruct (IH (seen (snd (fst (exec f g st m))) (snd (exec f g st m))) (exec f g st m)) as [e2 E2].
    exists (e1 ++ e2). rewrite E2, E1, app_assoc. reflexivity.
  Qed.
  Lemma seen_inv past f s (w1 : world) vs1 r w2 vs2 : inv p decide past f (s, w1, vs1) (r, w2, vs2) -> seen w2 vs2 = seen w1 vs1.
  Proof.
    intros (ren & S & -> & RV & _). unfold seen. rewrite map_map. apply map_ext_in. intros [o|e] H; [|reflexivity]. cbn [rename_result].
    rewrite Forall_forall in RV. specialize (RV _ H). cbn in RV. destruct (sim_look ren w1 w2 o S RV) as [-> _]. reflexivity.
  Qed.
  Lemma play_inv past (f : fn) t : forall m1 m2, inv p decide past f m1 m2 ->
    inv p decide past f (fst (play (direct f) (direct_gradient f) t m1)) (fst (play recorded recorded_gradient t m2)) /\
    snd (play recorded recorded_gradient t m2) = snd (play (direct f) (direct_gradient f) t m1).
  Proof.
    induction t as [x y n k|e|st next IH]; intros m1 m2 H; cbn [play fst snd]; auto.
    assert (H' := exec_inv p decide Hp past f st m1 m2 H).
    destruct (exec (direct f) (direct_gradient f) st m1) as [[s w1] vs1], (exec recorded recorded_gradient st m2) as [[r w2] vs2].
    cbn [fst snd]. rewrite (seen_inv _ _ _ _ _ _ _ _ H'). apply IH, H'.
  Qed.
  Lemma play_plain (f : fn) t : forall s (w : world) vs,
    let '(_, w1, vs1, r1) := play (plain f) (plain_gradient f) t (tt, w, vs) in
    let '(_, w2, vs2, r2) := play (direct f) (direct_gradient f) t (s, w, vs) in w1 = w2 /\ vs1 = vs2 /\ r1 = r2.
  Proof.
    induction t as [x y n k|e|st next IH]; intros s w vs; cbn [play]; auto.
    assert (H : exists s', exec (direct f) (direct_gradient f) st (s, w, vs) = (s', snd (fst (exec (plain f) (plain_gradient f) st (tt, w, vs))), snd (exec (plain f) (plain_gradient f) st (tt, w, vs)))).
    { destruct st as [a|v|x|x|x a]; cbn [exec alloc]; try (eexists; reflexivity).
      - destruct (var vs x) as [o|e]; [|eexists; reflexivity]. unfold direct, plain, log_call. destruct (call_fn f o w) as [[[v|e] es] w']; [|eexists; reflexivity].
        destruct (look w' v), (look w' o); eexists; reflexivity.
      - destruct (var vs x) as [o|e]; [|eexists; reflexivity]. unfold direct_gradient, plain_gradient, call_gradient. destruct (f_gradient f) as [g|]; [|eexists; reflexivity]. unfold log_call.
        destruct (call_fn g o w) as [[[v|e] es] w']; [|eexists; reflexivity]. destruct (look w' v), (look w' o); eexists; reflexivity.
      - destruct (var vs x) as [[v|l]|]; eexists; reflexivity. }
    destruct H as [s' ->]. destruct (exec (plain f) (plain_gradient f) st (tt, w, vs)) as [[[] w1] vs1]. cbn [fst snd]. apply IH.
  Qed.

  Lemma play_plain' (f : fn) t s (w : world) vs u w1 vs1 r1 s2 w2 vs2 r2 : play (plain f) (plain_gradient f) t (tt, w, vs) = (u, w1, vs1, r1) ->
    play (direct f) (direct_gradient f) t (s, w, vs) = (s2, w2, vs2, r2) -> w1 = w2 /\ vs1 = vs2 /\ r1 = r2.
  Proof. intros H1 H2. assert (H := play_plain f t s w vs). rewrite H1, H2 in H. exact H. Qed.
  (** The end of an optimization of a recorder and of the function itself *)
  Definition agree (ren : list nat) (n : nat) (r1 : result (found (V := V))) (r2 : result (opt_result V)) (h : histories V) : Prop :=
    match r1, r2 with
    | Err e1, Err e2 => e1 = e2
    | Ok x, Ok y => opt_value y = rename ren (f_value x) /\ opt_params y = rename ren (f_params x) /\ nit y = f_nit x /\ nfev y = f_nfev x /\ kwargs y = h /\
                    in_range n (f_value x) /\ in_range n (f_params x)
    | _, _ => False
    end.
  Definition grad_ok (ren : list nat) (w2 : world) (f : fn) (r : recorder_obj) (log : list logged) : Prop :=
    match f_gradient f, r_gradient r with
    | Some g, Some rg => hist_ok p decide ren w2 g rg log
    | None, None => True
    | _, _ => False
    end.
  Lemma one_run past f ren (w1 w2 : world) o algorithm r w3 r' w4 vs' fin logs w1' res : sim ren w1 w2 -> in_range (length (arrays w1)) o -> rename ren o = o -> past_ok past ren w2 ->
    recorder f p w2 = (r, w3) -> play recorded recorded_gradient (algorithm (seen w3 [Ok o])) (r, w3, [Ok o]) = (r', w4, vs', fin) ->
    optimize algorithm f o w1 = (logs, w1', res) ->
    exists ren', sim ren' w1' w4 /\ rename ren' o = o /\ in_range (length (arrays w1')) o /\ past_ok past ren' w4 /\ hist_ok p decide ren' w4 f r' (fst logs) /\ grad_ok ren' w4 f r' (snd logs) /\
      forall h, agree ren' (length (arrays w1')) res (finish vs' fin h) h.
  Proof.
    intros S Ro Io HP ER EP EO. unfold optimize in EO.
    assert (I0 := recorder_inv p decide past f ren w1 w2 r w3 [Ok o] S ltac:(constructor; [exact Ro|constructor]) HP ER). cbn [map rename_result] in I0. rewrite Io in I0.
    assert (ES := seen_inv _ _ _ _ _ _ _ _ I0). rewrite ES in EP.
    destruct (play_inv past f (algorithm (seen w1 [Ok o])) _ _ I0) as [I1 EF].
    destruct (play_prefix (direct f) (direct_gradient f) (algorithm (seen w1 [Ok o])) (([], []), w1, [Ok o])) as [x1 P1].
    destruct (play_prefix recorded recorded_gradient (algorithm (seen w1 [Ok o])) (r, w3, [Ok o])) as [x2 P2].
    rewrite EP in I1, EF, P2. destruct (play (direct f) (direct_gradient f) (algorithm (seen w1 [Ok o])) (([], []), w1, [Ok o])) as [[[lg u1] vs1] fin1]. cbn [fst snd] in *. subst fin1.
    injection EO as <- <- <-. destruct I1 as (ren' & S' & EV & RV & HO & HG & HP'). exists ren'. split; [exact S'|].
    assert (Io' : rename ren' o = o). { rewrite P1, P2 in EV. cbn [map app] in EV. injection EV as EV _. cbn [rename_result] in EV. congruence. }
    split; [exact Io'|]. split; [rewrite P1 in RV; inversion RV; assumption|]. split; [exact HP'|]. split; [exact HO|]. split.
    { unfold grad_ok. destruct (f_gradient f), (r_gradient r'); auto. apply HG. }
    intros h. unfold finish, agree. destruct fin as [[[[x y] n] k]|e]; cbn [rbind]; [|reflexivity]. rewrite EV, !var_map.
    destruct (var vs1 x) as [v|e] eqn:Ev; cbn [rename_result rbind]; [|reflexivity]. destruct (var vs1 y) as [q|e] eqn:Eq; cbn [rename_result rbind]; [|reflexivity]. cbn.
    repeat split; auto; eapply var_range; eauto.
  Qed.

  (** ** Several functions *)
  Lemma history_info_history (r : recorder_obj) w : dget String.eqb "history" (construct_history_info (Some r) true w) = Some (history_of r w).
  Proof. unfold construct_history_info. destruct (r_artifacts r), (r_gradient r); reflexivity. Qed.
  Lemma history_info_gradient (r : recorder_obj) w : dget String.eqb "gradient_history" (construct_history_info (Some r) true w) = match r_gradient r with Some g => Some (history_of g w) | None => None end.
  Proof. unfold construct_history_info. destruct (r_artifacts r), (r_gradient r); reflexivity. Qed.

  Notation pasts := (list (entry V * (bool * (nat * logged)))).
  Lemma entries_past ren (w : world) a l (kgs : list (nat * logged)) : Forall2 (entry_ok ren w a) l kgs ->
    exists new : pasts, past_ok new ren w /\ map fst new = l /\ map snd new = map (fun kg => (a, kg)) kgs.
  Proof.
    induction 1 as [|e kg l kgs H F (new & N1 & N2 & N3)]; [exists []; repeat split; constructor|].
    exists ((e, (a, kg)) :: new). split; [constructor; [exact H|exact N1]|]. cbn [map fst snd]. rewrite N2, N3. auto.
  Qed.
  Lemma past_describes (new : pasts) ren (w1 w2 : world) : sim ren w1 w2 -> past_ok new ren w2 -> Forall2 (fun e x => describes w1 w2 (fst x) e (snd x)) (map fst new) (map snd new).
  Proof.
    intros S. induction 1 as [|[e [a kg]] l H F IH]; cbn [map fst snd]; constructor; [|exact IH]. cbn [fst snd] in *.
    destruct H as (H1 & H2 & H3 & H4 & H5 & H6). unfold describes. repeat split; auto.
    - rewrite H2. apply sim_look; [exact S|]. rewrite <- (s_len _ _ _ S). exact H3.
    - rewrite H6. destruct a; [split; [reflexivity|]; intros name; apply store_events_get|reflexivity].
  Qed.

  (** the histories collected so far *)
  Definition collected (hasg : bool) (s : nested_state V) (ph pg : pasts) : Prop :=
    getitem (n_default s) "history" (n_histories s) = Ok (map fst ph) /\
    (hasg = true -> getitem (n_default s) "gradient_history" (n_histories s) = Ok (map fst pg)) /\
    (hasg = false -> pg = [] /\ dget String.eqb "gradient_history" (n_histories s) = None).
  Definition has_gradient (f : fn) : bool := match f_gradient f with Some _ => true | None => false end.
  Lemma extend_collected hasg s (ph pg : pasts) f (r : recorder_obj) w ren logs x : has_gradient f = hasg -> collected hasg s ph pg -> past_ok (ph ++ pg) ren w ->
    hist_ok p decide ren w f r (fst logs) -> grad_ok ren w f r (snd logs) ->
    exists h nh ng, extend_histories r (n_default s) (n_histories s) w = Ok h /\ past_ok ((ph ++ nh) ++ (pg ++ ng)) ren w /\
      map snd nh = expected decide [(f, logs)] /\ map snd ng = expected_gradient decide [(f, logs)] /\
      collected hasg {| n_histories := h; n_default := false; n_nfev := x; n_last := n_last s |} (ph ++ nh) (pg ++ ng).
  Proof.
    intros Eg (C1 & C2 & C3) HP HO HG. unfold past_ok in HP. apply Forall_app in HP as [HP1 HP2].
    destruct (entries_past ren w _ _ _ (proj2 (proj2 (proj2 (proj2 (proj2 HO)))))) as (nh & N1 & N2 & N3).
    unfold extend_histories. rewrite C1. cbn [rbind]. unfold getitem at 1. rewrite history_info_history. cbn [rbind].
    unfold grad_ok in HG. unfold has_gradient in Eg. destruct (f_gradient f) as [g|] eqn:Ef, (r_gradient r) as [rg|] eqn:Er; try contradiction; subst hasg.
    - destruct (entries_past ren w _ _ _ (proj2 (proj2 (proj2 (proj2 (proj2 HG)))))) as (ng & M1 & M2 & M3).
      rewrite (C2 eq_refl). cbn [rbind]. unfold getitem at 1. rewrite history_info_gradient, Er. cbn [rbind]. eexists _, nh, ng. split; [reflexivity|].
      split; [unfold past_ok; rewrite !Forall_app; auto|]. split; [cbn [expected flat_map fst snd]; rewrite app_nil_r; exact N3|].
      split; [unfold expected_gradient; cbn [flat_map fst snd]; rewrite Ef, app_nil_r; exact M3|].
      unfold collected. cbn [n_default n_histories]. repeat split; try discriminate; intros; rewrite !map_app, ?N2, ?M2; reflexivity.
    - destruct (C3 eq_refl) as [-> C4]. eexists _, nh, []. split; [reflexivity|]. cbn [app]. rewrite app_nil_r.
      split; [unfold past_ok; rewrite !Forall_app; auto|]. split; [cbn [expected flat_map fst snd]; rewrite app_nil_r; exact N3|].
      split; [unfold expected_gradient; cbn [flat_map fst snd]; rewrite Ef; reflexivity|].
      unfold collected. cbn [n_default n_histories]. repeat split; try discriminate. rewrite !map_app, ?N2. reflexivity.
  Qed.

  Lemma loop_spec hasg inner factory o : (forall i, has_gradient (factory i) = hasg) ->
    forall is s (w1 w2 : world) ren (ph pg : pasts) logs w1' res r2 w2', sim ren w1 w2 -> in_range (length (arrays w1)) o -> rename ren o = o -> past_ok (ph ++ pg) ren w2 -> collected hasg s ph pg ->
    optimize_all inner (map factory is) o w1 = (logs, w1', res) -> nested_loop p inner factory o true is s w2 = (r2, w2') ->
    match res, r2 with
    | Err e1, Err e2 => e1 = e2
    | Ok founds, Ok s' =>
        exists ren' nh ng, (is = [] -> ren' = ren /\ w1' = w1) /\ sim ren' w1' w2' /\ past_ok ((ph ++ nh) ++ (pg ++ ng)) ren' w2' /\ collected hasg s' (ph ++ nh) (pg ++ ng) /\
        map snd nh = expected decide logs /\ map snd ng = expected_gradient decide logs /\ n_nfev s' = n_nfev s + total_nfev founds /\
        match rev founds with
        | [] => n_last s' = n_last s
        | x :: _ => n_last s' = Some (rename ren' (f_value x), rename ren' (f_params x)) /\ in_range (length (arrays w1')) (f_value x) /\ in_range (length (arrays w1')) (f_params x)
        end
    | _, _ => False
    end.
  Proof.
    intros HG. induction is as [|i is IH]; intros s w1 w2 ren ph pg logs w1' res r2 w2' S Ro Io HP HC EO EN; cbn [map optimize_all nested_loop] in *.
    - injection EO as <- <- <-. injection EN as <- <-. exists ren, [], []. rewrite !app_nil_r. cbn [rev total_nfev fold_right]. split; [auto|]. split; [auto|]. split; [auto|]. split; [auto|]. split; [reflexivity|]. split; [reflexivity|]. split; [lia|reflexivity].
    - destruct (optimize inner (factory i) o w1) as [[lg u1] r1] eqn:E1.
      destruct (recorder (factory i) p w2) as [r w3] eqn:ER. destruct (play recorded recorded_gradient (inner (seen w3 [Ok o])) (r, w3, [Ok o])) as [[[r' w4] vs'] fin] eqn:EP.
      destruct (one_run (ph ++ pg) (factory i) ren w1 w2 o inner r w3 r' w4 vs' fin lg u1 r1 S Ro Io HP ER EP E1) as (ren1 & S1 & Io1 & Ro1 & HP1 & HO1 & HG1 & AG).
      specialize (AG []). destruct r1 as [x|e], (finish vs' fin []) as [y|e'] eqn:EF; cbn [agree] in AG; try contradiction; cbn [rbind] in EN.
      2:{ injection EO as <- <- <-. injection EN as <- <-. exact AG. }
      destruct AG as (A1 & A2 & A3 & A4 & A5 & A6 & A7).
      destruct (extend_collected hasg s ph pg (factory i) r' w4 ren1 lg (n_nfev s + nfev y) (HG i) HC HP1 HO1 HG1) as (h & nh & ng & X1 & X2 & X3 & X4 & X5).
      rewrite X1 in EN. cbn [rbind] in EN. destruct (optimize_all inner (map factory is) o u1) as [[more v1] rs] eqn:E2. injection EO as <- <- <-.
      set (s1 := {| n_histories := h; n_default := false; n_nfev := n_nfev s + nfev y; n_last := Some (opt_value y, opt_params y) |}) in *.
      assert (HC1 : collected hasg s1 (ph ++ nh) (pg ++ ng)) by exact X5.
      specialize (IH s1 u1 w4 ren1 (ph ++ nh) (pg ++ ng) more v1 rs r2 w2' S1 Ro1 Io1 X2 HC1 E2 EN).
      destruct rs as [xs|e], r2 as [s'|e']; cbn [rbind]; try contradiction; [|exact IH].
      destruct IH as (ren' & nh' & ng' & J0 & J1 & J2 & J3 & J4 & J5 & J6 & J7). exists ren', (nh ++ nh'), (ng ++ ng').
      rewrite !app_assoc. rewrite !app_assoc in J2. split; [discriminate|]. split; [exact J1|]. split; [exact J2|]. split; [exact J3|]. split.
      { rewrite map_app, X3, J4. unfold expected. cbn [flat_map]. rewrite app_nil_r. reflexivity. }
      split; [rewrite map_app, X4, J5; unfold expected_gradient; cbn [flat_map]; rewrite app_nil_r; reflexivity|].
      split; [rewrite J6; unfold s1; cbn [n_nfev total_nfev fold_right]; rewrite A4; unfold total_nfev; lia|].
      cbn [rev]. destruct (rev xs) as [|z zs] eqn:Ez; cbn [app].
      + apply (f_equal (@rev _)) in Ez. rewrite rev_involutive in Ez. cbn in Ez. subst xs. destruct is as [|i' is'].
        * destruct (J0 eq_refl) as [-> ->]. rewrite J7, <- A1, <- A2. unfold s1; cbn [n_last]. auto.
        * exfalso. cbn [map optimize_all] in E2. destruct (optimize inner (factory i') o u1) as [[l2 u2] [x2|e2]]; [|discriminate].
          destruct (optimize_all inner (map factory is') o u2) as [[l3 u3] [x3|e3]]; discriminate.
      + exact J7.
  Qed.
End Proofs.
