From Coq Require Import List ZArith String Bool Lia.
From Verif Require Import Base BaseFacts HistModel HistSpec.
Import ListNotations.
Open Scope list_scope.

Section Proofs.
  Context {A V E : Type}.
  Notation obj := (obj V). Notation world := (world A V E). Notation fn := (fn A V E). Notation recorder_obj := (recorder_obj A V E).

  Lemma set_nth_length {X} (l : list X) i x : length (set_nth l i x) = length l.
  Proof.
    unfold set_nth. destruct (nth_error l i) eqn:E'; auto. assert (i < length l) by (apply nth_error_Some; congruence).
    rewrite app_length, firstn_length. cbn [length]. rewrite skipn_length. lia.
  Qed.
  Lemma nth_set_nth {X} (l : list X) i x j : nth_error (set_nth l i x) j = if Nat.eqb j i then (if Nat.ltb j (length l) then Some x else None) else nth_error l j.
  Proof.
    unfold set_nth. destruct (nth_error l i) eqn:E'.
    - assert (H : i < length l) by (apply nth_error_Some; congruence). revert i j H E'. induction l as [|y l IH]; intros [|i] [|j] H E'; cbn in *; auto; try lia.
      rewrite IH by (auto; lia). reflexivity.
    - apply nth_error_None in E'. destruct (Nat.eqb_spec j i) as [->|]; auto. destruct (Nat.ltb_spec i (length l)); [lia|]. apply nth_error_None. auto.
  Qed.

  Lemma nth_nth_error {X} (l : list X) i d : nth i l d = match nth_error l i with Some x => x | None => d end.
  Proof. revert i. induction l as [|x l IH]; intros [|i]; cbn; auto. Qed.
  Lemma combine_app_eq {X Y} (a b : list X) (c d : list Y) : length a = length c -> combine (a ++ b) (c ++ d) = combine a c ++ combine b d.
  Proof. revert c. induction a as [|x a IH]; intros [|y c] H; cbn in *; try discriminate; auto. rewrite IH by congruence. reflexivity. Qed.
  Lemma Forall2_weaken {X Y} (P Q : X -> Y -> Prop) a b : (forall x y, P x y -> Q x y) -> Forall2 P a b -> Forall2 Q a b.
  Proof. intros H. induction 1; constructor; auto. Qed.
  Lemma nodup_snoc {X} (l : list X) x : NoDup l -> ~ In x l -> NoDup (l ++ [x]).
  Proof. intros H N. eapply Permutation.Permutation_NoDup; [apply Permutation.Permutation_cons_append|]. constructor; auto. Qed.

  Definition rename (ren : list nat) (o : obj) : obj := match o with Imm v => Imm v | Ref l => Ref (nth l ren 0) end.
  Definition rename_result (ren : list nat) (r : result obj) : result obj := match r with Ok o => Ok (rename ren o) | Err e => Err e end.
  Definition in_range (n : nat) (o : obj) : Prop := match o with Imm _ => True | Ref l => l < n end.
  Definition result_in_range (n : nat) (r : result obj) : Prop := match r with Ok o => in_range n o | Err _ => True end.
  (** the recorded state has the arrays of the direct one at other places *)
  Record sim (ren : list nat) (w1 w2 : world) : Prop := {
    s_len : length ren = length (arrays w1);
    s_dup : NoDup ren;
    s_arr : forall i l, nth_error ren i = Some l -> nth_error (arrays w2) l = nth_error (arrays w1) i;
    s_env : env w1 = env w2 }.
  Lemma ren_nth ren i : i < length ren -> nth_error ren i = Some (nth i ren 0).
  Proof. intros H. apply nth_error_nth'. auto. Qed.
  Lemma sim_bound ren w1 w2 i l : sim ren w1 w2 -> nth_error ren i = Some l -> l < length (arrays w2).
  Proof.
    intros S H. apply nth_error_Some. rewrite (s_arr _ _ _ S _ _ H). apply nth_error_Some. rewrite <- (s_len _ _ _ S). apply nth_error_Some. congruence.
  Qed.
  Lemma sim_look ren w1 w2 o : sim ren w1 w2 -> in_range (length (arrays w1)) o -> look w2 (rename ren o) = look w1 o /\ look w1 o <> None.
  Proof.
    intros S H. destruct o as [v|l]; cbn in *; [split; [auto|discriminate]|].
    rewrite (s_arr _ _ _ S l) by (apply ren_nth; rewrite (s_len _ _ _ S); auto). split; [auto|]. destruct (nth_error (arrays w1) l) eqn:F; [discriminate|]. apply nth_error_None in F. lia.
  Qed.
  (** what one step does to the arrays that are not visible to the program *)
  Definition frame (ren : list nat) (w w' : world) : Prop :=
    lists w' = lists w /\ forall l, ~ In l ren -> l < length (arrays w) -> nth_error (arrays w') l = nth_error (arrays w) l.
  Lemma rename_ext ren x o : in_range (length ren) o -> rename (ren ++ [x]) o = rename ren o.
  Proof. destruct o; cbn; auto. intros H. rewrite app_nth1; auto. Qed.

  Lemma sim_set ren w1 w2 l a e ls1 ls2 : sim ren w1 w2 -> l < length (arrays w1) ->
    sim ren {| arrays := set_nth (arrays w1) l a; lists := ls1; env := e |} {| arrays := set_nth (arrays w2) (nth l ren 0) a; lists := ls2; env := e |}.
  Proof.
    intros S Hl. assert (Hl' : l < length ren) by (rewrite (s_len _ _ _ S); auto). constructor; cbn [arrays env]; [rewrite set_nth_length; apply S|apply S| |reflexivity].
    intros i l' H. rewrite !nth_set_nth. assert (B := sim_bound _ _ _ _ _ S H). assert (Hi : i < length ren) by (apply nth_error_Some; congruence).
    destruct (Nat.eqb_spec i l) as [->|N].
    - rewrite (ren_nth ren l Hl') in H. injection H as <-. rewrite Nat.eqb_refl. destruct (Nat.ltb_spec (nth l ren 0) (length (arrays w2))); [|lia]. destruct (Nat.ltb_spec l (length (arrays w1))); [auto|lia].
    - destruct (Nat.eqb_spec l' (nth l ren 0)) as [->|N'].
      + exfalso. apply N. apply (NoDup_nth_error ren); [apply S|auto|]. rewrite H. rewrite ren_nth; auto.
      + apply (s_arr _ _ _ S _ _ H).
  Qed.
  Lemma sim_alloc ren w1 w2 a : sim ren w1 w2 ->
    sim (ren ++ [length (arrays w2)]) (snd (alloc w1 a)) (snd (alloc w2 a)).
  Proof.
    intros S. constructor; cbn [snd alloc arrays env].
    - rewrite !app_length. cbn. rewrite (s_len _ _ _ S). reflexivity.
    - apply nodup_snoc; [apply S|]. intros H. apply In_nth_error in H as (i & H). assert (B := sim_bound _ _ _ _ _ S H). lia.
    - intros i l H. destruct (Nat.lt_ge_cases i (length ren)) as [Hi|Hi].
      + rewrite nth_error_app1 in H by auto. assert (B := sim_bound _ _ _ _ _ S H). rewrite nth_error_app1 by auto. rewrite nth_error_app1 by (rewrite <- (s_len _ _ _ S); auto). apply (s_arr _ _ _ S _ _ H).
      + rewrite nth_error_app2 in H by auto. destruct (i - length ren) as [|k] eqn:F; [|destruct k; discriminate]. cbn in H. injection H as <-. assert (i = length (arrays w1)) as -> by (rewrite <- (s_len _ _ _ S); lia).
        rewrite !nth_error_app2 by lia. rewrite !Nat.sub_diag. reflexivity.
    - apply S.
  Qed.

  Definition extends (ren ren' : list nat) : Prop := ren' = ren \/ exists x, ren' = ren ++ [x].
  Lemma extends_rename ren ren' o : extends ren ren' -> in_range (length ren) o -> rename ren' o = rename ren o.
  Proof. intros [->|[x ->]] H; [auto|apply rename_ext; auto]. Qed.
  Lemma in_range_le n m o : n <= m -> in_range n o -> in_range m o.
  Proof. destruct o; cbn; auto; lia. Qed.
  Lemma extends_len ren ren' : extends ren ren' -> length ren <= length ren'.
  Proof. intros [->|[x ->]]; [auto|rewrite app_length; cbn; lia]. Qed.

  (** A call of the same function in both states. *)
  Lemma call_sim ren w1 w2 (f : fn) o r1 es w1' : sim ren w1 w2 -> in_range (length (arrays w1)) o -> call_fn f o w1 = (r1, es, w1') ->
    exists ren' w2', call_fn f (rename ren o) w2 = (rename_result ren' r1, es, w2') /\ sim ren' w1' w2' /\ extends ren ren' /\ frame ren w2 w2' /\
      result_in_range (length (arrays w1')) r1 /\ (forall l, In l ren' -> In l ren \/ length (arrays w2) <= l) /\ length (arrays w2) <= length (arrays w2').
  Proof.
    intros S H E1. destruct (sim_look ren w1 w2 o S H) as [L N]. unfold call_fn in *. rewrite L. destruct (look w1 o) as [c|] eqn:EL; [|congruence].
    rewrite <- (s_env _ _ _ S). set (out := f_body f c (env w1)) in *.
    set (u1 := {| arrays := match o with Imm _ => arrays w1 | Ref l => set_nth (arrays w1) l (o_arg out) end; lists := lists w1; env := o_env out |}) in *.
    set (u2 := {| arrays := match rename ren o with Imm _ => arrays w2 | Ref l => set_nth (arrays w2) l (o_arg out) end; lists := lists w2; env := o_env out |}).
    assert (SU : sim ren u1 u2).
    { unfold u1, u2. destruct o as [v|l]; cbn [rename]; [constructor; cbn; auto; apply S|]. apply sim_set; auto. }
    assert (LU1 : length (arrays u1) = length (arrays w1)) by (unfold u1; cbn; destruct o; auto; apply set_nth_length).
    assert (LU2 : length (arrays u2) = length (arrays w2)) by (unfold u2; cbn; destruct (rename ren o); auto; apply set_nth_length).
    assert (FU : frame ren w2 u2).
    { split; [reflexivity|]. intros l Hl _. unfold u2; cbn [arrays]. destruct o as [v|k]; cbn [rename]; [auto|]. rewrite nth_set_nth. destruct (Nat.eqb_spec l (nth k ren 0)) as [->|]; [|auto].
      exfalso. apply Hl. apply nth_In. rewrite (s_len _ _ _ S). exact H. }
    assert (LR : length ren = length (arrays u1)) by (rewrite LU1; apply S).
    clearbody u1 u2. destruct (o_ret out) as [[v|a|]|e].
    - injection E1 as <- <- <-. exists ren, u2. split; [reflexivity|]. repeat split; auto; try apply SU; try apply FU; try (left; auto); try lia.
    - cbn [alloc] in E1. injection E1 as <- <- <-. exists (ren ++ [length (arrays u2)]), (snd (alloc u2 a)). split.
      { cbn [alloc rename_result rename snd]. rewrite <- LR. rewrite app_nth2, Nat.sub_diag by lia. reflexivity. }
      split; [apply (sim_alloc ren u1 u2 a SU)|]. split; [right; eauto|]. split.
      { destruct FU as [F1 F2]. split; [exact F1|]. intros l Hl Hb. cbn [snd alloc arrays]. rewrite nth_error_app1 by lia. apply F2; auto. }
      split; [cbn; rewrite app_length; cbn; lia|]. split; [|cbn [snd alloc arrays]; rewrite app_length; lia]. intros l Hl. apply in_app_or in Hl as [Hl|[<-|[]]]; [auto|right; lia].
    - injection E1 as <- <- <-. exists ren, u2. split; [reflexivity|]. split; [auto|]. split; [left; auto|]. split; [auto|]. split; [cbn; eapply in_range_le; [|exact H]; lia|]. split; [auto|lia].
    - injection E1 as <- <- <-. exists ren, u2. split; [reflexivity|]. split; [auto|]. split; [left; auto|]. split; [auto|]. split; [exact I|]. split; [auto|lia].
  Qed.

  (** Artifacts. *)
  Lemma store_events_forced es : snd (store_events (V := V) es) = forced es.
  Proof.
    unfold store_events, forced. assert (G : forall es s, snd (fold_left (fun s e => let '(n, v, f) := e in (dset String.eqb n v (fst s), orb (snd s) f)) es s) = orb (snd s) (existsb (fun e : event V => snd e) es)).
    { clear. induction es as [|[[n v] f] es IH]; intros s; cbn [fold_left existsb]; [rewrite orb_false_r; auto|]. rewrite IH. cbn [snd]. rewrite orb_assoc. reflexivity. }
    rewrite G. reflexivity.
  Qed.
  Lemma store_events_get es name : dget String.eqb name (fst (store_events (V := V) es)) = last_stored es name.
  Proof.
    unfold store_events, last_stored. induction es as [|[[n v] f] es IH] using rev_ind; [reflexivity|]. rewrite fold_left_app, rev_app_distr. cbn [fold_left rev app find fst snd].
    destruct (String.eqb_spec n name) as [->|N].
    - rewrite (dget_dset_same String.eqb String.eqb_eq). reflexivity.
    - rewrite (dget_dset_other String.eqb String.eqb_eq) by auto. exact IH.
  Qed.

  Section Rec.
  Context (p : save_condition A V) (decide : content A V -> content A V -> nat -> bool) (Hp : total_condition p decide).

  Lemma saved_snoc a (log : list (logged (A := A) (V := V))) x :
    saved decide a (log ++ [x]) = saved decide a log ++ if decide (g_value x) (g_params x) (length log) || (a && forced (g_events x)) then [(length log, x)] else [].
  Proof.
    unfold saved. rewrite app_length, Nat.add_1_r, seq_S. cbn [Nat.add]. rewrite combine_app_eq by (rewrite seq_length; auto). rewrite filter_app. cbn [combine filter fst snd]. reflexivity.
  Qed.

  Definition entry_ok (ren : list nat) (w2 : world) (a : bool) (e : entry V) (kg : nat * logged) : Prop :=
    e_call e = fst kg /\ e_value e = rename ren (g_obj (snd kg)) /\ in_range (length ren) (g_obj (snd kg)) /\
    look w2 (e_params e) = Some (g_params (snd kg)) /\ (match e_params e with Ref l => ~ In l ren /\ l < length (arrays w2) | Imm _ => True end) /\
    e_artifacts e = if a then Some (fst (store_events (g_events (snd kg)))) else None.
  Definition hist_ok (ren : list nat) (w2 : world) (f : fn) (r : recorder_obj) (log : list logged) : Prop :=
    r_target r = f /\ r_predicate r = p /\ r_artifacts r = f_artifacts f /\ r_call_number r = length log /\ r_history r < length (lists w2) /\
    Forall2 (entry_ok ren w2 (f_artifacts f)) (history_of r w2) (saved decide (f_artifacts f) log).
  (** the change of a state by a call of the recorder with history h *)
  Definition frame_but (h : option nat) (ren : list nat) (w w' : world) : Prop :=
    length (lists w') = length (lists w) /\ (forall h', Some h' <> h -> nth h' (lists w') [] = nth h' (lists w) []) /\
    (forall l, ~ In l ren -> l < length (arrays w) -> nth_error (arrays w') l = nth_error (arrays w) l) /\ length (arrays w) <= length (arrays w').
  Definition grows (ren ren' : list nat) (w : world) : Prop := extends ren ren' /\ forall l, In l ren' -> In l ren \/ length (arrays w) <= l.

  Lemma entry_frame ren ren' w w' h a e kg : grows ren ren' w -> frame_but h ren w w' -> entry_ok ren w a e kg -> entry_ok ren' w' a e kg.
  Proof.
    intros [G1 G2] (F1 & F2 & F3 & F4) (E1 & E2 & E3 & E4 & E5 & E6). repeat split; auto.
    - rewrite E2. symmetry. apply extends_rename; auto.
    - eapply in_range_le; [apply extends_len; eauto|auto].
    - destruct (e_params e) as [v|l]; cbn [look] in *; auto. destruct E5 as [N B]. rewrite F3 by auto. exact E4.
    - destruct (e_params e) as [v|l]; auto. destruct E5 as [N B]. split; [|lia]. intros H. apply G2 in H as [H|H]; [auto|lia].
  Qed.
  Lemma hist_frame ren ren' w w' h f r log : grows ren ren' w -> frame_but h ren w w' -> Some (r_history r) <> h -> hist_ok ren w f r log -> hist_ok ren' w' f r log.
  Proof.
    intros G F N (H1 & H2 & H3 & H4 & H5 & H6). unfold hist_ok. do 4 (split; [auto|]). split; [destruct F as (-> & _); auto|].
    unfold history_of in *. destruct F as (F1 & F2 & F3 & F4). rewrite F2 by auto. eapply Forall2_weaken; [|exact H6]. intros e kg. apply (entry_frame ren ren' w w' h); [auto|repeat split; auto].
  Qed.
  Lemma frame_weaken ren w w' : frame ren w w' -> length (arrays w) <= length (arrays w') -> forall h, frame_but h ren w w'.
  Proof. intros [F1 F2] L h. unfold frame_but. rewrite F1. auto. Qed.

  Lemma record_sim ren w1 w2 (f : fn) (r : recorder_obj) log o r1 log' w1' : sim ren w1 w2 -> in_range (length (arrays w1)) o -> hist_ok ren w2 f r log ->
    log_call f log o w1 = (r1, log', w1') ->
    exists ren' w2' r', call_recorder r (rename ren o) w2 = (rename_result ren' r1, r', w2') /\ sim ren' w1' w2' /\ grows ren ren' w2 /\ frame_but (Some (r_history r)) ren w2 w2' /\
      result_in_range (length (arrays w1')) r1 /\ hist_ok ren' w2' f r' log' /\ r_history r' = r_history r /\ r_gradient r' = r_gradient r.
  Proof.
    intros S Hr HO EL. unfold log_call in EL. destruct (call_fn f o w1) as [[res es] u1] eqn:EC.
    destruct (call_sim ren w1 w2 f o res es u1 S Hr EC) as (ren1 & u2 & C2 & S1 & X1 & F1 & R1 & N1 & L1).
    assert (G1 : grows ren ren1 w2) by (split; auto). assert (FB := frame_weaken ren w2 u2 F1 L1).
    assert (H := HO). destruct r as [f' p' a n h g]. destruct H as (H1 & H2 & H3 & H4 & H5 & H6). cbn [r_target r_predicate r_artifacts r_call_number r_history] in *. subst f' p' a n.
    cbn [call_recorder r_gradient]. rewrite C2. destruct res as [v|e]; cbn [rename_result].
    2:{ injection EL as <- <- <-. exists ren1, u2, (Rec f p (f_artifacts f) (length log) h g). split; [reflexivity|]. split; [auto|]. split; [auto|]. split; [apply FB|]. split; [exact I|].
        split; [|auto]. apply (hist_frame ren ren1 w2 u2 None); auto. discriminate. }
    destruct (sim_look ren1 u1 u2 v S1 R1) as [Lv Nv].
    assert (Hr1 : in_range (length (arrays u1)) o) by (eapply in_range_le; [|exact Hr]; rewrite <- (s_len _ _ _ S), <- (s_len _ _ _ S1); apply extends_len; auto).
    destruct (sim_look ren1 u1 u2 o S1 Hr1) as [Lo No].
    assert (RO : rename ren1 o = rename ren o) by (apply extends_rename; [auto|rewrite (s_len _ _ _ S); auto]).
    rewrite <- RO, Lv, Lo. destruct (look u1 v) as [cv|]; [|congruence]. destruct (look u1 o) as [co|] eqn:Eco; [|congruence]. injection EL as <- <- <-.
    pose proof (store_events_forced es) as SF. destruct (store_events es) as [store fc] eqn:ES. cbn [snd] in SF. subst fc. rewrite Hp.
    set (x := {| g_params := co; g_value := cv; g_obj := v; g_events := es |}).
    assert (OLD : Forall2 (entry_ok ren1 u2 (f_artifacts f)) (nth h (lists u2) []) (saved decide (f_artifacts f) log)).
    { assert (HF := hist_frame ren ren1 w2 u2 None f _ log G1 (FB None) ltac:(discriminate) HO). apply HF. }
    assert (LU : lists u2 = lists w2) by apply F1.
    assert (RV : in_range (length ren1) v) by (rewrite (s_len _ _ _ S1); exact R1).
    destruct (decide cv co (length log) || f_artifacts f && forced es) eqn:D.
    - (* saved *)
      set (o2 := rename ren1 o) in *.
      assert (CO : exists o3 u3, copy_obj o2 u2 = (o3, u3) /\ lists u3 = lists u2 /\ env u3 = env u2 /\ (exists ext, arrays u3 = arrays u2 ++ ext) /\ look u3 o3 = Some co /\
        match o3 with Ref l => ~ In l ren1 /\ l < length (arrays u3) | Imm _ => True end).
      { destruct o2 as [w|l] eqn:Eo2; cbn [copy_obj].
        - exists (Imm w), u2. repeat split; auto. exists []. rewrite app_nil_r. auto.
        - cbn [look] in Lo. destruct (nth_error (arrays u2) l) as [b|] eqn:Eb; [|discriminate]. cbn [alloc]. eexists _, _. split; [reflexivity|]. cbn [lists env arrays look]. repeat split; eauto.
          + rewrite nth_error_app2, Nat.sub_diag by lia. exact Lo.
          + intros F. apply In_nth_error in F as (i & F). assert (B := sim_bound _ _ _ _ _ S1 F). lia.
          + rewrite app_length. cbn. lia. }
      destruct CO as (o3 & u3 & EO & L3 & E3 & (ext & A3) & K3 & P3). rewrite EO.
      set (w3 := {| arrays := arrays u3; lists := set_nth (lists u3) h (nth h (lists u3) [] ++ [{| e_call := length log; e_params := o3; e_value := rename ren1 v; e_artifacts := if f_artifacts f then Some store else None |}]); env := env u3 |}).
      assert (F3 : forall l, l < length (arrays u2) -> nth_error (arrays u3) l = nth_error (arrays u2) l) by (intros l Hl; rewrite A3, nth_error_app1; auto).
      exists ren1, w3, (Rec f p (f_artifacts f) (Datatypes.S (length log)) h g). split; [reflexivity|]. split.
      { constructor; [apply S1|apply S1| |cbn; rewrite E3; apply S1]. intros i l Hi. cbn [w3 arrays]. assert (B := sim_bound _ _ _ _ _ S1 Hi). rewrite F3 by auto. apply (s_arr _ _ _ S1 _ _ Hi). }
      split; [auto|]. split.
      { destruct (FB None) as (Q1 & Q2 & Q3 & Q4). unfold w3. repeat split; cbn [lists arrays].
        - rewrite set_nth_length, L3. auto.
        - intros h' Nh. rewrite L3. rewrite <- (Q2 h') by discriminate. rewrite !nth_nth_error. rewrite nth_set_nth. destruct (Nat.eqb_spec h' h); [congruence|auto].
        - intros l Hl Hb. rewrite F3 by lia. apply Q3; auto.
        - rewrite A3, app_length. lia. }
      split; [exact R1|]. split; [|auto].
      assert (HL : h < length (lists u3)) by (rewrite L3, LU; auto).
      unfold hist_ok; cbn [r_target r_predicate r_artifacts r_call_number r_history]. do 3 (split; [reflexivity|]). split; [rewrite app_length; cbn; lia|]. split; [unfold w3; cbn; rewrite set_nth_length; auto|].
      unfold history_of; cbn [r_history]. rewrite saved_snoc. unfold x; cbn [g_value g_params g_events]. rewrite D.
      assert (EH : nth h (lists w3) [] = nth h (lists u2) [] ++ [{| e_call := length log; e_params := o3; e_value := rename ren1 v; e_artifacts := if f_artifacts f then Some store else None |}]).
      { unfold w3; cbn [lists]. rewrite nth_nth_error, nth_set_nth, Nat.eqb_refl. destruct (Nat.ltb_spec h (length (lists u3))); [|lia]. rewrite L3. reflexivity. }
      rewrite EH. apply Forall2_app.
      + eapply Forall2_weaken; [|exact OLD]. intros e kg (Q1 & Q2 & Q3 & Q4 & Q5 & Q6). repeat split; auto.
        * destruct (e_params e) as [w|l]; cbn [look w3 arrays] in *; auto. rewrite F3 by apply Q5. exact Q4.
        * destruct (e_params e) as [w|l]; auto. split; [apply Q5|]. cbn [w3 arrays]. rewrite A3, app_length. lia.
      + constructor; [|constructor]. unfold entry_ok; cbn [e_call e_value e_params e_artifacts fst snd g_obj g_params g_events]. rewrite ES. repeat split; auto.
    - exists ren1, u2, (Rec f p (f_artifacts f) (Datatypes.S (length log)) h g). split; [reflexivity|]. split; [auto|]. split; [auto|]. split; [apply FB|]. split; [exact R1|]. split; [|auto].
      unfold hist_ok; cbn [r_target r_predicate r_artifacts r_call_number r_history]. do 3 (split; [reflexivity|]). split; [rewrite app_length; cbn; lia|]. split; [rewrite LU; auto|].
      unfold history_of; cbn [r_history]. rewrite saved_snoc. unfold x; cbn [g_value g_params g_events]. rewrite D, app_nil_r. exact OLD.
  Qed.

  (** entries of earlier recorders, which no list in the state needs to hold *)
  Definition past_ok (past : list (entry V * (bool * (nat * logged)))) (ren : list nat) (w2 : world) : Prop :=
    Forall (fun x => entry_ok ren w2 (fst (snd x)) (fst x) (snd (snd x))) past.
  Lemma past_frame past ren ren' w w' h : grows ren ren' w -> frame_but h ren w w' -> past_ok past ren w -> past_ok past ren' w'.
  Proof. intros G F H. eapply Forall_impl; [|exact H]. intros x. apply (entry_frame ren ren' w w' h _ _ _ G F). Qed.
  Definition inv (past : list (entry V * (bool * (nat * logged)))) (f : fn) (m1 : (list logged * list logged) * world * vars (V := V)) (m2 : recorder_obj * world * vars (V := V)) : Prop :=
    let '(s, w1, vs1) := m1 in let '(r, w2, vs2) := m2 in
    exists ren, sim ren w1 w2 /\ vs2 = map (rename_result ren) vs1 /\ Forall (result_in_range (length (arrays w1))) vs1 /\ hist_ok ren w2 f r (fst s) /\
      match f_gradient f, r_gradient r with
      | Some g, Some rg => hist_ok ren w2 g rg (snd s) /\ r_history rg <> r_history r
      | None, None => True
      | _, _ => False
      end /\ past_ok past ren w2.
  Lemma range_weaken n m (vs : vars (V := V)) : n <= m -> Forall (result_in_range n) vs -> Forall (result_in_range m) vs.
  Proof. intros L. apply Forall_impl. intros [o|e]; cbn; auto. apply in_range_le; auto. Qed.
  Lemma rename_vars ren ren' n (vs : vars (V := V)) : extends ren ren' -> length ren = n -> Forall (result_in_range n) vs -> map (rename_result ren') vs = map (rename_result ren) vs.
  Proof.
    intros X L F. apply map_ext_in. intros [o|e] Hin; cbn; auto. f_equal. apply extends_rename; auto. rewrite Forall_forall in F. rewrite L. apply (F (Ok o) Hin).
  Qed.
  Lemma var_map ren (vs : vars (V := V)) x : var (map (rename_result ren) vs) x = rename_result ren (var vs x).
  Proof. unfold var. rewrite nth_error_map. destruct (nth_error vs x); reflexivity. Qed.
  Lemma var_range n (vs : vars (V := V)) x o : Forall (result_in_range n) vs -> var vs x = Ok o -> in_range n o.
  Proof.
    intros F H. unfold var in H. destruct (nth_error vs x) eqn:E'; [|discriminate]. apply nth_error_In in E'. subst. rewrite Forall_forall in F. apply (F (Ok o) E').
  Qed.
  Lemma frame_refl ren (w w' : world) : lists w' = lists w -> (exists ext, arrays w' = arrays w ++ ext) -> frame_but None ren w w'.
  Proof.
    intros L (ext & EA). unfold frame_but. rewrite L, EA. repeat split; auto; [|rewrite app_length; lia]. intros l _ Hl. rewrite nth_error_app1; auto.
  Qed.
  Lemma grads_frame ren ren' w w' h f r r' log : grows ren ren' w -> frame_but h ren w w' -> r_gradient r' = r_gradient r -> r_history r' = r_history r -> h = None \/ h = Some (r_history r) ->
    match f_gradient f, r_gradient r with Some g, Some rg => hist_ok ren w g rg log /\ r_history rg <> r_history r | None, None => True | _, _ => False end ->
    match f_gradient f, r_gradient r' with Some g, Some rg => hist_ok ren' w' g rg log /\ r_history rg <> r_history r' | None, None => True | _, _ => False end.
  Proof.
    intros G F -> -> Hh H. destruct (f_gradient f) as [g|], (r_gradient r) as [rg|]; auto. destruct H as [H N]. split; [|auto]. apply (hist_frame ren ren' w w' h); auto.
    destruct Hh as [->| ->]; [discriminate|]. intros E'. injection E' as E'. auto.
  Qed.

  Lemma exec_inv past f st m1 m2 : inv past f m1 m2 -> inv past f (exec (direct f) (direct_gradient f) st m1) (exec recorded recorded_gradient st m2).
  Proof.
    destruct m1 as [[s w1] vs1], m2 as [[r w2] vs2]. intros (ren & S & EV & RV & HO & HG & HP).
    assert (GR : grows ren ren w2) by (split; [left; auto|auto]).
    destruct st as [a|v|x|x|x a]; cbn [exec].
    - (* New *)
      cbn [alloc]. exists (ren ++ [length (arrays w2)]).
      assert (G : grows ren (ren ++ [length (arrays w2)]) w2) by (split; [right; eauto|intros l Hl; apply in_app_or in Hl as [Hl|[<-|[]]]; auto]).
      assert (F : frame_but None ren w2 (snd (alloc w2 a))) by (apply frame_refl; [reflexivity|eexists; reflexivity]).
      split; [apply (sim_alloc ren w1 w2 a S)|]. split.
      { rewrite map_app. rewrite (rename_vars ren _ (length (arrays w1))) by first [apply G|apply S|exact RV]. rewrite EV. cbn [map rename_result rename]. rewrite <- (s_len _ _ _ S), app_nth2, Nat.sub_diag by lia. reflexivity. }
      split; [cbn [arrays]; rewrite app_length; apply Forall_app; split; [eapply range_weaken; [|exact RV]; cbn; lia|constructor; [cbn; lia|constructor]]|].
      split; [apply (hist_frame ren _ w2 _ None f r (fst s) G F); [discriminate|auto]|]. split; [apply (grads_frame ren _ w2 _ None f r r (snd s) G F); auto|]. apply (past_frame past ren _ w2 _ None G F HP).
    - exists ren. repeat (split; [auto; fail|]). split; [rewrite map_app, EV; reflexivity|]. split; [apply Forall_app; split; [auto|constructor; [exact I|constructor]]|auto].
    - (* Call *)
      rewrite EV, var_map. destruct (var vs1 x) as [o|e] eqn:Ex; cbn [rename_result].
      2:{ exists ren. split; [auto|]. split; [rewrite map_app; reflexivity|]. split; [apply Forall_app; split; [auto|constructor; [exact I|constructor]]|auto]. }
      assert (Ro := var_range _ _ _ _ RV Ex). unfold direct, recorded. destruct (log_call f (fst s) o w1) as [[r1 log'] w1'] eqn:EL.
      destruct (record_sim ren w1 w2 f r (fst s) o r1 log' w1' S Ro HO EL) as (ren' & w2' & r' & EC & S' & G & F & R1 & HO' & EH & EG). rewrite EC.
      exists ren'. split; [auto|]. split.
      { rewrite map_app. rewrite (rename_vars ren ren' (length (arrays w1))) by first [apply G|apply S|exact RV]. reflexivity. }
      split; [apply Forall_app; split; [eapply range_weaken; [|exact RV]; rewrite <- (s_len _ _ _ S), <- (s_len _ _ _ S'); apply extends_len, G|constructor; [auto|constructor]]|].
      split; [exact HO'|]. split; [apply (grads_frame ren ren' w2 w2' (Some (r_history r)) f r r' (snd s) G F); auto|]. apply (past_frame past ren _ w2 _ _ G F HP).
    - (* Gradient *)
      rewrite EV, var_map. destruct (var vs1 x) as [o|e] eqn:Ex; cbn [rename_result].
      2:{ exists ren. split; [auto|]. split; [rewrite map_app; reflexivity|]. split; [apply Forall_app; split; [auto|constructor; [exact I|constructor]]|auto]. }
      assert (Ro := var_range _ _ _ _ RV Ex). unfold direct_gradient, recorded_gradient. destruct r as [f' p' a n h gr]. cbn [r_gradient] in HG. cbn [call_recorder_gradient].
      destruct (f_gradient f) as [g|] eqn:Eg, gr as [rg|]; try contradiction.
      2:{ exists ren. split; [auto|]. split; [rewrite map_app; reflexivity|]. split; [apply Forall_app; split; [auto|constructor; [exact I|constructor]]|]. split; [auto|]. rewrite Eg. auto. }
      destruct HG as [HG NG]. cbn [r_history] in NG. destruct (log_call g (snd s) o w1) as [[r1 log'] w1'] eqn:EL.
      destruct (record_sim ren w1 w2 g rg (snd s) o r1 log' w1' S Ro HG EL) as (ren' & w2' & rg' & EC & S' & G & F & R1 & HO' & EH & _). rewrite EC.
      exists ren'. split; [auto|]. split.
      { rewrite map_app. rewrite (rename_vars ren ren' (length (arrays w1))) by first [apply G|apply S|exact RV]. reflexivity. }
      split; [apply Forall_app; split; [eapply range_weaken; [|exact RV]; rewrite <- (s_len _ _ _ S), <- (s_len _ _ _ S'); apply extends_len, G|constructor; [auto|constructor]]|].
      split; [|rewrite Eg; cbn [r_gradient r_history snd]; split; [split; [auto|congruence]|apply (past_frame past ren _ w2 _ _ G F HP)]].
      assert (HF := hist_frame ren ren' w2 w2' _ f (Rec f' p' a n h (Some rg)) (fst s) G F). cbn [r_history] in HF.
      exact (HF ltac:(intros Q; injection Q as Q; congruence) HO).
    - (* Write *)
      rewrite EV, var_map. destruct (var vs1 x) as [[v|l]|e] eqn:Ex; cbn [rename_result rename].
      + exists ren. auto 9.
      + assert (Rl := var_range _ _ _ _ RV Ex). cbn in Rl. exists ren.
        assert (F : frame_but None ren w2 {| arrays := set_nth (arrays w2) (nth l ren 0) a; lists := lists w2; env := env w2 |}).
        { unfold frame_but; cbn [lists arrays]. repeat split; auto; [|rewrite set_nth_length; auto]. intros k Hk _. rewrite nth_set_nth. destruct (Nat.eqb_spec k (nth l ren 0)) as [->|]; [|auto].
          exfalso. apply Hk, nth_In. rewrite (s_len _ _ _ S). auto. }
        split; [rewrite (s_env _ _ _ S); apply sim_set; auto|]. split; [auto|]. split; [cbn [arrays]; rewrite set_nth_length; auto|].
        split; [apply (hist_frame ren ren w2 _ None f r (fst s) GR F); [discriminate|auto]|]. split; [apply (grads_frame ren ren w2 _ None f r r (snd s) GR F); auto|]. apply (past_frame past ren _ w2 _ None GR F HP).
      + exists ren. auto 9.
  Qed.
  Lemma run_inv past f prog : forall m1 m2, inv past f m1 m2 -> inv past f (run (direct f) (direct_gradient f) prog m1) (run recorded recorded_gradient prog m2).
  Proof. unfold run. induction prog as [|st prog IH]; intros m1 m2 H; cbn [fold_left]; [auto|]. apply IH, exec_inv, H. Qed.

  (** A new recorder. *)
  Lemma recorder_new : forall (f : fn) w r w', recorder f p w = (r, w') ->
    arrays w' = arrays w /\ env w' = env w /\ (exists ext, lists w' = lists w ++ [] :: ext) /\ r_target r = f /\ r_predicate r = p /\ r_artifacts r = f_artifacts f /\ r_call_number r = 0 /\
    r_history r = length (lists w) /\ match f_gradient f, r_gradient r with Some g, Some rg => exists w1 w2, recorder g p w1 = (rg, w2) /\ lists w1 = lists w ++ [[]] /\ w2 = w' | None, None => True | _, _ => False end.
  Proof.
    fix IH 1. intros [b a g] w r w' H. cbn [recorder new_list] in H. destruct g as [g|].
    - set (w1 := {| arrays := arrays w; lists := lists w ++ [[]]; env := env w |}) in *. destruct (recorder g p w1) as [rg w2] eqn:Eg. injection H as <- <-.
      destruct (IH g w1 rg w2 Eg) as (H1 & H2 & (ext & H3) & _). cbn [r_target r_predicate r_artifacts r_call_number r_history r_gradient f_artifacts f_gradient]. rewrite H1, H2. repeat split; auto.
      + exists ([] :: ext). rewrite H3. unfold w1; cbn [lists]. rewrite <- app_assoc. reflexivity.
      + exists w1, w2. auto.
    - injection H as <- <-. cbn. repeat split; auto. exists []. reflexivity.
  Qed.
  Lemma sim_refl (w w' : world) : arrays w' = arrays w -> env w' = env w -> sim (seq 0 (length (arrays w))) w w'.
  Proof.
    intros EA EE. constructor; [apply seq_length|apply seq_NoDup| |auto]. intros i l H. assert (i < length (arrays w)) by (rewrite <- (seq_length (length (arrays w)) 0); apply nth_error_Some; congruence).
    rewrite (nth_error_nth' _ 0) in H by (rewrite seq_length; auto). rewrite seq_nth in H by auto. injection H as <-. rewrite EA. reflexivity.
  Qed.
  Lemma recorder_inv past f ren w1 w r w' vs : sim ren w1 w -> Forall (result_in_range (length (arrays w1))) vs -> past_ok past ren w ->
    recorder f p w = (r, w') -> inv past f (([], []), w1, vs) (r, w', map (rename_result ren) vs).
  Proof.
    intros S RV HP H. destruct (recorder_new f w r w' H) as (H1 & H2 & (ext & H3) & H4 & H5 & H6 & H7 & H8 & H9).
    exists ren. split; [destruct S; constructor; auto; rewrite ?H1, ?H2; auto|]. split; [reflexivity|]. split; [exact RV|]. cbn [fst snd].
    assert (K : forall ren w0 f r ext', lists w0 = lists w' -> r_target r = f -> r_predicate r = p -> r_artifacts r = f_artifacts f -> r_call_number r = 0 -> r_history r = length ext' -> (exists ext, lists w' = ext' ++ [] :: ext) ->
      hist_ok ren w0 f r []).
    { intros ren0 w0 f0 r0 ext' Q0 Q1 Q2 Q3 Q4 Q5 (ext0 & Q6). unfold hist_ok. do 4 (split; [auto|]). unfold history_of. rewrite Q0, Q5, Q6. split; [rewrite app_length; cbn; lia|].
      rewrite app_nth2, Nat.sub_diag by lia. constructor. }
    split; [eapply (K _ w' f r (lists w)); eauto|]. split.
    2:{ eapply Forall_impl; [|exact HP]. intros x (Q1 & Q2 & Q3 & Q4 & Q5 & Q6). unfold entry_ok. rewrite H1. repeat (split; [assumption|]). split; [|split; assumption].
        revert Q4. destruct (e_params (fst x)); cbn [look]; rewrite ?H1; auto. }
    destruct (f_gradient f) as [g|], (r_gradient r) as [rg|]; auto. destruct H9 as (u1 & u2 & G1 & G2 & ->). destruct (recorder_new g u1 rg w' G1) as (J1 & J2 & (e2 & J3) & J4 & J5 & J6 & J7 & J8 & _).
    split; [eapply (K _ w' g rg (lists u1)); eauto|]. rewrite J8, H8, G2, app_length. cbn. lia.
  Qed.
  Lemma start_inv f w r w' : recorder f p w = (r, w') -> inv [] f (([], []), w, []) (r, w', []).
  Proof. intros H. apply (recorder_inv [] f (seq 0 (length (arrays w))) w w r w' []); [apply sim_refl; auto|constructor|constructor|exact H]. Qed.
  End Rec.
End Proofs.
