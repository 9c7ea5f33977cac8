(** C56: deep copies of a recorder. *)
From Coq Require Import List ZArith String Bool Lia.
From Verif Require Import Base BaseFacts HistModel HistSpec HistProofs HistProps.
Import ListNotations.
Open Scope list_scope.

Section Deepcopy.
  Context {A V E : Type}.
  Notation world := (world A V E). Notation fn := (fn A V E). Notation recorder_obj := (recorder_obj A V E).
  (** An object of the second state that has the contents of one of the first and is not one of its arrays. *)
  Definition fresh_copy (w w' : world) (o o' : obj V) : Prop := look w o <> None /\ look w' o' = look w o /\ forall l, o' = Ref l -> length (arrays w) <= l.
  Definition copied_entry (w w' : world) (e e' : entry V) : Prop :=
    e_call e' = e_call e /\ e_artifacts e' = e_artifacts e /\ fresh_copy w w' (e_params e) (e_params e') /\ fresh_copy w w' (e_value e) (e_value e').
  Definition extends (w w' : world) : Prop := lists w' = lists w /\ env w' = env w /\ exists ext, arrays w' = arrays w ++ ext.
  Lemma extends_look w w' o : extends w w' -> look w o <> None -> look w' o = look w o.
  Proof.
    intros (_ & _ & ext & E1) H. destruct o as [v|l]; [reflexivity|]. cbn [look] in *. rewrite E1. destruct (nth_error (arrays w) l) as [a|] eqn:X; [|congruence].
    rewrite nth_error_app1, X; [reflexivity|]. apply nth_error_Some. congruence.
  Qed.
  Lemma copy_obj_fresh (w : world) o o' w' : look w o <> None -> copy_obj o w = (o', w') -> extends w w' /\ fresh_copy w w' o o'.
  Proof.
    intros H C. destruct o as [v|l]; cbn in *.
    - injection C as <- <-. split; [repeat split; exists []; now rewrite app_nil_r|]. split; [discriminate|]. split; [reflexivity|discriminate].
    - destruct (nth_error (arrays w) l) as [a|] eqn:X; [|congruence]. injection C as <- <-. cbn [arrays]. split; [repeat split; cbn; eauto|].
      split; [cbn; rewrite X; discriminate|]. split; [|intros k [= <-]; lia]. cbn [look arrays]. rewrite X, nth_error_app2, Nat.sub_diag by lia. reflexivity.
  Qed.
  Lemma extends_trans w1 w2 w3 : extends w1 w2 -> extends w2 w3 -> extends w1 w3.
  Proof. intros (A1 & A2 & e1 & A3) (B1 & B2 & e2 & B3). repeat split; [congruence|congruence|]. exists (e1 ++ e2). rewrite B3, A3. now rewrite app_assoc. Qed.
  Lemma extends_length w1 w2 : extends w1 w2 -> length (arrays w1) <= length (arrays w2).
  Proof. intros (_ & _ & e & H). rewrite H, app_length. lia. Qed.
  Lemma fresh_later (w w1 w2 : world) o o' : fresh_copy w w1 o o' -> extends w1 w2 -> fresh_copy w w2 o o'.
  Proof. intros (H1 & H2 & H3) X. split; [exact H1|]. split; [|exact H3]. rewrite (extends_look w1 w2 o' X); [exact H2|congruence]. Qed.
  Lemma fresh_earlier (w0 w w' : world) o o' : extends w0 w -> look w0 o <> None -> fresh_copy w w' o o' -> fresh_copy w0 w' o o'.
  Proof.
    intros X H (H1 & H2 & H3). split; [exact H|]. split; [rewrite H2; now apply extends_look|]. intros l Hl. specialize (H3 l Hl). apply extends_length in X. lia.
  Qed.
  Lemma deepcopy_entries_spec (l : list (entry V)) : forall (w0 w : world) l' w', extends w0 w -> (forall e, In e l -> look w0 (e_params e) <> None /\ look w0 (e_value e) <> None) ->
    deepcopy_entries l w = (l', w') -> extends w w' /\ Forall2 (copied_entry w0 w') l l'.
  Proof.
    induction l as [|e l IH]; intros w0 w l' w' X H D; cbn [deepcopy_entries] in D.
    - injection D as <- <-. split; [repeat split; exists []; now rewrite app_nil_r|constructor].
    - destruct (copy_obj (e_params e) w) as [p w1] eqn:C1. destruct (copy_obj (e_value e) w1) as [v w2] eqn:C2. destruct (deepcopy_entries l w2) as [l2 w3] eqn:C3. injection D as <- <-.
      destruct (H e (or_introl eq_refl)) as [H1 H2].
      assert (G1 : look w (e_params e) <> None) by (rewrite (extends_look w0 w _ X H1); exact H1).
      destruct (copy_obj_fresh w _ _ _ G1 C1) as [X1 F1].
      assert (G2 : look w1 (e_value e) <> None) by (rewrite (extends_look w0 w1 _ (extends_trans _ _ _ X X1) H2); exact H2).
      destruct (copy_obj_fresh w1 _ _ _ G2 C2) as [X2 F2].
      destruct (IH w0 w2 l2 w3) as [X3 F3]; auto; [eapply extends_trans; [exact X|eapply extends_trans; eauto]|intros e' He'; apply H; now right|].
      split; [eapply extends_trans; [exact X1|eapply extends_trans; eauto]|]. constructor; [|exact F3]. split; [reflexivity|]. split; [reflexivity|]. cbn [e_params e_value]. split.
      + eapply fresh_later; [|exact X3]. eapply fresh_later; [|exact X2]. apply (fresh_earlier w0 w w1); auto.
      + eapply fresh_later; [|exact X3]. apply (fresh_earlier w0 w1 w2); auto. eapply extends_trans; eauto.
  Qed.
  Lemma set_nth_other {X} (l : list X) i j x d : i <> j -> nth j (set_nth l i x) d = nth j l d.
  Proof.
    intros N. unfold set_nth. destruct (nth_error l i) eqn:Y; [|reflexivity]. revert i j N Y. induction l as [|y l IH]; intros i j N Y; [now destruct i|].
    destruct i as [|i], j as [|j]; cbn [firstn skipn app nth]; try congruence; try reflexivity. apply IH; [congruence|exact Y].
  Qed.
  Lemma call_lists (r : recorder_obj) o w res r' w' h : call_recorder r o w = (res, r', w') -> h <> r_history r -> nth h (lists w') [] = nth h (lists w) [].
  Proof.
    destruct r as [f p a n h0 g]. cbn [call_recorder r_history]. intros H N.
    assert (L1 : forall res es w1, call_fn f o w = (res, es, w1) -> lists w1 = lists w).
    { intros res1 es w1 C. unfold call_fn in C. destruct (look w o); [|injection C as _ _ <-; reflexivity]. cbn zeta in C. destruct (o_ret _) as [[v|a'|]|e]; cbn [alloc] in C; injection C as _ _ <-; reflexivity. }
    destruct (call_fn f o w) as [[res1 es] w1] eqn:C. specialize (L1 _ _ _ eq_refl). destruct res1 as [v|e]; [|injection H as _ _ <-; now rewrite L1].
    destruct (store_events es) as [st forced]. destruct (look w1 v); [|injection H as _ _ <-; now rewrite L1]. destruct (look w1 o); [|injection H as _ _ <-; now rewrite L1].
    destruct (p _ _ n) as [save|e]; [|injection H as _ _ <-; now rewrite L1]. destruct (save || (a && forced)); [|injection H as _ _ <-; now rewrite L1].
    destruct (copy_obj o w1) as [o' w2] eqn:C2. injection H as _ _ <-. cbn [lists]. rewrite set_nth_other by auto.
    assert (L2 : lists w2 = lists w1) by (destruct o as [x|l]; cbn in C2; [injection C2 as _ <-; reflexivity|destruct (nth_error (arrays w1) l); injection C2 as _ <-; reflexivity]).
    now rewrite L2, L1.
  Qed.
  (** copy.deepcopy: the same call number and equal entries, whose arrays are new, in a list of its own: what either recorder records later does not
      show in the other. *)
  Theorem C56_deepcopy (r : recorder_obj) w c w' : deepcopy_recorder r w = (c, w') -> r_history r < length (lists w) ->
    (forall e, In e (history_of r w) -> look w (e_params e) <> None /\ look w (e_value e) <> None) ->
    r_target c = r_target r /\ r_predicate c = r_predicate r /\ r_call_number c = r_call_number r /\
    Forall2 (copied_entry w w') (history_of r w) (history_of c w') /\ history_of r w' = history_of r w /\
    (forall o, look w o <> None -> look w' o = look w o) /\
    (forall o w1 res r1 w2, call_recorder r o w1 = (res, r1, w2) -> history_of c w2 = history_of c w1) /\
    forall o w1 res c1 w2, call_recorder c o w1 = (res, c1, w2) -> history_of r w2 = history_of r w1.
  Proof.
    intros D L H. unfold deepcopy_recorder in D. destruct (recorder (r_target r) (r_predicate r) w) as [c0 w0] eqn:E0.
    destruct (recorder_new _ _ _ _ _ E0) as (R1 & R2 & (ext & R3) & R4 & R5 & _).
    destruct (deepcopy_entries (history_of r w0) w0) as [l w1] eqn:D1. cbn [new_list] in D. injection D as <- <-. cbn [r_target r_predicate r_call_number r_artifacts].
    assert (HH : history_of r w0 = history_of r w) by (unfold history_of; rewrite R3, app_nth1 by exact L; reflexivity).
    assert (LK : forall o, look w0 o = look w o) by (intros [v|k]; cbn; [reflexivity|now rewrite R1]).
    assert (X0 : extends w0 w0) by (repeat split; exists []; now rewrite app_nil_r).
    destruct (deepcopy_entries_spec (history_of r w0) w0 w0 l w1 X0) as [X1 F1]; [|exact D1|].
    { intros e He. rewrite !LK. apply H. now rewrite <- HH. }
    assert (NE : length (lists w1) <> r_history r).
    { destruct X1 as (X1 & _). rewrite X1, R3, app_length. lia. }
    assert (LW : forall o, look {| arrays := arrays w1; lists := lists w1 ++ [l]; env := env w1 |} o = look w1 o) by (intros [v|k]; reflexivity).
    split; [exact R4|]. split; [exact R5|]. split; [reflexivity|]. split; [|split; [|split; [|split]]].
    - unfold history_of at 2. cbn [r_history lists]. rewrite app_nth2, Nat.sub_diag by lia. cbn [nth]. rewrite <- HH. eapply Forall2_imp; [|exact F1].
      intros e e' (P1 & P2 & (P3 & P4 & P5) & (P6 & P7 & P8)). rewrite !LK in *. split; [exact P1|]. split; [exact P2|]. unfold fresh_copy. rewrite !LW, P4, P7, <- R1. auto.
    - unfold history_of. cbn [lists]. rewrite app_nth1; [|destruct X1 as (-> & _); rewrite R3, app_length; lia]. destruct X1 as (-> & _). exact HH.
    - intros o Ho. rewrite LW, (extends_look w0 w1 o X1) by (rewrite LK; exact Ho). apply LK.
    - intros o u res r1 u' C. unfold history_of. cbn [r_history]. eapply call_lists; [exact C|]. exact NE.
    - intros o u res r1 u' C. unfold history_of. eapply call_lists; [exact C|]. cbn [r_history]. auto.
  Qed.
End Deepcopy.

(** A recorder with one recorded call, and its deep copy: the copy records a second call. *)
Example deepcopy_example :
  let f := Fn (A := list Z) (V := Z) (E := unit) (fun c _ => {| o_ret := Ok (RVal 7%Z); o_arg := match c with CArr a => a | CImm _ => [] end; o_events := []; o_env := tt |}) false None in
  let '(r, w) := recorder f always {| arrays := []; lists := []; env := tt |} in
  let '(o, w) := alloc w [1%Z] in
  let '(_, r, w) := call_recorder r o w in
  let '(c, w) := deepcopy_recorder r w in
  let '(_, c, w) := call_recorder c o w in
  (map e_call (history_of r w), map e_call (history_of c w), r_history r <? length (lists w), map e_params (history_of r w ++ history_of c w)) = ([0], [0; 1], true, [Ref 1; Ref 2; Ref 3]).
Proof. vm_compute. reflexivity. Qed.
Print Assumptions C56_deepcopy.
