(** Proofs about task lists: splitting and merging of results (C39). *)
From Coq Require Import Permutation Sorted Lia.
From Verif Require Import Base BaseFacts MatModel OpModel OpProofs EstModel.
Open Scope list_scope.
Local Open Scope nat_scope.

(** ** fill *)
Section Fill.
  Context {V : Type}.
  Definition put (i : nat) (v : V) (full : list (option V)) : list (option V) :=
    firstn i full ++ match skipn i full with [] => [] | _ :: r => Some v :: r end.
  Lemma put_nth i v full j : i < length full -> nth_error (put i v full) j = if Nat.eqb j i then Some (Some v) else nth_error full j.
  Proof.
    unfold put. revert i j; induction full as [|x full IH]; intros i j H; cbn in H; [lia|]. destruct i as [|i]; cbn [firstn skipn app].
    - destruct j; reflexivity.
    - destruct j as [|j]; [reflexivity|]. cbn [nth_error]. rewrite IH by lia. reflexivity.
  Qed.
  Lemma put_length i v full : length (put i v full) = length full.
  Proof.
    unfold put. revert i; induction full as [|x full IH]; intros [|i]; cbn; auto.
  Qed.
  Lemma fill_length l : forall idx full, length (fill (V := V) l idx full) = length full.
  Proof. induction l as [|v l IH]; intros [|i idx] full; cbn [fill]; auto. rewrite IH. apply put_length. Qed.
  Lemma fill_other l : forall idx full j, (forall i, In i idx -> i < length full) -> ~ In j idx -> nth_error (fill (V := V) l idx full) j = nth_error full j.
  Proof.
    induction l as [|v l IH]; intros [|i idx] full j H N; cbn [fill]; auto. rewrite IH.
    - fold (put i v full). rewrite put_nth by (apply H; left; auto). destruct (Nat.eqb_spec j i) as [E|_]; [subst; exfalso; apply N; left; auto|auto].
    - intros k Hk. fold (put i v full). rewrite put_length. apply H; right; auto.
    - intros Hj; apply N; right; auto.
  Qed.
  Lemma fill_at l : forall idx full k i v, NoDup idx -> (forall i, In i idx -> i < length full) ->
    nth_error idx k = Some i -> nth_error l k = Some v -> nth_error (fill (V := V) l idx full) i = Some (Some v).
  Proof.
    induction l as [|w l IH]; intros [|i0 idx] full k i v ND H Hi Hv; try (destruct k; discriminate). inversion ND as [|? ? Nin ND']; subst.
    cbn [fill]. fold (put i0 w full). assert (H' : forall i, In i idx -> i < length (put i0 w full)) by (intros; rewrite put_length; apply H; right; auto).
    destruct k as [|k]; cbn in Hi, Hv.
    - injection Hi as ->. injection Hv as ->. rewrite fill_other by auto. rewrite put_nth by (apply H; left; auto). rewrite Nat.eqb_refl. auto.
    - eapply IH; eauto.
  Qed.
End Fill.

(** ** split *)
Lemma mapM_nth {X Y} (f : X -> result Y) l l' : mapM f l = Ok l' -> length l' = length l /\ forall k x, nth_error l k = Some x -> exists y, f x = Ok y /\ nth_error l' k = Some y.
Proof.
  revert l'; induction l as [|x l IH]; intros l' H; cbn in H.
  - injection H as <-. split; [auto|]. intros k y Hk. destruct k; discriminate.
  - destruct (f x) as [y|] eqn:E; cbn in H; [|discriminate]. destruct (mapM f l) as [l1|] eqn:E1; cbn in H; [|discriminate]. injection H as <-.
    destruct (IH l1 eq_refl) as [I1 I2]. split; [cbn; auto|]. intros [|k] z Hz; cbn in Hz |- *; [injection Hz as <-; eauto|auto].
Qed.
Lemma mapM_total {X Y} (f : X -> result Y) l : (forall x, In x l -> exists y, f x = Ok y) -> exists l', mapM f l = Ok l'.
Proof.
  induction l as [|x l IH]; intros H; cbn; [eauto|]. destruct (H x (or_introl eq_refl)) as [y ->]. destruct IH as [l' ->]; [intros; apply H; right; auto|]. cbn. eauto.
Qed.

Section Split.
  Context {K : cring} {A : Type} (aeqb : A -> A -> bool) {Circ : Type}.
  Notation tk := (task (sop A K) Circ).
  Notation notm := (not_measured (K := K) (A := A) aeqb (Circ := Circ)).
  Definition positions (p : tk -> bool) (n : nat) (l : list tk) : list nat := map fst (filter (fun ie => p (snd ie)) (combine (seq n (length l)) l)).

  Lemma split_eq tasks : split_estimation_tasks_to_measure aeqb tasks =
    (filter (fun e => negb (notm e)) tasks, filter notm tasks, positions (fun e => negb (notm e)) 0 tasks, positions notm 0 tasks).
  Proof.
    unfold split_estimation_tasks_to_measure, positions.
    assert (G : forall (l : list tk) n yes no iyes ino,
      fold_left (fun st (ie : nat * tk) =>
        let '(yes, no, iyes, ino) := st in
        if notm (snd ie) then (yes, no ++ [snd ie], iyes, ino ++ [fst ie]) else (yes ++ [snd ie], no, iyes ++ [fst ie], ino))
        (combine (seq n (length l)) l) (yes, no, iyes, ino) =
      (yes ++ filter (fun e => negb (notm e)) l, no ++ filter notm l,
       iyes ++ map fst (filter (fun ie => negb (notm (snd ie))) (combine (seq n (length l)) l)), ino ++ map fst (filter (fun ie => notm (snd ie)) (combine (seq n (length l)) l)))).
    { induction l as [|e l IH]; intros n yes no iyes ino; cbn [length seq combine fold_left filter map].
      - rewrite !app_nil_r. reflexivity.
      - cbn [fst snd]. destruct (notm e); cbn [negb]; rewrite IH; cbn [map fst]; rewrite <- !app_assoc; reflexivity. }
    rewrite G. reflexivity.
  Qed.

  Lemma positions_nth p l : forall n i e, nth_error l i = Some e -> p e = true ->
    nth_error (positions p n l) (length (filter p (firstn i l))) = Some (n + i) /\ nth_error (filter p l) (length (filter p (firstn i l))) = Some e.
  Proof.
    unfold positions. induction l as [|x l IH]; intros n i e Hi Hp; [destruct i; discriminate|]. destruct i as [|i]; cbn [nth_error] in Hi.
    - injection Hi as ->. cbn. rewrite Hp. cbn. rewrite Nat.add_0_r. auto.
    - destruct (IH (S n) i e Hi Hp) as [I1 I2]. cbn [length seq combine filter firstn snd]. destruct (p x) eqn:E; cbn [map length nth_error fst]; rewrite I1, I2; split; auto; f_equal; lia.
  Qed.
  Lemma positions_In p l n j : In j (positions p n l) <-> exists i e, j = n + i /\ nth_error l i = Some e /\ p e = true.
  Proof.
    unfold positions. revert n; induction l as [|x l IH]; intros n.
    - cbn. split; [intros []|intros (i & e & _ & H & _); destruct i; discriminate].
    - cbn [length seq combine filter snd]. destruct (p x) eqn:E; cbn [map fst In]; rewrite IH; split.
      + intros [<-|(i & e & -> & Hi & Hp)]; [exists 0, x; rewrite Nat.add_0_r; auto|exists (S i), e; split; [lia|auto]].
      + intros ([|i] & e & -> & Hi & Hp); [left; lia|right; exists i, e; split; [lia|auto]].
      + intros (i & e & -> & Hi & Hp). exists (S i), e; split; [lia|auto].
      + intros ([|i] & e & -> & Hi & Hp); [cbn in Hi; congruence|exists i, e; split; [lia|auto]].
  Qed.
  Lemma positions_sorted p l : forall n, StronglySorted lt (positions p n l).
  Proof.
    unfold positions. induction l as [|x l IH]; intros n; cbn [length seq combine filter snd]; [constructor|].
    destruct (p x); cbn [map fst]; [|apply IH]. constructor; [apply IH|]. apply Forall_forall. intros j Hj. apply (positions_In p l (S n) j) in Hj as (i & _ & -> & _). lia.
  Qed.
  Lemma sorted_NoDup (l : list nat) : StronglySorted lt l -> NoDup l.
  Proof. induction 1 as [|x l H IH F]; constructor; auto. intros Hin. rewrite Forall_forall in F. specialize (F _ Hin). lia. Qed.
  Lemma positions_length p l n : length (positions p n l) = length (filter p l).
  Proof. unfold positions. rewrite map_length. revert n; induction l as [|x l IH]; intros n; cbn; auto. destruct (p x); cbn; auto. Qed.
  Lemma filter_split_length {X} (p : X -> bool) l : length (filter p l) + length (filter (fun x => negb (p x)) l) = length l.
  Proof. induction l as [|x l IH]; cbn; auto. destruct (p x); cbn; lia. Qed.
End Split.

Section Avg.
  Context {K : cring} {A : Type} (aeqb : A -> A -> bool) (Haeqb : eqb_spec_of aeqb) (small : K -> bool) {Circ Meas EV St : Type}.
  Notation tk := (task (sop A K) Circ).
  Notation notm := (not_measured (K := K) (A := A) aeqb (Circ := Circ)).
  Context (exact_value : K -> EV) (to_z : A -> option zact).
  Context (run : St -> list Circ -> list (option Z) -> result (St * list Meas)) (evs : Meas -> isop K -> result EV).
  Notation avg := (estimate_by_averaging aeqb small exact_value to_z run evs).

  (** the value of a task that is not measured *)
  Definition exact_of (e : tk) : K := match t_op e with [([], c)] => c | _ => k0 end.
  Lemma non_measured_ok (tasks : list tk) : (forall e, In e tasks -> notm e = true) ->
    evaluate_non_measured aeqb exact_value tasks = Ok (map (fun e => exact_value (exact_of e)) tasks).
  Proof.
    intros H. unfold evaluate_non_measured. induction tasks as [|e tasks IH]; [reflexivity|]. cbn [mapM map].
    assert (He : notm e = true) by (apply H; left; auto). rewrite IH by (intros; apply H; right; auto). clear IH H.
    destruct e as [o0 ci sh]. unfold not_measured, exact_of, has_constant, dmem in *. cbn [t_op t_shots t_circ] in *.
    destruct o0 as [|[t c] [|x o]]; cbn [length] in *.
    - cbn in *. destruct (sh) as [z|]; [|discriminate]. apply Z.eqb_eq in He. subst z. cbn. reflexivity.
    - cbn [dget] in *. destruct t as [|f t].
      + rewrite (eqb_spec_refl _ (OpProofs.term_eqb_spec aeqb Haeqb)). reflexivity.
      + assert (F : term_eqb aeqb [] (f :: t) = false) by reflexivity. rewrite F in *. cbn in *. destruct (sh) as [z|]; [|discriminate].
        apply Z.eqb_eq in He. subst z. reflexivity.
    - cbn in He. assert (L : (1 <? S (S (length o))) = true) by (apply Nat.ltb_lt; lia). rewrite L. cbn [orb].
      destruct (sh) as [z|]; [|discriminate]. apply Z.eqb_eq in He. subst z. cbn. destruct t; reflexivity.
  Qed.

  Theorem avg_spec s tasks s' out : (forall s cs ns s' ms, run s cs ns = Ok (s', ms) -> length ms = length cs) ->
    avg s tasks = Ok (s', out) ->
    let yes := filter (fun e => negb (notm e)) tasks in
    exists ms, (yes = [] /\ s' = s \/ yes <> [] /\ run s (map t_circ yes) (map t_shots yes) = Ok (s', ms)) /\
      length out = length tasks /\
      forall i e, nth_error tasks i = Some e ->
        if notm e then nth_error out i = Some (Some (exact_value (exact_of e)))
        else exists m o v, nth_error ms (length (filter (fun e => negb (notm e)) (firstn i tasks))) = Some m /\
               change_operator_type small to_z (t_op e) = Ok o /\ evs m o = Ok v /\ nth_error out i = Some (Some v).
  Proof.
    intros Hrun E yes. unfold estimate_by_averaging in E. rewrite split_eq in E. fold yes in E.
    rewrite non_measured_ok in E by (intros e He; apply filter_In in He; tauto). cbn [rbind] in E.
    set (no := filter notm tasks) in *. set (full := fill (map _ no) _ (repeat None _)) in E.
    assert (LF : length full = length tasks).
    { unfold full. rewrite fill_length, repeat_length. apply filter_split_length. }
    assert (PL : forall p i, In i (positions (K := K) (Circ := Circ) p 0 tasks) -> i < length tasks).
    { intros p i Hi. apply positions_In in Hi as (j & e & -> & Hj & _). apply nth_error_Some. cbn. congruence. }
    assert (ND : forall p, NoDup (positions (K := K) (Circ := Circ) p 0 tasks)) by (intros; apply sorted_NoDup, positions_sorted).
    assert (NM : forall i e l, nth_error tasks i = Some e -> notm e = true ->
       nth_error (fill l (positions (fun e => negb (notm e)) 0 tasks) full) i = Some (Some (exact_value (exact_of e)))).
    { intros i e l Hi He. rewrite fill_other.
      - unfold full. destruct (positions_nth notm tasks 0 i e Hi He) as [P1 P2]. eapply fill_at; [apply ND| |exact P1|].
        + intros j Hj. rewrite repeat_length. unfold no, yes. rewrite filter_split_length. eapply PL; eauto.
        + unfold no. rewrite nth_error_map. rewrite P2. reflexivity.
      - intros j Hj. rewrite LF. eapply PL; eauto.
      - intros Hj. apply positions_In in Hj as (j & e' & -> & Hj & He'). cbn in Hi. rewrite Hj in Hi. injection Hi as ->. rewrite He in He'. discriminate. }
    destruct yes as [|y0 ys] eqn:Ey.
    - cbn [rbind fst snd] in E. injection E as <- <-. exists []. split; [auto|]. split; [exact LF|].
      intros i e Hi. destruct (notm e) eqn:He; [exact (NM i e [] Hi He)|]. exfalso. assert (F : In e yes) by (unfold yes; apply filter_In; rewrite He; split; [eapply nth_error_In; eauto|auto]).
      rewrite Ey in F. destruct F.
    - rewrite <- Ey in E. destruct (run s (map t_circ yes) (map t_shots yes)) as [[s1 ms]|] eqn:ER; cbn [rbind fst snd] in E; [|discriminate].
      destruct (mapM _ _) as [l|] eqn:EM in E; cbn [rbind fst snd] in E; [|discriminate]. injection E as <- <-.
      exists ms. split; [right; rewrite <- Ey; split; [rewrite Ey; discriminate|auto]|]. split; [rewrite fill_length; exact LF|].
      intros i e Hi. destruct (notm e) eqn:He; [apply NM; auto|].
      destruct (positions_nth (fun e => negb (notm e)) tasks 0 i e Hi) as [P1 P2]; [rewrite He; auto|]. fold yes in P2. set (k := length (filter _ (firstn i tasks))) in *.
      apply Hrun in ER. rewrite map_length in ER. assert (Hk : k < length ms). { rewrite ER. apply nth_error_Some. rewrite P2. discriminate. }
      destruct (nth_error ms k) as [m|] eqn:Em; [|apply nth_error_None in Em; lia].
      destruct (mapM_nth _ _ _ EM) as [_ HN]. specialize (HN k (t_op e, m)). destruct HN as (v & Ev & Hv).
      { assert (G : forall (X Y : Type) (a : list X) (b : list Y) k x y, nth_error a k = Some x -> nth_error b k = Some y -> nth_error (combine a b) k = Some (x, y)).
        { clear. induction a as [|a0 a IH]; intros [|b0 b] [|k] x y; cbn; try discriminate; auto. congruence. }
        apply G; auto. rewrite nth_error_map, P2. reflexivity. }
      cbn [fst snd] in Ev. destruct (change_operator_type small to_z (t_op e)) as [o|]; cbn [rbind] in Ev; [|discriminate].
      exists m, o, v. do 3 (split; [auto|]). eapply fill_at; [apply ND| |exact P1|exact Hv]. intros j Hj. rewrite LF. eapply PL; eauto.
  Qed.
End Avg.
