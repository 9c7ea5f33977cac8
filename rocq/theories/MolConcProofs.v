(** The invariant of processes that save molecules at the same time. *)
From Coq Require Import String ZArith Lia.
From Verif Require Import Base BaseFacts CostModel MolFileModel MolFileSpec MolFileProofs MolFileProps MolFileProps2 MolConcModel MolConcSpec.
Open Scope list_scope.

Section Proofs.
  Context {V : Type} (jobs : list (string * molecule V)) (fs0 : files V).
  Hypothesis Hnew : new_names jobs fs0.
  Hypothesis Hsav : savable jobs.
  Notation prov := (known jobs fs0).
  Definition expectation : Type := string * (h5 V -> Prop).
  Definition on (k : string) (m : molecule V) (y : h5 V) : Prop :=
    exists o, y = of_option o /\ (forall v, dget String.eqb k (loaded m) = Some v -> o = Some v) /\ (forall v, o = Some v -> prov k v).
  Definition full (m : molecule V) (d : list (string * V)) : list expectation :=
    map (fun e => (fst e, if existsb (String.eqb (fst e)) on_demand then on (fst e) m else eq (snd e))) (the_file m [] d).
  Definition fits (e : expectation) (x : string * h5 V) : Prop := fst x = fst e /\ snd e (snd x).
  Definition complete (m : molecule V) (f : list (string * h5 V)) : Prop := exists d, general_calculations m = Calculations d /\ NoDup (dkeys d) /\ Forall2 fits (full m d) f.

  Inductive plan (tmp : string) (m : molecule V) : list action -> list expectation -> Prop :=
  | plan_end : plan tmp m [lift remove_old; lift (move_temporary tmp)] []
  | plan_field step key x rest ex : (forall lo fs, step (with_loaded m lo, fs) = put_dataset tmp key x (with_loaded m lo, fs)) -> plan tmp m rest ex ->
      plan tmp m (lift step :: rest) ((key, eq x) :: ex)
  | plan_both k rest ex : In k on_demand -> plan tmp m rest ex -> plan tmp m (pick k :: create tmp k :: rest) ((k, on k m) :: ex).
  Lemma plan_all tmp m d : general_calculations m = Calculations d -> plan tmp m (tl (save_actions tmp)) (full m d).
  Proof.
    intros G. unfold save_actions, full, the_file. cbn -[on on_demand lift pick create field energy general_keys general_values remove_old move_temporary].
    repeat match goal with |- context [existsb ?a ?b] => let r := eval vm_compute in (existsb a b) in change (existsb a b) with r; cbv iota end.
    repeat first [apply plan_end | apply plan_both; [cbn; tauto|] | apply plan_field; [intros; try reflexivity|]].
    - unfold general_keys, calculations. cbn [fst general_calculations with_loaded]. rewrite G. destruct d; reflexivity.
    - unfold general_values, calculations. cbn [fst general_calculations with_loaded]. rewrite G. destruct d; reflexivity.
  Qed.
  Lemma plan_length tmp m rest ex : plan tmp m rest ex -> 2 <= length rest.
  Proof. induction 1; cbn [length]; lia. Qed.

  (** what the process has in memory *)
  Definition memory (m : molecule V) (lo : list (string * V)) : Prop :=
    (forall k v, dget String.eqb k (loaded m) = Some v -> dget String.eqb k lo = Some v) /\ (forall k v, In k on_demand -> dget String.eqb k lo = Some v -> prov k v).
  Inductive phase (tmp : string) (m : molecule V) (fs : files V) : @process V -> Prop :=
  | ph_start : phase tmp m fs (start (tmp, m))
  | ph_fill lo r rest d before ex f : general_calculations m = Calculations d -> NoDup (dkeys d) -> plan tmp m rest ex -> full m d = before ++ ex -> Forall2 fits before f ->
      dget String.eqb (path tmp) fs = Some f -> memory m lo -> phase tmp m fs {| object := with_loaded m lo; picked := r; pending := rest; failure := None |}
  | ph_mid lo r k rest d before ex f : general_calculations m = Calculations d -> NoDup (dkeys d) -> plan tmp m rest ex -> full m d = before ++ (k, on k m) :: ex -> Forall2 fits before f ->
      dget String.eqb (path tmp) fs = Some f -> memory m lo -> In k on_demand -> (forall v, r = Some v -> dget String.eqb k lo = Some v) -> (r = None -> dget String.eqb k (loaded m) = None) ->
      phase tmp m fs {| object := with_loaded m lo; picked := r; pending := create tmp k :: rest; failure := None |}
  | ph_move lo r f : complete m f -> dget String.eqb (path tmp) fs = Some f ->
      phase tmp m fs {| object := with_loaded m lo; picked := r; pending := [lift (move_temporary tmp)]; failure := None |}
  | ph_done lo r : dget String.eqb (path tmp) fs = None -> phase tmp m fs {| object := with_loaded m lo; picked := r; pending := []; failure := None |}
  | ph_fail lo r rest k : In k on_demand -> dget String.eqb k (loaded m) = None -> phase tmp m fs {| object := with_loaded m lo; picked := r; pending := rest; failure := Some TypeError |}.
  Lemma phase_same tmp m fs fs' p : dget String.eqb (path tmp) fs' = dget String.eqb (path tmp) fs -> phase tmp m fs p -> phase tmp m fs' p.
  Proof.
    intros E H. destruct H; rewrite <- ?E in *; [apply ph_start|eapply ph_fill; eauto|eapply ph_mid; eauto|eapply ph_move; eauto|now apply ph_done|eapply ph_fail; eauto].
  Qed.

  Definition readable (n : string) (fs : files V) : Prop :=
    dget String.eqb n fs = dget String.eqb n fs0 \/
    exists t m, In (t, m) jobs /\ n = path (filename m) /\ (dget String.eqb n fs = None \/ exists f, dget String.eqb n fs = Some f /\ complete m f).
  Definition private (n : string) : Prop := exists t m, In (t, m) jobs /\ n = path t.

  Lemma complete_get m f k : complete m f -> In k on_demand -> exists o, dget String.eqb k f = Some (of_option o) /\ (forall v, dget String.eqb k (loaded m) = Some v -> o = Some v) /\ (forall v, o = Some v -> prov k v).
  Proof.
    intros (d & G & ND & F) Hk.
    assert (A : forall l (f' : list (string * h5 V)), Forall2 fits l f' -> forall P, dget String.eqb k l = Some P -> exists y, dget String.eqb k f' = Some y /\ P y).
    { induction 1 as [|[a b] [a' y] l l' [Ea Py] HF IH]; intros P H; [discriminate|]. cbn [fst snd] in *. subst a'. cbn [dget] in H |- *. destruct (String.eqb k a); [|now apply IH].
      injection H as <-. now exists y. }
    destruct (A _ _ F (on k m)) as (y & Hy & (o & -> & Q)); [|now exists o].
    clear - Hk. repeat (destruct Hk as [<-|Hk]; [reflexivity|]). destruct Hk.
  Qed.
  Lemma get_prov m lo fs k m1 fs1 v : readable (path (filename m)) fs -> memory m lo -> In k on_demand ->
    get_property k (with_loaded m lo, fs) = ((m1, fs1), Ok v) -> fs1 = fs /\ exists lo1, m1 = with_loaded m lo1 /\ memory m lo1 /\ (forall w, v = Some w -> dget String.eqb k lo1 = Some w) /\
      (v = None -> dget String.eqb k (loaded m) = None) /\ (forall w, dget String.eqb k lo = Some w -> v = Some w).
  Proof.
    intros R [M1 M2] Hk. unfold get_property. cbn [loaded with_loaded]. destruct (dget String.eqb k lo) as [w|] eqn:E.
    - intros H. injection H as <- <- <-. split; [reflexivity|]. exists lo. repeat split; try assumption; [intros w' Hw; congruence|intros C; discriminate|intros w' Hw; congruence].
    - assert (N : dget String.eqb k (loaded m) = None). { destruct (dget String.eqb k (loaded m)) as [w|] eqn:C; [|reflexivity]. apply M1 in C. congruence. }
      destruct (get_from_file (with_loaded m lo) fs k) as [[]|] eqn:G; intros H; injection H as <- <- <-; (split; [reflexivity|]);
        try (exists lo; repeat split; try assumption; intros; congruence).
      exists (dset String.eqb k v0 lo). split; [reflexivity|]. split; [|repeat split; [intros w Hw; injection Hw as <-; apply (dget_dset_same _ str_ok)|congruence|congruence]].
      split.
      + intros k' w Hw. destruct (String.eqb k' k) eqn:Ek; [apply String.eqb_eq in Ek as ->; congruence|]. rewrite (dget_dset_other _ str_ok); [now apply M1|]. intros ->. rewrite String.eqb_refl in Ek. discriminate.
      + intros k' w Hk' Hw. destruct (String.eqb k' k) eqn:Ek.
        * apply String.eqb_eq in Ek as ->. rewrite (dget_dset_same _ str_ok) in Hw. injection Hw as <-. unfold get_from_file in G. cbn [filename with_loaded] in G.
          destruct R as [R|(t & m' & I & En & R)].
          -- rewrite R in G. destruct (dget String.eqb (path (filename m)) fs0) as [f|] eqn:Ef; [|discriminate]. right. exists (path (filename m)), f. now split.
          -- destruct R as [R|(f & R & C)]; rewrite R in G; [discriminate|]. destruct (complete_get m' f k C Hk) as (o & D & _ & P). rewrite D in G. injection G as G. destruct o as [w|]; [|discriminate].
             cbn in G. injection G as <-. now apply P.
        * rewrite (dget_dset_other _ str_ok) in Hw; [now apply (M2 k')|]. intros ->. rewrite String.eqb_refl in Ek. discriminate.
  Qed.

  (** what a step does to the files *)
  Inductive effect (tmp : string) (m : molecule V) (fs : files V) (p : @process V) : @process V -> files V -> Prop :=
  | ef_none p' : (length (pending p') <= 1 -> failure p' = None -> p' = p) -> (length (pending p) = 1 -> failure p = None -> p' = p) -> effect tmp m fs p p' fs
  | ef_write p' f : 2 <= length (pending p) -> 2 <= length (pending p') -> effect tmp m fs p p' (dset String.eqb (path tmp) f fs)
  | ef_remove p' : 2 <= length (pending p) -> length (pending p') = 1 -> failure p' = None -> effect tmp m fs p p' (ddel String.eqb (path (filename m)) fs)
  | ef_move p' f : complete m f -> returned p' -> length (pending p) = 1 -> effect tmp m fs p p' (dset String.eqb (path (filename m)) f (ddel String.eqb (path tmp) fs)).

  Lemma with_loaded_same (m : molecule V) : with_loaded m (loaded m) = m.
  Proof. destruct m. reflexivity. Qed.
  Lemma job_paths t m : In (t, m) jobs -> path (filename m) <> path t.
  Proof. intros I H. apply append_inj in H. destruct Hnew as (_ & N & _). exact (N t m t m I I (eq_sym H)). Qed.
  Lemma memory_start t m : In (t, m) jobs -> memory m (loaded m).
  Proof. intros I. split; [auto|]. intros k v _ H. left. now exists t, m. Qed.

  Lemma step_ok t m fs p p' fs' : In (t, m) jobs -> NoDup (dkeys fs) -> readable (path (filename m)) fs -> phase t m fs p -> advance p fs = (p', fs') ->
    phase t m fs' p' /\ effect t m fs p p' fs'.
  Proof.
    intros I ND R Ph. pose proof (job_paths t m I) as PO. destruct Ph as [|lo r rest d before ex f G Nd Pl Ef Fi D Me|lo r k rest d before ex f G Nd Pl Ef Fi D Me Hk R1 R2|lo r f C D|lo r D|lo r rest k Hk N].
    - (* opening the temporary file *)
      unfold advance, start. cbn [failure pending object picked fst snd]. change (save_actions t) with (lift (open_temporary t) :: tl (@save_actions V t)).
      destruct (Hsav t m I) as (d & G & Nd). pose proof (plan_all t m d G) as Pl. pose proof (plan_length _ _ _ _ Pl) as L. revert Pl L. generalize (tl (@save_actions V t)). intros rest Pl L.
      unfold lift, open_temporary. intros H. injection H as <- <-. split.
      + rewrite <- (with_loaded_same m) at 2. apply (ph_fill t m _ (loaded m) None rest d [] (full m d) []); auto; [apply (dget_dset_same _ str_ok)|now apply (memory_start t)].
      + apply ef_write; cbn [pending length]; lia.
    - (* filling it *)
      destruct Pl as [|step key x rest ex St Pl|k rest ex Hk Pl].
      + unfold advance. cbn [failure pending object picked]. unfold lift, remove_old. intros H. injection H as <- <-. split.
        * apply (ph_move t m _ lo r f).
          -- exists d. rewrite app_nil_r in Ef. rewrite Ef. auto.
          -- rewrite (dget_ddel_other _ str_ok) by congruence. exact D.
        * change (filename (with_loaded m lo)) with (filename m). apply ef_remove; cbn; auto.
      + unfold advance. cbn [failure pending object picked]. unfold lift. rewrite St. unfold put_dataset. rewrite D. intros H. injection H as <- <-. pose proof (plan_length _ _ _ _ Pl) as L. split.
        * apply (ph_fill t m _ lo r rest d (before ++ [(key, eq x)]) ex (f ++ [(key, x)])); auto; [rewrite <- app_assoc; exact Ef| |apply (dget_dset_same _ str_ok)].
          apply Forall2_app; [exact Fi|]. constructor; [split; reflexivity|constructor].
        * apply ef_write; cbn [pending length]; lia.
      + unfold advance. cbn [failure pending object picked]. unfold pick. match goal with |- context [get_property k ?z] => destruct (get_property k z) as [[m1 fs1] [v|e]] eqn:E end; [|exfalso; clear -E; unfold get_property in E;
          destruct (dget _ _ _) in E; [discriminate|]; destruct (get_from_file _ _ _) as [[]|] in E; discriminate].
        destruct (get_prov m lo fs k m1 fs1 v R Me Hk E) as (-> & lo1 & -> & Me1 & Q1 & Q2 & _). intros H. injection H as <- <-. split.
        * apply (ph_mid t m _ lo1 v k rest d before ex f); auto.
        * pose proof (plan_length _ _ _ _ Pl). apply ef_none; cbn [pending length]; intros; lia.
    - unfold advance. cbn [failure pending object picked]. unfold create. pose proof (plan_length _ _ _ _ Pl) as L. match goal with |- context [get_property k ?z] => destruct (get_property k z) as [[m1 fs1] [v|e]] eqn:E end; [|exfalso; clear -E; unfold get_property in E;
        destruct (dget _ _ _) in E; [discriminate|]; destruct (get_from_file _ _ _) as [[]|] in E; discriminate].
      destruct (get_prov m lo fs k m1 fs1 v R Me Hk E) as (-> & lo1 & -> & Me1 & Q1 & Q2 & Q3).
      assert (Fill : forall o, r = o -> (forall w, o = Some w -> v = Some w) -> (o = None -> v = None) ->
        forall q fs2, (let '(m2, r2, fs3, o2) := lift (put_dataset t k (of_option r)) (with_loaded m lo1, r, fs) in match o2 with Ok tt => ({| object := m2; picked := r2; pending := rest; failure := None |}, fs3)
            | Err e => ({| object := m2; picked := r2; pending := rest; failure := Some e |}, fs3) end) = (q, fs2) -> phase t m fs2 q /\ effect t m fs {| object := with_loaded m lo; picked := r; pending := create t k :: rest; failure := None |} q fs2).
      { intros o -> O1 O2 q fs2. unfold lift, put_dataset. rewrite D. intros H. injection H as <- <-. split.
        - apply (ph_fill t m _ lo1 o rest d (before ++ [(k, on k m)]) ex (f ++ [(k, of_option o)])); auto; [rewrite <- app_assoc; exact Ef| |apply (dget_dset_same _ str_ok)].
          apply Forall2_app; [exact Fi|]. constructor; [|constructor]. split; [reflexivity|]. exists o. split; [reflexivity|]. split.
          + intros w Hw. destruct o as [w'|]; [|rewrite (R2 eq_refl) in Hw; discriminate]. destruct Me as [Me _]. apply Me in Hw. rewrite (R1 w' eq_refl) in Hw. exact Hw.
          + intros w ->. apply (proj2 Me k w Hk). now apply R1.
        - apply ef_write; cbn [pending length]; lia. }
      destruct r as [x|]; [|destruct v as [w|]].
      + apply (Fill (Some x) eq_refl); [intros w Hw; injection Hw as <-; apply Q3; now apply R1|discriminate].
      + intros H. injection H as <- <-. split; [apply (ph_fail t m fs lo1 None rest k); auto|]. apply ef_none; cbn [pending failure length]; [discriminate|]. intros C. lia.
      + apply (Fill None eq_refl); [discriminate|reflexivity].
    - unfold advance. cbn [failure pending object picked]. unfold lift, move_temporary. rewrite D. intros H. injection H as <- <-. change (filename (with_loaded m lo)) with (filename m). split.
      + apply ph_done. rewrite (dget_dset_other _ str_ok) by congruence. now apply (dget_ddel_same _ str_ok).
      + apply (ef_move t m fs _ _ f C); [split; reflexivity|reflexivity].
    - unfold advance. cbn [failure pending object picked]. intros H. injection H as <- <-. split; [now apply ph_done|]. now apply ef_none.
    - unfold advance. cbn [failure pending object picked]. intros H. injection H as <- <-. split; [now apply (ph_fail t m fs lo r rest k)|]. apply ef_none; cbn [failure]; [discriminate|discriminate].
  Qed.
End Proofs.
