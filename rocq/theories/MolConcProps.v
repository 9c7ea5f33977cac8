(** C107: processes that save molecules at the same time. *)
From Coq Require Import String ZArith Lia.
From Verif Require Import Base BaseFacts CostModel MolFileModel MolFileSpec MolFileProofs MolFileProps MolFileProps2 MolConcModel MolConcSpec MolConcProofs MolConcInv.
Open Scope list_scope.

Section Props.
  Context {V : Type}.
  Implicit Types (jobs : list (string * molecule V)) (m : molecule V) (fs : files V).

  (** ** One process alone does what save does *)
  Fixpoint in_order (l : list (@action V)) : action := match l with [] => retM tt | a :: l' => do! _ := a in in_order l' end.
  Inductive refines : list (@action V) -> list (M (molecule V * files V) unit) -> Prop :=
  | ref_nil : refines [] []
  | ref_lift step a b : refines a b -> refines (lift step :: a) (step :: b)
  | ref_both tmp k a b : refines a b -> refines (pick k :: create tmp k :: a) (property tmp k :: b).
  Lemma get_again k m fs m1 fs1 v : get_property k (m, fs) = ((m1, fs1), Ok v) -> get_property k (m1, fs1) = ((m1, fs1), Ok v).
  Proof.
    unfold get_property. destruct (dget String.eqb k (loaded m)) as [w|] eqn:E; [intros H; injection H as <- <- <-; now rewrite E|].
    destruct (get_from_file m fs k) as [[]|] eqn:G; intros H; injection H as <- <- <-; rewrite ?E, ?G; try reflexivity.
    cbn [loaded with_loaded]. rewrite (dget_dset_same _ str_ok). reflexivity.
  Qed.
  Lemma get_never_fails k m fs : exists m1 v, get_property k (m, fs) = ((m1, fs), Ok v).
  Proof. unfold get_property. destruct (dget _ _ _) as [w|]; [now eexists _, _|]. destruct (get_from_file m fs k) as [[]|]; now eexists _, _. Qed.
  Lemma refines_run a b : refines a b -> forall m r fs, exists r', in_order a ((m, r), fs) = (((fst (fst (in_sequence b (m, fs))), r'), snd (fst (in_sequence b (m, fs)))), snd (in_sequence b (m, fs))).
  Proof.
    induction 1 as [|step a b H IH|tmp k a b H IH]; intros m r fs.
    - exists r. reflexivity.
    - cbn [in_order in_sequence]. unfold bindM, lift. destruct (step (m, fs)) as [[m1 fs1] [[]|e]]; cbn [fst snd]; [apply IH|exists r; reflexivity].
    - destruct (get_never_fails k m fs) as (m1 & v & E). pose proof (get_again _ _ _ _ _ _ E) as E'.
      assert (Hp : pick k ((m, r), fs) = (((m1, v), fs), Ok tt)) by (unfold pick; match goal with |- context [get_property k ?z] => change (get_property k z) with (get_property k (m, fs)) end; now rewrite E).
      assert (Hc : create tmp k ((m1, v), fs) = lift (put_dataset tmp k (of_option v)) ((m1, v), fs)) by (unfold create; match goal with |- context [get_property k ?z] => change (get_property k z) with (get_property k (m1, fs)) end; rewrite E'; destruct v; reflexivity).
      assert (Hq : property tmp k (m, fs) = put_dataset tmp k (of_option v) (m1, fs)) by (unfold property, bindM; match goal with |- context [get_property k ?z] => change (get_property k z) with (get_property k (m, fs)) end; now rewrite E).
      cbn [in_order in_sequence]. unfold bindM. rewrite Hp, Hc, Hq. unfold lift, put_dataset. apply IH.
  Qed.
  Lemma save_refines tmp : refines (save_actions tmp) (save_steps tmp).
  Proof. unfold save_actions, save_steps, write_steps. cbn -[lift pick create property field energy general_keys general_values remove_old move_temporary open_temporary]. repeat (apply ref_both || apply ref_lift). apply ref_nil. Qed.
  Lemma run_failed n p fs : failure p <> None -> run (repeat 0 n) ([p], fs) = ([p], fs).
  Proof.
    intros F. unfold run. induction n as [|n IH]; [reflexivity|]. cbn [repeat fold_left]. unfold tick at 2. cbn [fst snd nth_error]. unfold advance. destruct (failure p) as [e|] eqn:E; [|contradiction].
    cbn [replace_nth]. exact IH.
  Qed.
  Lemma run_alone l : forall m r fs, exists rest r', run (repeat 0 (length l)) ([{| object := m; picked := r; pending := l; failure := None |}], fs) =
    ([{| object := fst (fst (fst (in_order l ((m, r), fs)))); picked := r'; pending := rest; failure := match snd (in_order l ((m, r), fs)) with Ok _ => None | Err e => Some e end |}], snd (fst (in_order l ((m, r), fs)))) /\
    ((exists x, snd (in_order l ((m, r), fs)) = Ok x) -> rest = []).
  Proof.
    induction l as [|a l IH]; intros m r fs.
    - exists [], r. split; [reflexivity|reflexivity].
    - cbn [length repeat]. unfold run. cbn [fold_left]. unfold tick at 2. cbn [fst snd nth_error]. unfold advance. cbn [failure pending object picked in_order]. unfold bindM.
      destruct (a ((m, r), fs)) as [[[m1 r1] fs1] [[]|e]]; cbn [fst snd replace_nth].
      + destruct (IH m1 r1 fs1) as (rest & r' & E & Q). exists rest, r'. split; [exact E|exact Q].
      + exists l, r1. split; [|intros [x C]; discriminate C]. refine (run_failed (length l) _ fs1 _). discriminate.
  Qed.
  Lemma alone_general l b m fs : refines l b -> exists p, run (repeat 0 (length l)) ([{| object := m; picked := None; pending := l; failure := None |}], fs) = ([p], snd (fst (in_sequence b (m, fs)))) /\
    object p = fst (fst (in_sequence b (m, fs))) /\ (snd (in_sequence b (m, fs)) = Ok tt -> returned p) /\ (forall e, snd (in_sequence b (m, fs)) = Err e -> failure p = Some e).
  Proof.
    intros H. destruct (run_alone l m None fs) as (rest & r' & E & Q). destruct (refines_run _ _ H m None fs) as (r2 & E2). rewrite E2 in E, Q. cbn [fst snd] in E, Q.
    eexists. split; [exact E|]. cbn [object]. split; [reflexivity|]. split.
    - intros O. split; cbn [pending failure]; [apply Q; now exists tt|now rewrite O].
    - intros e O. cbn [failure]. now rewrite O.
  Qed.
  Lemma actions_count tmp : length (@save_actions V tmp) = 45.
  Proof. reflexivity. Qed.
  (** A process that is alone does exactly what [save] does, for every molecule and all files: 45 steps lead to the same files, the same object and the same outcome. *)
  Theorem C107_alone tmp m fs : exists p, run (repeat 0 45) (launch [(tmp, m)] fs) = ([p], snd (fst (save tmp (m, fs)))) /\ object p = fst (fst (save tmp (m, fs))) /\
    (snd (save tmp (m, fs)) = Ok tt -> returned p) /\ (forall e, snd (save tmp (m, fs)) = Err e -> failure p = Some e).
  Proof.
    rewrite <- (actions_count tmp). unfold launch, save. cbn [map]. unfold start. cbn [fst snd]. pose proof (save_refines tmp) as H. revert H. generalize (@save_actions V tmp) (@save_steps V tmp). intros l b H. exact (alone_general l b m fs H).
  Qed.

  (** ** Any number of processes, any schedule, any crash *)
  Lemma run_app jobs fs a b : run (a ++ b) (launch jobs fs) = run b (run a (launch jobs fs)).
  Proof. unfold run. apply fold_left_app. Qed.
  (** No file is ever half-written under the name of a molecule: it is what it was before, or it is missing, or it holds the whole molecule of one of the processes;
      and every property it shows comes from the memory of a process or from a file that was there before. *)
  Theorem C107_never_torn jobs fs schedule F : new_names jobs fs -> savable jobs -> (forall t m, In (t, m) jobs -> F <> t) ->
    let fs' := files_after jobs fs schedule in
    dget String.eqb (hdf5 F) fs' = dget String.eqb (hdf5 F) fs \/ dget String.eqb (hdf5 F) fs' = None \/
    exists t m, In (t, m) jobs /\ filename m = F /\ holds m fs' /\ (forall k v, In k on_demand -> shows (blank F) fs' k = Some v -> known jobs fs k v).
  Proof.
    intros N S P fs'. pose proof (inv_run jobs fs N S schedule) as I. destruct (inv_files _ _ _ I (hdf5 F)) as [H|(t & m & Im & E & [H|(f & H & C)])].
    - intros t m Im H. apply path_inj in H. exact (P t m Im H).
    - now left.
    - right. now left.
    - right. right. exists t, m. apply path_inj in E as ->. split; [exact Im|]. split; [reflexivity|]. split; [exact (complete_holds jobs fs m _ f C H)|].
      intros k v. exact (complete_known jobs fs m _ f k v C H).
  Qed.
  (** Files that are neither temporary nor of one of the molecules never change. *)
  Theorem C107_others jobs fs schedule n : new_names jobs fs -> savable jobs -> (forall t m, In (t, m) jobs -> n <> hdf5 t /\ n <> hdf5 (filename m)) ->
    dget String.eqb n (files_after jobs fs schedule) = dget String.eqb n fs.
  Proof. intros N S H. exact (inv_other _ _ _ (inv_run jobs fs N S schedule) n H). Qed.
  (** When a file that was there before, or that a process has saved, is missing, then a process is just between removing the old file and moving the new one. *)
  Theorem C107_gap jobs fs schedule i t m : new_names jobs fs -> savable jobs -> nth_error jobs i = Some (t, m) ->
    dget String.eqb (hdf5 (filename m)) (files_after jobs fs schedule) = None ->
    (dget String.eqb (hdf5 (filename m)) fs <> None \/ exists p, nth_error (processes jobs fs schedule) i = Some p /\ returned p) ->
    exists j t' m' p', nth_error jobs j = Some (t', m') /\ filename m' = filename m /\ nth_error (processes jobs fs schedule) j = Some p' /\ failure p' = None /\ length (pending p') = 1.
  Proof.
    intros N S Hj D W. destruct (inv_gap _ _ _ (inv_run jobs fs N S schedule) (hdf5 (filename m)) t m (nth_error_In _ _ Hj) eq_refl D) as (j & t' & m' & p' & A & B & C & E & G).
    - destruct W as [W|(p & Hp & R)]; [now left|right]. exists i, t, m, p. auto.
    - exists j, t', m', p'. auto.
  Qed.
  (** A process fails only with TypeError, and only if some property of its molecule is not in memory. *)
  Theorem C107_failure jobs fs schedule i t m p e : new_names jobs fs -> savable jobs -> nth_error jobs i = Some (t, m) -> nth_error (processes jobs fs schedule) i = Some p -> failure p = Some e ->
    e = TypeError /\ ~ in_memory m.
  Proof.
    intros N S Hj Hp F. pose proof (inv_phase _ _ _ (inv_run jobs fs N S schedule) i t m p Hj Hp) as Ph. destruct Ph; try discriminate F. injection F as <-. split; [reflexivity|].
    intros M. exact (M k H H0).
  Qed.
  Lemma advance_length (p : @process V) fs p' fs' : advance p fs = (p', fs') -> failure p' <> None \/ (failure p = None /\ length (pending p') = pred (length (pending p))).
  Proof.
    unfold advance. destruct (failure p) as [e|] eqn:Fp; [intros H; injection H as <- <-; left; congruence|]. destruct (pending p) as [|a l] eqn:P.
    - intros H. injection H as <- <-. right. rewrite P. auto.
    - destruct (a ((object p, picked p), fs)) as [[[m1 r1] fs1] [[]|e]]; intros H; injection H as <- <-; [right; auto|left; discriminate].
  Qed.
  Lemma advance_failed (p : @process V) fs p' fs' : advance p fs = (p', fs') -> failure p <> None -> p' = p.
  Proof. unfold advance. destruct (failure p); [|contradiction]. intros H _. now injection H as <- <-. Qed.
  Lemma run_progress schedule : forall (s : list (@process V) * files V) i p, nth_error (fst s) i = Some p ->
    exists p', nth_error (fst (run schedule s)) i = Some p' /\ (failure p' <> None \/ length (pending p') = length (pending p) - count_occ Nat.eq_dec schedule i).
  Proof.
    induction schedule as [|j l IH]; intros s i p Hp.
    - exists p. split; [exact Hp|]. right. cbn. lia.
    - unfold run. cbn [fold_left]. fold (run l (tick j s)). unfold tick. destruct (nth_error (fst s) j) as [q|] eqn:Hq.
      + destruct (advance q (snd s)) as [q' fs'] eqn:A. cbn [count_occ]. destruct (Nat.eq_dec j i) as [->|D].
        * rewrite Hp in Hq. injection Hq as <-. destruct (IH (replace_nth i q' (fst s), fs') i q') as (p' & E & Q); [cbn [fst]; exact (replace_same _ _ _ _ Hp)|]. exists p'. split; [exact E|].
          destruct (advance_length _ _ _ _ A) as [F|[F L]].
          -- left. clear - E F IH Hp. revert E. assert (G : forall l s, nth_error (fst s) i = Some q' -> nth_error (fst (run l s)) i = Some q').
             { clear - F. induction l as [|k l IHl]; intros s Hs; [exact Hs|]. unfold run. cbn [fold_left]. fold (run l (tick k s)). apply IHl. unfold tick. destruct (nth_error (fst s) k) as [z|] eqn:Hz; [|exact Hs].
               destruct (advance z (snd s)) as [z' g] eqn:Az. cbn [fst]. destruct (Nat.eq_dec k i) as [->|Dk]; [|now rewrite replace_other]. rewrite Hs in Hz. injection Hz as <-.
               rewrite (advance_failed _ _ _ _ Az F). exact (replace_same _ _ _ _ Hs). }
             rewrite (G l (replace_nth i q' (fst s), fs')) by exact (replace_same _ _ _ _ Hp). intros H. injection H as <-. exact F.
          -- destruct Q as [Q|Q]; [now left|right]. rewrite Q, L. lia.
        * apply IH. cbn [fst]. now rewrite replace_other.
      + cbn [count_occ]. destruct (Nat.eq_dec j i) as [->|D]; [congruence|]. now apply IH.
  Qed.
  (** Nobody waits for the others: 45 steps of a process bring it to its end, whatever the others do; with the whole molecule in memory it returns. *)
  Theorem C107_progress jobs fs schedule i t m : nth_error jobs i = Some (t, m) -> 45 <= count_occ Nat.eq_dec schedule i ->
    exists p, nth_error (processes jobs fs schedule) i = Some p /\ (failure p <> None \/ returned p) /\ (new_names jobs fs -> savable jobs -> in_memory m -> returned p).
  Proof.
    intros Hj C. assert (Hs : nth_error (fst (launch jobs fs)) i = Some (start (t, m))) by (cbn [launch fst]; now rewrite nth_error_map, Hj).
    destruct (run_progress schedule (launch jobs fs) i _ Hs) as (p & Hp & Q). exists p. split; [exact Hp|].
    change (length (pending (start (t, m)))) with 45 in Q.
    assert (R : failure p = None -> returned p). { intros F. destruct Q as [Q|Q]; [contradiction|]. split; [|exact F]. destruct (pending p); [reflexivity|]. cbn [length] in Q. lia. }
    split.
    - destruct (failure p) as [e|] eqn:F; [left; discriminate|right; now apply R].
    - intros N S M. apply R. destruct (failure p) as [e|] eqn:F; [|reflexivity]. exfalso. exact (proj2 (C107_failure jobs fs schedule i t m p e N S Hj Hp F) M).
  Qed.
  (** The moment a process returns, its file holds its molecule. *)
  Theorem C107_returns jobs fs schedule i t m p p' : new_names jobs fs -> savable jobs -> nth_error jobs i = Some (t, m) ->
    nth_error (processes jobs fs schedule) i = Some p -> ~ returned p -> nth_error (processes jobs fs (schedule ++ [i])) i = Some p' -> returned p' ->
    holds m (files_after jobs fs (schedule ++ [i])).
  Proof.
    intros N S Hj Hp NR Hp' R'. pose proof (inv_run jobs fs N S schedule) as I. unfold processes, files_after in *. rewrite run_app in *. revert I Hp Hp'. generalize (run schedule (launch jobs fs)). intros [ps g] I Hp Hp'.
    cbn [run fold_left fst snd] in *. unfold tick in *. cbn [fst snd] in *. rewrite Hp in *. destruct (advance p g) as [q g'] eqn:A. cbn [fst snd] in *. rewrite (replace_same _ _ _ _ Hp) in Hp'. injection Hp' as ->.
    pose proof (nth_error_In _ _ Hj) as Im.
    destruct (step_ok jobs fs N S t m g p p' g' Im (inv_nodup _ _ _ I)) as [_ Ef]; [|exact (inv_phase _ _ _ I i t m p Hj Hp)|exact A|].
    { apply (inv_files _ _ _ I). intros t' m' I' H. exact (name_not_private jobs fs N t m t' m' Im I' H). }
    destruct R' as [R1 R2]. destruct Ef as [p' X Y|p' f X Y|p' X Y Z|p' f X Y Z].
    - exfalso. apply NR. rewrite <- (X ltac:(rewrite R1; cbn; lia) R2). now split.
    - rewrite R1 in Y. cbn in Y. lia.
    - rewrite R1 in Y. discriminate Y.
    - apply (complete_holds jobs fs m _ f X). apply (dget_dset_same _ str_ok).
  Qed.
  (** Steps of processes whose molecules have other files do not change it. *)
  Theorem C107_stays jobs fs schedule more F : new_names jobs fs -> savable jobs -> (forall t m, In (t, m) jobs -> F <> t) ->
    (forall i t m, In i more -> nth_error jobs i = Some (t, m) -> filename m <> F) ->
    dget String.eqb (hdf5 F) (files_after jobs fs (schedule ++ more)) = dget String.eqb (hdf5 F) (files_after jobs fs schedule).
  Proof.
    intros N S P H. unfold files_after. rewrite run_app. pose proof (inv_run jobs fs N S schedule) as I. revert I. generalize (run schedule (launch jobs fs)). clear schedule.
    induction more as [|j l IH]; intros s I; [reflexivity|]. unfold run. cbn [fold_left]. fold (run l (tick j s)).
    rewrite IH; [|intros i t m Hi; apply (H i t m); now right|exact (inv_tick jobs fs N S j s I)]. clear IH. destruct s as [ps g]. unfold tick. cbn [fst snd]. destruct (nth_error ps j) as [p|] eqn:Hp; [|reflexivity].
    destruct (advance p g) as [p' g'] eqn:A. cbn [snd].
    destruct (nth_error jobs j) as [[t m]|] eqn:Hj; [|apply nth_error_None in Hj; pose proof (inv_length _ _ _ I) as L; cbn [fst] in L; assert (Z : nth_error ps j <> None) by congruence; apply nth_error_Some in Z; lia].
    pose proof (nth_error_In _ _ Hj) as Im.
    destruct (step_ok jobs fs N S t m g p p' g' Im (inv_nodup _ _ _ I)) as [_ Ef]; [|exact (inv_phase _ _ _ I j t m p Hj Hp)|exact A|].
    { apply (inv_files _ _ _ I). intros t' m' I' E. exact (name_not_private jobs fs N t m t' m' Im I' E). }
    apply (effect_frame jobs fs _ _ _ _ _ _ _ Ef); intros E; apply path_inj in E; [exact (P t m Im E)|]. exact (H j t m (or_introl eq_refl) Hj (eq_sym E)).
  Qed.
  (** When all processes have returned, no temporary file is left, and every file holds the whole molecule of a process that saved to it. *)
  Theorem C107_end jobs fs schedule i t m : new_names jobs fs -> savable jobs -> (forall p, In p (processes jobs fs schedule) -> returned p) -> nth_error jobs i = Some (t, m) ->
    let fs' := files_after jobs fs schedule in
    dget String.eqb (hdf5 t) fs' = None /\ exists j t' m', nth_error jobs j = Some (t', m') /\ filename m' = filename m /\ holds m' fs'.
  Proof.
    intros N S A Hj fs'. pose proof (inv_run jobs fs N S schedule) as I. fold (processes jobs fs schedule) in *. unfold fs', files_after. fold (processes jobs fs schedule) in I.
    assert (E : exists p, nth_error (fst (run schedule (launch jobs fs))) i = Some p).
    { destruct (nth_error (fst (run schedule (launch jobs fs))) i) as [p|] eqn:E; [now exists p|]. apply nth_error_None in E. rewrite (inv_length _ _ _ I) in E. assert (Z : nth_error jobs i <> None) by congruence.
      apply nth_error_Some in Z. lia. }
    destruct E as (p & Hp). assert (R : returned p) by (apply A; exact (nth_error_In _ _ Hp)). split.
    - pose proof (inv_phase _ _ _ I i t m p Hj Hp) as Ph. destruct R as [R1 R2]. destruct Ph as [|lo r rest d before ex f G Nd Pl Ef Fi D Me|lo r k rest d before ex f G Nd Pl Ef Fi D Me Hk R3 R4|lo r f C D|lo r D|lo r rest k Hk Z]; cbn in R1, R2; try discriminate.
      + rewrite R1 in Pl. apply plan_length in Pl. cbn in Pl. lia.
      + exact D.
    - destruct (inv_new _ _ _ I i t m p Hj Hp (proj2 R)) as (t' & m' & Im & E & [D|(f & D & C)]); [rewrite (proj1 R); cbn; lia| |].
      + exfalso. destruct (inv_gap _ _ _ I _ t m (nth_error_In _ _ Hj) eq_refl D) as (j & t2 & m2 & q & _ & Hq & _ & _ & L).
        * right. exists i, t, m, p. auto.
        * destruct (A q (nth_error_In _ _ Hq)) as [Z _]. rewrite Z in L. discriminate L.
      + apply In_nth_error in Im as [j Hj']. exists j, t', m'. apply path_inj in E as E'. split; [exact Hj'|]. split; [congruence|]. rewrite E in D. exact (complete_holds jobs fs m' _ f C D).
  Qed.
End Props.
