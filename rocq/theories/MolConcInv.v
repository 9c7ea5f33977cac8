(** The invariant holds under every schedule. *)
From Coq Require Import String ZArith Lia.
From Verif Require Import Base BaseFacts CostModel MolFileModel MolFileSpec MolFileProofs MolFileProps MolFileProps2 MolConcModel MolConcSpec MolConcProofs.
Open Scope list_scope.

Lemma replace_length {A} i (x : A) l : length (replace_nth i x l) = length l.
Proof. revert i. induction l as [|y l IH]; intros [|i]; cbn; auto. Qed.
Lemma replace_same {A} i (x y : A) l : nth_error l i = Some y -> nth_error (replace_nth i x l) i = Some x.
Proof. revert i. induction l as [|z l IH]; intros [|i]; cbn; auto; discriminate. Qed.
Lemma replace_other {A} i j (x : A) l : i <> j -> nth_error (replace_nth i x l) j = nth_error l j.
Proof. revert i j. induction l as [|z l IH]; intros [|i] [|j] H; cbn; auto; try congruence; apply IH; congruence. Qed.

Section Inv.
  Context {V : Type} (jobs : list (string * molecule V)) (fs0 : files V).
  Hypothesis Hnew : new_names jobs fs0.
  Hypothesis Hsav : savable jobs.
  Notation phase := (phase jobs fs0).
  Notation complete := (complete jobs fs0).
  Notation readable := (readable jobs fs0).
  (** somebody is about to move a new file to this name *)
  Definition moving (ps : list (@process V)) (F : string) : Prop :=
    exists j t m p, nth_error jobs j = Some (t, m) /\ nth_error ps j = Some p /\ filename m = F /\ failure p = None /\ length (pending p) = 1.
  Definition unrelated (n : string) : Prop := forall t m, In (t, m) jobs -> n <> path t /\ n <> path (filename m).
  Definition replaced (n : string) (fs : files V) : Prop :=
    exists t m, In (t, m) jobs /\ n = path (filename m) /\ (dget String.eqb n fs = None \/ exists f, dget String.eqb n fs = Some f /\ complete m f).
  Record inv (s : list (@process V) * files V) : Prop := {
    inv_nodup : NoDup (dkeys (snd s));
    inv_length : length (fst s) = length jobs;
    inv_phase : forall i t m p, nth_error jobs i = Some (t, m) -> nth_error (fst s) i = Some p -> phase t m (snd s) p;
    inv_files : forall n, (forall t m, In (t, m) jobs -> n <> path t) -> readable n (snd s);
    inv_other : forall n, unrelated n -> dget String.eqb n (snd s) = dget String.eqb n fs0;
    inv_new : forall i t m p, nth_error jobs i = Some (t, m) -> nth_error (fst s) i = Some p -> failure p = None -> length (pending p) <= 1 -> replaced (path (filename m)) (snd s);
    inv_gap : forall n t m, In (t, m) jobs -> n = path (filename m) -> dget String.eqb n (snd s) = None ->
      (dget String.eqb n fs0 <> None \/ exists i t' m' p, nth_error jobs i = Some (t', m') /\ nth_error (fst s) i = Some p /\ n = path (filename m') /\ returned p) -> moving (fst s) (filename m) }.
  Lemma path_inj a b : path a = path b -> a = b.
  Proof. apply append_inj. Qed.
  Lemma name_not_private t m t' m' : In (t, m) jobs -> In (t', m') jobs -> path (filename m) <> path t'.
  Proof. intros I I' H. apply path_inj in H. destruct Hnew as (_ & N & _). exact (N t' m' t m I' I (eq_sym H)). Qed.
  Lemma nth_job i t m : nth_error jobs i = Some (t, m) -> In (t, m) jobs.
  Proof. apply nth_error_In. Qed.
  Lemma private_differ i j t m t' m' : nth_error jobs i = Some (t, m) -> nth_error jobs j = Some (t', m') -> i <> j -> path t' <> path t.
  Proof.
    intros Hi Hj D H. apply path_inj in H as ->. destruct Hnew as (N & _). apply D. eapply (proj1 (NoDup_nth_error _) N); [apply nth_error_Some; rewrite nth_error_map, Hi; discriminate|].
    rewrite !nth_error_map, Hi, Hj. reflexivity.
  Qed.
  (** which files a step changes *)
  Lemma effect_frame t m fs p p' fs' n : effect jobs fs0 t m fs p p' fs' -> n <> path t -> n <> path (filename m) -> dget String.eqb n fs' = dget String.eqb n fs.
  Proof.
    intros E N1 N2. destruct E as [p' A B|p' f A B|p' A B C|p' f A B C]; [reflexivity| | |].
    - now rewrite (dget_dset_other _ str_ok).
    - now rewrite (dget_ddel_other _ str_ok).
    - now rewrite (dget_dset_other _ str_ok), (dget_ddel_other _ str_ok).
  Qed.
  Lemma effect_nodup t m fs p p' fs' : effect jobs fs0 t m fs p p' fs' -> NoDup (dkeys fs) -> NoDup (dkeys fs').
  Proof. intros E N. destruct E; [exact N|now apply dset_NoDup_s|now apply ddel_NoDup|apply dset_NoDup_s; now apply ddel_NoDup]. Qed.

  Lemma inv_start : inv (launch jobs fs0).
  Proof.
    constructor; cbn [launch fst snd].
    - apply Hnew.
    - apply map_length.
    - intros i t m p Hj Hp. rewrite nth_error_map, Hj in Hp. injection Hp as <-. apply ph_start.
    - intros n _. now left.
    - reflexivity.
    - intros i t m p Hj Hp _ L. rewrite nth_error_map, Hj in Hp. injection Hp as <-. exfalso. revert L. cbn. lia.
    - intros n t m I -> D [C|(i & t' & m' & p & Hj & Hp & _ & R)]; [contradiction|]. rewrite nth_error_map, Hj in Hp. injection Hp as <-. destruct R as [R _]. discriminate R.
  Qed.
  Lemma inv_tick i s : inv s -> inv (tick i s).
  Proof.
    destruct s as [ps fs]. intros [ND LE PH FI OT NW GA]. cbn [fst snd] in *. unfold tick. cbn [fst snd]. destruct (nth_error ps i) as [p|] eqn:Ep; [|now constructor].
    destruct (nth_error jobs i) as [[t m]|] eqn:Ej; [|apply nth_error_None in Ej; apply nth_error_None in Ep as Ep' || idtac; exfalso; assert (nth_error ps i <> None) by congruence; apply nth_error_Some in H; lia].
    pose proof (nth_job _ _ _ Ej) as Ij. destruct (advance p fs) as [p' fs'] eqn:A.
    assert (Rm : readable (path (filename m)) fs) by (apply FI; intros t' m' I'; exact (name_not_private t m t' m' Ij I')).
    destruct (step_ok jobs fs0 Hnew Hsav t m fs p p' fs' Ij ND Rm (PH i t m p Ej Ep) A) as [Ph' Ef].
    constructor; cbn [fst snd].
    - exact (effect_nodup _ _ _ _ _ _ Ef ND).
    - now rewrite replace_length.
    - intros j t' m' q Hj Hq. destruct (Nat.eq_dec i j) as [<-|D].
      + rewrite (replace_same _ _ _ _ Ep) in Hq. injection Hq as <-. rewrite Ej in Hj. injection Hj as <- <-. exact Ph'.
      + rewrite replace_other in Hq by exact D. apply (phase_same jobs fs0 t' m' fs).
        * apply (effect_frame _ _ _ _ _ _ _ Ef); [exact (private_differ i j t m t' m' Ej Hj D)|]. apply not_eq_sym. exact (name_not_private t m t' m' Ij (nth_job _ _ _ Hj)).
        * exact (PH j t' m' q Hj Hq).
    - intros n Pn. specialize (FI n Pn). pose proof (Pn t m Ij) as Nt. destruct (string_dec n (path (filename m))) as [->|Nn].
      + destruct Ef as [p' X Y|p' f X Y|p' X Y Z|p' f X Y Z]; [exact FI| | |].
        * unfold MolConcProofs.readable in *. now rewrite (dget_dset_other _ str_ok).
        * right. exists t, m. split; [exact Ij|]. split; [reflexivity|]. left. now apply (dget_ddel_same _ str_ok).
        * right. exists t, m. split; [exact Ij|]. split; [reflexivity|]. right. exists f. split; [apply (dget_dset_same _ str_ok)|exact X].
      + unfold MolConcProofs.readable in *. rewrite (effect_frame _ _ _ _ _ _ n Ef Nt Nn). exact FI.
    - intros n U. destruct (U t m Ij) as [U1 U2]. rewrite (effect_frame _ _ _ _ _ _ n Ef U1 U2). now apply OT.
    - intros j t1 m1 q Hj Hq Nf Lq. pose proof (nth_job _ _ _ Hj) as I1. assert (NP : path (filename m1) <> path t) by exact (name_not_private t1 m1 t m I1 Ij).
      destruct (string_dec (path (filename m1)) (path (filename m))) as [En|Dn].
      + destruct Ef as [p' X Y|p' f X Y|p' X Y Z|p' f X Y Z].
        * destruct (Nat.eq_dec i j) as [<-|D]; [|rewrite replace_other in Hq by exact D; exact (NW j t1 m1 q Hj Hq Nf Lq)].
          rewrite (replace_same _ _ _ _ Ep) in Hq. injection Hq as <-. pose proof (X Lq Nf) as XX. rewrite XX in Lq, Nf. exact (NW i t1 m1 p Hj Ep Nf Lq).
        * destruct (Nat.eq_dec i j) as [<-|D]; [rewrite (replace_same _ _ _ _ Ep) in Hq; injection Hq as <-; lia|]. rewrite replace_other in Hq by exact D.
          destruct (NW j t1 m1 q Hj Hq Nf Lq) as (t2 & m2 & I2 & E2 & Z). exists t2, m2. rewrite (dget_dset_other _ str_ok) by exact NP. auto.
        * exists t, m. split; [exact Ij|]. split; [exact En|]. left. rewrite En. now apply (dget_ddel_same _ str_ok).
        * exists t, m. split; [exact Ij|]. split; [exact En|]. right. exists f. rewrite En. split; [apply (dget_dset_same _ str_ok)|exact X].
      + destruct (Nat.eq_dec i j) as [<-|D]; [rewrite Ej in Hj; injection Hj as <- <-; contradiction|]. rewrite replace_other in Hq by exact D.
        destruct (NW j t1 m1 q Hj Hq Nf Lq) as (t2 & m2 & I2 & E2 & Z). exists t2, m2. rewrite (effect_frame _ _ _ _ _ _ _ Ef NP Dn). auto.
    - intros n t1 m1 I1 -> Dn Why.
      assert (NP : path (filename m1) <> path t) by exact (name_not_private t1 m1 t m I1 Ij).
      destruct Ef as [p' X Y|p' f X Y|p' X Y Z|p' f X Y Z].
      + destruct (GA _ t1 m1 I1 eq_refl Dn) as (j & t2 & m2 & q & Hj & Hq & Fq & Nf & Lq).
        { destruct Why as [Why|(j & t2 & m2 & q & Hj & Hq & Fq & Rq)]; [now left|right]. destruct (Nat.eq_dec i j) as [<-|D].
          - rewrite (replace_same _ _ _ _ Ep) in Hq. injection Hq as <-. exists i, t2, m2, p. destruct Rq as [R1 R2]. assert (L0 : length (pending p') <= 1) by (rewrite R1; cbn; lia). pose proof (X L0 R2) as XX. rewrite XX in R1, R2. repeat split; auto.
          - rewrite replace_other in Hq by exact D. exists j, t2, m2, q. auto. }
        destruct (Nat.eq_dec i j) as [<-|D].
        * rewrite Ep in Hq. injection Hq as <-. exists i, t2, m2, p'. rewrite (replace_same _ _ _ _ Ep). rewrite (Y Lq Nf). auto.
        * exists j, t2, m2, q. rewrite replace_other by exact D. auto.
      + rewrite (dget_dset_other _ str_ok) in Dn by exact NP.
        destruct (GA _ t1 m1 I1 eq_refl Dn) as (j & t2 & m2 & q & Hj & Hq & Fq & Nf & Lq).
        { destruct Why as [Why|(j & t2 & m2 & q & Hj & Hq & Fq & Rq)]; [now left|right]. destruct (Nat.eq_dec i j) as [<-|D].
          - rewrite (replace_same _ _ _ _ Ep) in Hq. injection Hq as <-. destruct Rq as [R1 R2]. rewrite R1 in Y. cbn in Y. lia.
          - rewrite replace_other in Hq by exact D. exists j, t2, m2, q. auto. }
        destruct (Nat.eq_dec i j) as [<-|D]; [rewrite Ep in Hq; injection Hq as <-; lia|]. exists j, t2, m2, q. rewrite replace_other by exact D. auto.
      + destruct (string_dec (filename m1) (filename m)) as [E|D0].
        * exists i, t, m, p'. rewrite (replace_same _ _ _ _ Ep). auto.
        * rewrite (dget_ddel_other _ str_ok) in Dn by (intros H; apply path_inj in H; congruence).
          destruct (GA _ t1 m1 I1 eq_refl Dn) as (j & t2 & m2 & q & Hj & Hq & Fq & Nf & Lq).
          { destruct Why as [Why|(j & t2 & m2 & q & Hj & Hq & Fq & Rq)]; [now left|right]. destruct (Nat.eq_dec i j) as [<-|D].
            - rewrite (replace_same _ _ _ _ Ep) in Hq. injection Hq as <-. destruct Rq as [R1 R2]. rewrite R1 in Y. discriminate Y.
            - rewrite replace_other in Hq by exact D. exists j, t2, m2, q. auto. }
          destruct (Nat.eq_dec i j) as [<-|D]; [rewrite Ep in Hq; injection Hq as <-; lia|]. exists j, t2, m2, q. rewrite replace_other by exact D. auto.
      + destruct (string_dec (filename m1) (filename m)) as [E|D0]; [rewrite E, (dget_dset_same _ str_ok) in Dn; discriminate|].
        assert (D1 : path (filename m1) <> path (filename m)) by (intros H; apply path_inj in H; congruence).
        rewrite (dget_dset_other _ str_ok), (dget_ddel_other _ str_ok) in Dn by assumption.
        destruct (GA _ t1 m1 I1 eq_refl Dn) as (j & t2 & m2 & q & Hj & Hq & Fq & Nf & Lq).
        { destruct Why as [Why|(j & t2 & m2 & q & Hj & Hq & Fq & Rq)]; [now left|right]. destruct (Nat.eq_dec i j) as [<-|D].
          - rewrite Ej in Hj. injection Hj as <- <-. contradiction.
          - rewrite replace_other in Hq by exact D. exists j, t2, m2, q. auto. }
        destruct (Nat.eq_dec i j) as [<-|D]; [rewrite Ej in Hj; injection Hj as <- <-; congruence|]. exists j, t2, m2, q. rewrite replace_other by exact D. auto.
  Qed.
  Lemma inv_run schedule : inv (run schedule (launch jobs fs0)).
  Proof.
    pose proof inv_start as H. revert H. generalize (launch jobs fs0). unfold run. induction schedule as [|i l IH]; intros s H; [exact H|]. cbn [fold_left]. apply IH. now apply inv_tick.
  Qed.

  Lemma cons_fits k P (l : list (@expectation V)) f : Forall2 fits ((k, P) :: l) f -> exists y f', f = (k, y) :: f' /\ P y /\ Forall2 fits l f'.
  Proof. intros H. inversion H as [|a [k' y] b f' [E Q] F]; subst. cbn in E. subst. now exists y, f'. Qed.
  Lemma nil_fits (f : list (string * h5 V)) : Forall2 fits [] f -> f = [].
  Proof. intros H. now inversion H. Qed.
  Lemma complete_is_file m f : complete m f -> exists d, general_calculations m = Calculations d /\ NoDup (dkeys d) /\ f = the_file (with_loaded m []) [(path (filename m), f)] d.
  Proof.
    intros C. pose proof C as (d & G & N & F). exists d. split; [exact G|]. split; [exact N|].
    assert (S : forall k, In k on_demand -> dget String.eqb k f = Some (of_option (shows (with_loaded m []) [(path (filename m), f)] k))).
    { intros k Hk. destruct (complete_get jobs fs0 m f k C Hk) as (o & D & _). unfold shows, its_file. cbn [loaded with_loaded filename dget]. fold (path (filename m)). rewrite String.eqb_refl, D.
      destruct o; reflexivity. }
    unfold the_file. revert S. generalize (shows (with_loaded m []) [(path (filename m), f)]) as sh. clear C. intros sh S.
    unfold full, the_file in F. cbn -[on on_demand] in F.
    repeat match type of F with context [existsb ?a ?b] => let r := eval vm_compute in (existsb a b) in change (existsb a b) with r in F; cbv iota in F end.
    repeat (apply cons_fits in F; let y := fresh "y" in let f' := fresh "f" in let P := fresh "P" in destruct F as (y & f' & -> & P & F)).
    apply nil_fits in F. subst.
    repeat match goal with P : on _ _ ?k _ ?y |- _ => clear P; let E := fresh "E" in pose proof (S k ltac:(cbn; tauto)) as E; cbn [dget] in E; cbn in E; injection E as E; subst y end.
    reflexivity.
  Qed.
  Lemma complete_holds m fs f : complete m f -> dget String.eqb (path (filename m)) fs = Some f -> holds m fs.
  Proof.
    intros C D. destruct (complete_is_file m f C) as (d & G & N & E). split.
    - intros m0 E0. pose proof D as D'. rewrite E in D'.
      destruct (load_file (with_loaded m []) [(path (filename m), f)] fs d m0 D' N E0) as (m2 & L & S & _ & Ge). exists m2. split; [exact L|]. split; [exact S|].
      intros d' G' Nd. rewrite G in G'. injection G' as <-. rewrite Ge. destruct d; [contradiction|reflexivity].
    - intros k v Hk Hv. destruct (complete_get jobs fs0 m f k C Hk) as (o & Ho & Q & _). unfold shows. cbn [loaded blank dget]. change (its_file (blank (filename m)) fs) with (dget String.eqb (path (filename m)) fs). rewrite D, Ho, (Q v Hv). reflexivity.
  Qed.
  Lemma complete_known m fs f k v : complete m f -> dget String.eqb (path (filename m)) fs = Some f -> In k on_demand -> shows (blank (filename m)) fs k = Some v -> known jobs fs0 k v.
  Proof.
    intros C D Hk. destruct (complete_get jobs fs0 m f k C Hk) as (o & Ho & _ & Q). unfold shows. cbn [loaded blank dget]. change (its_file (blank (filename m)) fs) with (dget String.eqb (path (filename m)) fs). rewrite D, Ho.
    destruct o as [w|]; cbn; intros H; [injection H as <-; now apply Q|discriminate].
  Qed.
End Inv.
