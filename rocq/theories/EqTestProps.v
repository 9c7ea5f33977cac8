(** C105: what a passed equality test says; stated over EqTestModel.v and EqTestSpec.v. *)
From Coq Require Import List Arith Lia ZArith Permutation.
From Verif Require Import Base CostModel EqTestModel EqTestSpec.
Import ListNotations.
Open Scope list_scope.

Section C105.
  Context {O : Type} (w : world O).
  Notation add := (add_equality_group w).

  Lemma for_each_ok {A} (f : A -> result unit) l : for_each f l = Ok tt <-> forall x, In x l -> f x = Ok tt.
  Proof.
    induction l as [|x l IH]; cbn; [split; [intros _ x []|reflexivity]|]. split.
    - intros H. destruct (f x) as [[]|] eqn:E; [|discriminate]. cbn in H. intros y [<-|Hy]; [exact E|]. now apply IH.
    - intros H. rewrite (H x (or_introl eq_refl)). cbn. apply IH. auto.
  Qed.
  Lemma for_each_err {A} (f : A -> result unit) l e : for_each f l = Err e -> exists x, In x l /\ f x = Err e.
  Proof.
    induction l as [|x l IH]; cbn; [discriminate|]. destruct (f x) as [[]|e'] eqn:E; cbn; intros H; [destruct (IH H) as (y & A1 & A2); eauto|]. injection H as <-. eauto.
  Qed.
  Lemma check_equal_ok v1 v2 : check_equal w (v1, v2) = Ok tt <-> seen_equal w v1 v2.
  Proof.
    unfold check_equal, seen_equal. destruct (py_eq w v1 v2) as [[|]|]; cbn; [|split; [discriminate|intros (X & _); discriminate]|split; [discriminate|intros (X & _); discriminate]].
    destruct (py_ne w v1 v2) as [[|]|]; cbn; [split; [discriminate|intros (_ & X & _); discriminate]| |split; [discriminate|intros (_ & X & _); discriminate]].
    destruct (call_eq w v1 v2) as [e|] eqn:E; cbn; [|split; [discriminate|intros (_ & _ & e' & n & X & _); discriminate]].
    destruct (call_ne w v1 v2) as [n|] eqn:N; cbn; [|split; [discriminate|intros (_ & _ & e' & n & _ & X & _); discriminate]].
    split.
    - intros H. split; [reflexivity|]. split; [reflexivity|]. exists e, n. destruct e, n; cbn in H; try discriminate; repeat split; congruence.
    - intros (_ & _ & e' & n' & E1 & N1 & A & B & C). injection E1 as <-. injection N1 as <-. destruct e, n; try reflexivity; exfalso; auto; specialize (C eq_refl); discriminate.
  Qed.
  Lemma check_different_ok v1 v2 : check_different w (v1, v2) = Ok tt <-> seen_different w v1 v2.
  Proof.
    unfold check_different, seen_different. destruct (py_eq w v1 v2) as [[|]|]; cbn; [split; [discriminate|intros (X & _); discriminate]| |split; [discriminate|intros (X & _); discriminate]].
    destruct (py_ne w v1 v2) as [[|]|]; cbn; [|split; [discriminate|intros (_ & X & _); discriminate]|split; [discriminate|intros (_ & X & _); discriminate]].
    destruct (call_eq w v1 v2) as [e|] eqn:E; cbn; [|split; [discriminate|intros (_ & _ & e' & n & X & _); discriminate]].
    destruct (call_ne w v1 v2) as [n|] eqn:N; cbn; [|split; [discriminate|intros (_ & _ & e' & n & _ & X & _); discriminate]].
    split.
    - intros H. split; [reflexivity|]. split; [reflexivity|]. exists e, n. destruct e, n; cbn in H; try discriminate; repeat split; congruence.
    - intros (_ & _ & e' & n' & E1 & N1 & A & B & C). injection E1 as <-. injection N1 as <-. destruct e, n; try reflexivity; exfalso; auto; specialize (C eq_refl); discriminate.
  Qed.
  Lemma hashes_ok l hs : hashes w l = Ok hs -> Forall2 (fun a h => hash w a = Ok h) l hs.
  Proof.
    revert hs. induction l as [|a l IH]; cbn; intros hs H; [injection H as <-; constructor|]. destruct (hash w a) as [h|] eqn:E; [|discriminate]. cbn in H. destruct (hashes w l) as [hs'|]; [|discriminate].
    cbn in H. injection H as <-. constructor; [exact E|now apply IH].
  Qed.
  Lemma opt_eqb_eq a b : opt_eqb a b = true <-> a = b.
  Proof. destruct a, b; cbn; try (split; congruence). rewrite Z.eqb_eq. split; congruence. Qed.
  Lemma hash_check l : (exists hs, hashes w l = Ok hs /\ more_than_one hs = false) <-> forall a b, In a l -> In b l -> same_hash w a b.
  Proof.
    split.
    - intros (hs & E & M1). apply hashes_ok in E. assert (G : exists h0, Forall (fun a => hash w a = Ok h0) l).
      { destruct E as [|a h l hs Ea El]; [exists None; constructor|]. exists h. cbn in M1. apply Bool.negb_false_iff in M1. constructor; [exact Ea|]. clear Ea. revert M1. induction El as [|b k l hs Eb El IH]; intros M1; [constructor|].
        cbn in M1. apply Bool.andb_true_iff in M1. destruct M1 as (M1 & M2). apply opt_eqb_eq in M1. subst k. constructor; [exact Eb|now apply IH]. }
      destruct G as (h0 & G). rewrite Forall_forall in G. intros a b Ha Hb. exists h0. auto.
    - intros H. destruct l as [|a l]; [exists []; auto|]. destruct (H a a (or_introl eq_refl) (or_introl eq_refl)) as (h & Ea & _).
      assert (G : forall l', incl l' (a :: l) -> hashes w l' = Ok (map (fun _ => h) l')).
      { induction l' as [|b l' IH]; intros I; [reflexivity|]. destruct (H a b (or_introl eq_refl) (I b (or_introl eq_refl))) as (h' & E1 & E2). assert (h' = h) by congruence. subst h'.
        cbn. rewrite E2. cbn. rewrite IH by (intros x Hx; apply I; now right). reflexivity. }
      exists (map (fun _ => h) (a :: l)). split; [apply G, incl_refl|]. cbn. apply Bool.negb_false_iff, forallb_forall. intros x Hx. apply in_map_iff in Hx. destruct Hx as (_ & <- & _). now apply opt_eqb_eq.
  Qed.
  (** ** One group is added exactly if its items count as equal, have one hash, and count as different from all that the tester holds; otherwise the tester is left as it was. *)
  Definition held (older : list (list O)) : list (list (object O)) := [Unknown] :: map (map Subject) older.
  Theorem C105_add g older : (snd (add g (held older)) = Ok tt <-> good_group w g /\ apart w g older) /\
    (snd (add g (held older)) = Ok tt -> fst (add g (held older)) = held (older ++ [g])) /\
    (snd (add g (held older)) <> Ok tt -> fst (add g (held older)) = held older).
  Proof.
    unfold add_equality_group. set (G := map Subject g).
    destruct (for_each (check_equal w) (list_prod G G)) as [[]|e] eqn:E1; cbn [rbind].
    2:{ split; [|split; [discriminate|reflexivity]]. split; [discriminate|]. intros ((H & _) & _). exfalso. assert (X : for_each (check_equal w) (list_prod G G) = Ok tt); [|congruence].
        apply for_each_ok. intros [v1 v2] Hp. apply in_prod_iff in Hp. destruct Hp as (H1 & H2). apply in_map_iff in H1, H2. destruct H1 as (a & <- & Ha), H2 as (b & <- & Hb). now apply check_equal_ok, H. }
    destruct (for_each _ (held older)) as [[]|e] eqn:E2; cbn [rbind].
    2:{ split; [|split; [discriminate|reflexivity]]. split; [discriminate|]. intros (_ & HA & HB). exfalso. apply for_each_err in E2. destruct E2 as (other & Ho & E2). apply for_each_err in E2. destruct E2 as ([v1 v2] & Hp & E2).
        apply in_prod_iff in Hp. destruct Hp as (H1 & H2). apply in_map_iff in H1. destruct H1 as (a & <- & Ha). assert (X : check_different w (Subject a, v2) = Ok tt); [|congruence]. apply check_different_ok.
        destruct Ho as [<-|Ho]; [destruct H2 as [<-|[]]; now apply HA|]. apply in_map_iff in Ho. destruct Ho as (h & <- & Hh). apply in_map_iff in H2. destruct H2 as (b & <- & Hb). now apply (HB a b h). }
    assert (Q1 : forall a b, In a g -> In b g -> seen_equal w (Subject a) (Subject b)).
    { intros a b Ha Hb. rewrite for_each_ok in E1. apply check_equal_ok, E1, in_prod; now apply in_map. }
    assert (Q2 : apart w g older).
    { rewrite for_each_ok in E2. split.
      - intros a Ha. assert (X := E2 [Unknown] (or_introl eq_refl)). rewrite for_each_ok in X. apply check_different_ok, X, in_prod; [now apply in_map|now left].
      - intros a b h Ha Hh Hb. assert (X := E2 (map Subject h) (or_intror (in_map _ _ _ Hh))). rewrite for_each_ok in X. apply check_different_ok, X, in_prod; now apply in_map. }
    pose proof (hash_check g) as HC. destruct (hashes w g) as [hs|e] eqn:Eh; cbn [rbind].
    - destruct (more_than_one hs) eqn:Em; cbn.
      + split; [|split; [discriminate|reflexivity]]. split; [discriminate|]. intros ((_ & H) & _). apply HC in H. destruct H as (hs' & X & Y). congruence.
      + split; [split; [intros _|reflexivity]|split; [intros _; unfold held; now rewrite map_app|intros X; exfalso; now apply X]]. split; [split; [exact Q1|]|exact Q2]. apply HC. eauto.
    - split; [|split; [discriminate|reflexivity]]. split; [discriminate|]. intros ((_ & H) & _). apply HC in H. destruct H as (hs' & X & Y). congruence.
  Qed.
  (** ** A test, group by group, passes exactly if all groups are good. *)
  Lemma add_groups_from gs : forall older, good_test w older -> (snd (add_groups w gs (held older)) = Ok tt <-> good_test w (older ++ gs)) /\ (snd (add_groups w gs (held older)) = Ok tt -> fst (add_groups w gs (held older)) = held (older ++ gs)).
  Proof.
    induction gs as [|g gs IH]; intros older Go; [rewrite app_nil_r; cbn; tauto|]. cbn [add_groups]. unfold bindM. destruct (C105_add g older) as (C1 & C2 & C3).
    destruct (add g (held older)) as [s [[]|e]]; cbn [fst snd] in C1, C2, C3.
    - rewrite (C2 eq_refl). destruct (proj1 C1 eq_refl) as (G1 & G2). destruct (IH (older ++ [g])) as (I1 & I2); [now constructor|]. rewrite <- app_assoc in I1, I2. now split.
    - cbn. split; [|discriminate]. split; [discriminate|]. intros Gt. exfalso. enough (X : Err e = Ok tt) by discriminate. apply C1. clear - Gt.
      assert (P : forall t, good_test w t -> forall l1 g l2, t = l1 ++ g :: l2 -> good_group w g /\ apart w g l1).
      { clear. induction 1 as [|t h Ht IH Hg Ha]; intros l1 g l2 E; [destruct l1; discriminate|]. destruct l2 as [|x l2' ] using rev_ind.
        - apply app_inj_tail in E. destruct E as (-> & ->). auto.
        - clear IHl2'. change (l1 ++ g :: l2' ++ [x]) with (l1 ++ (g :: l2') ++ [x]) in E. rewrite app_assoc in E. apply app_inj_tail in E. destruct E as (E & _). eapply IH, E. }
      eapply P; [exact Gt|reflexivity].
  Qed.
  Theorem C105_test gs : snd (add_groups w gs new_groups) = Ok tt <-> good_test w gs.
  Proof. apply (add_groups_from gs [] (good_nil w)). Qed.
  (** In words about any two items: one group, same value and same hash; two groups, the later one differs from the earlier one. *)
  Theorem C105_passed gs : snd (add_groups w gs new_groups) = Ok tt -> forall i j gi gj a b, nth_error gs i = Some gi -> nth_error gs j = Some gj -> In a gi -> In b gj ->
    (i = j -> seen_equal w (Subject a) (Subject b) /\ same_hash w a b) /\ (j < i -> seen_different w (Subject a) (Subject b))%nat /\ seen_different w (Subject a) Unknown.
  Proof.
    rewrite C105_test. induction 1 as [|gs g Ht IH Hg Ha]; intros i j gi gj a b Ei Ej Hia Hjb; [destruct i; discriminate|].
    assert (Li : (i <= length gs)%nat) by (assert (X : (i < length (gs ++ [g]))%nat) by (apply nth_error_Some; congruence); rewrite app_length in X; cbn in X; lia).
    assert (Lj : (j <= length gs)%nat) by (assert (X : (j < length (gs ++ [g]))%nat) by (apply nth_error_Some; congruence); rewrite app_length in X; cbn in X; lia).
    destruct (Nat.eq_dec i (length gs)) as [Ii|Ii].
    - subst i. rewrite nth_error_app2, Nat.sub_diag in Ei by lia. injection Ei as <-. destruct Ha as (HA & HB). split; [|split; [|now apply HA]].
      + intros <-. rewrite nth_error_app2, Nat.sub_diag in Ej by lia. injection Ej as <-. destruct Hg as (G1 & G2). auto.
      + intros L. rewrite nth_error_app1 in Ej by exact L. apply (HB a b gj); auto. eapply nth_error_In; eassumption.
    - rewrite nth_error_app1 in Ei by lia. destruct (Nat.eq_dec j (length gs)) as [Ij|Ij].
      + subst j. destruct (IH i i gi gi a a Ei Ei Hia Hia) as (_ & _ & X). split; [intros; exfalso; lia|]. split; [intros; exfalso; lia|exact X].
      + rewrite nth_error_app1 in Ej by lia. now apply (IH i j gi gj a b).
  Qed.
  (** A test that fails does so with AssertionError, unless a method of a subject raises something itself. *)
  Lemma compare_total (method : object O -> object O -> result answer) d v1 v2 : (forall a b, exists x, method a b = Ok x) -> exists b, compare w method d v1 v2 = Ok b.
  Proof.
    intros H. unfold compare. destruct (H v1 v2) as (x & X), (H v2 v1) as (y & Y). destruct (subclass w v1 v2); rewrite X, Y; destruct x, y; cbn; eauto.
  Qed.
  Lemma total_calls : never_raises w -> (forall a b, exists x, call_eq w a b = Ok x) /\ (forall a b, exists x, call_ne w a b = Ok x).
  Proof. intros (H1 & H2 & _). split; intros [|a] b; cbn; eauto. Qed.
  Lemma check_raises v1 v2 e : never_raises w -> check_equal w (v1, v2) = Err e \/ check_different w (v1, v2) = Err e -> e = AssertionError.
  Proof.
    intros N. destruct (total_calls N) as (T1 & T2). destruct (compare_total (call_eq w) (is_same w v1 v2) v1 v2 T1) as (b1 & B1), (compare_total (call_ne w) (negb (is_same w v1 v2)) v1 v2 T2) as (b2 & B2).
    destruct (T1 v1 v2) as (x & X), (T2 v1 v2) as (y & Y). unfold check_equal, check_different, py_eq, py_ne. rewrite B1, B2, X, Y. destruct b1, b2, x, y; cbn; intros [H|H]; congruence.
  Qed.
  Theorem C105_error gs e : never_raises w -> snd (add_groups w gs new_groups) = Err e -> e = AssertionError.
  Proof.
    intros N. assert (A1 : forall g s e, snd (add g s) = Err e -> e = AssertionError).
    { intros g s e0. unfold add_equality_group. destruct (for_each (check_equal w) _) as [[]|e1] eqn:E1; cbn [rbind].
      2:{ cbn. intros H. injection H as <-. apply for_each_err in E1. destruct E1 as ([v1 v2] & _ & E1). eapply check_raises; eauto. }
      destruct (for_each _ s) as [[]|e1] eqn:E2; cbn [rbind].
      2:{ cbn. intros H. injection H as <-. apply for_each_err in E2. destruct E2 as (o & _ & E2). apply for_each_err in E2. destruct E2 as ([v1 v2] & _ & E2). eapply check_raises; eauto. }
      assert (T : exists hs, hashes w g = Ok hs). { clear - N. induction g as [|a g (hs & IH)]; [eexists; reflexivity|]. destruct N as (_ & _ & Nh). destruct (Nh a) as (h & E). cbn. rewrite E, IH. cbn. eauto. }
      destruct T as (hs & ->). cbn [rbind]. destruct (more_than_one hs); cbn; congruence. }
    generalize (new_groups (O := O)). revert e. induction gs as [|g gs IH]; intros e s; cbn [add_groups]; [discriminate|]. unfold bindM. specialize (A1 g s). destruct (add g s) as [s' [[]|e1]]; cbn; [apply IH|]. intros H. injection H as <-. now apply A1.
  Qed.

  (** ** Sane equalities: the test decides whether the groups are classes, in whatever order they are added. *)
  Section Lawful.
    Context (R : O -> O -> bool) (L : lawful w R).
    Lemma lawful_equal a b : seen_equal w (Subject a) (Subject b) <-> R a b = true.
    Proof.
      destruct L as [L1 L2 L3 L4 L5 L6]. unfold seen_equal, py_eq, py_ne, compare. cbn [call_eq call_ne]. rewrite !L1, !L2, (L5 b a). destruct (R a b), (subclass w (Subject a) (Subject b)); cbn; split; intros H; try reflexivity; try discriminate; try (destruct H; discriminate).
      all: split; [reflexivity|]; split; [reflexivity|]; exists Yes, No; repeat split; congruence.
    Qed.
    Lemma lawful_different a b : seen_different w (Subject a) (Subject b) <-> R a b = false.
    Proof.
      destruct L as [L1 L2 L3 L4 L5 L6]. unfold seen_different, py_eq, py_ne, compare. cbn [call_eq call_ne]. rewrite !L1, !L2, (L5 b a). destruct (R a b), (subclass w (Subject a) (Subject b)); cbn; split; intros H; try reflexivity; try discriminate; try (destruct H; discriminate).
      all: split; [reflexivity|]; split; [reflexivity|]; exists No, Yes; repeat split; congruence.
    Qed.
    Lemma lawful_apart a : seen_different w (Subject a) Unknown.
    Proof.
      destruct L as [L1 L2 L3 L4 L5 L6]. unfold seen_different, py_eq, py_ne, compare. cbn [call_eq call_ne is_same negb]. destruct (L3 a) as [E|E], (L4 a) as [(E1 & E2)|E2]; try congruence; rewrite ?E, ?E2; destruct (subclass w (Subject a) Unknown); cbn.
      all: split; [reflexivity|]; split; [reflexivity|]; eexists; eexists; repeat split; congruence.
    Qed.
    Definition classes (gs : list (list O)) : Prop :=
      (forall g, In g gs -> forall a b, In a g -> In b g -> R a b = true /\ same_hash w a b) /\ ForallOrdPairs (fun g h => forall a b, In a g -> In b h -> R a b = false) gs.
    Lemma pairs_snoc {A} (P : A -> A -> Prop) l x : ForallOrdPairs P (l ++ [x]) <-> ForallOrdPairs P l /\ Forall (fun y => P y x) l.
    Proof.
      induction l as [|y l IH]; cbn; [split; [auto using FOP_nil|repeat constructor]|]. split.
      - intros H. inversion H as [|? ? F G]; subst. apply Forall_app in F. destruct F as (F1 & F2). inversion F2; subst. apply IH in G. destruct G. split; constructor; auto.
      - intros (H & F). inversion H; inversion F; subst. constructor; [apply Forall_app; auto|]. apply IH; auto.
    Qed.
    Theorem C105_lawful gs : snd (add_groups w gs new_groups) = Ok tt <-> classes gs.
    Proof.
      rewrite C105_test. split.
      - induction 1 as [|gs g Ht (I1 & I2) (G1 & G2) (A1 & A2)]; [split; [intros g []|constructor]|]. split.
        + intros h Hh. apply in_app_or in Hh. destruct Hh as [Hh|[<-|[]]]; [now apply I1|]. intros a b Ha Hb. split; [now apply lawful_equal, G1|now apply G2].
        + apply pairs_snoc. split; [exact I2|]. apply Forall_forall. intros h Hh a b Ha Hb. rewrite (lawful_sym w R L). apply lawful_different. eapply A2; eassumption.
      - induction gs as [|g gs IH] using rev_ind; [constructor|]. intros (H1 & H2). apply pairs_snoc in H2. destruct H2 as (H2 & H3). rewrite Forall_forall in H3. constructor.
        + apply IH. split; [intros h Hh; apply H1, in_or_app; auto|exact H2].
        + split; intros a b Ha Hb; [apply lawful_equal|]; apply (H1 g); auto; apply in_or_app; right; now left.
        + split; [intros; apply lawful_apart|]. intros a b h Ha Hh Hb. apply lawful_different. rewrite (lawful_sym w R L). now apply (H3 h Hh b a).
    Qed.
    Theorem C105_order gs gs' : Permutation gs gs' -> snd (add_groups w gs new_groups) = Ok tt -> snd (add_groups w gs' new_groups) = Ok tt.
    Proof.
      rewrite !C105_lawful. intros P (H1 & H2). split; [intros g Hg; apply H1; symmetry in P; eapply Permutation_in; eassumption|]. clear H1. induction P as [|x l l' P IH|x y l|l l' l'' P1 IH1 P2 IH2]; [exact H2| | |auto].
      - inversion H2 as [|? ? F G]; subst. constructor; [|now apply IH]. apply Forall_forall. intros z Hz. rewrite Forall_forall in F. apply F. symmetry in P. eapply Permutation_in; eassumption.
      - inversion H2 as [|? ? F G]; subst. inversion F as [|? ? F1 F2]; subst. inversion G as [|? ? G1 G2]; subst. constructor; [constructor; [|exact G1]|constructor; [exact F2|exact G2]].
        intros a b Ha Hb. rewrite (lawful_sym w R L). now apply F1.
    Qed.
  End Lawful.

  (** ** Pairs from a factory: called twice, the second time in the state left by the first; a rejected pair leaves the groups as they were. *)
  Theorem C105_pair {S} (factory : M S O) s s1 s2 a b older : factory s = (s1, Ok a) -> factory s1 = (s2, Ok b) ->
    fst (fst (make_equality_pair w factory (s, held older))) = s2 /\
    (snd (make_equality_pair w factory (s, held older)) = Ok tt <-> good_group w [a; b] /\ apart w [a; b] older) /\
    snd (fst (make_equality_pair w factory (s, held older))) = (if snd (make_equality_pair w factory (s, held older)) then held (older ++ [[a; b]]) else held older).
  Proof.
    intros E1 E2. unfold make_equality_pair. rewrite E1, E2. destruct (C105_add [a; b] older) as (C1 & C2 & C3). destruct (add [a; b] (held older)) as [gs' [[]|e]]; cbn [fst snd] in *.
    - split; [reflexivity|]. split; [exact C1|]. now apply C2.
    - split; [reflexivity|]. split; [exact C1|]. apply C3. discriminate.
  Qed.
End C105.

(** ** Cases *)
(** Pairs (number, label) of which only the number counts. *)
Definition mod_world : world (nat * nat) := {|
  eq_method a v := Ok match v with Unknown => NotImplemented | Subject b => if Nat.eqb (fst a) (fst b) then Yes else No end;
  ne_method a v := Ok match v with Unknown => NotImplemented | Subject b => if Nat.eqb (fst a) (fst b) then No else Yes end;
  identical a b := Nat.eqb (fst a) (fst b) && Nat.eqb (snd a) (snd b);
  subclass _ _ := false;
  hash a := Ok (Some (Z.of_nat (fst a))) |}.
Lemma mod_lawful : lawful mod_world (fun a b => Nat.eqb (fst a) (fst b)).
Proof. constructor; cbn; auto. - intros. apply Nat.eqb_sym. - eauto. Qed.
Example C105_case : snd (add_groups mod_world [[(1, 5); (1, 6)]; [(2, 5); (2, 7); (2, 9)]; []] new_groups) = Ok tt /\ snd (add_groups mod_world [[(1, 5); (1, 6)]; [(2, 5)]; [(1, 7)]] new_groups) = Err AssertionError.
Proof. split; reflexivity. Qed.
Example C105_case_passed : classes mod_world (fun a b => Nat.eqb (fst a) (fst b)) [[(1, 5); (1, 6)]; [(2, 5); (2, 7); (2, 9)]].
Proof. apply (C105_lawful mod_world _ mod_lawful). reflexivity. Qed.

(** An equality that is not symmetric: the old item counts as equal to the new one, not the other way round. The test passes, and fails with the groups in the other order. *)
Definition one_way : world bool := {|
  eq_method a v := Ok match v with Unknown => No | Subject b => if orb (negb a) b then Yes else No end;
  ne_method a v := Ok match v with Unknown => Yes | Subject b => if orb (negb a) b then No else Yes end;
  identical := Bool.eqb; subclass _ _ := false; hash a := Ok None |}.
Theorem C105_reverse_refuted : exists (O : Type) (w : world O) a b, snd (add_groups w [[a]; [b]] new_groups) = Ok tt /\ py_eq w (Subject a) (Subject b) = Ok true /\ snd (add_groups w [[b]; [a]] new_groups) = Err AssertionError.
Proof. exists bool, one_way, false, true. repeat split; reflexivity. Qed.
(** A group without items always passes. *)
Theorem C105_empty : forall (O : Type) (w : world O) older, add_equality_group w [] (held older) = (held (older ++ [[]]), Ok tt).
Proof.
  intros O w older. destruct (C105_add w [] older) as (C1 & C2 & _). destruct (add_equality_group w [] (held older)) as [s r]; cbn [fst snd] in *.
  assert (X : r = Ok tt) by (apply C1; split; [split; intros a b []|split; [intros a []|intros a b h []]]). rewrite X in *. now rewrite C2.
Qed.

Print Assumptions C105_add.
Print Assumptions C105_test.
Print Assumptions C105_passed.
Print Assumptions C105_error.
Print Assumptions C105_lawful.
Print Assumptions C105_order.
Print Assumptions C105_pair.
Print Assumptions C105_reverse_refuted.
