(** Proofs about grouping and task lists (C36, C38-C40). *)
From Coq Require Import Permutation Sorted Lia Ring.
From Verif Require Import Base BaseFacts MatModel MatFacts OpModel OpSpec OpProofs PauliProofs OpProofs2 EstModel EstSpec.
Open Scope list_scope.
Local Open Scope nat_scope.

Lemma is_comeasureable_spec t u : is_comeasureable t u = true <-> comeasurable t u.
Proof.
  unfold is_comeasureable, comeasurable. rewrite forallb_forall. split.
  - intros H q p p' H1 H2. specialize (H _ H1). rewrite forallb_forall in H. specialize (H _ H2). cbn [fst snd] in H.
    rewrite Nat.eqb_refl in H. cbn in H. apply pauli_eqb_spec, H.
  - intros H [q p] H1. apply forallb_forall. intros [q' p'] H2. cbn [fst snd]. destruct (Nat.eqb_spec q q') as [E|N]; [|reflexivity]. subst q'.
    cbn. apply pauli_eqb_spec. eapply H; eauto.
Qed.
Lemma comeasurable_sym t u : comeasurable t u -> comeasurable u t.
Proof. intros H q p p' H1 H2. symmetry. eapply H; eauto. Qed.
Lemma canonical_comeasurable t : canonical t -> comeasurable t t.
Proof.
  induction t as [|f t IH]; intros C q p p' H1 H2; [destruct H1|]. pose proof (canonical_head f t C) as Hh. destruct C as (_ & _ & C).
  destruct H1 as [E1|H1], H2 as [E2|H2].
  - congruence.
  - subst f. specialize (Hh _ H2). cbn in Hh. lia.
  - subst f. specialize (Hh _ H1). cbn in Hh. lia.
  - eapply IH; eauto.
Qed.

Section Greedy.
  Context {K : cring} (im : K) (small : K -> bool).
  Add Ring KrG : (kth K).
  Notation teqb := (term_eqb pauli_eqb).
  Let Ht : eqb_spec_of teqb := term_eqb_spec pauli_eqb pauli_eqb_spec.
  Notation asg := (assign_term im small).

  Lemma add_one (g : qop K) t c : canonical t -> ~ In t (dkeys g) ->
    op_add pauli_eqb small g (mk_op (qubit_simplify im) t c) = if small c then g else g ++ [(t, c)].
  Proof.
    intros C N. unfold mk_op. rewrite canonical_simplify by auto. unfold op_add; cbn [fold_left merge_term fst snd].
    unfold merge_term; cbn [fst snd]. assert (E : dget teqb t g = None) by (apply (dget_None teqb Ht); auto). rewrite E.
    replace (kadd k0 c) with c by ring. rewrite (dset_app_new teqb Ht) by auto. destruct (small c); [|reflexivity].
    clear E. revert N. induction g as [|[u d] g IH]; intros N; cbn.
    - rewrite (eqb_spec_refl teqb Ht). reflexivity.
    - assert (F : teqb t u = false) by (apply (eqb_spec_false teqb Ht); intros ->; apply N; left; reflexivity). rewrite F. rewrite IH; auto. intros H; apply N; right; auto.
  Qed.

  (** first fit *)
  Lemma assign_cases t c groups : canonical t -> ~ In t (dkeys (concat groups)) ->
    (exists gs1 g gs2, groups = gs1 ++ g :: gs2 /\ (forall h, In h gs1 -> exists u d, In (u, d) h /\ ~ comeasurable t u) /\
        (forall u d, In (u, d) g -> comeasurable t u) /\ asg t c groups = gs1 ++ (if small c then g else g ++ [(t, c)]) :: gs2) \/
    ((forall h, In h groups -> exists u d, In (u, d) h /\ ~ comeasurable t u) /\ asg t c groups = groups ++ [[(t, c)]]).
  Proof.
    intros C. induction groups as [|g gs IH]; intros N; cbn [assign_term].
    - right. split; [intros h []|]. unfold mk_op. rewrite canonical_simplify by auto. reflexivity.
    - cbn [concat] in N. unfold dkeys in N. rewrite map_app in N. destruct (forallb (is_comeasureable t) (dkeys g)) eqn:E.
      + left. exists [], g, gs. split; [reflexivity|]. split; [intros h []|]. split.
        * intros u d Hu. rewrite forallb_forall in E. apply is_comeasureable_spec, E. apply in_map_iff. exists (u, d); auto.
        * cbn. rewrite add_one; auto. intros H; apply N, in_or_app; auto.
      + assert (B : exists u d, In (u, d) g /\ ~ comeasurable t u).
        { apply Bool.not_true_iff_false in E. rewrite forallb_forall in E.
          destruct (existsb (fun tc => negb (is_comeasureable t (fst tc))) g) eqn:E2.
          - apply existsb_exists in E2 as ([u d] & Hu & Hn). exists u, d. split; [auto|]. intros H. apply is_comeasureable_spec in H. cbn in Hn. rewrite H in Hn. discriminate.
          - exfalso. apply E. intros u Hu. apply in_map_iff in Hu as ([u' d] & <- & Hu). destruct (is_comeasureable t u') eqn:E3; [auto|].
            assert (F : existsb (fun tc => negb (is_comeasureable t (fst tc))) g = true) by (apply existsb_exists; exists (u', d); cbn; rewrite E3; auto). congruence. }
        destruct IH as [(gs1 & g' & gs2 & E1 & E2 & E3 & E4)|[E1 E2]].
        * intros H; apply N, in_or_app; auto.
        * left. exists (g :: gs1), g', gs2. rewrite E4, E1. split; [reflexivity|]. split; [|auto]. intros h [<-|H]; auto.
        * right. rewrite E2. split; [|reflexivity]. intros h [<-|H]; auto.
  Qed.

  (** what a list of groups has to satisfy *)
  Definition good_groups (groups : list (qop K)) : Prop :=
    (forall g, In g groups -> g <> [] /\ comeasurable_group g) /\
    (forall i j g h, i < j -> nth_error groups i = Some g -> nth_error groups j = Some h ->
       forall t c, In (t, c) h -> exists u d, In (u, d) g /\ ~ comeasurable t u).

  Lemma assign_good t c groups : canonical t -> ~ In t (dkeys (concat groups)) -> good_groups groups ->
    good_groups (asg t c groups) /\
    exists lost, Forall (fun tc => small (snd tc) = true) lost /\ Permutation (concat (asg t c groups) ++ lost) (concat groups ++ [(t, c)]).
  Proof.
    intros C N [G1 G2]. destruct (assign_cases t c groups C N) as [(gs1 & g & gs2 & E & E1 & E2 & ->)|[E1 ->]].
    - destruct (small c) eqn:Sc.
      + rewrite <- E. split; [split; auto|]. exists [(t, c)]. split; [constructor; auto|]. apply Permutation_refl.
      + split; [split|].
        * intros h Hh. apply in_app_or in Hh. rewrite E in G1. assert (A : In h gs1 \/ h = g ++ [(t, c)] \/ In h gs2) by (destruct Hh as [|[<-|]]; auto). clear Hh.
          destruct A as [A|[->|A]]; [apply G1, in_or_app; auto| |apply G1, in_or_app; cbn; auto].
          split; [destruct g; discriminate|]. destruct (G1 g ltac:(apply in_or_app; cbn; auto)) as [_ Gg].
          intros x cx y cy Hx Hy. apply in_app_or in Hx, Hy. cbn in Hx, Hy.
          destruct Hx as [Hx|[Hx|[]]], Hy as [Hy|[Hy|[]]].
          -- eapply Gg; eauto.
          -- injection Hy as <- <-. apply comeasurable_sym. eapply E2; eauto.
          -- injection Hx as <- <-. eapply E2; eauto.
          -- injection Hx as <- <-. injection Hy as <- <-. apply canonical_comeasurable; auto.
        * intros i j h1 h2 Hij H1 H2 x cx Hx.
          assert (L : forall (X : qop K) k, k <> length gs1 -> nth_error (gs1 ++ X :: gs2) k = nth_error groups k).
          { intros X k Hk. rewrite E. destruct (lt_dec k (length gs1)); [rewrite !nth_error_app1 by auto; auto|].
            rewrite !nth_error_app2 by lia. destruct (k - length gs1) as [|m] eqn:Em; [lia|]. reflexivity. }
          assert (L0 : forall (X : qop K), nth_error (gs1 ++ X :: gs2) (length gs1) = Some X).
          { intros X. rewrite nth_error_app2 by lia. rewrite Nat.sub_diag. reflexivity. }
          assert (L1 : nth_error groups (length gs1) = Some g) by (rewrite E; apply L0).
          destruct (Nat.eq_dec i (length gs1)) as [Ei|Ei].
          -- subst i. rewrite L0 in H1. injection H1 as <-. rewrite L in H2 by lia.
             destruct (G2 _ _ _ _ Hij L1 H2 x cx Hx) as (u & d & Hu & Hn). exists u, d. split; [apply in_or_app; auto|auto].
          -- rewrite L in H1 by auto. destruct (Nat.eq_dec j (length gs1)) as [Ej|Ej].
             ++ subst j. rewrite L0 in H2. injection H2 as <-. apply in_app_or in Hx as [Hx|[Hx|[]]].
                ** eapply (G2 _ _ _ _ Hij H1 L1); eauto.
                ** injection Hx as <- <-. apply E1. rewrite E in H1. rewrite nth_error_app1 in H1 by auto. eapply nth_error_In; eauto.
             ++ rewrite L in H2 by auto. eapply (G2 _ _ _ _ Hij H1 H2); eauto.
        * exists []. split; [constructor|]. rewrite app_nil_r, E, !concat_app. cbn [concat].
          rewrite <- !app_assoc. apply Permutation_app_head, Permutation_app_head. cbn. apply Permutation_cons_append.
    - split; [split|].
      + intros h Hh. apply in_app_or in Hh as [Hh|[<-|[]]]; [auto|]. split; [discriminate|].
        intros x cx y cy [[= <- <-]|[]] [[= <- <-]|[]]. apply canonical_comeasurable; auto.
      + intros i j h1 h2 Hij H1 H2 x cx Hx.
        assert (Hj : j < length (groups ++ [[(t, c)]])) by (apply nth_error_Some; intros E0; pose proof (eq_trans (eq_sym E0) H2); discriminate). rewrite app_length in Hj; cbn in Hj.
        rewrite nth_error_app1 in H1 by lia. destruct (Nat.eq_dec j (length groups)) as [Ej|Ej].
        * subst j. rewrite nth_error_app2, Nat.sub_diag in H2 by lia. cbn in H2. injection H2 as <-. destruct Hx as [[= <- <-]|[]].
          apply E1. eapply nth_error_In; eauto.
        * rewrite nth_error_app1 in H2 by lia. eapply (G2 _ _ _ _ Hij H1 H2); eauto.
      + exists []. split; [constructor|]. rewrite app_nil_r, concat_app. cbn. reflexivity.
  Qed.

  Definition const_groups (o : option (qop K)) : list (qop K) := match o with Some g => [g] | None => [] end.
  Notation step := (fun st (tc : term pauli * K) =>
        match fst tc with
        | [] => (fst st, Some (mk_op (qubit_simplify im) [] (snd tc)))
        | _ => (assign_term im small (fst tc) (snd tc) (fst st), snd st)
        end).

  Lemma greedy_fold (l : qop K) : forall groups const lost, NoDup (dkeys (concat groups ++ concat (const_groups const) ++ l)) ->
    (forall t c, In (t, c) l -> canonical t) -> good_groups groups ->
    (forall g, In g groups -> forall c, ~ In ([], c) g) -> (match const with Some g => exists c, g = [([], c)] | None => True end) ->
    Forall (fun tc => small (snd tc) = true) lost ->
    forall groups' const', fold_left step l (groups, const) = (groups', const') ->
    good_groups groups' /\ (forall g, In g groups' -> forall c, ~ In ([], c) g) /\
    (match const' with Some g => exists c, g = [([], c)] | None => True end) /\
    exists lost', Forall (fun tc => small (snd tc) = true) lost' /\
      Permutation (concat groups' ++ concat (const_groups const') ++ lost') (concat groups ++ concat (const_groups const) ++ lost ++ l).
  Proof.
    induction l as [|[t c] l IH]; intros groups const lost ND Hc Hg Hn Hk HL groups' const' EF; cbn [fold_left fst snd] in EF.
    - injection EF as <- <-. do 3 (split; [auto|]). exists lost. rewrite app_nil_r. auto.
    - pose proof (Hc t c (or_introl eq_refl)) as Ct. assert (Hc' : forall t c, In (t, c) l -> canonical t) by (intros; eapply Hc; right; eauto).
      destruct t as [|f t].
      + assert (K0 : const = None).
        { destruct const as [g|]; [|auto]. destruct Hk as (c' & ->). exfalso. cbn in ND. unfold dkeys in ND. rewrite !map_app in ND. apply NoDup_app_r' in ND.
          cbn in ND. inversion ND as [|? ? Hin _]. apply Hin. left; auto. }
        subst const. specialize (IH groups (Some (mk_op (qubit_simplify im) [] c)) lost).
        destruct (IH) with (groups' := groups') (const' := const') as (G1 & G2 & G3 & lost' & H1 & H2); auto. { exists c; auto. }
        do 3 (split; [auto|]). exists lost'. split; [auto|]. etransitivity; [exact H2|]. apply Permutation_app_head.
        rewrite <- Permutation_middle. reflexivity.
      + assert (Nt : ~ In (f :: t) (dkeys (concat groups))).
        { unfold dkeys in ND |- *. rewrite !map_app in ND. intros Hin. clear -ND Hin. cbn in ND.
          rewrite app_assoc in ND. apply NoDup_remove_2 in ND. apply ND. rewrite <- app_assoc. apply in_or_app; auto. }
        destruct (assign_good (f :: t) c groups Ct Nt Hg) as (Hg' & lost1 & HL1 & HP).
        specialize (IH (asg (f :: t) c groups) const (lost1 ++ lost)).
        assert (SUB : forall g x, In g (asg (f :: t) c groups) -> In x g -> x = (f :: t, c) \/ exists g', In g' groups /\ In x g').
        { intros g x H1 H2. assert (In x (concat groups ++ [(f :: t, c)])) as H3.
          { eapply Permutation_in; [exact HP|]. apply in_or_app; left. apply in_concat. eauto. }
          apply in_app_or in H3 as [H3|[H3|[]]]; [|auto]. right. apply in_concat in H3 as (g' & ? & ?). eauto. }
        destruct IH with (groups' := groups') (const' := const') as (G1 & G2 & G3 & lost' & H1 & H2); auto.
        * assert (P2 : Permutation (dkeys ((concat groups ++ [(f :: t, c)]) ++ concat (const_groups const) ++ l)) (dkeys (concat groups ++ concat (const_groups const) ++ (f :: t, c) :: l))).
          { unfold dkeys. apply Permutation_map. rewrite <- app_assoc. apply Permutation_app_head. cbn. apply Permutation_middle. }
          apply (Permutation_NoDup (Permutation_sym P2)) in ND. unfold dkeys in ND |- *. rewrite map_app in ND |- *.
          assert (P3 : Permutation (map fst (concat groups ++ [(f :: t, c)])) (map fst (concat (asg (f :: t) c groups)) ++ map fst lost1)).
          { rewrite <- map_app. apply Permutation_map, Permutation_sym, HP. }
          apply (Permutation_NoDup (Permutation_app_tail _ P3)) in ND. rewrite <- app_assoc in ND.
          apply (Permutation_NoDup (l := map fst lost1 ++ (map fst (concat (asg (f :: t) c groups)) ++ map fst (concat (const_groups const) ++ l)))) in ND || idtac.
          assert (P4 : Permutation (map fst (concat (asg (f :: t) c groups)) ++ map fst lost1 ++ map fst (concat (const_groups const) ++ l))
                       (map fst lost1 ++ map fst (concat (asg (f :: t) c groups)) ++ map fst (concat (const_groups const) ++ l))) by apply Permutation_app_swap_app.
          apply (Permutation_NoDup P4) in ND. apply NoDup_app_r' in ND. exact ND.
        * intros g H1 c0 H2. destruct (SUB g _ H1 H2) as [E|(g' & H3 & H4)]; [discriminate|]. eapply Hn; eauto.
        * apply Forall_app; auto.
        * do 3 (split; [auto|]). exists lost'. split; [auto|]. etransitivity; [exact H2|].
          transitivity (concat (asg (f :: t) c groups) ++ lost1 ++ concat (const_groups const) ++ lost ++ l).
          { apply Permutation_app_head. rewrite <- !app_assoc. apply Permutation_app_swap_app. }
          rewrite app_assoc. rewrite HP. rewrite <- app_assoc. apply Permutation_app_head. cbn.
          rewrite !app_assoc. apply Permutation_middle.
  Qed.

  Lemma greedy_spec absle (a : qop K) sort : wf_op a -> (forall t c, In (t, c) a -> canonical t) ->
    exists groups const lost, group_comeasureable_terms_greedy im small absle a sort = groups ++ const_groups const /\
      good_groups groups /\ (forall g, In g groups -> forall c, ~ In ([], c) g) /\
      (match const with Some g => exists c, g = [([], c)] | None => True end) /\
      Forall (fun tc => small (snd tc) = true) lost /\ Permutation (concat groups ++ concat (const_groups const) ++ lost) a.
  Proof.
    intros W C. unfold group_comeasureable_terms_greedy.
    set (l := if sort then sort_by _ a else a). assert (Pl : Permutation l a) by (unfold l; destruct sort; [apply sort_by_perm|reflexivity]).
    destruct (fold_left step l ([], None)) as [groups const] eqn:EF.
    destruct (fun A B C0 D E F => greedy_fold l [] None [] A B C0 D E F groups const EF) as (G1 & G2 & G3 & lost & H1 & H2).
    - unfold wf_op in W. eapply Permutation_NoDup; [|exact W]. apply Permutation_map, Permutation_sym, Pl.
    - intros t c H. eapply C. eapply Permutation_in; [exact Pl|exact H].
    - split; [intros g []|]. intros i j g h _ H1. destruct i; discriminate.
    - intros g [].
    - exact I.
    - constructor.
    - exists groups, const, lost. unfold const_groups at 1. split; [reflexivity|]. do 4 (split; [auto|]). rewrite H2. exact Pl.
  Qed.
End Greedy.
