(** Proofs about helpers for qubit operators: sums over labels, random labels, evaluation, circuits of Pauli strings. *)
From Coq Require Import String Ascii ZArith Lia Ring Reals Permutation Sorted.
From Verif Require Import Base BaseFacts MatModel MatFacts LiftModel LiftSpec LiftProofs Cplx CircuitModel CircuitSpec CircuitProofs GateMatModel GateMatProofs ConjProofs
  OpModel OpSpec OpProofs PauliProofs OpTextModel FermiSpec FermiProofs5 FermiProofs6 FermiProofs7 EvolModel EvolSpec EvolProofs2 EvolProofs3 SectorSpec WfModel QopUtilModel QopUtilSpec QopUtilProofs.
Open Scope list_scope.
Local Open Scope nat_scope.

Lemma term_eqb_pauli : eqb_spec_of (term_eqb pauli_eqb).
Proof. apply list_eqb_spec. intros [q p] [q' p']. unfold factor_eqb. cbn [fst snd]. rewrite andb_true_iff, Nat.eqb_eq. pose proof (pauli_eqb_spec p p') as H. rewrite H. split; [intros [-> ->]; reflexivity|intros [= -> ->]; auto]. Qed.

Section Steps.
  Context {K : cring} (small : K -> bool).
  Add Ring Kring_qs : (kth K).
  Open Scope K_scope.
  Notation lsteps := (lsteps small).
  Notation teqb := (term_eqb pauli_eqb).
  Lemma lsteps_coef l : only_zero small -> forall o, wf_op o -> wf_op (lsteps o l) /\ forall t, coef pauli_eqb (lsteps o l) t = coef pauli_eqb o t + total_of l t.
  Proof.
    intros Hs. induction l as [|[c u] l IH]; intros o Wo; [split; [exact Wo|intros t; cbn [total_of]; change (lsteps o []) with o; ring]|].
    change (lsteps o ((c, u) :: l)) with (lsteps (op_add pauli_eqb small o [(u, 1 * c)]) l).
    destruct (IH (op_add pauli_eqb small o [(u, 1 * c)])) as [W H]; [apply (merge_wf pauli_eqb pauli_eqb_spec); exact Wo|]. split; [exact W|]. intros t. rewrite H. cbn [total_of].
    unfold op_add. rewrite (merge_coef pauli_eqb pauli_eqb_spec) by (try exact Wo; repeat constructor; intros []). cbn [dget].
    destruct (teqb t u) eqn:E.
    - apply term_eqb_pauli in E. subst u. rewrite (proj2 (term_eqb_pauli t t) eq_refl). cbv zeta. destruct (small (coef pauli_eqb o t + 1 * c)) eqn:S1; [apply Hs in S1|].
      + transitivity (coef pauli_eqb o t + 1 * c + total_of l t); [rewrite S1; ring|ring].
      + ring.
    - destruct (teqb u t) eqn:E'; [|ring]. apply term_eqb_pauli in E'. subst u. rewrite (proj2 (term_eqb_pauli t t) eq_refl) in E. discriminate.
  Qed.
  Definition kept (l : list (K * term pauli)) : qop K := map (fun ct => (snd ct, fst ct)) (filter (fun ct => negb (small (fst ct))) l).
  Lemma ddel_last (o : qop K) t c : ~ In t (dkeys o) -> ddel teqb t (o ++ [(t, c)]) = o.
  Proof.
    induction o as [|[u d] o IH]; intros N; cbn [app ddel].
    - now rewrite (proj2 (term_eqb_pauli t t) eq_refl).
    - destruct (teqb t u) eqn:E; [apply term_eqb_pauli in E; subst u; exfalso; apply N; left; reflexivity|]. f_equal. apply IH. intros H. apply N. right. exact H.
  Qed.
  Lemma lsteps_distinct l : forall o, NoDup (map snd l) -> (forall t, In t (map snd l) -> ~ In t (dkeys o)) -> lsteps o l = o ++ kept l.
  Proof.
    induction l as [|[c u] l IH]; intros o N D; [cbn; now rewrite app_nil_r|]. cbn [map snd] in *. inversion N as [|? ? N1 N2]; subst.
    change (lsteps o ((c, u) :: l)) with (lsteps (op_add pauli_eqb small o [(u, 1 * c)]) l).
    assert (Hu : ~ In u (dkeys o)) by (apply D; now left).
    assert (E : op_add pauli_eqb small o [(u, 1 * c)] = o ++ (if small c then [] else [(u, c)])).
    { unfold op_add, merge_term. cbn [fold_left fst snd]. rewrite (proj2 (dget_None teqb term_eqb_pauli u o) Hu). replace (0 + 1 * c) with c by ring. rewrite (dset_app_new teqb term_eqb_pauli) by exact Hu.
      destruct (small c); [rewrite app_nil_r; now apply ddel_last|reflexivity]. }
    rewrite E, IH; [|exact N2|].
    - unfold kept. cbn [filter fst]. destruct (small c); cbn [negb map snd fst]; [now rewrite app_nil_r|now rewrite <- app_assoc].
    - intros t Ht. unfold dkeys. rewrite map_app, in_app_iff. intros [H|H]; [apply (D t); [now right|exact H]|].
      destruct (small c); [destruct H|]. destruct H as [<-|[]]. cbn [fst] in N1. contradiction.
  Qed.
End Steps.

(** Different labels have different strings, if all entries are between 0 and 3. *)
Definition proper (label : list Z) : Prop := Forall (fun e => (0 <= e <= 3)%Z) label.
Lemma letter_of_proper e e' : (0 <= e <= 3)%Z -> (0 <= e' <= 3)%Z -> letter_of e = letter_of e' -> e = e'.
Proof. unfold letter_of. intros H H'. repeat match goal with |- context [Z.eqb ?x ?y] => destruct (Z.eqb_spec x y) end; intros E; try discriminate; lia. Qed.
Lemma lterm_inj l : forall l' s, proper l -> proper l' -> length l = length l' -> lterm s l = lterm s l' -> l = l'.
Proof.
  induction l as [|e l IH]; intros [|e' l'] s P P' L E; cbn in L; try lia; [reflexivity|]. inversion P; inversion P'; subst. cbn [lterm] in E.
  assert (X : letter_of e = letter_of e' /\ lterm (S s) l = lterm (S s) l').
  { destruct (letter_of e) as [p|] eqn:Ep, (letter_of e') as [p'|] eqn:Ep'.
    - injection E as -> E. auto.
    - exfalso. assert (F : In (s, p) (lterm (S s) l')) by (rewrite <- E; now left). apply lterm_In in F. lia.
    - exfalso. assert (F : In (s, p') (lterm (S s) l)) by (rewrite E; now left). apply lterm_In in F. lia.
    - auto. }
  destruct X as [X1 X2]. f_equal; [now apply letter_of_proper|]. apply (IH l' (S s)); auto.
Qed.
Fixpoint weight (l : list Z) : nat := match l with [] => 0 | e :: l' => (if Z.eqb e 0 then 0 else 1) + weight l' end.
Lemma lterm_length l : forall s, proper l -> length (lterm s l) = weight l.
Proof.
  induction l as [|e l IH]; intros s P; [reflexivity|]. inversion P; subst. cbn [lterm weight]. unfold letter_of.
  destruct (Z.eqb_spec e 1), (Z.eqb_spec e 2), (Z.eqb_spec e 3), (Z.eqb_spec e 0); subst; try lia; cbn [length]; rewrite IH by assumption; reflexivity.
Qed.

(** All labels of n qubits and weight k. *)
Fixpoint all_labels (n k : nat) : list (list Z) :=
  match n with
  | 0 => match k with 0 => [[]] | S _ => [] end
  | S n' => map (cons 0%Z) (all_labels n' k) ++ match k with 0 => [] | S k' => flat_map (fun p => map (cons p) (all_labels n' k')) [1; 2; 3]%Z end
  end.
Lemma choose_0 n : choose n 0 = 1. Proof. destruct n; reflexivity. Qed.
Lemma all_labels_length n : forall k, length (all_labels n k) = choose n k * 3 ^ k.
Proof.
  induction n as [|n IH]; intros k.
  - destruct k; reflexivity.
  - destruct k as [|k]; cbn [all_labels]; rewrite app_length, map_length, IH; [rewrite !choose_0; reflexivity|].
    cbn [flat_map]. rewrite !app_length, !map_length, !IH. cbn [choose length Nat.pow]. nia.
Qed.
Lemma all_labels_In n : forall l, length l = n -> proper l -> In l (all_labels n (weight l)).
Proof.
  induction n as [|n IH]; intros [|e l] L P; cbn in L; try lia; [now left|]. inversion P; subst. cbn [weight all_labels]. apply in_app_iff.
  destruct (Z.eqb_spec e 0).
  - left. subst e. apply in_map, IH; [lia|assumption].
  - right. cbn [Nat.add]. apply in_flat_map. exists e. split; [cbn [In]; lia|]. apply in_map, IH; [lia|assumption].
Qed.

Section Random.
  Context {K : cring} (r : random_source K) (nq k : nat).
  Definition well_behaved : Prop :=
    (forall t, NoDup (sample r t) /\ length (sample r t) = k /\ forall q, In q (sample r t) -> q < nq) /\ (forall t j, (1 <= randint r t j <= 3)%Z).
  Context (W : well_behaved).
  Lemma set_nth_length {X} (l : list X) : forall i a, length (set_nth i a l) = length l.
  Proof. induction l as [|x l IH]; intros [|i] a; cbn; auto. Qed.
  Lemma set_nth_proper l : forall i e, proper l -> (0 <= e <= 3)%Z -> proper (set_nth i e l).
  Proof. induction l as [|x l IH]; intros [|i] e P H; cbn [set_nth]; inversion P; subst; [constructor|constructor|constructor; auto|constructor; [assumption|now apply IH]]. Qed.
  Lemma set_nth_weight l : forall i e, i < length l -> nth i l 0%Z = 0%Z -> e <> 0%Z -> weight (set_nth i e l) = S (weight l).
  Proof.
    induction l as [|x l IH]; intros [|i] e L N E; cbn in L; try lia; cbn [set_nth weight nth] in *.
    - subst x. destruct (Z.eqb_spec e 0); [contradiction|]. reflexivity.
    - rewrite IH by (try assumption; lia). lia.
  Qed.
  Lemma set_nth_other (l : list Z) : forall i j e, i <> j -> nth j (set_nth i e l) 0%Z = nth j l 0%Z.
  Proof. induction l as [|x l IH]; intros [|i] [|j] e N; cbn [set_nth nth]; try reflexivity; try lia; try (apply IH; lia); congruence. Qed.
  Lemma set_nth_same (l : list Z) : forall i e, i < length l -> nth i (set_nth i e l) 0%Z = e.
  Proof. induction l as [|x l IH]; intros [|i] e L; cbn in L; try lia; cbn [set_nth nth]; [reflexivity|apply IH; lia]. Qed.
  Lemma repeat_weight n : weight (repeat 0%Z n) = 0. Proof. induction n; cbn; auto. Qed.
  Lemma repeat_proper n : proper (repeat 0%Z n). Proof. induction n; constructor; [lia|assumption]. Qed.
  Lemma label_facts t : let l := random_label r nq t in length l = nq /\ proper l /\ weight l = k /\
    forall q, q < nq -> (In q (sample r t) -> (1 <= nth q l 0 <= 3)%Z) /\ (~ In q (sample r t) -> nth q l 0%Z = 0%Z).
  Proof.
    destruct W as [W1 W2]. destruct (W1 t) as (N & L & B). cbv zeta. unfold random_label.
    pose proof (sort_by_perm Nat.leb (sample r t)) as P. apply Permutation_sym in P.
    assert (G : forall m j l, NoDup m -> (forall q, In q m -> q < length l /\ nth q l 0%Z = 0%Z) -> proper l ->
      let l' := fold_left (fun label (ki : nat * nat) => set_nth (snd ki) (randint r t (fst ki)) label) (combine (seq j (length m)) m) l in
      length l' = length l /\ proper l' /\ weight l' = length m + weight l /\ forall q, q < length l -> (In q m -> (1 <= nth q l' 0 <= 3)%Z) /\ (~ In q m -> nth q l' 0%Z = nth q l 0%Z)).
    { clear N L B P. induction m as [|i m IH]; intros j l N B Pl; cbn [length seq combine fold_left fst snd].
      - split; [reflexivity|]. split; [exact Pl|]. split; [reflexivity|]. intros q _. split; [intros []|reflexivity].
      - inversion N as [|? ? N1 N2]; subst. destruct (B i (or_introl eq_refl)) as [B1 B2]. specialize (W2 t j).
        destruct (IH (S j) (set_nth i (randint r t j) l) N2) as (I1 & I2 & I3 & I4).
        + intros q Hq. rewrite set_nth_length. destruct (B q (or_intror Hq)) as [B3 B4]. split; [exact B3|]. rewrite set_nth_other; [exact B4|]. intros ->. contradiction.
        + apply set_nth_proper; [exact Pl|lia].
        + cbv zeta. split; [rewrite I1; apply set_nth_length|]. split; [exact I2|]. split; [rewrite I3, set_nth_weight by (try assumption; lia); cbn [length]; lia|].
          intros q Hq. rewrite set_nth_length in I4. destruct (I4 q Hq) as [I5 I6]. destruct (in_dec Nat.eq_dec q m) as [Hm|Hm].
          * split; [intros _; exact (I5 Hm)|]. intros F. exfalso. apply F. now right.
          * specialize (I6 Hm). destruct (Nat.eq_dec i q) as [->|Ne].
            -- rewrite set_nth_same in I6 by exact B1. split; [intros _; rewrite I6; lia|]. intros F. exfalso. apply F. now left.
            -- split; [intros [F|F]; contradiction|]. intros _. rewrite I6. apply set_nth_other. exact Ne. }
    specialize (G (sort_by Nat.leb (sample r t)) 0 (repeat 0%Z nq)). rewrite <- (Permutation_length P) in G. rewrite repeat_length in G.
    destruct G as (G1 & G2 & G3 & G4).
    - eapply Permutation_NoDup; [exact P|exact N].
    - intros q Hq. split; [apply B; eapply Permutation_in; [apply Permutation_sym; exact P|exact Hq]|]. apply nth_repeat.
    - apply repeat_proper.
    - split; [exact G1|]. split; [exact G2|]. split; [rewrite G3, repeat_weight; lia|]. intros q Hq. destruct (G4 q Hq) as [G5 G6]. rewrite nth_repeat in G6. split; intros H.
      + apply G5. eapply Permutation_in; [exact P|exact H].
      + apply G6. intros F. apply H. eapply Permutation_in; [apply Permutation_sym; exact P|exact F].
  Qed.
  Lemma label_spec : eqb_spec_of (list_eqb Z.eqb).
  Proof. apply list_eqb_spec. intros x y. apply Z.eqb_eq. Qed.
  Lemma draw_sound nterms fuel : forall t labels l, NoDup labels -> length labels <= nterms -> draw_labels r nq nterms fuel t labels = Some l ->
    NoDup l /\ length l = nterms /\ forall x, In x l -> In x labels \/ exists u, t <= u < t + fuel /\ x = random_label r nq u.
  Proof.
    induction fuel as [|fuel IH]; intros t labels l N L; cbn [draw_labels]; destruct (Nat.leb_spec nterms (length labels)) as [G|G]; try discriminate.
    - intros [= <-]. split; [exact N|]. split; [lia|auto].
    - intros [= <-]. split; [exact N|]. split; [lia|auto].
    - set (x := random_label r nq t). destruct (memb (list_eqb Z.eqb) x labels) eqn:E.
      + intros H. destruct (IH (S t) labels l N L H) as (H1 & H2 & H3). split; [exact H1|]. split; [exact H2|]. intros y Hy. destruct (H3 y Hy) as [H4|(u & H4 & H5)]; [auto|]. right. exists u. split; [lia|exact H5].
      + assert (Nx : ~ In x labels) by (intros F; apply (memb_In _ label_spec) in F; congruence).
        intros H. destruct (IH (S t) (labels ++ [x]) l) as (H1 & H2 & H3); [|rewrite app_length; cbn; lia|exact H|].
        * apply NoDup_app_intro'; [exact N|repeat constructor; intros []|]. intros y Hy [<-|[]]. contradiction.
        * split; [exact H1|]. split; [exact H2|]. intros y Hy. destruct (H3 y Hy) as [H4|(u & H4 & H5)].
          -- apply in_app_iff in H4 as [H4|[<-|[]]]; [auto|]. right. exists t. split; [lia|reflexivity].
          -- right. exists u. split; [lia|exact H5].
  Qed.
  Lemma draw_complete nterms m fuel : NoDup m -> length m = nterms -> forall t labels, (forall x, In x m -> In x labels \/ exists u, t <= u < t + fuel /\ x = random_label r nq u) ->
    exists l, draw_labels r nq nterms fuel t labels = Some l.
  Proof.
    intros N L. induction fuel as [|fuel IH]; intros t labels H; cbn [draw_labels]; destruct (Nat.leb_spec nterms (length labels)) as [G|G]; try (eexists; reflexivity).
    - exfalso. assert (I : incl m labels). { intros x Hx. destruct (H x Hx) as [?|(u & Hu & _)]; [assumption|lia]. } pose proof (NoDup_incl_length N I). lia.
    - apply IH. intros x Hx. set (y := random_label r nq t). destruct (H x Hx) as [H1|(u & Hu & E)].
      + left. destruct (memb _ y labels); [exact H1|]. apply in_app_iff. now left.
      + destruct (Nat.eq_dec u t) as [->|Ne].
        * left. subst x. destruct (memb (list_eqb Z.eqb) y labels) eqn:E; [now apply (memb_In _ label_spec) in E|]. apply in_app_iff. right. now left.
        * right. exists u. split; [lia|exact E].
  Qed.
  Lemma draws_bounded nterms fuel l : draw_labels r nq nterms fuel 0 [] = Some l -> nterms <= choose nq k * 3 ^ k.
  Proof.
    intros H. destruct (draw_sound nterms fuel 0 [] l) as (N & L & D); [constructor|cbn; lia|exact H|]. rewrite <- L, <- all_labels_length. apply NoDup_incl_length; [exact N|].
    intros x Hx. destruct (D x Hx) as [[]|(u & _ & ->)]. destruct (label_facts u) as (F1 & F2 & F3 & _). rewrite <- F3. now apply all_labels_In.
  Qed.
End Random.
