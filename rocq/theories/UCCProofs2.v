(** Proofs for C77: sequences of excitations added to an operator. *)
From Coq Require Import Ring.
From Verif Require Import Base BaseFacts MatModel MatFacts LiftSpec LiftProofs OpModel OpSpec OpProofs OpProofs2 FermiModel FermiSpec FermiProofs FermiProofs2 FermiProofs6 FermiProofs7 UCCModel.
Open Scope list_scope.
Local Open Scope nat_scope.

Section S.
  Context {K : cring} (small : K -> bool).
  Add Ring Kring_ucc2 : (kth K).
  Open Scope K_scope.
  Definition exc_step (anti : bool) (g : fop K) (tc : fterm * K) : fop K := add_excitation small anti (fst tc) (dagger (fst tc)) (snd tc) g.
  Definition run (anti : bool) (l : list (fterm * K)) (g : fop K) : fop K := fold_left (exc_step anti) l g.
  Definition part (anti : bool) (phi : fterm -> K) (tc : fterm * K) : K := snd tc * (phi (fst tc) - (if anti then phi (dagger (fst tc)) else 0)).
  Fixpoint lsum (l : list K) : K := match l with [] => 0 | x :: l => x + lsum l end.
  Lemma lsum_app l m : lsum (l ++ m) = lsum l + lsum m.
  Proof. induction l as [|x l IH]; cbn [lsum app]; [ring|rewrite IH; ring]. Qed.

  Lemma add_one (g : fop K) t c : exists r : fop K, all_small small r /\ (forall u, In u (map fst r) -> u = t) /\ (length r <= 1)%nat /\
    forall phi, lval phi (fermion_add small g (fermion_op t c)) + lval phi r = lval phi g + c * phi t.
  Proof.
    destruct (add_count Bool.eqb bool_eqb_spec small (fermion_op t c) g) as (r & R1 & R2 & R3 & R4). exists r. split; [exact R1|]. split; [|split; [exact R3|]].
    - intros u Hu. apply R2 in Hu. cbn in Hu. destruct Hu as [<-|[]]; reflexivity.
    - intros phi. etransitivity; [exact (R4 phi)|]. unfold fermion_op, mk_op, fermion_simplify. cbn [lval fst snd]. ring.
  Qed.
  Lemma run_value (anti : bool) (l : list (fterm * K)) : forall g : fop K, exists r : fop K, all_small small r /\ (forall u, In u (map fst r) -> exists tc, In tc l /\ (u = fst tc \/ u = dagger (fst tc))) /\
    (length r <= (if anti then 2 else 1) * length l)%nat /\ forall phi, lval phi (run anti l g) + lval phi r = lval phi g + lsum (map (part anti phi) l).
  Proof.
    induction l as [|[t c] l IH]; intros g.
    { exists ([] : fop K). split; [constructor|]. split; [intros u []|]. split; [cbn; lia|]. intros phi. cbn. ring. }
    cbn [run fold_left]. destruct (IH (exc_step anti g (t, c))) as (r & R1 & R2 & R3 & R4).
    unfold exc_step in R4 |- *. unfold add_excitation in R4 |- *. cbn [fst snd] in R4 |- *. cbn zeta in R4 |- *.
    destruct (add_one g t c) as (q & Q1 & Q2 & Q3 & Q4). destruct anti.
    - destruct (add_one (fermion_add small g (fermion_op t c)) (dagger t) (- c)) as (p & P1 & P2 & P3 & P4).
      exists (r ++ q ++ p). split; [apply Forall_app; split; [exact R1|]; apply Forall_app; split; [exact Q1|exact P1]|]. split; [|split].
      + intros u Hu. rewrite !map_app in Hu. apply in_app_iff in Hu as [Hu|Hu].
        * destruct (R2 u Hu) as (tc & H1 & H2). exists tc. split; [right; exact H1|exact H2].
        * exists (t, c). split; [left; reflexivity|]. cbn [fst]. apply in_app_iff in Hu as [Hu|Hu]; [left; apply Q2; exact Hu|right; apply P2; exact Hu].
      + rewrite !app_length. cbn [length]. lia.
      + intros phi. rewrite !lval_app. specialize (R4 phi). specialize (Q4 phi). specialize (P4 phi). unfold run in R4. cbn [map lsum]. unfold part at 1. cbn [fst snd].
        match goal with |- ?a + (?b + (?c1 + ?d)) = _ => transitivity (a + b + c1 + d); [ring|] end. match type of R4 with ?x = ?y => match goal with |- context [kadd ?a ?b] => replace (kadd a b) with y by (symmetry; exact R4) end end.
        match goal with |- ?a + ?s + ?b + ?d = _ => transitivity (a + d + b + s); [ring|] end. match type of P4 with ?x = ?y => match goal with |- context [kadd ?a ?b] => replace (kadd a b) with y by (symmetry; exact P4) end end.
        match goal with |- ?a + ?s + ?b + ?d = _ => transitivity (a + b + s + d); [ring|] end. match type of Q4 with ?x = ?y => match goal with |- context [kadd ?a ?b] => replace (kadd a b) with y by (symmetry; exact Q4) end end. ring.
    - exists (r ++ q). split; [apply Forall_app; split; [exact R1|exact Q1]|]. split; [|split].
      + intros u Hu. rewrite !map_app in Hu. apply in_app_iff in Hu as [Hu|Hu].
        * destruct (R2 u Hu) as (tc & H1 & H2). exists tc. split; [right; exact H1|exact H2].
        * exists (t, c). split; [left; reflexivity|]. cbn [fst]. left. apply Q2. exact Hu.
      + rewrite !app_length. cbn [length]. lia.
      + intros phi. rewrite !lval_app. specialize (R4 phi). specialize (Q4 phi). unfold run in R4. cbn [map lsum]. unfold part at 1. cbn [fst snd].
        match goal with |- ?a + (?b + ?c1) = _ => transitivity (a + b + c1); [ring|] end. match type of R4 with ?x = ?y => match goal with |- context [kadd ?a ?b] => replace (kadd a b) with y by (symmetry; exact R4) end end.
        match goal with |- ?a + ?s + ?b = _ => transitivity (a + b + s); [ring|] end. match type of Q4 with ?x = ?y => match goal with |- context [kadd ?a ?b] => replace (kadd a b) with y by (symmetry; exact Q4) end end. ring.
  Qed.
  Lemma add_keys (g : fop K) t c u : In u (dkeys (fermion_add small g (fermion_op t c))) -> u = t \/ In u (dkeys g).
  Proof.
    unfold fermion_add, op_add, fermion_op, mk_op, fermion_simplify. cbn [fold_left]. unfold merge_term. cbn [fst snd]. cbn zeta.
    destruct (small _); intros H; [apply In_dkeys_ddel in H|]; apply (In_dkeys_dset _ (term_eqb_spec _ bool_eqb_spec)) in H; tauto.
  Qed.
  Lemma run_keys (anti : bool) (l : list (fterm * K)) : forall (g : fop K) u, In u (dkeys (run anti l g)) -> In u (dkeys g) \/ exists tc, In tc l /\ (u = fst tc \/ u = dagger (fst tc)).
  Proof.
    induction l as [|[t c] l IH]; intros g u H; [left; exact H|]. cbn [run fold_left] in H. apply IH in H as [H|(tc & H1 & H2)]; [|right; exists tc; split; [right; exact H1|exact H2]].
    unfold exc_step, add_excitation in H. cbn [fst snd] in H. cbn zeta in H. destruct anti.
    - apply add_keys in H as [->|H]; [right; exists (t, c); split; [left; reflexivity|right; reflexivity]|]. apply add_keys in H as [->|H]; [right; exists (t, c); split; [left; reflexivity|left; reflexivity]|left; exact H].
    - apply add_keys in H as [->|H]; [right; exists (t, c); split; [left; reflexivity|left; reflexivity]|left; exact H].
  Qed.
  Lemma add_wf_one (g : fop K) t c : wf_op g -> wf_op (fermion_add small g (fermion_op t c)).
  Proof. intros H. apply (merge_wf Bool.eqb bool_eqb_spec). exact H. Qed.
  Lemma run_wf (anti : bool) (l : list (fterm * K)) : forall g : fop K, wf_op g -> wf_op (run anti l g).
  Proof.
    induction l as [|[t c] l IH]; intros g H; [exact H|]. cbn [run fold_left]. apply IH. unfold exc_step, add_excitation. cbn zeta. destruct anti; repeat apply add_wf_one; exact H.
  Qed.
  (** ** Antisymmetry of the coefficients, exact in spite of the pruning *)
  Notation co := (coef (K := K) Bool.eqb).
  Lemma add_coef (g : fop K) t c u : wf_op g -> co (fermion_add small g (fermion_op t c)) u = if term_eqb Bool.eqb u t then (if small (co g t + c) then 0 else co g t + c) else co g u.
  Proof.
    intros W. unfold fermion_add, op_add, fermion_op, mk_op, fermion_simplify. cbn [fold_left]. unfold coef at 1.
    destruct (term_eqb Bool.eqb u t) eqn:E.
    - apply (term_eqb_spec _ bool_eqb_spec) in E. subst u. rewrite (merge_term_same Bool.eqb bool_eqb_spec) by exact W. cbn zeta. fold (co g t). destruct (small (co g t + c)); reflexivity.
    - rewrite (merge_term_other Bool.eqb bool_eqb_spec); [reflexivity|]. cbn [fst]. intros ->. rewrite (proj2 (term_eqb_spec _ bool_eqb_spec t t) eq_refl) in E. discriminate.
  Qed.
  Definition antisym (g : fop K) : Prop := wf_op g /\ (forall t, co g (dagger t) = - co g t) /\ (forall t, dagger t = t -> co g t = 0).
  Context (S0 : small 0 = true) (Sopp : forall c, small (- c) = small c).
  Lemma step_antisym g tc : antisym g -> antisym (exc_step true g tc).
  Proof.
    destruct tc as [t c]. intros (W & A & Z). unfold exc_step, add_excitation. cbn [fst snd]. cbn zeta. split; [repeat apply add_wf_one; exact W|].
    assert (E : forall u, co (fermion_add small (fermion_add small g (fermion_op t c)) (fermion_op (dagger t) (- c))) u =
      if term_eqb Bool.eqb t (dagger t) then co g u else
      if term_eqb Bool.eqb u (dagger t) then - (if small (co g t + c) then 0 else co g t + c) else
      if term_eqb Bool.eqb u t then (if small (co g t + c) then 0 else co g t + c) else co g u).
    { intros u. rewrite add_coef by (apply add_wf_one; exact W). rewrite !add_coef by exact W. destruct (term_eqb Bool.eqb t (dagger t)) eqn:Et.
      - apply (term_eqb_spec _ bool_eqb_spec) in Et. assert (T0 : co g t = 0) by (apply Z; symmetry; exact Et). rewrite <- Et. rewrite (proj2 (term_eqb_spec _ bool_eqb_spec t t) eq_refl), T0.
        destruct (term_eqb Bool.eqb u t) eqn:Eu; [|reflexivity]. apply (term_eqb_spec _ bool_eqb_spec) in Eu. subst u. rewrite T0. destruct (small (0 + c)) eqn:Sc.
        + replace (small (0 + - c)) with true; [reflexivity|]. rewrite <- Sc. replace (0 + - c) with (- (0 + c)) by ring. symmetry. apply Sopp.
        + replace (0 + c + - c) with (0 : K) by ring. rewrite S0. reflexivity.
      - destruct (term_eqb Bool.eqb u (dagger t)) eqn:Eu; [|reflexivity].
        assert (Et' : term_eqb Bool.eqb (dagger t) t = false) by (apply not_true_iff_false; intros H; apply (term_eqb_spec _ bool_eqb_spec) in H; rewrite H, (proj2 (term_eqb_spec _ bool_eqb_spec t t) eq_refl) in Et; discriminate).
        rewrite Et', A. replace (- co g t + - c) with (- (co g t + c)) by ring. rewrite Sopp. destruct (small (co g t + c)); ring. }
    split; intros u.
    - rewrite !E. destruct (term_eqb Bool.eqb t (dagger t)) eqn:Et; [apply A|].
      assert (D1 : term_eqb Bool.eqb (dagger u) (dagger t) = term_eqb Bool.eqb u t).
      { apply eq_true_iff_eq. split; intros H; apply (term_eqb_spec _ bool_eqb_spec) in H; apply (term_eqb_spec _ bool_eqb_spec); [apply dagger_inj, H|rewrite H; reflexivity]. }
      assert (D2 : term_eqb Bool.eqb (dagger u) t = term_eqb Bool.eqb u (dagger t)).
      { apply eq_true_iff_eq. split; intros H; apply (term_eqb_spec _ bool_eqb_spec) in H; apply (term_eqb_spec _ bool_eqb_spec); [rewrite <- H; symmetry; apply dagger_invol|rewrite H; apply dagger_invol]. }
      rewrite D1, D2. destruct (term_eqb Bool.eqb u t) eqn:E1, (term_eqb Bool.eqb u (dagger t)) eqn:E2; try (ring || reflexivity); [|apply A].
      exfalso. apply (term_eqb_spec _ bool_eqb_spec) in E1, E2. rewrite E2 in E1. rewrite E1, (proj2 (term_eqb_spec _ bool_eqb_spec t t) eq_refl) in Et. discriminate.
    - intros Hu. rewrite E. destruct (term_eqb Bool.eqb t (dagger t)) eqn:Et; [apply Z; exact Hu|].
      assert (N : term_eqb Bool.eqb u (dagger t) = false /\ term_eqb Bool.eqb u t = false).
      { split; apply not_true_iff_false; intros H; apply (term_eqb_spec _ bool_eqb_spec) in H; subst u; [rewrite dagger_invol in Hu; rewrite <- Hu in Et|rewrite Hu in Et]; rewrite (proj2 (term_eqb_spec _ bool_eqb_spec t t) eq_refl) in Et; discriminate. }
      destruct N as [-> ->]. apply Z; exact Hu.
  Qed.
  Lemma run_antisym l : forall g, antisym g -> antisym (run true l g).
  Proof. induction l as [|tc l IH]; intros g H; [exact H|]. cbn [run fold_left]. apply IH, step_antisym, H. Qed.
  Lemma run_real (anti : bool) (l : list (fterm * K)) : (forall tc, In tc l -> kconj (snd tc) = snd tc) -> forall g : fop K, wf_op g -> (forall t, kconj (co g t) = co g t) -> forall t, kconj (co (run anti l g) t) = co (run anti l g) t.
  Proof.
    intros H. assert (A : forall (g : fop K) t c, wf_op g -> kconj c = c -> (forall t, kconj (co g t) = co g t) -> forall u, kconj (co (fermion_add small g (fermion_op t c)) u) = co (fermion_add small g (fermion_op t c)) u).
    { intros g t c W Hc Hg u. rewrite !add_coef by exact W. destruct (term_eqb Bool.eqb u t); [|apply Hg]. destruct (small (co g t + c)); [apply kconj_0|rewrite kconj_add, Hg, Hc; reflexivity]. }
    revert H. induction l as [|[t c] l IH]; intros H g W Hg u; [apply Hg|]. cbn [run fold_left]. apply IH; [intros tc Htc; apply H; right; exact Htc| |]; clear u.
    - unfold exc_step, add_excitation. cbn zeta. destruct anti; repeat apply add_wf_one; exact W.
    - assert (Hc : kconj c = c) by (apply (H (t, c)); left; reflexivity). unfold exc_step, add_excitation. cbn zeta. cbn [fst snd]. destruct anti; intros u.
      + apply A; [apply add_wf_one; exact W|rewrite kconj_opp, Hc; reflexivity|]. apply A; auto.
      + apply A; auto.
  Qed.
End S.
