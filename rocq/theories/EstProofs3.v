(** Context selection (C37). *)
From Coq Require Import Permutation Sorted Lia Ring Reals Lra String.
From Verif Require Import Base BaseFacts MatModel MatFacts LiftModel LiftSpec LiftProofs Cplx CircuitModel CircuitSpec GateMatModel GateMatProofs
  DecompModel OpModel OpSpec OpProofs PauliProofs OpProofs2 EstModel EstSpec EstProofs ConjProofs.
Open Scope list_scope.
Local Open Scope nat_scope.

(** ** The context *)
Lemma factor_spec : eqb_spec_of (factor_eqb pauli_eqb).
Proof. apply factor_eqb_spec, pauli_eqb_spec. Qed.
Lemma extend_ok (t : term pauli) : forall (ctx ctx' : list (factor pauli)), NoDup (map fst ctx) -> extend_context t ctx = Ok ctx' ->
  NoDup (map fst ctx') /\ incl ctx ctx' /\ incl t ctx' /\ incl ctx' (ctx ++ t).
Proof.
  induction t as [|f t IH]; intros ctx ctx' ND H; cbn [extend_context] in H.
  - injection H as <-. repeat split; auto; [apply incl_refl|intros x []|apply incl_appl, incl_refl].
  - destruct (existsb _ ctx) eqn:E; [discriminate|].
    assert (NE : forall e, In e ctx -> fst e = fst f -> snd e = snd f).
    { intros e He Hf. destruct (pauli_eqb (snd e) (snd f)) eqn:P; [apply pauli_eqb_spec; auto|]. exfalso.
      assert (F : existsb (fun e : factor pauli => Nat.eqb (fst e) (fst f) && negb (pauli_eqb (snd e) (snd f))) ctx = true).
      { apply existsb_exists. exists e. split; [auto|]. rewrite Hf, Nat.eqb_refl, P. auto. } congruence. }
    apply IH in H as (H1 & H2 & H3 & H4).
    + destruct (memb (factor_eqb pauli_eqb) f ctx) eqn:M.
      * apply (memb_In _ factor_spec) in M. split; [auto|]. split; [auto|]. split; [intros x [<-|Hx]; auto|].
        intros x Hx. apply H4 in Hx. apply in_app_or in Hx. apply in_or_app. cbn; tauto.
      * split; [auto|]. split; [intros x Hx; apply H2, in_or_app; auto|]. split; [intros x [<-|Hx]; auto; apply H2, in_or_app; cbn; auto|].
        intros x Hx. apply H4 in Hx. rewrite <- app_assoc in Hx. exact Hx.
    + destruct (memb (factor_eqb pauli_eqb) f ctx) eqn:M; [auto|]. rewrite map_app. cbn.
      apply (Permutation_NoDup (Permutation_cons_append (map fst ctx) (fst f))). constructor; [|auto].
      intros Hin. apply in_map_iff in Hin as (e & E1 & E2). assert (e = f) by (destruct e, f; cbn in *; f_equal; [auto|apply (NE _ E2 E1)]). subst e.
      apply (memb_In _ factor_spec) in E2. congruence.
Qed.
(** the extension fails exactly on a clash *)
Lemma extend_total (t : term pauli) : forall (ctx : list (factor pauli)), comeasurable (ctx ++ t) (ctx ++ t) -> exists ctx', extend_context t ctx = Ok ctx'.
Proof.
  induction t as [|f t IH]; intros ctx H; cbn [extend_context]; [eauto|].
  destruct (existsb _ ctx) eqn:E.
  - exfalso. apply existsb_exists in E as ([q p] & He & Hb). destruct f as [q' p']. cbn [fst snd] in Hb. apply andb_true_iff in Hb as [B1 B2].
    apply Nat.eqb_eq in B1. subst q'. apply negb_true_iff in B2. rewrite (H q p p') in B2; [rewrite (eqb_spec_refl _ pauli_eqb_spec) in B2; discriminate| |];
      apply in_or_app; cbn; auto.
  - apply IH. intros q p p' H1 H2. eapply H.
    + instantiate (1 := q). apply in_app_or in H1 as [H1|H1]; [|apply in_or_app; cbn; auto].
      destruct (memb _ _ _) in H1; [apply in_or_app; auto|]. apply in_app_or in H1 as [H1|[H1|[]]]; apply in_or_app; cbn; auto.
    + apply in_app_or in H2 as [H2|H2]; [|apply in_or_app; cbn; auto].
      destruct (memb _ _ _) in H2; [apply in_or_app; auto|]. apply in_app_or in H2 as [H2|[H2|[]]]; apply in_or_app; cbn; auto.
Qed.

(** ** The frame operator *)
Section Frame.
  Context {K : cring} (small : K -> bool).
  Add Ring KrF : (kth K).
  Open Scope K_scope.
  Definition zterm (t : term pauli) : term zact := map (fun f : factor pauli => (fst f, ZZ)) t.

  Lemma ising_simplify_sorted (t : term zact) (c : K) : StronglySorted lt (map fst t) -> ising_simplify t c = (c, t).
  Proof.
    intros S. unfold ising_simplify. apply (f_equal (pair c)).
    assert (ND : NoDup (map fst t)) by (clear -S; induction S as [|x l H IH F]; constructor; auto; intros Hin; rewrite Forall_forall in F; specialize (F _ Hin); lia).
    unfold uniq. rewrite (uniq_from_id _ nat_eqb_spec) by (auto; intros ? ? []).
    assert (P : filter (fun i => Nat.odd (power_of i t)) (map fst t) = map fst t).
    { assert (G : forall i, In i (map fst t) -> power_of i t = 1%nat).
      { clear S. unfold power_of. intros i Hi. induction t as [|f t IH]; [destruct Hi|]. cbn [map] in *. inversion ND as [|? ? Nin ND']; subst. cbn [filter].
        destruct (Nat.eqb_spec (fst f) i) as [E|E].
        - subst i. cbn [length]. f_equal. clear -Nin. induction t as [|g t IH]; [reflexivity|]. cbn [filter map In] in *.
          destruct (Nat.eqb_spec (fst g) (fst f)); [tauto|]. apply IH; tauto.
        - destruct Hi as [Hi|Hi]; [congruence|]. apply IH; auto. }
      revert G. generalize (map fst t) as l. induction l as [|i l IH]; intros G; [reflexivity|]. cbn [filter]. rewrite (G i (or_introl eq_refl)). cbn. f_equal.
      apply IH. intros; apply G; right; auto. }
    rewrite P. clear P ND. revert S. induction t as [|[i z] t IH]; intros S; [reflexivity|]. cbn [map fst] in *. inversion S as [|? ? S' F]; subst.
    cbn [sort_by]. transitivity (map (fun i => (i, ZZ)) (i :: sort_by Nat.leb (map fst t))).
    - f_equal. assert (Es : sort_by Nat.leb (map fst t) = map fst t).
      { clear -S'. induction S' as [|x l H IH F]; [reflexivity|]. cbn [sort_by]. rewrite IH. destruct l as [|y l]; [reflexivity|]. cbn [insert_by].
        inversion F; subst. replace (Nat.leb x y) with true by (symmetry; apply Nat.leb_le; lia). reflexivity. }
      rewrite Es. destruct t as [|g t]; [reflexivity|]. cbn [map insert_by]. inversion F; subst. replace (Nat.leb i (fst g)) with true by (symmetry; apply Nat.leb_le; lia). reflexivity.
    - cbn [map]. destruct z. rewrite IH; auto.
  Qed.

  Lemma canonical_sorted_fst (t : term pauli) : canonical t -> StronglySorted lt (map fst t).
  Proof.
    induction t as [|f t IH]; intros C; [constructor|]. cbn [map]. constructor; [apply IH, C|]. apply Forall_forall. intros i Hi.
    apply in_map_iff in Hi as (g & <- & Hg). eapply canonical_head; eauto.
  Qed.
  Lemma sorted_app_l {X} (R : X -> X -> Prop) a b : StronglySorted R (a ++ b) -> StronglySorted R a.
  Proof. induction a as [|x a IH]; cbn; intros H; [constructor|]. inversion H as [|? ? S F]; subst. constructor; auto. apply Forall_app in F. tauto. Qed.

  Lemma frame_term_eq (t : term pauli) : canonical t -> frame_term t = [(zterm t, 1 : K)].
  Proof.
    intros C. unfold frame_term.
    assert (G : forall (l p : term pauli), StronglySorted lt (map fst (p ++ l)) ->
      fold_left (fun o (f : factor pauli) => op_mul zact_eqb ising_simplify o (mk_op ising_simplify [(fst f, ZZ)] 1)) l [(zterm p, 1)] = [(zterm (p ++ l), 1 : K)]).
    { induction l as [|f l IH]; intros p S; [rewrite app_nil_r; reflexivity|]. cbn [fold_left].
      assert (S1 : StronglySorted lt (map fst (zterm p ++ [(fst f, ZZ)]))).
      { assert (E : map fst (zterm p ++ [(fst f, ZZ)]) = map fst (p ++ [f])) by (unfold zterm; rewrite !map_app, map_map; reflexivity). rewrite E.
        replace (p ++ f :: l) with ((p ++ [f]) ++ l) in S by (rewrite <- app_assoc; reflexivity). rewrite map_app in S. apply sorted_app_l in S. exact S. }
      assert (E1 : mk_op ising_simplify [(fst f, ZZ)] (1 : K) = [([(fst f, ZZ)], 1)]).
      { unfold mk_op. rewrite ising_simplify_sorted; [reflexivity|]. cbn. constructor; constructor. }
      rewrite E1. unfold op_mul. cbn [fold_left fst snd]. rewrite ising_simplify_sorted by exact S1. unfold accumulate_term. cbn [dget dset].
      replace (1 * 1) with (1 : K) by ring. replace (zterm p ++ [(fst f, ZZ)]) with (zterm (p ++ [f])) by (unfold zterm; rewrite map_app; reflexivity).
      etransitivity; [apply (IH (p ++ [f])); rewrite <- app_assoc; exact S|rewrite <- app_assoc; reflexivity]. }
    apply (G t []). apply canonical_sorted_fst; auto.
  Qed.

  Lemma zterm_inj (t u : term pauli) : comeasurable t u -> zterm t = zterm u -> t = u.
  Proof.
    revert u. induction t as [|[q p] t IH]; intros [|[q' p'] u] H E; try discriminate; [reflexivity|]. cbn in E. injection E as E1 E2. subst q'. f_equal.
    - f_equal. apply (H q); left; auto.
    - apply IH; [|exact E2]. intros x y z Hx Hy. apply (H x); right; auto.
  Qed.

  Lemma build_ok (a : qop K) ctx io : wf_op a -> (forall t c, In (t, c) a -> canonical t /\ small c = false) ->
    build_context small a = Ok (ctx, io) ->
    NoDup (map fst ctx) /\ (forall t c f, In (t, c) a -> In f t -> In f ctx) /\ (forall f, In f ctx -> exists t c, In (t, c) a /\ In f t) /\
    io = map (fun tc => (zterm (fst tc), snd tc)) a.
  Proof.
    unfold build_context. intros W H E.
    assert (G : forall l done ctx0 io0, a = done ++ l -> NoDup (map fst ctx0) ->
       (forall t c f, In (t, c) done -> In f t -> In f ctx0) -> (forall f, In f ctx0 -> exists t c, In (t, c) done /\ In f t) ->
       io0 = map (fun tc => (zterm (fst tc), snd tc)) done ->
       foldM (fun st (tc : term pauli * K) => let! context := extend_context (fst tc) (fst st) in
          Ok (context, op_add zact_eqb small (snd st) (op_scale (frame_term (fst tc)) (snd tc)))) l (ctx0, io0) = Ok (ctx, io) ->
       NoDup (map fst ctx) /\ (forall t c f, In (t, c) a -> In f t -> In f ctx) /\ (forall f, In f ctx -> exists t c, In (t, c) a /\ In f t) /\
       io = map (fun tc => (zterm (fst tc), snd tc)) a).
    2:{ eapply (G a [] [] []); auto; try constructor; try (intros; contradiction). }
    induction l as [|[t c] l IH]; intros done ctx0 io0 Ea N0 H1 H2 H3 HF; cbn [foldM] in HF.
    - injection HF as -> ->. rewrite app_nil_r in Ea. subst done. auto.
    - cbn [fst snd] in HF. destruct (extend_context t ctx0) as [ctx1|] eqn:E1; cbn [rbind] in HF; [|discriminate].
      destruct (extend_ok t ctx0 ctx1 N0 E1) as (X1 & X2 & X3 & X4).
      assert (Hin : In (t, c) a) by (rewrite Ea; apply in_or_app; cbn; auto). destruct (H t c Hin) as [Ct Sc].
      eapply (IH (done ++ [(t, c)]) ctx1); [rewrite <- app_assoc; exact Ea|exact X1| | | |exact HF].
      + intros t' c' f Ht Hf. apply in_app_or in Ht as [Ht|[Ht|[]]]; [apply X2; eapply H1; eauto|]. injection Ht as <- <-. apply X3; auto.
      + intros f Hf. apply X4 in Hf. apply in_app_or in Hf as [Hf|Hf].
        * destruct (H2 f Hf) as (t' & c' & Y1 & Y2). exists t', c'. split; [apply in_or_app; auto|auto].
        * exists t, c. split; [apply in_or_app; cbn; auto|auto].
      + rewrite map_app. cbn [map fst snd]. rewrite <- H3. rewrite frame_term_eq by auto. cbn [op_scale map fst snd].
        unfold op_add; cbn [fold_left]. unfold merge_term; cbn [fst snd].
        assert (Nin : ~ In (zterm t) (dkeys io0)).
        { rewrite H3. unfold dkeys. rewrite map_map. cbn [fst]. intros Hz. apply in_map_iff in Hz as ([u d] & Z1 & Z2). cbn [fst] in Z1.
          assert (u = t).
          { apply zterm_inj; [|auto]. intros q p p' P1 P2.
            assert (Q1 : In (q, p) ctx1) by (apply X2; eapply H1; eauto). assert (Q2 : In (q, p') ctx1) by (apply X3; auto).
            clear -X1 Q1 Q2. induction ctx1 as [|[x y] ctx1 IH]; [destruct Q1|]. cbn in X1. inversion X1 as [|? ? N ND]; subst. cbn in Q1, Q2.
            destruct Q1 as [Q1|Q1], Q2 as [Q2|Q2]; auto.
            - congruence.
            - injection Q1 as -> ->. exfalso. apply N, in_map_iff. exists (q, p'); auto.
            - injection Q2 as -> ->. exfalso. apply N, in_map_iff. exists (q, p); auto. }
          subst u. unfold wf_op, dkeys in W. rewrite Ea, map_app in W. cbn in W. apply NoDup_remove_2 in W. apply W, in_or_app. left. apply in_map_iff. exists (t, d); auto. }
        pose proof (term_eqb_spec zact_eqb zact_eqb_spec) as Hz.
        assert (D : dget (term_eqb zact_eqb) (zterm t) io0 = None) by (apply (dget_None _ Hz); auto). rewrite D.
        replace (0 + 1 * c) with c by ring. rewrite Sc. rewrite (dset_app_new _ Hz) by auto. reflexivity.
  Qed.
  Lemma build_total (a : qop K) : comeasurable_group a -> exists r, build_context small a = Ok r.
  Proof.
    unfold build_context. intros H.
    assert (G : forall l done ctx0 (io0 : isop K), a = done ++ l -> NoDup (map fst ctx0) -> (forall f, In f ctx0 -> exists t c, In (t, c) done /\ In f t) ->
       exists r, foldM (fun st (tc : term pauli * K) => let! context := extend_context (fst tc) (fst st) in
          Ok (context, op_add zact_eqb small (snd st) (op_scale (frame_term (fst tc)) (snd tc)))) l (ctx0, io0) = Ok r).
    2:{ apply (G a [] [] []); auto; [constructor|intros f []]. }
    induction l as [|[t c] l IH]; intros done ctx0 io0 Ea N0 H1; cbn [foldM]; [eauto|]. cbn [fst snd].
    destruct (extend_total t ctx0) as [ctx1 E1].
    { assert (Hin : forall f, In f (ctx0 ++ t) -> exists u d, In (u, d) a /\ In f u).
      { intros f Hf. apply in_app_or in Hf as [Hf|Hf]; [|exists t, c; rewrite Ea; split; [apply in_or_app; cbn; auto|auto]].
        destruct (H1 f Hf) as (u & d & U1 & U2). exists u, d. rewrite Ea. split; [apply in_or_app; auto|auto]. }
      intros q p p' P1 P2. destruct (Hin _ P1) as (u & d & U1 & U2), (Hin _ P2) as (u' & d' & V1 & V2). eapply H; [exact U1|exact V1|exact U2|exact V2]. }
    rewrite E1. cbn [rbind]. destruct (extend_ok t ctx0 ctx1 N0 E1) as (X1 & X2 & X3 & X4).
    eapply (IH (done ++ [(t, c)])); [rewrite <- app_assoc; exact Ea|exact X1|].
    intros f Hf. apply X4 in Hf. apply in_app_or in Hf as [Hf|Hf].
    - destruct (H1 f Hf) as (t' & c' & Y1 & Y2). exists t', c'. split; [apply in_or_app; auto|auto].
    - exists t, c. split; [apply in_or_app; cbn; auto|auto].
  Qed.
  (** a successful pass shows that the terms agree on shared qubits *)
  Lemma build_comeasurable (a : qop K) r : build_context small a = Ok r -> comeasurable_group a.
  Proof.
    unfold build_context. intros E.
    assert (G : forall l ctx0 (io0 : isop K), NoDup (map fst ctx0) ->
       foldM (fun st (tc : term pauli * K) => let! context := extend_context (fst tc) (fst st) in
          Ok (context, op_add zact_eqb small (snd st) (op_scale (frame_term (fst tc)) (snd tc)))) l (ctx0, io0) = Ok r ->
       NoDup (map fst (fst r)) /\ incl ctx0 (fst r) /\ (forall t c, In (t, c) l -> incl t (fst r))).
    { induction l as [|[t c] l IH]; intros ctx0 io0 N0 HF; cbn [foldM] in HF.
      - injection HF as <-. split; [auto|]. split; [apply incl_refl|intros ? ? []].
      - cbn [fst snd] in HF. destruct (extend_context t ctx0) as [ctx1|] eqn:E1; cbn [rbind] in HF; [|discriminate].
        destruct (extend_ok t ctx0 ctx1 N0 E1) as (X1 & X2 & X3 & X4). apply IH in HF as (Y1 & Y2 & Y3); auto.
        split; [auto|]. split; [intros x Hx; auto|]. intros t' c' [[= <- <-]|H]; [intros x Hx; auto|eauto]. }
    apply G in E as (N & _ & H); [|constructor]. intros t c u d Ht Hu q p p' P1 P2.
    assert (Q1 : In (q, p) (fst r)) by exact (H t c Ht _ P1). assert (Q2 : In (q, p') (fst r)) by exact (H u d Hu _ P2).
    clear -N Q1 Q2. induction (fst r) as [|[x y] l IH]; [destruct Q1|]. cbn in N. inversion N as [|? ? N1 ND]; subst. cbn in Q1, Q2.
    destruct Q1 as [Q1|Q1], Q2 as [Q2|Q2]; auto.
    - congruence.
    - injection Q1 as -> ->. exfalso. apply N1, in_map_iff. exists (q, p'); auto.
    - injection Q2 as -> ->. exfalso. apply N1, in_map_iff. exists (q, p); auto.
  Qed.
  Lemma build_err (a : qop K) e : build_context small a = Err e -> e = ValueError.
  Proof.
    unfold build_context.
    assert (X : forall t ctx e, extend_context t ctx = Err e -> e = ValueError).
    { induction t as [|f t IH]; intros ctx e' H; cbn in H; [discriminate|]. destruct (existsb _ ctx); [congruence|eauto]. }
    assert (G : forall l ctx (io : isop K), foldM (fun st (tc : term pauli * K) => let! context := extend_context (fst tc) (fst st) in
          Ok (context, op_add zact_eqb small (snd st) (op_scale (frame_term (fst tc)) (snd tc)))) l (ctx, io) = Err e -> e = ValueError).
    { induction l as [|[t c] l IH]; intros ctx io H; cbn [foldM] in H; [discriminate|]. cbn [fst snd] in H.
      destruct (extend_context t ctx) eqn:E; cbn [rbind] in H; [exact (IH _ _ H)|]. apply X in E. congruence. }
    apply G.
  Qed.
End Frame.
