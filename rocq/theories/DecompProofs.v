(** Proofs about decompositions. *)
From Coq Require Import String Reals Lra.
From Verif Require Import Base BaseFacts MatModel MatFacts LiftModel LiftSpec LiftProofs CircuitModel CircuitSpec CircuitProofs Cplx
  GateMatModel GateMatSpec GateMatProofs DecompModel DecompSpec.
Open Scope list_scope.

Section Generic.
  Context {Op : Type}.
  Lemma concat_mapM_cons {A B} (f : A -> result (list B)) a l : concat_mapM f (a :: l) =
    let! x := f a in let! y := concat_mapM f l in Ok (x ++ y).
  Proof. unfold concat_mapM. cbn. destruct (f a); cbn; [|auto]. destruct (mapM f l); reflexivity. Qed.
  Lemma concat_mapM_app {A B} (f : A -> result (list B)) l1 l2 : concat_mapM f (l1 ++ l2) =
    let! x := concat_mapM f l1 in let! y := concat_mapM f l2 in Ok (x ++ y).
  Proof.
    induction l1 as [|a l1 IH]; cbn [app].
    - cbn. destruct (concat_mapM f l2); reflexivity.
    - rewrite !concat_mapM_cons, IH. destruct (f a); cbn; [|auto]. destruct (concat_mapM f l1); cbn; [|auto].
      destruct (concat_mapM f l2); cbn; [|auto]. rewrite app_assoc. reflexivity.
  Qed.
  Lemma decompose_op_cons r rs (o : Op) : decompose_operation (r :: rs) o =
    let! b := r_predicate r o in let! new := if b then r_production r o else Ok [o] in concat_mapM (decompose_operation rs) new.
  Proof. reflexivity. Qed.
  Lemma decompose_nil (ops : list Op) : decompose_operations ops [] = Ok ops.
  Proof.
    induction ops as [|o ops IH]; [reflexivity|]. unfold decompose_operations in *. rewrite concat_mapM_cons, IH. reflexivity.
  Qed.
  Lemma decompose_cons r rs (ops : list Op) out : decompose_operations ops (r :: rs) = Ok out <->
    exists mid, rewritten r ops mid /\ decompose_operations mid rs = Ok out.
  Proof.
    unfold decompose_operations. revert out. induction ops as [|o ops IH]; intros out.
    - cbn. split; [intros [= <-]; exists []; split; [constructor|reflexivity]|]. intros (mid & H & E). inversion H; subst. exact E.
    - rewrite concat_mapM_cons, decompose_op_cons. split.
      + destruct (r_predicate r o) as [b|] eqn:Ep; cbn [rbind]; [|discriminate].
        destruct (concat_mapM (decompose_operation (r :: rs)) ops) as [y|] eqn:Ey.
        2:{ destruct b; [destruct (r_production r o); cbn [rbind]; [|discriminate]|cbn [rbind]];
              destruct (concat_mapM (decompose_operation rs) _); cbn [rbind]; discriminate. }
        destruct (proj1 (IH y) eq_refl) as (mid & Hm & Em).
        destruct b.
        * destruct (r_production r o) as [new|] eqn:En; cbn [rbind]; [|discriminate].
          destruct (concat_mapM _ new) as [x|] eqn:Ex; cbn [rbind]; [|discriminate]. intros [= <-].
          exists (new ++ mid). split; [eapply rw_match; eauto|]. rewrite concat_mapM_app, Ex, Em. reflexivity.
        * cbn [rbind]. destruct (concat_mapM _ [o]) as [x|] eqn:Ex; cbn [rbind]; [|discriminate]. intros [= <-].
          exists (o :: mid). split; [eapply rw_keep; eauto|]. change (o :: mid) with ([o] ++ mid). rewrite concat_mapM_app, Ex, Em. reflexivity.
      + intros (mid & Hm & Em). inversion Hm as [|? new ? out' Hp Hn Hr|? ? out' Hp Hr]; subst.
        * rewrite Hp. cbn [rbind]. rewrite Hn. cbn [rbind]. rewrite concat_mapM_app in Em.
          destruct (concat_mapM (decompose_operation rs) new) as [x|]; cbn [rbind] in *; [|discriminate].
          destruct (concat_mapM (decompose_operation rs) out') as [y|] eqn:Ey; cbn [rbind] in *; [|discriminate].
          rewrite (proj2 (IH y)); [|eauto]. cbn [rbind]. exact Em.
        * rewrite Hp. cbn [rbind]. change (o :: out') with ([o] ++ out') in Em. rewrite concat_mapM_app in Em.
          destruct (concat_mapM (decompose_operation rs) [o]) as [x|]; cbn [rbind] in *; [|discriminate].
          destruct (concat_mapM (decompose_operation rs) out') as [y|] eqn:Ey; cbn [rbind] in *; [|discriminate].
          rewrite (proj2 (IH y)); [|eauto]. cbn [rbind]. exact Em.
  Qed.
  Lemma decompose_spec rs (ops : list Op) out : decompose_operations ops rs = Ok out <-> rewritten_by rs ops out.
  Proof.
    revert ops out. induction rs as [|r rs IH]; intros ops out.
    - rewrite decompose_nil. split; [intros [= <-]; constructor|intros H; inversion H; reflexivity].
    - rewrite decompose_cons. split.
      + intros (mid & H1 & H2). econstructor; [eauto|]. apply IH; auto.
      + intros H. inversion H; subst. eexists. split; [eauto|]. apply IH; auto.
  Qed.
End Generic.


(** ** Actions on states *)
Section Sem.
  Context {Num : Type} (O : sympy_oracle Num) (IR : interp (Num := Num) R) (IC : interp (Num := Num) C) (rho : sym -> R).
  Ltac cr := cbn [kmul kadd k0 k1 CC]; apply c_eq; cbn [fst snd cadd cmul copp csub c0 c1]; ring.
  Notation gmat := (gate_matrix O IR IC rho).
  Notation lifted := (lifted_matrix O IR IC rho).
  Notation opapp := (op_apply O IR IC rho).
  Notation apply := (apply_ops O IR IC rho).
  Notation same := (same_action O IR IC rho).

  Lemma phase_refl v : phase_of 0 v v.
  Proof. split; [auto|]. intros i Hi. rewrite cis_0. cr. Qed.
  Lemma phase_trans s t u v w : phase_of s u v -> phase_of t v w -> phase_of (t + s) u w.
  Proof.
    intros [H1 H2] [H3 H4]. split; [congruence|]. intros i Hi. rewrite H4, H2 by congruence. rewrite cis_add. cr.
  Qed.
  Lemma op_apply_len o v w : opapp o v = Ok w -> vlen w = vlen v.
  Proof.
    destruct o as [g qs|ps].
    - cbn [op_apply]. destruct (Nat.eqb_spec (vlen v) 0); [discriminate|]. destruct (Nat.eqb_spec (2 ^ Nat.log2 (vlen v)) (vlen v)) as [E|]; [|discriminate].
      cbn [negb]. destruct (lifted _ _) as [m|] eqn:Em; cbn [rbind]; [|discriminate]. unfold matvec. destruct (Nat.eqb _ _); [|discriminate].
      intros [= <-]. cbn. apply lifted_ok_shape in Em as [-> _]. unfold pow2Z. rewrite Nat2Z.id. auto.
    - cbn [op_apply]. destruct (negb _); [discriminate|]. destruct (existsb _ _); [discriminate|]. intros [= <-]. reflexivity.
  Qed.
  Lemma op_apply_phase o t u v w : phase_of t u v -> opapp o u = Ok w -> exists w', opapp o v = Ok w' /\ phase_of t w w'.
  Proof.
    intros [Hl Hv]. destruct o as [g qs|ps]; cbn [op_apply]; rewrite Hl.
    - destruct (Nat.eqb (vlen u) 0); [discriminate|]. destruct (negb _); [discriminate|].
      destruct (lifted _ _) as [m|]; cbn [rbind]; [|discriminate]. unfold matvec. rewrite Hl. destruct (Nat.eqb_spec (nc m) (vlen u)) as [E|]; [|discriminate].
      intros [= <-]. eexists; split; [reflexivity|]. split; [reflexivity|]. cbn [vlen vent mvmul]. intros i Hi.
      change cmul with (@kmul CC). rewrite bigsum_mul_l. apply bigsum_ext. intros l Hll. rewrite Hv by lia. cbn [kmul CC]. cr.
    - destruct (negb _); [discriminate|]. destruct (existsb _ _); [discriminate|]. intros [= <-]. eexists; split; [reflexivity|].
      split; [reflexivity|]. cbn [vlen vent]. intros i Hi. rewrite Hv by auto. cr.
  Qed.
  Lemma apply_cons o ops v : apply (o :: ops) v = let! w := opapp o v in apply ops w.
  Proof. reflexivity. Qed.
  Lemma apply_app a b v : apply (a ++ b) v = let! w := apply a v in apply b w.
  Proof.
    revert v. induction a as [|o a IH]; intros v; cbn [app]; [reflexivity|]. rewrite !apply_cons.
    destruct (opapp o v); cbn [rbind]; auto.
  Qed.
  Lemma apply_len ops v w : apply ops v = Ok w -> vlen w = vlen v.
  Proof.
    revert v. induction ops as [|o ops IH]; intros v; [intros [= <-]; auto|]. rewrite apply_cons.
    destruct (opapp o v) as [x|] eqn:E; cbn [rbind]; [|discriminate]. intros H. apply IH in H. apply op_apply_len in E. congruence.
  Qed.
  Lemma apply_phase ops t u v w : phase_of t u v -> apply ops u = Ok w -> exists w', apply ops v = Ok w' /\ phase_of t w w'.
  Proof.
    revert u v. induction ops as [|o ops IH]; intros u v H; [intros [= <-]; eexists; split; [reflexivity|auto]|]. rewrite !apply_cons.
    destruct (opapp o u) as [x|] eqn:E; cbn [rbind]; [|discriminate]. intros Hx.
    destruct (op_apply_phase o t u v x H E) as (y & Ey & Hy). rewrite Ey. cbn [rbind]. eapply IH; eauto.
  Qed.
  Lemma same_refl n ops : same n 0 ops ops.
  Proof. intros v w Hv E. exists w. split; [auto|apply phase_refl]. Qed.
  Lemma same_app n s t a a' b b' : same n s a a' -> same n t b b' -> same n (t + s) (a ++ b) (a' ++ b').
  Proof.
    intros Ha Hb v w Hv E. rewrite apply_app in E. destruct (apply a v) as [x|] eqn:Ex; cbn [rbind] in E; [|discriminate].
    destruct (Ha v x Hv Ex) as (x' & Ex' & Hx'). destruct (Hb x w) as (w1 & E1 & H1); [rewrite (apply_len a v x Ex); auto|auto|].
    destruct (apply_phase b' s x x' w1 Hx' E1) as (w' & Ew & Hw). exists w'. rewrite apply_app, Ex'. cbn [rbind]. split; [auto|].
    rewrite Rplus_comm. eapply phase_trans; eauto.
  Qed.
  Lemma same_trans n s t a b c : same n s a b -> same n t b c -> same n (t + s) a c.
  Proof.
    intros Ha Hb v w Hv E. destruct (Ha v w Hv E) as (w1 & E1 & H1). destruct (Hb v w1 Hv E1) as (w2 & E2 & H2).
    exists w2. split; [auto|]. eapply phase_trans; eauto.
  Qed.

  (** Rules that are sound on the operations satisfying [Q]. *)
  Lemma decompose_sound n (Q : operation Num -> Prop) rules :
    (forall r o new, In r rules -> Q o -> r_predicate r o = Ok true -> r_production r o = Ok new ->
       Forall Q new /\ exists t, same n t [o] new) ->
    forall ops out, Forall Q ops -> decompose_operations ops rules = Ok out -> exists t, same n t ops out.
  Proof.
    intros Hr ops out HQ E. apply decompose_spec in E. induction E as [ops|r rs ops mid out H1 H2 IH].
    - exists 0%R. apply same_refl.
    - assert (G : Forall Q mid /\ exists t, same n t ops mid).
      { specialize (Hr r). clear IH H2. induction H1 as [|o new ops out' Hp Hn H IH|o ops out' Hp H IH].
        - split; [constructor|]. exists 0%R. apply same_refl.
        - inversion HQ; subst. destruct IH as [I1 [t It]]; auto. destruct (Hr o new) as [N1 [s Ns]]; auto; [left; auto|].
          split; [apply Forall_app; auto|]. exists (t + s)%R. change (o :: ops) with ([o] ++ ops). apply same_app; auto.
        - inversion HQ; subst. destruct IH as [I1 [t It]]; auto. split; [constructor; auto|]. exists (t + 0)%R.
          change (o :: ops) with ([o] ++ ops). change (o :: out') with ([o] ++ out'). apply same_app; auto. apply same_refl. }
      destruct G as [G1 [t Gt]]. destruct IH as [s Hs]; auto; [intros; eapply Hr; eauto; right; auto|].
      exists (s + t)%R. eapply same_trans; eauto.
  Qed.

  (** ** Three gates in a row against one *)
  Lemma embed_mscale n qs p (A : mat CC) : meq (embed n qs (mscale p A)) (mscale p (embed n qs A)).
  Proof.
    split; [reflexivity|]. split; [reflexivity|]. intros i j _ _. cbn [embed mscale ent]. destruct (agree_outside _ _ _ _); [auto|].
    cbn [k0 kmul CC]. unfold c0, cmul. cbn. apply c_eq; cbn; ring.
  Qed.
  Lemma three_gates n p (g gA gB gC : gate Num) qs D A B C' :
    gmat g = Ok D -> gmat gA = Ok A -> gmat gB = Ok B -> gmat gC = Ok C' ->
    nr A = nr D -> nc A = nr D -> nr B = nr D -> nc B = nr D -> nr C' = nr D -> nc C' = nr D ->
    meq D (mscale (K:=CC) (cis p) (mmul (mmul C' B) A)) -> same n (- p) [GateOp g qs] [GateOp gA qs; GateOp gB qs; GateOp gC qs].
  Proof.
    intros ED EA EB EC HA HA' HB HB' HC HC' HD v w Hv. rewrite apply_cons, (op_apply_gate _ _ _ _ g qs n v Hv). cbn [lifted_matrix]. rewrite ED. cbn [rbind].
    rewrite Nat2Z.id. destruct (lift_matrix D qs n) as [MD|] eqn:LD; cbn [rbind]; [|discriminate]. intros [= <-].
    apply lift_ok in LD as [(W0 & W1 & W2 & W3 & W4) LD].
    assert (Hw : forall X : mat CC, nr X = nr D -> nc X = nr D -> exists MX, lift_matrix X qs n = Ok MX /\ meq MX (embed n qs X)).
    { intros X H1 H2. apply lift_embed. repeat split; auto; congruence. }
    destruct (Hw A HA HA') as (MA & LA & EMA). destruct (Hw B HB HB') as (MB & LB & EMB). destruct (Hw C' HC HC') as (MC & LC & EMC).
    exists (mvmul MC (mvmul MB (mvmul MA v))).
    assert (SA : nr MA = (2 ^ n)%nat /\ nc MA = (2 ^ n)%nat) by (destruct EMA as (? & ? & _); auto).
    assert (SB : nr MB = (2 ^ n)%nat /\ nc MB = (2 ^ n)%nat) by (destruct EMB as (? & ? & _); auto).
    assert (SC : nr MC = (2 ^ n)%nat /\ nc MC = (2 ^ n)%nat) by (destruct EMC as (? & ? & _); auto).
    split.
    - rewrite apply_cons, (op_apply_gate _ _ _ _ gA qs n v Hv). cbn [lifted_matrix]. rewrite EA. cbn [rbind]. rewrite Nat2Z.id, LA. cbn [rbind].
      rewrite apply_cons, (op_apply_gate _ _ _ _ gB qs n). 2:{ cbn; tauto. } cbn [lifted_matrix]. rewrite EB. cbn [rbind]. rewrite Nat2Z.id, LB. cbn [rbind].
      rewrite apply_cons, (op_apply_gate _ _ _ _ gC qs n). 2:{ cbn; tauto. } cbn [lifted_matrix]. rewrite EC. cbn [rbind]. rewrite Nat2Z.id, LC. cbn [rbind].
      reflexivity.
    - assert (E1 : meq MD (mscale (K:=CC) (cis p) (mmul (mmul MC MB) MA))).
      { rewrite LD. rewrite (embed_ext n qs D _ ltac:(congruence) ltac:(congruence) HD). rewrite embed_mscale. apply mscale_ext.
        rewrite <- embed_mmul; auto; try (cbn; congruence). apply mmul_ext; [reflexivity| |symmetry; auto].
        rewrite <- embed_mmul; auto; try congruence. apply mmul_ext; [reflexivity|symmetry; auto|symmetry; auto]. }
      assert (E2 : veq (mvmul MD v) (mvmul (mscale (K:=CC) (cis p) (mmul (mmul MC MB) MA)) v)).
      { apply mvmul_ext; [|auto|reflexivity]. destruct LD as (_ & -> & _). auto. }
      assert (E3 : veq (mvmul (mmul (mmul MC MB) MA) v) (mvmul MC (mvmul MB (mvmul MA v)))).
      { rewrite mvmul_assoc by (cbn; destruct SA, SB; congruence). rewrite mvmul_assoc by (destruct SC, SB; congruence). reflexivity. }
      destruct E2 as [F1 F2], E3 as [F3 F4]. split; [cbn in *; destruct E1 as (-> & _); auto|].
      intros i Hi. rewrite F2 by auto. rewrite <- F4 by (rewrite F1 in Hi; exact Hi). cbn [mvmul vent mscale ent nc mmul].
      set (S := bigsum _ _). change (cmul (cis (- p))) with (@kmul CC (cis (- p))).
      assert (EQ : S = cmul (cis (- p)) (cmul (cis p) S)) by (transitivity (cmul (cmul (cis (- p)) (cis p)) S); [rewrite cis_norm'; cr|cr]).
      transitivity (cmul (cis (- p)) (cmul (cis p) S)); [exact EQ|]. cbn [kmul CC]. f_equal.
      transitivity (kmul (c := CC) (cis p) S); [reflexivity|]. unfold S. rewrite bigsum_mul_l. apply (bigsum_ext (K := CC)). intros l Hl. cr.
  Qed.
End Sem.
