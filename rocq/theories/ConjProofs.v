(** Products of operators on a register: matrices placed on disjoint qubits, conjugation by unitaries. *)
From Coq Require Import Lia Ring Permutation.
From Verif Require Import Base BaseFacts MatModel MatFacts LiftModel LiftSpec LiftProofs OpModel OpSpec.
Open Scope list_scope.
Local Open Scope nat_scope.

Section C.
  Context {K : cring}.
  Add Ring KrC : (kth K).
  Open Scope K_scope.

  Definition sq (N : nat) (A : mat K) : Prop := nr A = N /\ nc A = N.
  Lemma sq_mmul N A B : sq N A -> sq N B -> sq N (mmul A B).
  Proof. intros [? ?] [? ?]. split; cbn; auto. Qed.
  Lemma sq_adjoint N A : sq N A -> sq N (adjoint A).
  Proof. intros [? ?]. split; cbn; auto. Qed.
  Lemma sq_embed n qs A : sq (2 ^ n) (embed n qs A).
  Proof. split; reflexivity. Qed.
  Lemma sq_eye N : sq N (eye N).
  Proof. split; reflexivity. Qed.
  Lemma sq_meq N A B : meq A B -> sq N A -> sq N B.
  Proof. intros (H1 & H2 & _) [? ?]. split; congruence. Qed.
  Lemma mmul_sq N A A' B B' : sq N A -> sq N B -> meq A A' -> meq B B' -> meq (mmul A B) (mmul A' B').
  Proof. intros [? ?] [? ?] E1 E2. apply mmul_ext; auto; congruence. Qed.
  Lemma assoc_sq N A B C : sq N A -> sq N B -> sq N C -> meq (mmul (mmul A B) C) (mmul A (mmul B C)).
  Proof. intros [? ?] [? ?] [? ?]. apply mmul_assoc; congruence. Qed.
  Lemma eye_l_sq N A : sq N A -> meq (mmul (eye N) A) A.
  Proof. intros [H _]. apply mmul_eye_l. auto. Qed.
  Lemma eye_r_sq N A : sq N A -> meq (mmul A (eye N)) A.
  Proof. intros [_ H]. apply mmul_eye_r. auto. Qed.

  (** ** Disjoint qubits *)
  Lemma embed_disjoint_ent n qs rs (A B : mat K) b c : NoDup qs -> (forall q, In q qs -> q < n) -> (forall q, In q rs -> q < n) ->
    (forall q, In q qs -> ~ In q rs) -> nc A = (2 ^ length qs)%nat -> length b = n -> length c = n ->
    ent (mmul (embed n qs A) (embed n rs B)) (bval b) (bval c) =
    if agree_outside n (qs ++ rs) b c then ent A (bval (select qs b)) (bval (select qs c)) * ent B (bval (select rs b)) (bval (select rs c)) else 0.
  Proof.
    intros Hnd Hq Hr Hd HA Hb Hc.
    transitivity (vent (mvmul (embed n qs A) (Build_vec (2 ^ n) (fun j => ent (embed n rs B) j (bval c)))) (bval b)); [reflexivity|].
    rewrite embed_mvmul by auto. cbn [vent].
    assert (SR : forall x, select rs (update n qs b x) = select rs b).
    { intros x. unfold select. apply map_ext_in. intros r Hin. rewrite nth_update by auto.
      destruct (memb Nat.eqb r qs) eqn:E; [|reflexivity]. apply (memb_In _ nat_eqb_spec) in E. exfalso. eapply Hd; eauto. }
    rewrite (bigsum_single _ (bval (select qs c))).
    - rewrite embed_ent by auto using update_length. rewrite SR.
      rewrite bits_bval_n by apply select_length.
      assert (E : agree_outside n rs (update n qs b (select qs c)) c = agree_outside n (qs ++ rs) b c).
      { apply eq_true_iff_eq. rewrite !agree_spec. split; intros H i Hi Hn.
        - specialize (H i Hi ltac:(intros F; apply Hn, in_or_app; auto)). rewrite nth_update in H by auto.
          destruct (memb Nat.eqb i qs) eqn:E; [|exact H]. apply (memb_In _ nat_eqb_spec) in E. exfalso. apply Hn, in_or_app; auto.
        - rewrite nth_update by auto. destruct (memb Nat.eqb i qs) eqn:E.
          + apply (memb_In _ nat_eqb_spec) in E. pose proof (index_of_nth i qs E) as [H1 H2]. rewrite nth_select by auto. rewrite H2. reflexivity.
          + apply H; auto. intros F. apply in_app_or in F as [F|F]; [|auto]. apply (memb_In _ nat_eqb_spec) in F. congruence. }
      rewrite E. destruct (agree_outside n (qs ++ rs) b c); ring.
    - rewrite HA, <- (select_length qs c). apply bval_lt.
    - intros x Hx Hne. rewrite embed_ent by auto using update_length.
      destruct (agree_outside n rs (update n qs b (bits (length qs) x)) c) eqn:E; [|ring]. exfalso. apply Hne.
      assert (S : select qs c = bits (length qs) x).
      { rewrite <- (select_update n qs b (bits (length qs) x)) by auto using bits_length. unfold select. apply map_ext_in. intros q Hin.
        symmetry. rewrite agree_spec in E. apply E; auto. }
      rewrite S, bval_bits_small; auto. rewrite <- HA. auto.
  Qed.
  Lemma embed_comm n qs rs (A B : mat K) : NoDup qs -> NoDup rs -> (forall q, In q qs -> q < n) -> (forall q, In q rs -> q < n) ->
    (forall q, In q qs -> ~ In q rs) -> nc A = (2 ^ length qs)%nat -> nc B = (2 ^ length rs)%nat ->
    meq (mmul (embed n qs A) (embed n rs B)) (mmul (embed n rs B) (embed n qs A)).
  Proof.
    intros. apply (meq_bits n); try reflexivity. intros b c Hb Hc. rewrite !embed_disjoint_ent; auto.
    - assert (E : agree_outside n (qs ++ rs) b c = agree_outside n (rs ++ qs) b c).
      { apply eq_true_iff_eq. rewrite !agree_spec. split; intros Hx i Hi Hn; apply Hx; auto; intros F; apply Hn; apply in_app_or in F; apply in_or_app; tauto. }
      rewrite E. destruct (agree_outside n (rs ++ qs) b c); ring.
    - intros q H6 H7. eapply H3; eauto.
  Qed.

  (** ** Conjugation *)
  Definition conj_by (U A : mat K) : mat K := mmul (adjoint U) (mmul A U).
  Lemma sq_conj N U A : sq N U -> sq N A -> sq N (conj_by U A).
  Proof. intros. apply sq_mmul; [apply sq_adjoint|apply sq_mmul]; auto. Qed.
  Lemma conj_ext N U A B : sq N U -> sq N A -> meq A B -> meq (conj_by U A) (conj_by U B).
  Proof.
    intros HU HA E. apply (mmul_sq N); auto using sq_adjoint, sq_mmul; [reflexivity|]. apply (mmul_sq N); auto. reflexivity.
  Qed.
  Lemma conj_ext_l N U V A : sq N U -> sq N A -> meq U V -> meq (conj_by U A) (conj_by V A).
  Proof.
    intros HU HA E. apply (mmul_sq N); auto using sq_adjoint, sq_mmul, adjoint_ext. apply (mmul_sq N); auto. reflexivity.
  Qed.
  Lemma unitary_l N U : sq N U -> unitary U -> meq (mmul (adjoint U) U) (eye N).
  Proof. intros [H1 H2] (E & H & _). rewrite <- H2. exact H. Qed.
  Lemma unitary_r N U : sq N U -> unitary U -> meq (mmul U (adjoint U)) (eye N).
  Proof. intros [H1 H2] (E & _ & H). rewrite <- H1. exact H. Qed.
  Lemma conj_eye N A : sq N A -> meq (conj_by (eye N) A) A.
  Proof.
    intros HA. unfold conj_by. transitivity (mmul (eye N) A).
    - apply (mmul_sq N); auto using sq_adjoint, sq_eye, sq_mmul, adjoint_eye, eye_r_sq.
    - apply eye_l_sq; auto.
  Qed.
  Lemma conj_of_eye N U : sq N U -> unitary U -> meq (conj_by U (eye N)) (eye N).
  Proof.
    intros HU H. unfold conj_by. transitivity (mmul (adjoint U) U); [|apply unitary_l; auto].
    apply (mmul_sq N); auto using sq_adjoint, sq_eye, sq_mmul, eye_l_sq. reflexivity.
  Qed.
  Lemma conj_comp N U V A : sq N U -> sq N V -> sq N A -> meq (conj_by (mmul U V) A) (conj_by V (conj_by U A)).
  Proof.
    intros HU HV HA. unfold conj_by.
    transitivity (mmul (mmul (adjoint V) (adjoint U)) (mmul (mmul A U) V)).
    - apply (mmul_sq N); auto using sq_adjoint, sq_mmul.
      + apply adjoint_mmul. destruct HU, HV. congruence.
      + symmetry. apply (assoc_sq N); auto.
    - transitivity (mmul (adjoint V) (mmul (adjoint U) (mmul (mmul A U) V))).
      + apply (assoc_sq N); auto using sq_adjoint, sq_mmul.
      + apply (mmul_sq N); auto using sq_adjoint, sq_mmul; [reflexivity|]. symmetry. apply (assoc_sq N); auto using sq_adjoint, sq_mmul.
  Qed.
  Lemma conj_mmul N U A B : sq N U -> sq N A -> sq N B -> unitary U -> meq (conj_by U (mmul A B)) (mmul (conj_by U A) (conj_by U B)).
  Proof.
    intros HU HA HB Hu. unfold conj_by. symmetry.
    transitivity (mmul (adjoint U) (mmul (mmul A U) (mmul (adjoint U) (mmul B U)))).
    { apply (assoc_sq N); auto using sq_adjoint, sq_mmul. }
    apply (mmul_sq N); auto using sq_adjoint, sq_mmul; [reflexivity|].
    transitivity (mmul A (mmul U (mmul (adjoint U) (mmul B U)))). { apply (assoc_sq N); auto using sq_adjoint, sq_mmul. }
    transitivity (mmul A (mmul B U)); [|symmetry; apply (assoc_sq N); auto]. apply (mmul_sq N); auto 6 using sq_adjoint, sq_mmul; [reflexivity|].
    transitivity (mmul (mmul U (adjoint U)) (mmul B U)). { symmetry. apply (assoc_sq N); auto using sq_adjoint, sq_mmul. }
    transitivity (mmul (eye N) (mmul B U)); [|apply eye_l_sq; auto using sq_mmul].
    apply (mmul_sq N); auto using sq_adjoint, sq_mmul; [apply unitary_r; auto|reflexivity].
  Qed.
  Lemma conj_commuting N U A : sq N U -> sq N A -> unitary U -> meq (mmul A U) (mmul U A) -> meq (conj_by U A) A.
  Proof.
    intros HU HA Hu E. unfold conj_by. transitivity (mmul (adjoint U) (mmul U A)).
    { apply (mmul_sq N); auto using sq_adjoint, sq_mmul. reflexivity. }
    transitivity (mmul (mmul (adjoint U) U) A). { symmetry. apply (assoc_sq N); auto using sq_adjoint. }
    transitivity (mmul (eye N) A); [|apply eye_l_sq; auto]. apply (mmul_sq N); auto using sq_adjoint, sq_mmul; [apply unitary_l; auto|reflexivity].
  Qed.
  Lemma conj_embed_other n q r (V A : mat K) : q < n -> r < n -> q <> r -> sq 2 V -> sq 2 A -> unitary V ->
    meq (conj_by (embed n [r] V) (embed n [q] A)) (embed n [q] A).
  Proof.
    intros Hq Hr N [V1 V2] [A1 A2] HV. apply (conj_commuting (2 ^ n)); auto using sq_embed.
    - apply embed_unitary; cbn; auto. { constructor; [intros []|constructor]. } { intros ? [<-|[]]; auto. }
    - apply embed_comm; cbn; auto; try (constructor; [intros []|constructor]); try (intros ? [<-|[]]; auto).
      intros [F|[]]; congruence.
  Qed.
  Lemma conj_embed_same n q (V A : mat K) : q < n -> sq 2 V -> sq 2 A ->
    meq (conj_by (embed n [q] V) (embed n [q] A)) (embed n [q] (conj_by V A)).
  Proof.
    intros Hq [V1 V2] [A1 A2]. unfold conj_by.
    assert (ND : NoDup [q]) by (constructor; [intros []|constructor]). assert (LT : forall x, In x [q] -> x < n) by (intros ? [<-|[]]; auto).
    transitivity (mmul (embed n [q] (adjoint V)) (embed n [q] (mmul A V))).
    - apply (mmul_sq (2 ^ n)); auto using sq_adjoint, sq_mmul, sq_embed, embed_adjoint. apply embed_mmul; cbn; auto.
    - apply embed_mmul; cbn; auto.
  Qed.
  Lemma conj_madd N U A B : sq N U -> sq N A -> sq N B -> meq (conj_by U (madd A B)) (madd (conj_by U A) (conj_by U B)).
  Proof.
    intros [U1 U2] [A1 A2] [B1 B2]. split; [reflexivity|]. split; [reflexivity|]. intros i j Hi Hj. unfold conj_by; cbn [ent mmul adjoint madd nc nr] in *.
    rewrite <- bigsum_add. apply bigsum_ext. intros l _. rewrite A2, B2.
    rewrite (bigsum_ext _ (fun k => (ent A l k + ent B l k) * ent U k j) (fun k => ent A l k * ent U k j + ent B l k * ent U k j)) by (intros; ring).
    rewrite bigsum_add. ring.
  Qed.
  Lemma conj_mscale U A c : meq (conj_by U (mscale c A)) (mscale c (conj_by U A)).
  Proof.
    split; [reflexivity|]. split; [reflexivity|]. intros i j Hi Hj. unfold conj_by; cbn [ent mmul adjoint mscale nc nr] in *.
    rewrite bigsum_mul_l. apply bigsum_ext. intros l _. rewrite (bigsum_ext _ (fun k => c * ent A l k * ent U k j) (fun k => c * (ent A l k * ent U k j))) by (intros; ring).
    rewrite <- bigsum_mul_l. ring.
  Qed.
  Lemma madd_ext (A A' B B' : mat K) : nr A = nr B -> nc A = nc B -> meq A A' -> meq B B' -> meq (madd A B) (madd A' B').
  Proof.
    intros E1 E2 (H1 & H2 & H3) (H4 & H5 & H6). split; [auto|]. split; [auto|]. cbn [nr nc madd ent]. intros i j Hi Hj. rewrite H3, H6; auto; congruence.
  Qed.
  Lemma mscale_ext (c : K) (A A' : mat K) : meq A A' -> meq (mscale c A) (mscale c A').
  Proof. intros (H1 & H2 & H3). split; [auto|]. split; [auto|]. cbn [nr nc mscale ent]. intros i j Hi Hj. rewrite H3; auto. Qed.
  Lemma conj_zeros N (U : mat K) : sq N U -> meq (conj_by U (zeros N N)) (zeros N N).
  Proof.
    intros [S1 S2]. split; [exact S2|]. split; [exact S2|]. intros i j _ _. cbn [ent conj_by mmul zeros].
    apply bigsum_0. intros l Hl. rewrite bigsum_0; [ring|]. intros; ring.
  Qed.
End C.
