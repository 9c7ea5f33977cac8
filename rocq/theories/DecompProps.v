(** C15: gate decompositions. *)
From Coq Require Import String Reals Lra.
From Verif Require Import Base BaseFacts MatModel MatFacts LiftModel LiftSpec LiftProofs CircuitModel CircuitSpec CircuitProofs Cplx
  GateMatModel GateMatSpec GateMatProofs DecompModel DecompSpec DecompProofs.
Open Scope list_scope.

(** Decomposing with a list of rules is one rewriting pass per rule, in the order of the rules; nothing else happens. *)
Theorem C15_rules_in_order {Op} (rules : list (rule Op)) ops out :
  decompose_operations ops rules = Ok out <-> rewritten_by rules ops out.
Proof. apply decompose_spec. Qed.

(** Each operation is decomposed on its own: decompositions concatenate. *)
Theorem C15_concatenation {Op} (rules : list (rule Op)) a b x y :
  decompose_operations a rules = Ok x -> decompose_operations b rules = Ok y ->
  decompose_operations (a ++ b) rules = Ok (x ++ y).
Proof. unfold decompose_operations. intros H1 H2. rewrite concat_mapM_app, H1, H2. reflexivity. Qed.

(** Operations no rule matches are left alone. *)
Theorem C15_no_match_identity {Op} (rules : list (rule Op)) ops :
  (forall r o, In r rules -> In o ops -> r_predicate r o = Ok false) -> decompose_operations ops rules = Ok ops.
Proof.
  intros H. apply decompose_spec. induction rules as [|r rs IH]; [constructor|]. econstructor; [|apply IH; intros; apply H; [right; auto|auto]].
  specialize (H r). clear IH. induction ops as [|o ops IH]; [constructor|]. apply rw_keep; [apply H; left; auto|]. apply IH. intros; apply H; [auto|right; auto].
Qed.

Section Sem.
  Context {Num : Type} (O : sympy_oracle Num) (IR : interp (Num := Num) R) (IC : interp (Num := Num) C) (rho : sym -> R).
  Notation same := (same_action O IR IC rho).

  (** If every rule replaces an operation by an equivalent list (up to global phase), decomposing any list of operations
      with any list of such rules preserves its action on every state, up to one global phase.  [Q] restricts the
      operations on which the rules are known to be sound. *)
  Theorem C15_sound_rules_preserve_action n (Q : operation Num -> Prop) rules ops out :
    (forall r o new, In r rules -> Q o -> r_predicate r o = Ok true -> r_production r o = Ok new ->
       Forall Q new /\ exists t, same n t [o] new) ->
    Forall Q ops -> decompose_operations ops rules = Ok out -> exists t, same n t ops out.
  Proof. intros. eapply decompose_sound; eauto. Qed.

  Definition gate_U3 (theta phi lambda : param Num) : gate Num := MFG "U3" (FBuiltin "u3_matrix") [theta; phi; lambda] 1 false.
  Notation ev := (eval_param IR rho).

  (** The three rotations act like the U3 gate up to the global phase exp(-i (phi + lambda) / 2). *)
  Theorem C15_u3_rotations theta phi lambda qs n :
    exists new, r_production u3_rule (GateOp (gate_U3 theta phi lambda) qs) = Ok new /\
      new = [GateOp (gate_RZ lambda) qs; GateOp (gate_RY theta) qs; GateOp (gate_RZ phi) qs] /\
      same n (- (0.5 * (ev phi + ev lambda))) [GateOp (gate_U3 theta phi lambda) qs] new.
  Proof.
    eexists. split; [reflexivity|]. split; [reflexivity|].
    eapply three_gates; reflexivity.
  Qed.

  (** For a circuit whose U3 gates are not under a control, the decomposed operations act like the original ones. *)
  Theorem C15_u3_circuit (c : circuit Num) n :
    (forall o, In o (c_ops c) -> u3_predicate o = Ok true -> exists theta phi lambda qs, o = GateOp (gate_U3 theta phi lambda) qs) ->
    (forall o, In o (c_ops c) -> u3_predicate o <> Err AttributeError) ->
    exists out t, decompose_operations (c_ops c) [u3_rule] = Ok out /\ same n t (c_ops c) out.
  Proof.
    intros HQ HM.
    assert (Hout : exists out, decompose_operations (c_ops c) [u3_rule] = Ok out).
    { revert HQ HM. generalize (c_ops c). intros ops HQ HM. unfold decompose_operations.
      induction ops as [|o ops IH]; [eexists; reflexivity|].
      rewrite concat_mapM_cons. destruct IH as [y Ey]; [intros; apply HQ; auto; right; auto|intros; apply HM; right; auto|].
      rewrite Ey. assert (Hx : exists x, decompose_operation [u3_rule] o = Ok x).
      { rewrite decompose_op_cons. cbn [r_predicate u3_rule]. destruct (u3_predicate o) as [[]|e] eqn:Ep; cbn [rbind].
        - destruct (HQ o) as (a & b & d & qs & ->); [left; auto|auto|]. eexists; reflexivity.
        - eexists; reflexivity.
        - exfalso. destruct o; cbn in Ep; [discriminate|]. injection Ep as <-. apply (HM (MultiPhase params)); [left; auto|reflexivity]. }
      destruct Hx as [x ->]. eexists; reflexivity. }
    destruct Hout as [out E]. exists out.
    destruct (decompose_sound O IR IC rho n (fun o => u3_predicate o = Ok true -> exists theta phi lambda qs, o = GateOp (gate_U3 theta phi lambda) qs)
      [u3_rule]) with (ops := c_ops c) (out := out) as [t Ht]; eauto.
    - intros r o new [<-|[]] Ho Hp. cbn [r_predicate u3_rule] in Hp. destruct (Ho Hp) as (a & b & d & qs & ->).
      destruct (C15_u3_rotations a b d qs n) as (new' & E1 & E2 & H). rewrite E1. intros [= <-]. split; [|eauto].
      rewrite E2. repeat constructor; cbn; discriminate.
    - apply Forall_forall. auto.
  Qed.

  (** Controlled U3: the replacement is exact when exp(i (phi + lambda) / 2) = 1. *)
  Theorem C15_controlled_u3_trivial_phase theta phi lambda k qs n : (1 <= k)%Z ->
    cis (0.5 * (ev phi + ev lambda)) = c1 ->
    exists new, r_production u3_rule (GateOp (Controlled (gate_U3 theta phi lambda) k) qs) = Ok new /\
      same n 0 [GateOp (Controlled (gate_U3 theta phi lambda) k) qs] new.
  Proof.
    intros Hk Hp.
    exists [GateOp (Controlled (gate_RZ lambda) k) qs; GateOp (Controlled (gate_RY theta) k) qs; GateOp (Controlled (gate_RZ phi) k) qs].
    split.
    - cbn. unfold preprocess_gate. cbn. unfold mk_controlled. destruct (Z.ltb_spec k 1); [lia|]. reflexivity.
    - replace 0%R with (- 0)%R by ring.
      eapply three_gates; try reflexivity. rewrite cis_0. cbn [num_qubits gate_RZ gate_RY gate_U3].
      set (e := eye _).
      assert (E1 : forall X : mat CC, meq X (mscale (K:=CC) c1 X)).
      { intros X. split; [reflexivity|]. split; [reflexivity|]. intros i j _ _. cbn [mscale ent]. apply c_eq; cbn; ring. }
      rewrite <- E1. symmetry.
      etransitivity; [apply mmul_ext; [reflexivity|apply mmul_diag2; reflexivity|reflexivity]|].
      etransitivity; [apply mmul_diag2; reflexivity|]. apply diag2_ext.
      + unfold e. etransitivity; [apply mmul_eye_r; reflexivity|]. apply mmul_eye_l. reflexivity.
      + cbn [b_call args1 args3]. unfold u3_matrix. cbv beta in Hp. cbn [eval_param map] in *. rewrite Hp. apply E1.
  Qed.
End Sem.


Section Refute.
  Let O0 : sympy_oracle R := {| order := fun m => m; simp := fun e => e; num_is_real := fun _ => true |}.
  Let IR : interp (Num := R) R := {| i_num := fun n : R => n; i_fun := fun _ _ => 0%R |}.
  Let IC : interp (Num := R) C := {| i_num := fun n : R => rc n; i_fun := fun _ _ => c0 |}.

  Lemma embed_all n (A : mat CC) : nr A = 2 ^ n -> nc A = 2 ^ n -> meq (embed n (seq 0 n) A) A.
  Proof.
    intros Hr Hc. apply (meq_bits n); auto. intros b c Hb Hc'. rewrite embed_ent by auto.
    assert (S : forall x, length x = n -> select (seq 0 n) x = x).
    { intros x Hx. unfold select. rewrite <- Hx. apply map_nth_seq. }
    rewrite !S by auto. replace (agree_outside n (seq 0 n) b c) with true; [auto|]. symmetry. apply agree_spec.
    intros i Hi N. exfalso. apply N. apply in_seq. lia.
  Qed.
  Lemma two_qubit_apply g D v : gate_matrix O0 IR IC (fun _ => 0%R) g = Ok D -> nr D = 4 -> nc D = 4 -> vlen v = 4 ->
    exists w, op_apply O0 IR IC (fun _ => 0%R) (GateOp g [0; 1]) v = Ok w /\ veq w (mvmul D v).
  Proof.
    intros ED Hr Hc Hv. rewrite (op_apply_gate _ _ _ _ g [0; 1] 2 v Hv). cbn [lifted_matrix]. rewrite ED. cbn [rbind]. rewrite Nat2Z.id.
    destruct (lift_embed D [0; 1] 2) as (MD & -> & HM).
    { repeat split; auto; [discriminate|repeat constructor; cbn; intuition lia|cbn; intuition lia]. }
    eexists. split; [reflexivity|]. apply mvmul_ext; [destruct HM as (_ & -> & _); auto| |reflexivity].
    rewrite HM. apply (embed_all 2); auto.
  Qed.
  Definition basis4 (k : nat) : vec CC := Build_vec (K := CC) 4 (fun i => if Nat.eqb i k then c1 else c0).
  (** A gate with a block matrix diag(1, 1, A), applied to a multiple of |10>, gives the first column of A as block. *)
  Definition block (A : mat CC) : mat CC := diag2 (eye 2) A.
  Lemma apply_block g A v z (k : nat) : gate_matrix O0 IR IC (fun _ => 0%R) g = Ok (block A) -> nr A = 2 -> nc A = 2 ->
    (k = 0 \/ k = 2) -> ent A 1 0 = c0 -> veq v (Build_vec (K := CC) 4 (fun i => if Nat.eqb i k then z else c0)) ->
    exists w, op_apply O0 IR IC (fun _ => 0%R) (GateOp g [0; 1]) v = Ok w /\
      veq w (Build_vec (K := CC) 4 (fun i => if Nat.eqb i k then cmul (if Nat.eqb k 0 then c1 else ent A 0 0) z else c0)).
  Proof.
    intros E Hr Hc Hk H0 [Hv1 Hv2]. cbn [vlen vent] in *.
    destruct (two_qubit_apply g (block A) v E) as (w & Ew & Hw); [cbn; congruence|cbn; congruence|auto|].
    exists w. split; [auto|]. rewrite Hw. split; [cbn [vlen mvmul nr block diag2 eye]; lia|].
    assert (N : nc (block A) = 4) by (cbn; lia). cbn [vlen vent mvmul]. rewrite N. intros i Hi.
    cbn [bigsum]. rewrite !Hv2 by lia. cbn [nr nc block diag2 eye ent] in *. rewrite Hr in Hi.
    destruct Hk as [-> | ->]; destruct i as [|[|[|[|i]]]]; try (cbn in Hi; lia);
      cbn [Nat.eqb Nat.ltb Nat.leb delta Nat.sub]; rewrite ?H0; apply c_eq; cbn [kadd kmul k0 k1 CC cadd cmul c0 c1 fst snd]; ring.
  Qed.

  (** In general, the replacement of a controlled U3 changes the action by more than a global phase:
      U3(0, 2 pi, 0) is the identity, its rotations give minus the identity. *)
  Theorem C15_controlled_u3_refuted : exists (o : operation R) new,
    u3_predicate o = Ok true /\ u3_production o = Ok new /\
    forall t, ~ same_action O0 IR IC (fun _ => 0%R) 2 t [o] new.
  Proof.
    exists (GateOp (Controlled (gate_U3 (PNum 0%R) (PNum (2 * PI)%R) (PNum 0%R)) 1) [0; 1]).
    exists [GateOp (Controlled (gate_RZ (PNum 0%R)) 1) [0; 1]; GateOp (Controlled (gate_RY (PNum 0%R)) 1) [0; 1]; GateOp (Controlled (gate_RZ (PNum (2 * PI)%R)) 1) [0; 1]].
    split; [reflexivity|]. split; [reflexivity|]. intros t H.
    assert (T1 : cis (-1 * 0 / 2) = c1) by (unfold cis; replace (-1 * 0 / 2)%R with 0%R by field; rewrite cos_0, sin_0; reflexivity).
    assert (T2 : cis (-1 * (2 * PI) / 2) = rc (-1)) by (unfold cis; replace (-1 * (2 * PI) / 2)%R with (- PI)%R by field; rewrite cos_neg, sin_neg, cos_PI, sin_PI; unfold rc; f_equal; ring).
    assert (T3 : cis (0.5 * (2 * PI + 0)) = rc (-1)) by (unfold cis; replace (0.5 * (2 * PI + 0))%R with PI by lra; rewrite cos_PI, sin_PI; reflexivity).
    assert (T4 : cos (0 / 2) = 1%R) by (replace (0 / 2)%R with 0%R by field; apply cos_0).
    assert (T5 : sin (0 / 2) = 0%R) by (replace (0 / 2)%R with 0%R by field; apply sin_0).
    assert (U00 : ent (u3_matrix 0 (2 * PI) 0) 0 0 = c1).
    { cbn [u3_matrix mscale mmul ent nc rz_matrix ry_matrix M of_rows length bigsum nth]. rewrite T1, T2, T3, T4, T5. apply c_eq; cbn; ring. }
    assert (U10 : ent (u3_matrix 0 (2 * PI) 0) 1 0 = c0).
    { cbn [u3_matrix mscale mmul ent nc rz_matrix ry_matrix M of_rows length bigsum nth]. rewrite T1, T3, T4, T5. apply c_eq; cbn; ring. }
    assert (G : forall k, k = 0 \/ k = 2 -> cmul (cis t) c1 = if Nat.eqb k 0 then c1 else rc (-1)).
    { intros k Hk.
      set (v := Build_vec (K := CC) 4 (fun i => if Nat.eqb i k then c1 else c0)).
      destruct (apply_block (Controlled (gate_U3 (PNum 0%R) (PNum (2 * PI)%R) (PNum 0%R)) 1) (u3_matrix 0 (2 * PI) 0) v c1 k) as (w & Ew & Hw); auto; try reflexivity.
      destruct (H v w eq_refl) as (w' & Ew' & Hp); [rewrite apply_cons, Ew; reflexivity|].
      destruct (apply_block (Controlled (gate_RZ (PNum 0%R)) 1) (rz_matrix 0) v c1 k) as (w1 & E1 & H1); auto; try reflexivity.
      destruct (apply_block (Controlled (gate_RY (PNum 0%R)) 1) (ry_matrix 0) w1 (cmul (if Nat.eqb k 0 then c1 else ent (rz_matrix 0) 0 0) c1) k) as (w2 & E2 & H2); auto; try reflexivity.
      { cbn. rewrite T5. reflexivity. }
      destruct (apply_block (Controlled (gate_RZ (PNum (2 * PI)%R)) 1) (rz_matrix (2 * PI)) w2
        (cmul (if Nat.eqb k 0 then c1 else ent (ry_matrix 0) 0 0) (cmul (if Nat.eqb k 0 then c1 else ent (rz_matrix 0) 0 0) c1)) k) as (w3 & E3 & H3); auto; try reflexivity.
      rewrite apply_cons, E1 in Ew'. cbn [rbind] in Ew'. rewrite apply_cons, E2 in Ew'. cbn [rbind] in Ew'. rewrite apply_cons, E3 in Ew'.
      injection Ew' as <-. destruct Hw as [L1 Hw], H3 as [L3 H3]. destruct Hp as [_ Hp]. cbn [vlen vent] in *.
      assert (Hk4 : k < 4) by lia. specialize (Hp k ltac:(lia)). specialize (H3 k ltac:(lia)). specialize (Hw k ltac:(lia)).
      rewrite Nat.eqb_refl in H3, Hw. rewrite H3, Hw in Hp.
      destruct Hk as [-> | ->]; cbn [Nat.eqb] in *.
      - transitivity (cmul (cis t) (cmul c1 c1)); [f_equal; apply c_eq; cbn; ring|]. rewrite <- Hp. apply c_eq; cbn; ring.
      - rewrite U00 in Hp. transitivity (cmul (cis t) (cmul c1 c1)); [f_equal; apply c_eq; cbn; ring|]. rewrite <- Hp.
        cbn [rz_matrix ry_matrix M of_rows ent nth]. rewrite T1, T2, T4. apply c_eq; cbn; ring. }
    pose proof (G 0 (or_introl eq_refl)) as G0. pose proof (G 2 (or_intror eq_refl)) as G2. cbn [Nat.eqb] in *. rewrite G0 in G2.
    apply (f_equal fst) in G2. cbn in G2. lra.
  Qed.

  (** A custom gate that happens to be called "U3" is replaced by rotations too, whatever its matrix is. *)
  Theorem C15_custom_gate_named_u3_refuted (d : custom_def R) a b c qs :
    r_predicate u3_rule (GateOp (MFG "U3" (FCustom d) [a; b; c] 1 false) qs) = Ok true /\
    r_production u3_rule (GateOp (MFG "U3" (FCustom d) [a; b; c] 1 false) qs) =
      r_production u3_rule (GateOp (gate_U3 a b c) qs).
  Proof. split; reflexivity. Qed.
End Refute.

(** The width of the decomposed circuit is computed from its operations; a declared wider width is lost. *)
Theorem C15_width {Num} (c c' : circuit Num) rules : decompose_zquantum_circuit c rules = Ok c' ->
  least_bound (flat_map qubit_indices (c_ops c')) (c_nq c').
Proof.
  unfold decompose_zquantum_circuit. destruct (decompose_operations _ _) as [ops|]; cbn [rbind]; [|discriminate].
  unfold mk_circuit. destruct (circuit_size_by_operations ops) as [s|] eqn:Es; cbn [rbind]; [|discriminate]. intros [= <-]. cbn [c_ops c_nq].
  apply size_spec in Es. exact (proj1 Es).
Qed.
Theorem C15_declared_width_refuted : exists (c c' : circuit R),
  valid_circuit c /\ decompose_zquantum_circuit c [u3_rule] = Ok c' /\ c_nq c = 3%Z /\ c_nq c' = 1%Z.
Proof.
  exists (Build_circuit [GateOp (gate_U3 (PNum 0%R) (PNum 0%R) (PNum 0%R)) [0]] 3). eexists.
  split; [exists [GateOp (gate_U3 (PNum 0%R) (PNum 0%R) (PNum 0%R)) [0]], (Some (QArith_base.inject_Z 3)); reflexivity|].
  split; [reflexivity|]. split; reflexivity.
Qed.

(** A circuit with a U3 gate, a controlled rotation and a U3 on another qubit meets the hypotheses of [C15_u3_circuit]. *)
Example ex_u3_circuit : let c : circuit R := Build_circuit
    [GateOp (gate_U3 (PNum 1%R) (PExpr (ESym "a"%string)) (PNum 3%R)) [1]; GateOp (Controlled (gate_RZ (PNum 1%R)) 1) [0; 2];
     GateOp (gate_U3 (PNum 2%R) (PNum 1%R) (PExpr (ESym "b"%string))) [2]] 3 in
  (forall o, In o (c_ops c) -> u3_predicate o = Ok true -> exists theta phi lambda qs, o = GateOp (gate_U3 theta phi lambda) qs) /\
  (forall o, In o (c_ops c) -> u3_predicate o <> Err AttributeError) /\
  (exists out, decompose_operations (c_ops c) [u3_rule] = Ok out /\ length out = 7).
Proof.
  cbn zeta. split; [|split].
  - intros o [<-|[<-|[<-|[]]]]; cbn; intros H; try discriminate; unfold gate_U3; eauto 8.
  - intros o [<-|[<-|[<-|[]]]]; cbn; discriminate.
  - eexists; split; reflexivity.
Qed.

Print Assumptions C15_rules_in_order.
Print Assumptions C15_concatenation.
Print Assumptions C15_no_match_identity.
Print Assumptions C15_sound_rules_preserve_action.
Print Assumptions C15_u3_rotations.
Print Assumptions C15_u3_circuit.
Print Assumptions C15_controlled_u3_trivial_phase.
Print Assumptions C15_controlled_u3_refuted.
Print Assumptions C15_width.
Print Assumptions C15_declared_width_refuted.
