(** Proofs about gate matrices and circuit unitaries. *)
From Coq Require Import String Reals Lra Psatz Ring.
From Verif Require Import Base BaseFacts MatModel MatFacts LiftModel LiftSpec LiftProofs CircuitModel CircuitSpec CircuitProofs Cplx GateMatModel GateMatSpec.
Open Scope list_scope.

(** ** Unitarity of the built-in matrices *)
Lemma half_sqrt2 : (1 / sqrt 2 * (1 / sqrt 2) = 1 / 2)%R.
Proof.
  pose proof (sqrt_sqrt 2 ltac:(lra)) as H. assert (sqrt 2 <> 0)%R by (intros E; rewrite E in H; lra).
  replace (1 / sqrt 2 * (1 / sqrt 2))%R with (1 / (sqrt 2 * sqrt 2))%R by (field; auto). rewrite H. reflexivity.
Qed.
Lemma neg_half_sqrt2 : (-1 / sqrt 2 = - (1 / sqrt 2))%R.
Proof. unfold Rdiv. ring. Qed.

Ltac gen_trig := repeat match goal with
  | |- context [cos ?x] => let H := fresh "T" in pose proof (sin2_cos2 x) as H; unfold Rsqr in H; revert H;
       generalize (cos x); generalize (sin x); intros ? ? H
  end.
Ltac csolve := apply c_eq; cbn [fst snd kadd kmul kconj k0 k1 CC cadd cmul csub copp cconj c0 c1 rc ji cis]; gen_trig;
  try (ring || lra || nra).
Ltac shape2 := split; [reflexivity|]; split; [reflexivity|]; cbn [nr nc M of_rows length mmul adjoint eye];
  intros [|[|i]] [|[|j]] Hi Hj; try lia;
  cbn [ent mmul adjoint M of_rows nth nc nr length bigsum eye Nat.eqb delta].
Ltac shape4 := split; [reflexivity|]; split; [reflexivity|]; cbn [nr nc M of_rows length mmul adjoint eye];
  intros [|[|[|[|i]]]] [|[|[|[|j]]]] Hi Hj; try lia;
  cbn [ent mmul adjoint M of_rows nth nc nr length bigsum eye Nat.eqb delta].
Ltac uni2 := split; [reflexivity|]; split; shape2; csolve.
Ltac uni4 := split; [reflexivity|]; split; shape4; csolve.

Lemma x_unitary : unitary x_matrix. Proof. unfold x_matrix. uni2. Qed.
Lemma y_unitary : unitary y_matrix. Proof. unfold y_matrix. uni2. Qed.
Lemma z_unitary : unitary z_matrix. Proof. unfold z_matrix. uni2. Qed.
Lemma h_unitary : unitary h_matrix.
Proof.
  unfold h_matrix. rewrite neg_half_sqrt2. pose proof half_sqrt2 as H. revert H. generalize (1 / sqrt 2)%R. intros q H. uni2.
Qed.
Lemma i_unitary : unitary i_matrix. Proof. unfold i_matrix. uni2. Qed.
Lemma s_unitary : unitary s_matrix. Proof. unfold s_matrix. uni2. Qed.
Lemma t_unitary : unitary t_matrix. Proof. unfold t_matrix. uni2. Qed.
Lemma rx_unitary a : unitary (rx_matrix a). Proof. unfold rx_matrix. uni2. Qed.
Lemma ry_unitary a : unitary (ry_matrix a). Proof. unfold ry_matrix. uni2. Qed.
Lemma rz_unitary a : unitary (rz_matrix a). Proof. unfold rz_matrix. uni2. Qed.
Lemma phase_unitary a : unitary (phase_matrix a). Proof. unfold phase_matrix. uni2. Qed.
Lemma rh_unitary a : unitary (rh_matrix a).
Proof.
  unfold rh_matrix. apply unitary_mscale.
  - csolve.
  - pose proof half_sqrt2 as H. pose proof neg_half_sqrt2 as H'. rewrite H'. clear H'. revert H. generalize (1 / sqrt 2)%R. intros q H.
    pose proof (sin2_cos2 (a / 2)) as T. unfold Rsqr in T. revert T. generalize (cos (a / 2)) (sin (a / 2)). intros c s T.
    assert (E : (q * s * (q * s) = s * s / 2)%R) by (replace (q * s * (q * s))%R with (q * q * (s * s))%R by ring; rewrite H; field).
    replace (- q * s)%R with (- (q * s))%R by ring.
    revert E. generalize (q * s)%R. intros p E. clear H q.
    uni2.
Qed.
Lemma u3_unitary a b c : unitary (u3_matrix a b c).
Proof.
  unfold u3_matrix. apply unitary_mscale; [csolve|]. apply unitary_mmul; [reflexivity| |apply rz_unitary].
  apply unitary_mmul; [reflexivity|apply rz_unitary|apply ry_unitary].
Qed.
Lemma cnot_unitary : unitary cnot_matrix. Proof. unfold cnot_matrix. uni4. Qed.
Lemma cz_unitary : unitary cz_matrix. Proof. unfold cz_matrix. uni4. Qed.
Lemma swap_unitary : unitary swap_matrix. Proof. unfold swap_matrix. uni4. Qed.
Lemma iswap_unitary : unitary iswap_matrix. Proof. unfold iswap_matrix. uni4. Qed.
Lemma cphase_unitary a : unitary (cphase_matrix a). Proof. unfold cphase_matrix. uni4. Qed.
Lemma xx_unitary a : unitary (xx_matrix a). Proof. unfold xx_matrix. uni4. Qed.
Lemma yy_unitary a : unitary (yy_matrix a). Proof. unfold yy_matrix. uni4. Qed.
Lemma zz_unitary a : unitary (zz_matrix a). Proof. unfold zz_matrix. uni4. Qed.
Lemma xy_unitary a : unitary (xy_matrix a). Proof. unfold xy_matrix. uni4. Qed.

(** ** All built-in gates *)
Lemma builtin_call_ok b vs : In b builtins -> length vs = b_arity b ->
  exists m, b_call b vs = Ok m /\ nr m = (2 ^ Z.to_nat (b_nq b))%nat /\ nc m = (2 ^ Z.to_nat (b_nq b))%nat /\ unitary m.
Proof.
  intros H. repeat (destruct H as [<-|H]); [..|contradiction]; cbn [b_arity b_call b_nq];
    intros L; (destruct vs as [|v0 [|v1 [|v2 [|v3 vs]]]]; try discriminate L); cbn [args0 args1 args3];
    (eexists; split; [reflexivity|]; split; [reflexivity|]; split; [reflexivity|]);
    auto using x_unitary, y_unitary, z_unitary, h_unitary, i_unitary, s_unitary, t_unitary, rx_unitary, ry_unitary, rz_unitary,
      rh_unitary, phase_unitary, u3_unitary, cnot_unitary, cz_unitary, swap_unitary, iswap_unitary, cphase_unitary, xx_unitary,
      yy_unitary, zz_unitary, xy_unitary.
Qed.
Lemma builtin_hermitian b vs m : In b builtins -> b_herm b = true -> b_call b vs = Ok m -> meq (adjoint m) m.
Proof.
  intros H. repeat (destruct H as [<-|H]); [..|contradiction]; cbn [b_herm b_call]; try discriminate; intros _;
    destruct vs; cbn [args0]; try discriminate; intros [= <-];
    unfold x_matrix, y_matrix, z_matrix, h_matrix, i_matrix, cnot_matrix, cz_matrix, swap_matrix; first [solve [shape2; csolve] | solve [shape4; csolve]].
Qed.
Lemma builtin_nq_pos b : In b builtins -> (1 <= b_nq b)%Z.
Proof. intros H. repeat (destruct H as [<-|H]); [..|contradiction]; cbn; lia. Qed.
Lemma find_builtin_self b : In b builtins -> find_builtin_fun (b_fun b) = Some b.
Proof. intros H. repeat (destruct H as [<-|H]); [..|contradiction]; reflexivity. Qed.

Section P.
  Context {Num : Type} (O : sympy_oracle Num) (IR : interp (Num := Num) R) (IC : interp (Num := Num) C) (rho : sym -> R).
  Notation gmat := (gate_matrix O IR IC rho).
  Open Scope Z_scope.

  Lemma builtin_gate_matrix b ps : In b builtins ->
    gmat (builtin_gate b ps) = b_call b (map (eval_param IR rho) ps).
  Proof. intros H. cbn [gate_matrix builtin_gate]. rewrite find_builtin_self by auto. reflexivity. Qed.

  Lemma base_nf g d k : plain g -> base_gate (Num:=Num) (normal_form g d k) = g.
  Proof. destruct g; cbn [plain]; try contradiction. intros _. unfold normal_form. destruct (k =? 0), d; reflexivity. Qed.

  (** ** Controlled matrices *)
  Lemma diag2_controlled {K : cring} (A : mat K) k w : nr A = (2 ^ w)%nat -> nc A = (2 ^ w)%nat ->
    controlled_version k w A (diag2 (eye (2 ^ (k + w) - 2 ^ w)) A).
  Proof.
    intros Hr Hc. assert (Hle : (2 ^ w <= 2 ^ (k + w))%nat) by (apply Nat.pow_le_mono_r; lia).
    split; [cbn [nr diag2 eye]; lia|]. split; [cbn [nc diag2 eye]; lia|].
    intros ctl ctl' x x' H1 H2 H3 H4. cbn [ent diag2 nr nc eye].
    assert (Hall : forall c, forallb (fun b => b) c = true -> bval c = (2 ^ length c - 1)%nat).
    { clear. induction c as [|b c IH]; cbn; [auto|]. intros H. apply andb_true_iff in H as [-> H]. rewrite IH by auto. pose proof (pow2_pos (length c)). lia. }
    assert (Hnall : forall c, forallb (fun b => b) c = false -> (bval c < 2 ^ length c - 1)%nat).
    { clear. induction c as [|b c IH]; cbn; [discriminate|]. intros H. pose proof (pow2_pos (length c)). pose proof (bval_lt c).
      destruct b; cbn in H; [specialize (IH H)|]; lia. }
    pose proof (bval_lt x) as Bx. pose proof (bval_lt x') as Bx'. rewrite H3 in Bx. rewrite H4 in Bx'.
    pose proof (pow2_pos w) as Pw. pose proof (pow2_pos k) as Pk.
    assert (Hp : (2 ^ (k + w) = 2 ^ k * 2 ^ w)%nat) by (apply Nat.pow_add_r).
    assert (L1 : (bval (ctl ++ x) <? 2 ^ (k + w) - 2 ^ w)%nat = negb (forallb (fun b => b) ctl)).
    { rewrite bval_app, H3. destruct (forallb _ ctl) eqn:E; cbn [negb].
      - apply Hall in E. rewrite E, H1. apply Nat.ltb_ge. nia.
      - apply Hnall in E. rewrite H1 in E. apply Nat.ltb_lt. nia. }
    assert (L2 : (bval (ctl' ++ x') <? 2 ^ (k + w) - 2 ^ w)%nat = negb (forallb (fun b => b) ctl')).
    { rewrite bval_app, H4. destruct (forallb _ ctl') eqn:E; cbn [negb].
      - apply Hall in E. rewrite E, H2. apply Nat.ltb_ge. nia.
      - apply Hnall in E. rewrite H2 in E. apply Nat.ltb_lt. nia. }
    rewrite L1, L2.
    destruct (forallb _ ctl) eqn:E; destruct (forallb _ ctl') eqn:E'; cbn [negb andb].
    - f_equal; rewrite bval_app.
      + rewrite H3, (Hall _ E), H1. nia.
      + rewrite H4, (Hall _ E'), H2. nia.
    - destruct (list_eqb Bool.eqb (ctl ++ x) (ctl' ++ x')) eqn:F; [|reflexivity]. apply (list_eqb_spec _ bool_eqb_spec) in F.
      exfalso. assert (ctl = ctl'); [|congruence].
      apply app_inj_len in F; [tauto|congruence].
    - destruct (list_eqb Bool.eqb (ctl ++ x) (ctl' ++ x')) eqn:F; [|reflexivity]. apply (list_eqb_spec _ bool_eqb_spec) in F.
      exfalso. assert (ctl = ctl'); [|congruence].
      apply app_inj_len in F; [tauto|congruence].
    - f_equal. apply eqb_bval. rewrite !app_length. lia.
  Qed.
  Lemma pow2Z_add w k : 0 <= w -> 0 <= k -> pow2Z (w + k) = (2 ^ (Z.to_nat k + Z.to_nat w))%nat.
  Proof. intros. unfold pow2Z. f_equal. lia. Qed.

  Definition mod_mat (d : bool) (k w : Z) (m : mat CC) : mat CC :=
    let a := if d then adjoint m else m in
    if k =? 0 then a else diag2 (eye (pow2Z (w + k) - pow2Z w)) a.
  Lemma gate_matrix_nf b d k m : plain b -> gmat b = Ok m ->
    gmat (normal_form b d k) = Ok (mod_mat d k (num_qubits b) m).
  Proof.
    intros P E. unfold normal_form, mod_mat. destruct (k =? 0), d; cbn [gate_matrix num_qubits]; rewrite ?E; cbn [rbind]; auto.
  Qed.
  Lemma gate_matrix_nf_err b d k e : plain b -> gmat b = Err e -> gmat (normal_form b d k) = Err e.
  Proof.
    intros P E. unfold normal_form. destruct (k =? 0), d; cbn [gate_matrix]; rewrite ?E; auto.
  Qed.

  Lemma builtin_based_matrix g : builtin_based O g -> exists m, gmat g = Ok m /\
    nr m = pow2Z (num_qubits g) /\ nc m = pow2Z (num_qubits g) /\ unitary m /\ 1 <= num_qubits g.
  Proof.
    intros [Ha (b & ps & Hb & Hps & Eb)]. destruct (api_gate_nf O g Ha) as (g0 & d & k & P & Hk & Hd & ->).
    rewrite base_nf in Eb by auto. subst g0.
    destruct (builtin_call_ok b (map (eval_param IR rho) ps) Hb) as (m & Em & Hr & Hc & Hu); [rewrite map_length; auto|].
    pose proof (builtin_nq_pos b Hb) as Hq.
    exists (mod_mat d k (b_nq b) m). split; [apply (gate_matrix_nf (builtin_gate b ps)); auto; rewrite builtin_gate_matrix; auto|].
    rewrite num_qubits_nf. cbn [num_qubits builtin_gate]. split; [|split; [|split]].
    - unfold mod_mat. assert (nr (if d then adjoint m else m) = pow2Z (b_nq b)) by (destruct d; cbn [nr adjoint]; auto).
      destruct (Z.eqb_spec k 0) as [->|]; [rewrite Z.add_0_r; auto|]. cbn [nr diag2 eye]. rewrite H.
      assert (pow2Z (b_nq b) <= pow2Z (b_nq b + k))%nat by (unfold pow2Z; apply Nat.pow_le_mono_r; lia). lia.
    - unfold mod_mat. assert (nc (if d then adjoint m else m) = pow2Z (b_nq b)) by (destruct d; cbn [nc adjoint]; auto).
      destruct (Z.eqb_spec k 0) as [->|]; [rewrite Z.add_0_r; auto|]. cbn [nc diag2 eye]. rewrite H.
      assert (pow2Z (b_nq b) <= pow2Z (b_nq b + k))%nat by (unfold pow2Z; apply Nat.pow_le_mono_r; lia). lia.
    - unfold mod_mat. assert (unitary (if d then adjoint m else m)) by (destruct d; auto using unitary_adjoint).
      destruct (k =? 0); auto. apply unitary_diag2; auto. apply unitary_eye.
    - lia.
  Qed.

  (** The hermitian flag of the gate under the modifiers is truthful. *)
  Definition truthful (g : gate Num) : Prop :=
    hermitian_flag (base_gate g) = true -> forall m, gmat (base_gate g) = Ok m -> meq (adjoint m) m.
  Lemma builtin_truthful g : is_builtin (base_gate g) -> truthful g.
  Proof.
    intros (b & ps & Hb & _ & E) H m. rewrite E in *. rewrite builtin_gate_matrix by auto. apply builtin_hermitian; auto.
  Qed.

  Lemma dagger_matrix g g' m : api_gate O g -> truthful g -> dagger g = Ok g' -> gmat g = Ok m ->
    exists m', gmat g' = Ok m' /\ meq m' (adjoint m).
  Proof.
    intros Ha Ht Eg Em. destruct (api_gate_nf O g Ha) as (g0 & d & k & P & Hk & Hd & ->).
    unfold truthful in Ht. rewrite base_nf in Ht by auto.
    rewrite dagger_nf in Eg by auto. injection Eg as <-.
    destruct (gmat g0) as [m0|e] eqn:E0; [|rewrite (gate_matrix_nf_err g0 d k e) in Em by auto; discriminate].
    rewrite (gate_matrix_nf g0 d k m0) in Em by auto. injection Em as <-.
    rewrite (gate_matrix_nf g0 _ k m0) by auto. eexists; split; [reflexivity|].
    assert (H1 : meq (if (if hermitian_flag g0 then d else negb d) then adjoint m0 else m0) (adjoint (if d then adjoint m0 else m0))).
    { destruct (hermitian_flag g0).
      - rewrite Hd by auto. symmetry. auto.
      - destruct d; cbn [negb]; [symmetry; apply adjoint_invol|reflexivity]. }
    unfold mod_mat. destruct (k =? 0); auto.
    rewrite adjoint_diag2 by reflexivity. apply diag2_ext; auto. symmetry. apply adjoint_eye.
  Qed.

  Lemma controlled_matrix g g' k m : api_gate O g -> 1 <= k -> controlled g k = Ok g' -> gmat g = Ok m ->
    0 <= num_qubits (base_gate g) -> nr m = pow2Z (num_qubits g) -> nc m = pow2Z (num_qubits g) ->
    exists m', gmat g' = Ok m' /\ controlled_version (Z.to_nat k) (Z.to_nat (num_qubits g)) m m'.
  Proof.
    intros Ha Hk1 Eg Em Hq Hr Hc. destruct (api_gate_nf O g Ha) as (g0 & d & k0 & P & Hk & Hd & ->).
    rewrite base_nf in Hq by auto. rewrite num_qubits_nf in *.
    rewrite controlled_nf in Eg by auto. destruct (Z.ltb_spec (k0 + k) 1); [lia|]. injection Eg as <-.
    destruct (gmat g0) as [m0|e] eqn:E0; [|rewrite (gate_matrix_nf_err g0 d k0 e) in Em by auto; discriminate].
    rewrite (gate_matrix_nf g0 d k0 m0) in Em by auto. injection Em as <-.
    rewrite (gate_matrix_nf g0 _ (k0 + k) m0) by auto. eexists; split; [reflexivity|].
    set (w := num_qubits g0) in *. unfold mod_mat in *. set (a := if d then adjoint m0 else m0) in *.
    destruct (Z.eqb_spec (k0 + k) 0); [lia|].
    destruct (Z.eqb_spec k0 0) as [->|N].
    - rewrite Z.add_0_r in *. rewrite Z.add_0_l. rewrite pow2Z_add by lia. apply (diag2_controlled a (Z.to_nat k) (Z.to_nat w)); auto.
    - (* diag(eye, diag(eye, a)) = diag(eye, a) *)
      assert (Ha_r : nr a = pow2Z w /\ nc a = pow2Z w).
      { cbn [nr nc diag2 eye] in Hr, Hc. assert (pow2Z w <= pow2Z (w + k0))%nat by (unfold pow2Z; apply Nat.pow_le_mono_r; lia). lia. }
      destruct Ha_r as [Har Hac].
      pose proof (diag2_controlled (diag2 (eye (pow2Z (w + k0) - pow2Z w)) a) (Z.to_nat k) (Z.to_nat (w + k0)) Hr Hc) as (S1 & S2 & S3).
      rewrite <- pow2Z_add in * by lia. fold (pow2Z (w + k0)) in S1, S2, S3.
      assert (P1 : (pow2Z w <= pow2Z (w + k0))%nat) by (unfold pow2Z; apply Nat.pow_le_mono_r; lia).
      assert (P2 : (pow2Z (w + k0) <= pow2Z (w + k0 + k))%nat) by (unfold pow2Z; apply Nat.pow_le_mono_r; lia).
      replace (w + (k0 + k)) with (w + k0 + k) in * by lia.
      set (p := pow2Z w) in *. set (p0 := pow2Z (w + k0)) in *. set (p1 := pow2Z (w + k0 + k)) in *.
      unfold controlled_version. rewrite <- pow2Z_add by lia. fold p1.
      split; [cbn [nr diag2 eye]; lia|]. split; [cbn [nc diag2 eye]; lia|].
      intros ctl ctl' x x' L1 L2 L3 L4. rewrite <- S3 by auto. cbn [ent diag2 nr nc eye].
      generalize (bval (ctl ++ x)) (bval (ctl' ++ x')). intros i j.
      assert (T : forall t, (t <? p1 - p)%nat = (t <? p1 - p0)%nat || ((negb (t <? p1 - p0)%nat) && (t - (p1 - p0) <? p0 - p)%nat)).
      { intros t. destruct (Nat.ltb_spec t (p1 - p)), (Nat.ltb_spec t (p1 - p0)), (Nat.ltb_spec (t - (p1 - p0)) (p0 - p)); cbn; try reflexivity; lia. }
      rewrite !T. destruct (Nat.ltb_spec i (p1 - p0)) as [A1|A1], (Nat.ltb_spec j (p1 - p0)) as [A2|A2]; cbn [orb negb andb].
      + reflexivity.
      + destruct (Nat.ltb_spec (j - (p1 - p0)) (p0 - p)); [|reflexivity]. destruct (Nat.eqb_spec i j); [lia|reflexivity].
      + destruct (Nat.ltb_spec (i - (p1 - p0)) (p0 - p)); [|reflexivity]. destruct (Nat.eqb_spec i j); [lia|reflexivity].
      + destruct (Nat.ltb_spec (i - (p1 - p0)) (p0 - p)) as [B1|B1], (Nat.ltb_spec (j - (p1 - p0)) (p0 - p)) as [B2|B2]; try reflexivity.
        * f_equal. destruct (Nat.eqb_spec i j), (Nat.eqb_spec (i - (p1 - p0)) (j - (p1 - p0))); try reflexivity; lia.
        * f_equal; lia.
  Qed.

  (** ** Circuits *)
  Notation lifted := (lifted_matrix O IR IC rho).
  Notation op_app := (op_apply O IR IC rho).
  Notation unitary_of := (to_unitary O IR IC rho).

  Lemma lifted_ok_shape o n m : lifted o n = Ok m -> nr m = pow2Z n /\ nc m = pow2Z n.
  Proof.
    destruct o as [g qs|ps]; cbn [lifted_matrix]; [|discriminate]. destruct (gmat g); cbn [rbind]; [|discriminate].
    intros H. apply lift_ok in H as [_ (H1 & H2 & _)]. auto.
  Qed.
  Lemma op_apply_gate g qs n v : vlen v = (2 ^ n)%nat ->
    op_app (GateOp g qs) v = let! m := lifted (GateOp g qs) (Z.of_nat n) in Ok (mvmul m v).
  Proof.
    intros Hv. cbn [op_apply]. pose proof (pow2_pos n). destruct (Nat.eqb_spec (vlen v) 0); [lia|].
    rewrite Hv, Nat.log2_pow2 by lia. rewrite Nat.eqb_refl. cbn [negb].
    destruct (lifted (GateOp g qs) (Z.of_nat n)) as [m|] eqn:E; [|reflexivity]. cbn [rbind].
    apply lifted_ok_shape in E as [E1 E2]. unfold matvec. rewrite E2, Hv. unfold pow2Z. rewrite Nat2Z.id, Nat.eqb_refl. reflexivity.
  Qed.

  (** product of the matrices of a list, last one leftmost *)
  Fixpoint seq_mat (N : nat) (ms : list (mat CC)) : mat CC :=
    match ms with [] => eye N | m :: ms' => mmul (seq_mat N ms') m end.
  Lemma foldM_matmul N ms : (forall m, In m ms -> nr m = N /\ nc m = N) -> forall acc, nc acc = N ->
    exists r, foldM (fun acc m' => matmul acc m') ms acc = Ok r /\ nr r = nr acc /\ nc r = N /\ meq r (mmul acc (seq_mat N (rev ms))).
  Proof.
    induction ms as [|m ms IH]; intros Hs acc Hacc; cbn [foldM rev].
    - eexists; split; [reflexivity|]. split; [auto|]. split; [auto|]. symmetry. apply mmul_eye_r. auto.
    - destruct (Hs m) as [Hr Hc]; [left; auto|]. unfold matmul at 1. rewrite Hacc, Hr, Nat.eqb_refl. cbn [rbind].
      destruct (IH ltac:(intros; apply Hs; right; auto) (mmul acc m) Hc) as (r & Er & H1 & H2 & H3).
      exists r. split; [auto|]. split; [auto|]. split; [auto|]. rewrite H3.
      assert (Hsm : forall l, (forall m, In m l -> nr m = N /\ nc m = N) -> nr (seq_mat N l) = N /\ nc (seq_mat N l) = N).
      { clear. induction l as [|x l IH]; cbn; intros H; [auto|]. destruct (H x) as [H1 H2]; [auto|]. destruct IH as [H3 H4]; [auto|]. auto. }
      assert (Hrev : forall m0, In m0 (rev ms) -> nr m0 = N /\ nc m0 = N) by (intros m0 Hm0; apply Hs; right; apply in_rev; auto).
      destruct (Hsm (rev ms) Hrev) as [Hsr Hsc].
      assert (Happ : forall l, (forall m, In m l -> nr m = N /\ nc m = N) -> meq (seq_mat N (l ++ [m])) (mmul m (seq_mat N l))).
      { induction l as [|x l IHl]; cbn [app seq_mat]; intros Hl.
        - rewrite mmul_eye_l, mmul_eye_r by auto. reflexivity.
        - destruct (Hl x) as [X1 X2]; [left; auto|]. destruct (Hsm l) as [Y1 Y2]; [intros; apply Hl; right; auto|].
          rewrite <- mmul_assoc by congruence. apply mmul_ext; [|apply IHl; intros; apply Hl; right; auto|reflexivity].
          destruct (Hsm (l ++ [m])) as [Z1 Z2]; [|congruence]. intros z Hz. apply in_app_iff in Hz as [Hz|[<-|[]]]; [apply Hl; right; auto|auto]. }
      rewrite mmul_assoc by congruence. apply mmul_ext; [cbn [nr mmul]; congruence|reflexivity|]. symmetry. apply Happ; auto.
  Qed.

  Lemma seq_mat_shape N ms : (forall m, In m ms -> nr m = N /\ nc m = N) -> nr (seq_mat N ms) = N /\ nc (seq_mat N ms) = N.
  Proof.
    induction ms as [|x l IH]; cbn; intros H; [auto|]. destruct (H x) as [H1 H2]; [auto|]. destruct IH as [H3 H4]; [auto|]. auto.
  Qed.
  Lemma seq_mat_app N a b : (forall m, In m a -> nr m = N /\ nc m = N) -> (forall m, In m b -> nr m = N /\ nc m = N) ->
    meq (seq_mat N (a ++ b)) (mmul (seq_mat N b) (seq_mat N a)).
  Proof.
    intros Ha Hb. induction a as [|x a IH]; cbn [app seq_mat].
    - destruct (seq_mat_shape N b Hb) as [H1 H2]. rewrite mmul_eye_r by auto. reflexivity.
    - destruct (Ha x) as [X1 X2]; [left; auto|]. destruct (seq_mat_shape N b Hb) as [H1 H2].
      destruct (seq_mat_shape N a) as [H3 H4]; [intros; apply Ha; right; auto|].
      rewrite <- mmul_assoc by congruence. apply mmul_ext; [|apply IH; intros; apply Ha; right; auto|reflexivity].
      destruct (seq_mat_shape N (a ++ b)); [|congruence]. intros z Hz. apply in_app_iff in Hz as [Hz|Hz]; auto. apply Ha; right; auto.
  Qed.

  Lemma mapM_rev {A B} (f : A -> result B) l r : mapM f (rev l) = Ok r <-> mapM f l = Ok (rev r).
  Proof.
    assert (G : forall l r, mapM f l = Ok r -> mapM f (rev l) = Ok (rev r)).
    { clear. induction l as [|a l IH]; intros r; cbn [mapM rev]; [intros [= <-]; auto|].
      destruct (f a) as [b|] eqn:Eb; cbn [rbind]; [|discriminate]. destruct (mapM f l) as [bs|]; cbn [rbind]; [|discriminate].
      intros [= <-]. cbn [rev]. assert (App : forall l1 l2 r1 r2, mapM f l1 = Ok r1 -> mapM f l2 = Ok r2 -> mapM f (l1 ++ l2) = Ok (r1 ++ r2)).
      { clear. induction l1 as [|a l1 IH]; intros l2 r1 r2; cbn; [intros [= <-]; auto|]. destruct (f a); cbn; [|discriminate].
        destruct (mapM f l1) as [x|] eqn:E; cbn; [|discriminate]. intros [= <-] H2. rewrite (IH l2 x r2) by auto. reflexivity. }
      apply App; auto. cbn. rewrite Eb. reflexivity. }
    split; intros H.
    - apply G in H. rewrite rev_involutive in H. auto.
    - apply G in H. rewrite rev_involutive in H. auto.
  Qed.

  Lemma to_unitary_spec c U : unitary_of c = Ok U -> exists ms, mapM (fun o => lifted o (c_nq c)) (c_ops c) = Ok ms /\
    c_ops c <> [] /\ (forall m, In m ms -> nr m = pow2Z (c_nq c) /\ nc m = pow2Z (c_nq c)) /\ meq U (seq_mat (pow2Z (c_nq c)) ms).
  Proof.
    unfold to_unitary. destruct (mapM _ (rev (c_ops c))) as [rs|] eqn:E; cbn [rbind]; [|discriminate]. intros HU.
    apply mapM_rev in E. exists (rev rs). split; [auto|].
    assert (Hs : forall m, In m rs -> nr m = pow2Z (c_nq c) /\ nc m = pow2Z (c_nq c)).
    { intros m Hm. destruct (mapM_Ok_in _ _ _ _ E (proj1 (in_rev _ _) Hm)) as (o & _ & Ho). apply (lifted_ok_shape o). auto. }
    destruct rs as [|m rs]; [discriminate|]. cbn [reduce_matmul] in HU. split.
    { intros Hn. rewrite Hn in E. cbn in E. destruct (rev rs); discriminate. }
    split; [intros; apply Hs, in_rev; auto|].
    destruct (Hs m) as [Hr Hc]; [left; auto|].
    destruct (foldM_matmul (pow2Z (c_nq c)) rs) with (acc := m) as (r & Er & H1 & H2 & H3); [intros; apply Hs; right; auto|auto|].
    rewrite HU in Er. injection Er as ->. rewrite H3. cbn [rev]. rewrite seq_mat_app.
    - cbn [seq_mat]. symmetry. apply mmul_ext; [cbn [nc mmul]; rewrite Hc; symmetry|apply mmul_eye_l; auto|reflexivity].
      apply seq_mat_shape. intros; apply Hs; right; apply in_rev; auto.
    - intros; apply Hs; right; apply in_rev; auto.
    - intros x [<-|[]]; auto.
  Qed.
  Lemma to_unitary_total c ms : c_ops c <> [] -> mapM (fun o => lifted o (c_nq c)) (c_ops c) = Ok ms -> exists U, unitary_of c = Ok U.
  Proof.
    intros Hne E. unfold to_unitary.
    assert (E' : mapM (fun o => lifted o (c_nq c)) (rev (c_ops c)) = Ok (rev ms)) by (apply mapM_rev; rewrite rev_involutive; auto).
    rewrite E'. cbn [rbind].
    assert (Hs : forall m, In m (rev ms) -> nr m = pow2Z (c_nq c) /\ nc m = pow2Z (c_nq c)).
    { intros m Hm. apply in_rev in Hm. destruct (mapM_Ok_in _ _ _ _ E Hm) as (o & _ & Ho). apply (lifted_ok_shape o). auto. }
    destruct (rev ms) as [|m rs] eqn:Er.
    - apply (f_equal (@length _)) in Er. rewrite rev_length in Er. apply mapM_Ok_length in E. destruct (c_ops c); [congruence|]. cbn in *. lia.
    - cbn [reduce_matmul]. destruct (Hs m) as [Hr Hc]; [left; auto|].
      destruct (foldM_matmul (pow2Z (c_nq c)) rs) with (acc := m) as (r & -> & _); [intros; apply Hs; right; auto|auto|]. eauto.
  Qed.

  Lemma apply_ops_spec n ops : Forall (fun o => match o with GateOp _ _ => True | _ => False end) ops -> forall v, vlen v = (2 ^ n)%nat ->
    match mapM (fun o => lifted o (Z.of_nat n)) ops with
    | Ok ms => exists w, apply_ops O IR IC rho ops v = Ok w /\ vlen w = (2 ^ n)%nat /\ veq w (mvmul (seq_mat (2 ^ n) ms) v)
    | Err e => apply_ops O IR IC rho ops v = Err e
    end.
  Proof.
    induction 1 as [|o ops Ho Hf IH]; intros v Hv; cbn [mapM].
    - eexists; split; [reflexivity|]. split; [auto|]. cbn [seq_mat]. symmetry. apply mvmul_eye. auto.
    - destruct o as [g qs|]; [|contradiction]. unfold apply_ops. cbn [foldM]. rewrite (op_apply_gate g qs n) by auto.
      destruct (lifted (GateOp g qs) (Z.of_nat n)) as [m|e] eqn:E; cbn [rbind]; [|reflexivity].
      destruct (lifted_ok_shape _ _ _ E) as [Hr Hc]. unfold pow2Z in Hr, Hc. rewrite Nat2Z.id in Hr, Hc.
      specialize (IH (mvmul m v) Hr). destruct (mapM _ ops) as [ms|e] eqn:Em; cbn [rbind]; [|exact IH].
      destruct IH as (w & Ew & Hw & Hveq). exists w. split; [exact Ew|]. split; [auto|]. rewrite Hveq. cbn [seq_mat]. symmetry.
      apply mvmul_assoc. rewrite Hr. apply seq_mat_shape. intros m' Hm'. destruct (mapM_Ok_in _ _ _ _ Em Hm') as (o & _ & Ho').
      apply lifted_ok_shape in Ho'. unfold pow2Z in Ho'. rewrite Nat2Z.id in Ho'. auto.
  Qed.

  Lemma to_unitary_apply c U n v : unitary_of c = Ok U -> c_nq c = Z.of_nat n -> vlen v = (2 ^ n)%nat ->
    exists w, apply_ops O IR IC rho (c_ops c) v = Ok w /\ veq w (mvmul U v).
  Proof.
    intros HU Hn Hv. destruct (to_unitary_spec c U HU) as (ms & E & _ & Hs & HM).
    assert (Hf : Forall (fun o => match o with GateOp _ _ => True | _ => False end) (c_ops c)).
    { apply Forall_forall. intros o Ho. destruct (mapM_Ok_all _ _ _ o E Ho) as (m & Em & _). destruct o; [auto|]. discriminate Em. }
    pose proof (apply_ops_spec n (c_ops c) Hf v Hv) as H. rewrite Hn in E. rewrite E in H. destruct H as (w & Ew & Hw & Hq).
    exists w. split; [auto|]. rewrite Hq. rewrite Hn in HM. unfold pow2Z in HM. rewrite Nat2Z.id in HM. apply mvmul_ext; [|symmetry; auto|reflexivity].
    destruct (seq_mat_shape (2 ^ n) ms); [|congruence]. intros m Hm. apply Hs in Hm. rewrite Hn in Hm. unfold pow2Z in Hm. rewrite Nat2Z.id in Hm. auto.
  Qed.

  Lemma to_unitary_fails c n v : c_ops c <> [] -> Forall (fun o => match o with GateOp _ _ => True | _ => False end) (c_ops c) ->
    c_nq c = Z.of_nat n -> vlen v = (2 ^ n)%nat -> (exists e, unitary_of c = Err e) -> exists e, apply_ops O IR IC rho (c_ops c) v = Err e.
  Proof.
    intros Hne Hf Hn Hv [e He]. pose proof (apply_ops_spec n (c_ops c) Hf v Hv) as H. rewrite <- Hn in H.
    destruct (mapM _ (c_ops c)) as [ms|] eqn:E; [|eauto]. destruct (to_unitary_total c ms Hne E). congruence.
  Qed.

  Lemma well_placed_lifted n o : 0 <= n -> well_placed O n o -> exists m, lifted o n = Ok m /\ unitary m.
  Proof.
    destruct o as [g qs|]; cbn [well_placed]; [|contradiction]. intros Hn (Hb & Hnd & Hlen & Hlt).
    destruct (builtin_based_matrix g Hb) as (m & Em & Hr & Hc & Hu & Hq). cbn [lifted_matrix]. rewrite Em. cbn [rbind].
    unfold pow2Z in Hr, Hc. rewrite <- Hlen, Nat2Z.id in Hr, Hc.
    destruct (lift_embed m qs (Z.to_nat n)) as (L & EL & HL).
    { split; [|split; [auto|split; [|auto]]]. - intros ->. cbn in Hlen. lia. - intros q Hq'. apply Hlt in Hq'. lia. }
    exists L. split; [auto|]. eapply unitary_ext; [symmetry; apply HL|]. apply embed_unitary; auto. intros q Hq'. apply Hlt in Hq'. lia.
  Qed.
  Lemma seq_mat_unitary N ms : (forall m, In m ms -> nr m = N /\ nc m = N /\ unitary m) -> unitary (seq_mat N ms).
  Proof.
    induction ms as [|m ms IH]; cbn [seq_mat]; intros H; [apply unitary_eye|]. destruct (H m) as (H1 & H2 & H3); [left; auto|].
    apply unitary_mmul; auto.
    - destruct (seq_mat_shape N ms); [intros x Hx; destruct (H x) as (? & ? & ?); [right; auto|auto]|congruence].
    - apply IH. intros; apply H; right; auto.
  Qed.
  Lemma circuit_unitary c : valid_circuit c -> c_ops c <> [] -> Forall (well_placed O (c_nq c)) (c_ops c) ->
    exists U, unitary_of c = Ok U /\ unitary U /\ nr U = pow2Z (c_nq c).
  Proof.
    intros Hv Hne Hf. destruct (valid_nonneg c Hv) as [Hn _].
    assert (G : exists ms, mapM (fun o => lifted o (c_nq c)) (c_ops c) = Ok ms /\ forall m, In m ms -> unitary m).
    { clear Hne. induction Hf as [|o ops Ho Hf IH]; [exists []; split; [auto|intros ? []]|].
      destruct (well_placed_lifted _ o Hn Ho) as (m & Em & Hm). destruct IH as (ms & Ems & Hms).
      exists (m :: ms). cbn [mapM]. rewrite Em, Ems. split; [reflexivity|]. intros x [<-|Hx]; auto. }
    destruct G as (ms & E & Hms). destruct (to_unitary_total c ms Hne E) as [U HU]. exists U. split; [auto|].
    destruct (to_unitary_spec c U HU) as (ms' & E' & _ & Hs & HM). rewrite E in E'. injection E' as <-.
    split.
    - eapply unitary_ext; [symmetry; apply HM|]. apply seq_mat_unitary. intros m Hm. destruct (Hs m Hm). auto.
    - destruct HM as [-> _]. apply seq_mat_shape; auto.
  Qed.

  Lemma to_unitary_concat a b c U V : circuit_add a (AddCircuit b) = Ok c -> valid_circuit a -> valid_circuit b -> c_nq a = c_nq b ->
    unitary_of a = Ok U -> unitary_of b = Ok V -> exists W, unitary_of c = Ok W /\ meq W (mmul V U).
  Proof.
    intros Ec Ha Hb Hq HU HV. rewrite add_circuits in Ec by auto. injection Ec as <-. rewrite <- Hq, Z.max_id.
    destruct (to_unitary_spec a U HU) as (ms & E & Hne & Hs & HM). destruct (to_unitary_spec b V HV) as (ms' & E' & _ & Hs' & HM').
    rewrite <- Hq in E', Hs', HM'.
    assert (Eapp : mapM (fun o => lifted o (c_nq a)) (c_ops a ++ c_ops b) = Ok (ms ++ ms')).
    { revert E. generalize (c_ops a). clear -E'. intros l. revert ms. induction l as [|o l IH]; intros ms; cbn; [intros [= <-]; auto|].
      destruct (lifted o (c_nq a)); cbn; [|discriminate]. destruct (mapM _ l) as [x|] eqn:E; cbn; [|discriminate]. intros [= <-].
      rewrite (IH x) by auto. reflexivity. }
    destruct (to_unitary_total (Build_circuit (c_ops a ++ c_ops b) (c_nq a)) (ms ++ ms')) as [W HW]; [destruct (c_ops a); [congruence|discriminate]|auto|].
    exists W. split; [auto|]. destruct (to_unitary_spec _ W HW) as (ws & Ew & _ & Hws & HMW). cbn [c_ops c_nq] in *. rewrite Eapp in Ew. injection Ew as <-.
    rewrite HMW, seq_mat_app by auto. symmetry. apply mmul_ext; auto. destruct HM' as (_ & -> & _). destruct HM as (-> & _ & _).
    destruct (seq_mat_shape _ _ Hs'), (seq_mat_shape _ _ Hs). congruence.
  Qed.
End P.
