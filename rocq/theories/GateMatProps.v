(** Properties C05-C08 and C12 (vocabulary in [LiftSpec.v], [GateMatSpec.v]). *)
From Coq Require Import String Reals Lra Ring.
From Verif Require Import Base BaseFacts MatModel MatFacts LiftModel LiftSpec LiftProofs CircuitModel CircuitSpec CircuitProofs
  Cplx GateMatModel GateMatSpec GateMatProofs.
Open Scope list_scope.

Section C06.
  Context {K : cring}.
  (** Entries of the lifted matrix, addressed by basis states (lists of n bits, qubit 0 first). *)
  Theorem C06_entries (A : mat K) qs n M : lift_matrix A qs n = Ok M ->
    nr M = 2 ^ n /\ nc M = 2 ^ n /\
    forall b c, length b = n -> length c = n ->
      ent M (bval b) (bval c) =
        if agree_outside n qs b c then ent A (bval (select qs b)) (bval (select qs c)) else k0.
  Proof.
    intros H. apply lift_ok in H as [(H1 & H2 & H3 & H4 & H5) HM]. destruct (lift_spec A qs n) as (M' & E & Hr & Hc & He); auto.
    destruct HM as (R1 & R2 & R3). split; [auto|]. split; [auto|]. intros b c Hb Hc'. rewrite R3.
    - apply embed_ent; auto.
    - rewrite R1. cbn [nr embed]. rewrite <- Hb. apply bval_lt.
    - rewrite R2. cbn [nc embed]. rewrite <- Hc'. apply bval_lt.
  Qed.
  (** Lifting succeeds exactly for distinct qubits inside the register and a matrix of matching size. *)
  Theorem C06_success (A : mat K) qs n :
    (exists M, lift_matrix A qs n = Ok M) <->
    qs <> [] /\ NoDup qs /\ (forall q, In q qs -> q < n) /\ nr A = 2 ^ length qs /\ nc A = 2 ^ length qs.
  Proof.
    split.
    - intros [M H]. exact (lift_shape _ _ _ _ H).
    - intros H. destruct (lift_embed A qs n H) as (M & E & _). eauto.
  Qed.
  (** Repeated qubit indices are rejected with ValueError. *)
  Theorem C06_repeated_qubits_rejected (A : mat K) qs n : ~ NoDup qs -> lift_matrix A qs n = Err ValueError.
  Proof.
    intros H. unfold lift_matrix. destruct qs as [|q qs']; [auto|]. rewrite permutation_matrix_reject; [reflexivity|].
    apply adjacent_not_perm. intros Hsh. apply H. apply NoDup_map_inv in Hsh. auto.
  Qed.
  (** The action on an amplitude vector: each amplitude mixes only amplitudes that differ at the gate's qubits. *)
  Theorem C06_action (A : mat K) qs n M v : lift_matrix A qs n = Ok M -> vlen v = 2 ^ n ->
    forall b, length b = n ->
      vent (mvmul M v) (bval b) =
      bigsum (2 ^ length qs) (fun x => kmul (ent A (bval (select qs b)) x) (vent v (bval (update n qs b (bits (length qs) x))))).
  Proof.
    intros H Hv b Hb. apply lift_ok in H as [(H1 & H2 & H3 & H4 & H5) HM].
    assert (E : veq (mvmul M v) (mvmul (embed n qs A) v)) by (apply mvmul_ext; [destruct HM as (_ & -> & _); auto|auto|reflexivity]).
    destruct E as [_ E]. rewrite E.
    - rewrite embed_mvmul by auto. rewrite H5. reflexivity.
    - cbn [vlen mvmul]. destruct HM as (-> & _ & _). cbn [nr embed]. rewrite <- Hb. apply bval_lt.
  Qed.
  (** Lifting respects products and adjoints, and lifts the identity to the identity. *)
  Theorem C06_product (A B : mat K) qs n MA MB MAB : lift_matrix A qs n = Ok MA -> lift_matrix B qs n = Ok MB ->
    lift_matrix (mmul A B) qs n = Ok MAB -> meq MAB (mmul MA MB).
  Proof.
    intros HA HB HAB. apply lift_ok in HA as [(H1 & H2 & H3 & H4 & H5) HA]. apply lift_ok in HB as [(_ & _ & _ & H6 & H7) HB].
    apply lift_ok in HAB as [_ HAB]. rewrite HAB. rewrite <- embed_mmul by auto. symmetry. apply mmul_ext; auto.
    destruct HA as (_ & -> & _). destruct HB as (-> & _ & _). reflexivity.
  Qed.
  Theorem C06_identity qs n M : lift_matrix (eye (2 ^ length qs)) qs n = Ok M -> meq M (eye (K := K) (2 ^ n)).
  Proof. intros H. apply lift_ok in H as [(H1 & H2 & H3 & _) HM]. rewrite HM. apply embed_eye; auto. Qed.
End C06.

Section Gates.
  Context {Num : Type} (O : sympy_oracle Num) (IR : interp (Num := Num) R) (IC : interp (Num := Num) C) (rho : sym -> R).
  Notation gmat := (gate_matrix O IR IC rho).
  Notation unitary_of := (to_unitary O IR IC rho).
  Notation run := (apply_ops O IR IC rho).
  Open Scope Z_scope.

  (** ** C05 *)
  (** g.dagger has the conjugate transpose of g's matrix: for every gate over the built-in ones, *)
  Theorem C05_dagger (g g' : gate Num) : builtin_based O g -> dagger g = Ok g' ->
    exists m m', gmat g = Ok m /\ gmat g' = Ok m' /\ meq m' (adjoint m).
  Proof.
    intros Hb Hd. destruct (builtin_based_matrix O IR IC rho g Hb) as (m & Em & _).
    destruct (dagger_matrix O IR IC rho g g' m (proj1 Hb) (builtin_truthful O IR IC rho g (proj2 Hb)) Hd Em) as (m' & Em' & H). eauto.
  Qed.
  (** and for every other gate that does not claim to be hermitian (custom gates never do). *)
  Theorem C05_dagger_custom (g g' : gate Num) m : api_gate O g -> hermitian_flag (base_gate g) = false ->
    dagger g = Ok g' -> gmat g = Ok m -> exists m', gmat g' = Ok m' /\ meq m' (adjoint m).
  Proof. intros Ha Hh. apply dagger_matrix with (O := O); auto. intros H. congruence. Qed.
  Theorem C05_hermitian_flag_truthful b ps m : In b builtins -> b_herm b = true ->
    gmat (builtin_gate b ps) = Ok m -> meq (adjoint m) m.
  Proof. intros Hb Hh. rewrite builtin_gate_matrix by auto. apply builtin_hermitian; auto. Qed.
  Theorem C05_controlled (g g' : gate Num) k : builtin_based O g -> 1 <= k -> controlled g k = Ok g' ->
    exists m m', gmat g = Ok m /\ gmat g' = Ok m' /\
      controlled_version (Z.to_nat k) (Z.to_nat (num_qubits g)) m m'.
  Proof.
    intros Hb Hk Hc. destruct (builtin_based_matrix O IR IC rho g Hb) as (m & Em & Hr & Hcol & _).
    assert (Hq : 0 <= num_qubits (base_gate g)).
    { destruct Hb as [_ (b & ps & Hin & _ & ->)]. cbn. pose proof (builtin_nq_pos b Hin). lia. }
    destruct (controlled_matrix O IR IC rho g g' k m (proj1 Hb) Hk Hc Em Hq Hr Hcol) as (m' & Em' & H). eauto 6.
  Qed.
  (** Any sequence of modifiers: inversion and controls accumulate as in C04. *)
  Theorem C05_modifier_sequence b ps ms g : In b builtins -> length ps = b_arity b ->
    apply_modifiers (builtin_gate b ps) ms = Ok g ->
    exists d k m m', modifiers_effect (b_herm b) ms false 0 = Ok (d, k) /\ 0 <= k /\
      gmat (builtin_gate b ps) = Ok m /\ gmat g = Ok m' /\
      controlled_version (Z.to_nat k) (Z.to_nat (b_nq b)) (if d then adjoint m else m) m'.
  Proof.
    intros Hb Hps Hm.
    assert (Eff : forall ms h d k d' k', 0 <= k -> modifiers_effect h ms d k = Ok (d', k') -> 0 <= k').
    { clear. induction ms as [|[|j] ms IH]; intros h d k d' k' Hk; cbn.
      - intros [= <- <-]; auto.
      - apply IH; auto.
      - destruct (Z.ltb_spec (k + j) 1); [discriminate|]. apply IH; lia. }
    pose proof (apply_modifiers_nf (builtin_gate b ps) ms I false 0 ltac:(lia) ltac:(auto)) as E.
    rewrite normal_form_00, Hm in E. cbn [hermitian_flag builtin_gate] in E.
    destruct (modifiers_effect (b_herm b) ms false 0) as [[d k]|] eqn:Ee; cbn [rbind] in E; [|discriminate].
    injection E as ->. pose proof (Eff _ _ _ _ _ _ (Z.le_refl 0) Ee) as Hk. cbn [fst snd].
    destruct (builtin_call_ok b (map (eval_param IR rho) ps) Hb) as (m & Em & Hr & Hc & _); [rewrite map_length; auto|].
    rewrite <- (builtin_gate_matrix O IR IC rho b ps Hb) in Em.
    exists d, k, m, (mod_mat d k (b_nq b) m). split; [auto|]. split; [auto|]. split; [auto|].
    split; [apply (gate_matrix_nf O IR IC rho (builtin_gate b ps)); cbn; auto|].
    pose proof (builtin_nq_pos b Hb) as Hq. set (a := if d then adjoint m else m).
    assert (Hra : nr a = (2 ^ Z.to_nat (b_nq b))%nat) by (unfold a; destruct d; cbn [nr adjoint]; auto).
    assert (Hca : nc a = (2 ^ Z.to_nat (b_nq b))%nat) by (unfold a; destruct d; cbn [nc adjoint]; auto).
    unfold mod_mat. fold a. destruct (Z.eqb_spec k 0) as [->|].
    - pose proof (diag2_controlled a 0 (Z.to_nat (b_nq b)) Hra Hca) as _. split; [auto|]. split; [auto|].
      intros [|] [|] x x'; try discriminate. reflexivity.
    - rewrite pow2Z_add by lia. apply diag2_controlled; auto.
  Qed.

  (** ** C07 *)
  (** to_unitary @ v is the sequential application of the operations to v. *)
  Theorem C07_unitary_is_sequential_application (c : circuit Num) U n v :
    unitary_of c = Ok U -> c_nq c = Z.of_nat n -> vlen v = (2 ^ n)%nat ->
    exists w, run (c_ops c) v = Ok w /\ veq w (mvmul U v).
  Proof. apply to_unitary_apply. Qed.
  (** If to_unitary fails on a non-empty circuit of gates, so does the sequential application. *)
  Theorem C07_failures_agree (c : circuit Num) n v : c_ops c <> [] ->
    Forall (fun o => match o with GateOp _ _ => True | _ => False end) (c_ops c) ->
    c_nq c = Z.of_nat n -> vlen v = (2 ^ n)%nat ->
    (exists e, unitary_of c = Err e) -> exists e, run (c_ops c) v = Err e.
  Proof. apply to_unitary_fails. Qed.
  Theorem C07_concat_is_product (a b c : circuit Num) U V :
    circuit_add a (AddCircuit b) = Ok c -> valid_circuit a -> valid_circuit b -> c_nq a = c_nq b ->
    unitary_of a = Ok U -> unitary_of b = Ok V -> exists W, unitary_of c = Ok W /\ meq W (mmul V U).
  Proof. apply to_unitary_concat. Qed.
  Theorem C07_empty_rejected (c : circuit Num) : c_ops c = [] -> unitary_of c = Err TypeError.
  Proof. intros H. unfold to_unitary. rewrite H. reflexivity. Qed.

  (** ** C08 *)
  Theorem C08_builtin_unitary b ps : In b builtins -> length ps = b_arity b ->
    exists m, gmat (builtin_gate b ps) = Ok m /\ unitary m /\ nr m = (2 ^ Z.to_nat (b_nq b))%nat.
  Proof.
    intros Hb Hp. rewrite builtin_gate_matrix by auto.
    destruct (builtin_call_ok b (map (eval_param IR rho) ps) Hb) as (m & Em & Hr & Hc & Hu); [rewrite map_length; auto|]. eauto.
  Qed.
  Theorem C08_wrong_parameter_count b ps : In b builtins -> length ps <> b_arity b ->
    gmat (builtin_gate b ps) = Err TypeError.
  Proof.
    intros Hb. rewrite builtin_gate_matrix by auto. repeat (destruct Hb as [<-|Hb]); [..|contradiction];
      cbn [b_arity b_call]; destruct ps as [|p0 [|p1 [|p2 [|p3 ps]]]]; cbn; congruence.
  Qed.
  Theorem C08_modified_gate_unitary (g : gate Num) : builtin_based O g ->
    exists m, gmat g = Ok m /\ unitary m /\ nr m = (2 ^ Z.to_nat (num_qubits g))%nat.
  Proof. intros H. destruct (builtin_based_matrix O IR IC rho g H) as (m & ? & ? & _ & ? & _). eauto. Qed.
  Theorem C08_circuit_unitary (c : circuit Num) : valid_circuit c -> c_ops c <> [] ->
    Forall (well_placed O (c_nq c)) (c_ops c) ->
    exists U, unitary_of c = Ok U /\ unitary U /\ nr U = (2 ^ Z.to_nat (c_nq c))%nat.
  Proof. apply circuit_unitary. Qed.

  Lemma apply_norm o v w : match o with GateOp _ _ => exists n, 0 <= n /\ vlen v = (2 ^ Z.to_nat n)%nat /\ well_placed O n o | MultiPhase _ => True end ->
    op_apply O IR IC rho o v = Ok w -> vlen w = vlen v /\ norm2 w = norm2 v.
  Proof.
    destruct o as [g qs|ps].
    - intros (n & Hn & Hv & Hw) E. destruct (well_placed_lifted O IR IC rho n _ Hn Hw) as (m & Em & Hu).
      rewrite (op_apply_gate O IR IC rho g qs (Z.to_nat n)) in E by auto. rewrite Z2Nat.id in E by auto. rewrite Em in E. cbn [rbind] in E.
      injection E as <-. destruct (lifted_ok_shape O IR IC rho _ _ _ Em) as [Hr Hc]. split; [cbn [vlen mvmul]; rewrite Hr; auto|].
      assert (Hc' : nc m = vlen v) by (rewrite Hc, Hv; reflexivity). apply (unitary_inner m v v Hu Hc' Hc').
    - intros _. cbn [op_apply]. destruct (negb _); [discriminate|]. destruct (existsb _ _); [discriminate|]. intros [= <-]. split; [reflexivity|].
      unfold norm2. cbn [vlen vent]. apply bigsum_ext. intros i Hi. cbn [kmul kconj CC].
      rewrite !cconj_mul_abs, cabs2_mul, cabs2_cis, Rmult_1_r. reflexivity.
  Qed.
  (** Any sequence of well-placed gate operations and multi-phase operations preserves the norm of the state. *)
  Theorem C08_norm_preserved n ops v w : 0 <= n -> vlen v = (2 ^ Z.to_nat n)%nat ->
    Forall (fun o => well_placed O n o \/ exists ps, o = MultiPhase ps) ops ->
    run ops v = Ok w -> vlen w = vlen v /\ norm2 w = norm2 v.
  Proof.
    intros Hn Hv Hf. revert v Hv. induction Hf as [|o ops Ho Hf IH]; intros v Hv; unfold apply_ops; cbn [foldM].
    - intros [= <-]; auto.
    - destruct (op_apply O IR IC rho o v) as [v'|] eqn:E; cbn [rbind]; [|discriminate]. intros Hr.
      destruct (apply_norm o v v') as [L N]; [|auto|].
      + destruct o as [g qs|ps]; [|auto]. destruct Ho as [Ho|[ps Hps]]; [|discriminate]. eauto.
      + destruct (IH v' ltac:(congruence) Hr) as [L' N']. split; congruence.
  Qed.

  (** ** C12 *)
  (** Component k of the result is component k of the input times exp(i theta_k); the operation needs exactly as many
      amplitudes as parameters and no free symbols. *)
  Theorem C12_apply ps v : Forall (fun p => param_syms p = []) ps -> length ps = vlen v ->
    exists w, op_apply O IR IC rho (MultiPhase ps) v = Ok w /\ vlen w = vlen v /\
      forall k p, nth_error ps k = Some p -> vent w k = cmul (vent v k) (cis (eval_param IR rho p)).
  Proof.
    intros Hf L. cbn [op_apply]. rewrite L, Nat.eqb_refl. cbn [negb].
    assert (E : existsb (fun p => negb match param_syms p with [] => true | _ :: _ => false end) ps = false).
    { clear L. induction Hf as [|p ps Hp Hf IH]; cbn; [auto|]. rewrite Hp, IH. reflexivity. }
    rewrite E. eexists; split; [reflexivity|]. split; [reflexivity|]. intros k p Hk. cbn [vent].
    rewrite (nth_error_nth _ _ _ Hk). reflexivity.
  Qed.
  Theorem C12_length_mismatch_rejected ps v : length ps <> vlen v -> op_apply O IR IC rho (MultiPhase ps) v = Err ValueError.
  Proof. intros L. cbn [op_apply]. destruct (Nat.eqb_spec (vlen v) (length ps)); [congruence|]. reflexivity. Qed.
  Theorem C12_free_symbols_rejected ps v : length ps = vlen v -> (exists p s, In p ps /\ In s (param_syms p)) ->
    op_apply O IR IC rho (MultiPhase ps) v = Err RuntimeError.
  Proof.
    intros L (p & s & Hp & Hs). cbn [op_apply]. rewrite L, Nat.eqb_refl. cbn [negb].
    assert (E : existsb (fun p => negb match param_syms p with [] => true | _ :: _ => false end) ps = true).
    { apply existsb_exists. exists p. split; [auto|]. destruct (param_syms p); [contradiction|reflexivity]. }
    rewrite E. reflexivity.
  Qed.
  (** Moduli (outcome probabilities) are untouched. *)
  Theorem C12_moduli_preserved ps v w : op_apply O IR IC rho (MultiPhase ps) v = Ok w ->
    vlen w = vlen v /\ forall k, cabs2 (vent w k) = cabs2 (vent v k).
  Proof.
    cbn [op_apply]. destruct (negb _); [discriminate|]. destruct (existsb _ _); [discriminate|]. intros [= <-].
    split; [reflexivity|]. intros k. cbn [vent]. rewrite cabs2_mul, cabs2_cis, Rmult_1_r. reflexivity.
  Qed.
  (** Two in a row add their angles. *)
  Theorem C12_compose ps qs rs v w1 w2 w : length ps = length qs ->
    Forall2 (fun pq r => eval_param IR rho r = (eval_param IR rho (fst pq) + eval_param IR rho (snd pq))%R) (combine ps qs) rs ->
    op_apply O IR IC rho (MultiPhase ps) v = Ok w1 -> op_apply O IR IC rho (MultiPhase qs) w1 = Ok w2 ->
    op_apply O IR IC rho (MultiPhase rs) v = Ok w -> veq w w2.
  Proof.
    intros L HF. cbn [op_apply].
    destruct (Nat.eqb_spec (vlen v) (length ps)) as [L1|]; cbn [negb]; [|discriminate]. destruct (existsb _ ps); [discriminate|]. intros [= <-].
    cbn [vlen]. destruct (negb (Nat.eqb (vlen v) (length qs))); [discriminate|]. destruct (existsb _ qs); [discriminate|]. intros [= <-].
    destruct (negb (Nat.eqb (vlen v) (length rs))); [discriminate|]. destruct (existsb _ rs); [discriminate|]. intros [= <-].
    split; [reflexivity|]. cbn [vlen vent]. intros i Hi. rewrite L1 in Hi. clear L1. set (d := PExpr (ESym EmptyString)).
    assert (G : eval_param IR rho (nth i rs d) = (eval_param IR rho (nth i ps d) + eval_param IR rho (nth i qs d))%R).
    { revert qs rs i L HF Hi. induction ps as [|p ps IH]; intros [|q qs] rs i L HF Hi; cbn in *; try lia.
      inversion HF as [|? r ? rs' H1 H2]; subst. destruct i as [|i]; [exact H1|]. cbn. apply IH; auto; lia. }
    rewrite G, cis_add. apply c_eq; cbn; ring.
  Qed.
  (** Construction rejects exactly lists with a non-real Python number. *)
  Theorem C12_construction (ps : list (param Num)) :
    (mk_multiphase O ps = Err ValueError <-> exists n, In (PNum n) ps /\ num_is_real O n = false) /\
    (mk_multiphase O ps = Ok (MultiPhase ps) <-> forall n, In (PNum n) ps -> num_is_real O n = true).
  Proof.
    unfold mk_multiphase. set (f := fun p : param Num => _). destruct (existsb f ps) eqn:E.
    - apply existsb_exists in E as ([n|e] & Hin & Hn); cbn in Hn; [|discriminate]. apply negb_true_iff in Hn. split; split; try discriminate; eauto.
      intros H. rewrite (H n Hin) in Hn. discriminate.
    - assert (H : forall n, In (PNum n) ps -> num_is_real O n = true).
      { intros n Hin. destruct (num_is_real O n) eqn:En; [auto|]. exfalso. assert (existsb f ps = true); [|congruence].
        apply existsb_exists. exists (PNum n). split; [auto|]. cbn. rewrite En. auto. }
      split; split; auto; try discriminate. intros (n & Hin & Hn). rewrite (H n Hin) in Hn. discriminate.
  Qed.
End Gates.


(** ** C03, at the level of matrices *)
Section Binding.
  Context {Num : Type} (O : sympy_oracle Num) (IR : interp (Num := Num) R) (IC : interp (Num := Num) C).

  Lemma gate_matrix_bind g g' m rho : sympy_order_ok O -> sympy_simp_sound O IR -> number_map m ->
    builtin_based O g -> gate_bind O g m = Ok g' ->
    gate_matrix O IR IC rho g' = gate_matrix O IR IC (override IR m rho) g.
  Proof.
    intros Ho Hs Hm [Ha (b & ps & Hb & _ & E)] Hg. rewrite bind_replace_gate in Hg.
    destruct (api_gate_nf O g Ha) as (g0 & d & k & P & Hk & Hd & ->). rewrite base_nf in E by auto. subst g0.
    rewrite replace_nf, params_nf in Hg by auto. injection Hg as <-. cbn [gate_params builtin_gate set_params].
    fold (builtin_gate b (map (fun p => sub_symbols O p m) ps)).
    assert (Ev : gate_matrix O IR IC rho (builtin_gate b (map (fun p => sub_symbols O p m) ps)) =
                 gate_matrix O IR IC (override IR m rho) (builtin_gate b ps)).
    { rewrite !builtin_gate_matrix by auto. f_equal. rewrite map_map. apply map_ext. intros p. apply eval_sub_symbols; auto. }
    destruct (gate_matrix O IR IC (override IR m rho) (builtin_gate b ps)) as [mm|e] eqn:Em.
    - rewrite (gate_matrix_nf O IR IC rho (builtin_gate b (map (fun p => sub_symbols O p m) ps)) d k mm I Ev).
      rewrite (gate_matrix_nf O IR IC (override IR m rho) (builtin_gate b ps) d k mm I Em). reflexivity.
    - rewrite (gate_matrix_nf_err O IR IC rho (builtin_gate b (map (fun p => sub_symbols O p m) ps)) d k e I Ev).
      rewrite (gate_matrix_nf_err O IR IC (override IR m rho) (builtin_gate b ps) d k e I Em). reflexivity.
  Qed.

  (** The unitary of a bound circuit is the unitary of the unbound one, evaluated at the bound values. *)
  Theorem C03_bind_then_unitary (c c' : circuit Num) m rho : sympy_order_ok O -> sympy_simp_sound O IR -> number_map m ->
    valid_circuit c -> Forall (fun o => exists g qs, o = GateOp g qs /\ builtin_based O g) (c_ops c) ->
    circuit_bind O c m = Ok c' ->
    to_unitary O IR IC rho c' = to_unitary O IR IC (override IR m rho) c.
  Proof.
    intros Ho Hs Hm Hv Hf Hb. unfold circuit_bind in Hb.
    destruct (mapM _ (c_ops c)) as [ops|] eqn:E; cbn [rbind] in Hb; [|discriminate].
    assert (Hc' : c_ops c' = ops /\ c_nq c' = c_nq c).
    { destruct (valid_nonneg c Hv) as [Hn H0]. destruct (Z.eq_dec (c_nq c) 0) as [Z0|N].
      - rewrite (H0 Z0) in E. injection E as <-. rewrite Z0 in Hb. injection Hb as <-. auto.
      - rewrite mk_circuit_Z_pos in Hb by lia. injection Hb as <-. auto. }
    destruct Hc' as [H1 H2]. unfold to_unitary. rewrite H1, H2. f_equal.
    assert (G : Forall2 (fun o o' => lifted_matrix O IR IC rho o' (c_nq c) = lifted_matrix O IR IC (override IR m rho) o (c_nq c)) (c_ops c) ops).
    { clear H1 H2 Hb. revert ops E. induction Hf as [|o l (g & qs & -> & Hg) Hf IH]; intros ops; cbn [mapM]; [intros [= <-]; constructor|].
      cbn [op_bind]. destruct (gate_bind O g m) as [g'|] eqn:Eg; cbn [rbind]; [|discriminate].
      destruct (mapM _ l) as [l'|]; cbn [rbind]; [|discriminate]. intros [= <-]. constructor; [|apply IH; auto].
      cbn [lifted_matrix]. rewrite (gate_matrix_bind g g' m rho) by auto. reflexivity. }
    clear - G. assert (G' : Forall2 (fun o o' => lifted_matrix O IR IC rho o' (c_nq c) = lifted_matrix O IR IC (override IR m rho) o (c_nq c)) (rev (c_ops c)) (rev ops)).
    { induction G; cbn; [constructor|]. apply Forall2_app; auto. }
    clear G. induction G' as [|o o' l l' H G IH]; cbn [mapM]; [reflexivity|]. rewrite H, IH. reflexivity.
  Qed.

  (** Custom gates called with numbers: each entry is evaluated at the given values. *)
  Theorem C05_custom_matrix_of_numbers d ns rho : sympy_order_ok O -> sympy_simp_sound O IC ->
    NoDup (cd_ordering d) -> length ns = length (cd_ordering d) ->
    gate_matrix O IR IC rho (MFG (cd_name d) (FCustom d) (map PNum ns) 0 false) =
    Ok (M (map (map (eval IC (fun s => match find (fun sn => String.eqb (fst sn) s) (combine (cd_ordering d) ns) with
                                       | Some sn => i_num _ IC (snd sn) | None => rc (rho s) end))) (cd_matrix d))).
  Proof.
    intros Ho Hs Hnd Hlen. cbn [gate_matrix]. f_equal. unfold custom_matrix. f_equal. apply map_ext. intros row. apply map_ext. intros e.
    set (pairs := combine (cd_ordering d) (map PNum ns)).
    assert (Hkeys : map fst pairs = cd_ordering d).
    { unfold pairs. clear - Hlen. revert ns Hlen. induction (cd_ordering d) as [|s l IH]; intros [|n ns]; cbn; try discriminate; auto. intros [= H]. f_equal; auto. }
    assert (Hdict : forall (l acc : list (sym * param Num)), NoDup (map fst (acc ++ l)) -> fold_left (fun d kv => dset String.eqb (fst kv) (snd kv) d) l acc = acc ++ l).
    { clear. induction l as [|[k v] l IH]; intros acc Hn; cbn [fold_left]; [rewrite app_nil_r; auto|].
      assert (Hnk : ~ In k (map fst acc)).
      { rewrite map_app in Hn. cbn in Hn. apply NoDup_remove_2 in Hn. intros H. apply Hn. apply in_app_iff. auto. }
      assert (Ed : dset String.eqb k v acc = acc ++ [(k, v)]).
      { clear - Hnk. induction acc as [|[k' v'] acc IH]; cbn; [auto|]. destruct (String.eqb_spec k k') as [->|N].
        - exfalso. apply Hnk. left; auto.
        - f_equal. apply IH. intros H. apply Hnk. right; auto. }
      cbn [fst snd]. rewrite Ed, IH, <- app_assoc; [reflexivity|]. rewrite <- app_assoc. exact Hn. }
    assert (Hd : dict_of_pairs pairs = pairs) by (unfold dict_of_pairs; rewrite Hdict; auto; cbn; rewrite Hkeys; auto). rewrite Hd.
    assert (Hm : number_map pairs).
    { split; [rewrite Hkeys; auto|]. unfold pairs. clear. revert ns. induction (cd_ordering d) as [|s l IH]; intros [|n ns]; cbn; constructor; eauto. cbn; eauto. }
    rewrite (eval_subs O Ho IC Hs pairs e (fun s => rc (rho s)) Hm). apply eval_ext. intros s _. unfold override. unfold pairs. clear.
    revert ns. induction (cd_ordering d) as [|k l IH]; intros [|n ns]; cbn; auto.
    rewrite String.eqb_sym. destruct (String.eqb k s); cbn; auto.
  Qed.
End Binding.

(** Custom gates called with symbols from their own parameter list: sympy's sequential substitution mixes them up, so
    binding does not commute with taking the matrix (found while proving [C03_bind_then_unitary] for custom gates). *)
Theorem C03_custom_gate_bind_matrix_refuted :
  exists (d : custom_def R) (ps : list (param R)) (m : symbols_map R) (rho : sym -> R) g',
    let O0 : sympy_oracle R := {| order := fun m => m; simp := fun e => e; num_is_real := fun _ => true |} in
    let IR : interp R := {| i_num := fun n : R => n; i_fun := fun _ _ => 0%R |} in
    let IC : interp C := {| i_num := fun n : R => rc n; i_fun := fun _ _ => c0 |} in
    let g := MFG (cd_name d) (FCustom d) ps 1 false in
    number_map m /\ gate_bind O0 g m = Ok g' /\
    exists m1 m2, gate_matrix O0 IR IC rho g' = Ok m1 /\ gate_matrix O0 IR IC (override IR m rho) g = Ok m2 /\ ~ meq m1 m2.
Proof.
  exists {| cd_name := "G"; cd_matrix := [[ESym "a"; ENum 0%R]; [ENum 0%R; ESym "b"]]; cd_ordering := ["a"; "b"] |}%string.
  exists [PExpr (ESym "b"%string); PExpr (ESym "a"%string)], [("a"%string, PNum 1%R); ("b"%string, PNum 2%R)], (fun _ => 0%R).
  eexists. cbn zeta. split; [split; [repeat constructor; cbn; intuition discriminate|repeat constructor; cbn; eauto]|].
  split; [reflexivity|]. do 2 eexists. split; [reflexivity|]. split; [reflexivity|].
  intros (_ & _ & H). specialize (H 0 0 ltac:(cbn; lia) ltac:(cbn; lia)). cbn in H. injection H as H. lra.
Qed.

(** ** Concrete cases *)
Section Examples.
  Open Scope Z_scope.
  Let O0 : sympy_oracle R := {| order := fun m => m; simp := fun e => e; num_is_real := fun _ => true |}.
  Let b_rx := Build_builtin "RX" "rx_matrix" 1 false 1 (args1 rx_matrix).
  Let b_swap := Build_builtin "SWAP" "swap_matrix" 2 true 0 (args0 swap_matrix).
  Let g1 : gate R := Controlled (Dagger (builtin_gate b_rx [PExpr (ESym "theta"%string)])) 2.
  Let c : circuit R := Build_circuit [GateOp (builtin_gate b_swap []) [2%nat; 0%nat]; GateOp g1 [3%nat; 0%nat; 1%nat]] 4.

  Example ex_builtin_based : builtin_based O0 g1.
  Proof.
    split.
    - apply api_controlled with (g := Dagger (builtin_gate b_rx [PExpr (ESym "theta"%string)])) (k := 2); [|reflexivity].
      apply api_dagger with (g := builtin_gate b_rx [PExpr (ESym "theta"%string)]); [|reflexivity]. apply api_plain. exact I.
    - exists b_rx, [PExpr (ESym "theta"%string)]. split; [cbn; tauto|]. split; reflexivity.
  Qed.
  Example ex_circuit : valid_circuit c /\ c_ops c <> [] /\ Forall (well_placed O0 (c_nq c)) (c_ops c).
  Proof.
    split; [exists (c_ops c), None; reflexivity|]. split; [discriminate|].
    assert (N1 : NoDup [2; 0]%nat) by (repeat constructor; cbn; intuition lia).
    assert (N2 : NoDup [3; 0; 1]%nat) by (repeat constructor; cbn; intuition lia).
    constructor; [|constructor; [|constructor]]; cbn [well_placed].
    - split; [split; [apply api_plain; exact I|exists b_swap, []; split; [cbn; tauto|split; reflexivity]]|].
      split; [auto|]. split; [reflexivity|]. cbn; intuition lia.
    - split; [exact ex_builtin_based|]. split; [auto|]. split; [reflexivity|]. cbn; intuition lia.
  Qed.
  Example ex_multiphase : exists w, op_apply O0 (Build_interp _ (fun n => n) (fun _ _ => 0%R)) (Build_interp _ (fun n => rc n) (fun _ _ => c0)) (fun _ => 0%R)
      (MultiPhase [PNum 1%R; PNum 2%R]) (of_list (K := CC) [c1; ci]) = Ok w.
  Proof. eexists; reflexivity. Qed.
End Examples.

Print Assumptions C05_modifier_sequence.
Print Assumptions C06_entries.
Print Assumptions C06_success.
Print Assumptions C07_unitary_is_sequential_application.
Print Assumptions C08_circuit_unitary.
Print Assumptions C08_norm_preserved.
Print Assumptions C12_compose.
Print Assumptions C03_bind_then_unitary.
Print Assumptions C03_custom_gate_bind_matrix_refuted.

(** Lifting a CNOT with control qubit 2 and target qubit 0 in a 3-qubit register, over the integers. *)
Definition ZR : cring.
Proof. refine {| car := Z; k0 := 0%Z; k1 := 1%Z; kadd := Z.add; kmul := Z.mul; ksub := Z.sub; kopp := Z.opp; kconj := fun x => x; kth := InitialRing.Zth |}; auto. Defined.
Example ex_lift : exists M, lift_matrix (of_rows (K := ZR) [[1;0;0;0];[0;1;0;0];[0;0;0;1];[0;0;1;0]]%Z) [2; 0] 3 = Ok M /\
  map (fun i => map (ent M i) (seq 0 8)) (seq 0 8) =
  [[1;0;0;0;0;0;0;0]; [0;0;0;0;0;1;0;0]; [0;0;1;0;0;0;0;0]; [0;0;0;0;0;0;0;1];
   [0;0;0;0;1;0;0;0]; [0;1;0;0;0;0;0;0]; [0;0;0;0;0;0;1;0]; [0;0;0;1;0;0;0;0]]%Z.
Proof. eexists. split; [reflexivity|]. vm_compute. reflexivity. Qed.
