(** Proofs for C01-C04, C11. *)
From Coq Require Import String QArith Sorting.Permutation Sorting.Sorted.
From Verif Require Import Base BaseFacts CircuitModel CircuitSpec.
Open Scope list_scope.
Ltac inv H := inversion H; subst; clear H.
Local Arguments mk_circuit_Z : simpl never.

Section P.
  Context {Num : Type} (O : sympy_oracle Num).
  Open Scope Z_scope.

  (** ** Constructor *)
  Lemma py_int_inject z : py_int (inject_Z z) = z.
  Proof. unfold py_int, inject_Z; cbn. apply Z.quot_1_r. Qed.

  Lemma Qeq_bool_inject0 z : Qeq_bool (inject_Z z) 0 = (z =? 0).
  Proof.
    unfold Qeq_bool, inject_Z; cbn. rewrite Z.mul_1_r.
    unfold Zeq_bool. destruct (Z.compare_spec z 0), (Z.eqb_spec z 0); congruence || lia.
  Qed.

  Lemma mk_circuit_Z_pos (ops : list (operation Num)) n : 0 < n -> mk_circuit_Z ops n = Ok (Build_circuit ops n).
  Proof.
    intros H. unfold mk_circuit_Z, mk_circuit. rewrite Qeq_bool_inject0, py_int_inject.
    destruct (Z.eqb_spec n 0); [lia|].
    assert (Qeq_bool (inject_Z n) (inject_Z n) = true) as -> by (apply Qeq_bool_refl). cbn.
    destruct (Z.leb_spec n 0); [lia|]. reflexivity.
  Qed.
  Lemma mk_circuit_Z_0 (ops : list (operation Num)) : mk_circuit_Z ops 0 = mk_circuit ops None.
  Proof. reflexivity. Qed.
  Lemma mk_circuit_Z_nil n : 0 <= n -> mk_circuit_Z (Num:=Num) [] n = Ok (Build_circuit [] n).
  Proof.
    intros H. destruct (Z.eq_dec n 0) as [->|]; [reflexivity|]. apply mk_circuit_Z_pos; lia.
  Qed.

  Lemma size_spec (ops : list (operation Num)) s :
    circuit_size_by_operations ops = Ok s -> least_bound (flat_map qubit_indices ops) s /\ (ops <> [] -> 0 < s).
  Proof.
    unfold circuit_size_by_operations. destruct ops as [|o ops].
    - intros [= <-]. split; [|congruence]. split; [lia|]. split; [intros q []|]. lia.
    - remember (flat_map qubit_indices (o :: ops)) as l eqn:E. unfold py_max. destruct l as [|q l]; [discriminate|].
      cbn [rbind]. pose proof (max_nat_ge (q :: l)) as Hge.
      assert (Hi : In (max_nat (q :: l)) (q :: l)) by (apply max_nat_In; discriminate).
      generalize dependent (max_nat (q :: l)). intros M Hge Hi [= <-]. split; [|lia]. split; [lia|]. split.
      + intros x Hx. apply Hge in Hx. lia.
      + intros m Hm H. apply H in Hi. lia.
  Qed.

  Lemma valid_nonneg (c : circuit Num) : valid_circuit c -> 0 <= c_nq c /\ (c_nq c = 0 -> c_ops c = []).
  Proof.
    intros (ops & n & H). unfold mk_circuit in H.
    assert (Hs : forall s, circuit_size_by_operations ops = Ok s ->
      Ok (Build_circuit ops s) = Ok c -> 0 <= c_nq c /\ (c_nq c = 0 -> c_ops c = [])).
    { intros s Hs [= <-]. apply size_spec in Hs as [[H0 _] H1]. cbn. split; [lia|].
      intros ->. destruct ops; [auto|]. exfalso. assert (0 < 0) by (apply H1; congruence). lia. }
    destruct n as [q|].
    - destruct (Qeq_bool q 0).
      + destruct (circuit_size_by_operations ops) eqn:E; cbn in H; [eauto|discriminate].
      + destruct (negb _); [discriminate|]. destruct (Z.leb_spec (py_int q) 0); [discriminate|].
        inv H. cbn. split; lia.
    - destruct (circuit_size_by_operations ops) eqn:E; cbn in H; [eauto|discriminate].
  Qed.

  Lemma nonneg_valid (c : circuit Num) : 0 <= c_nq c -> (c_nq c = 0 -> c_ops c = []) -> valid_circuit c.
  Proof.
    intros H H0. destruct c as [ops n]; cbn in *. exists ops, (Some (inject_Z n)).
    change (mk_circuit_Z ops n = Ok (Build_circuit ops n)).
    destruct (Z.eq_dec n 0) as [->|]; [rewrite H0 by auto; reflexivity|apply mk_circuit_Z_pos; lia].
  Qed.

  (** ** C01 *)
  Lemma add_circuits (a b : circuit Num) : valid_circuit a -> valid_circuit b ->
    circuit_add a (AddCircuit b) = Ok (Build_circuit (c_ops a ++ c_ops b) (Z.max (c_nq a) (c_nq b))).
  Proof.
    intros Ha Hb. apply valid_nonneg in Ha as [Ha Ha0]. apply valid_nonneg in Hb as [Hb Hb0]. cbn.
    destruct (Z.eq_dec (Z.max (c_nq a) (c_nq b)) 0) as [E|E].
    - rewrite Ha0, Hb0 by lia. rewrite E. reflexivity.
    - apply mk_circuit_Z_pos. lia.
  Qed.
  Lemma add_valid (a b c : circuit Num) : circuit_add a (AddCircuit b) = Ok c -> valid_circuit c.
  Proof. intros H. unfold circuit_add, mk_circuit_Z in H. do 2 eexists; exact H. Qed.

  Lemma add_assoc (a b c : circuit Num) : valid_circuit a -> valid_circuit b -> valid_circuit c ->
    (let! ab := circuit_add a (AddCircuit b) in circuit_add ab (AddCircuit c)) =
    (let! bc := circuit_add b (AddCircuit c) in circuit_add a (AddCircuit bc)) /\
    (exists r, (let! ab := circuit_add a (AddCircuit b) in circuit_add ab (AddCircuit c)) = Ok r).
  Proof.
    intros Ha Hb Hc. pose proof (add_circuits a b Ha Hb) as Eab. pose proof (add_circuits b c Hb Hc) as Ebc.
    pose proof (add_valid _ _ _ Eab). pose proof (add_valid _ _ _ Ebc).
    rewrite Eab, Ebc. cbn [rbind]. rewrite !add_circuits by auto. cbn. split; [|eauto].
    rewrite app_assoc, Z.max_assoc. reflexivity.
  Qed.

  Lemma add_op (c : circuit Num) g qs : valid_circuit c -> qs <> [] ->
    circuit_add c (AddOp (GateOp g qs)) =
      Ok (Build_circuit (c_ops c ++ [GateOp g qs]) (Z.max (c_nq c) (Z.of_nat (max_nat qs) + 1))).
  Proof.
    intros Hc Hq. cbn. unfold py_max. destruct qs as [|q qs]; [congruence|]. cbn [rbind].
    apply valid_nonneg in Hc as [Hc _]. apply mk_circuit_Z_pos. lia.
  Qed.

  Lemma mk_single g (qs : list nat) : qs <> [] ->
    mk_circuit [GateOp g qs : operation Num] None = Ok (Build_circuit [GateOp g qs] (Z.of_nat (max_nat qs) + 1)).
  Proof.
    intros H. cbn. rewrite app_nil_r. unfold py_max. destruct qs; [congruence|]. reflexivity.
  Qed.

  Lemma fits_inferred ops (c : circuit Num) : mk_circuit ops None = Ok c ->
    fits c /\ least_bound (flat_map qubit_indices (c_ops c)) (c_nq c) /\ c_ops c = ops.
  Proof.
    unfold mk_circuit. destruct (circuit_size_by_operations ops) as [s|] eqn:E; cbn; [|discriminate].
    intros [= <-]. apply size_spec in E as [E _]. cbn. split; [|auto].
    intros o q Ho Hq. apply E. cbn in *. apply in_flat_map. eauto.
  Qed.

  Lemma fits_add_circuit (a b c : circuit Num) : valid_circuit a -> valid_circuit b -> fits a -> fits b ->
    circuit_add a (AddCircuit b) = Ok c -> fits c.
  Proof.
    intros Ha Hb Fa Fb H. rewrite add_circuits in H by auto. inv H. intros o q Ho Hq. cbn in *.
    apply in_app_iff in Ho as [Ho|Ho]; [specialize (Fa _ _ Ho Hq)|specialize (Fb _ _ Ho Hq)]; lia.
  Qed.

  (** Sequences of appended items. *)
  Definition item_ok (a : addend Num) : Prop :=
    match a with
    | AddOp (GateOp _ qs) => qs <> []
    | AddOp (MultiPhase _) => False
    | AddCircuit c => valid_circuit c
    end.
  Definition item_ops (a : addend Num) : list (operation Num) :=
    match a with AddOp o => [o] | AddCircuit c => c_ops c end.
  Definition item_width (a : addend Num) : Z :=
    match a with AddOp o => Z.of_nat (max_nat (qubit_indices o)) + 1 | AddCircuit c => c_nq c end.

  Lemma add_item (c : circuit Num) a : valid_circuit c -> item_ok a ->
    circuit_add c a = Ok (Build_circuit (c_ops c ++ item_ops a) (Z.max (c_nq c) (item_width a))) /\
    valid_circuit (Build_circuit (c_ops c ++ item_ops a) (Z.max (c_nq c) (item_width a))).
  Proof.
    intros Hc Ha. assert (E : circuit_add c a = Ok (Build_circuit (c_ops c ++ item_ops a) (Z.max (c_nq c) (item_width a)))).
    { destruct a as [[g qs|ps]|c2]; cbn in Ha; [apply add_op; auto|contradiction|apply add_circuits; auto]. }
    split; [exact E|]. destruct a as [[g qs|ps]|c2]; cbn in Ha; [|contradiction|apply (add_valid c c2); auto].
    unfold circuit_add in E. destruct (py_max qs); cbn [rbind] in E; [|discriminate].
    unfold mk_circuit_Z in E. do 2 eexists; exact E.
  Qed.

  Lemma add_sequence items : forall c : circuit Num, valid_circuit c -> Forall item_ok items ->
    foldM circuit_add items c =
      Ok (Build_circuit (c_ops c ++ flat_map item_ops items) (fold_left Z.max (map item_width items) (c_nq c))) /\
    valid_circuit (Build_circuit (c_ops c ++ flat_map item_ops items) (fold_left Z.max (map item_width items) (c_nq c))).
  Proof.
    induction items as [|a items IH]; intros c Hc Hi; cbn.
    - rewrite app_nil_r. destruct c; auto.
    - inv Hi. destruct (add_item c a Hc) as [E V]; [auto|]. rewrite E. cbn [rbind].
      destruct (IH _ V) as [E2 V2]; [auto|]. cbn [c_ops c_nq] in *. rewrite E2, <- app_assoc in *. auto.
  Qed.

  (** ** C02 *)
  Lemma groupby_concat {A} (p : A -> bool) l : flat_map snd (groupby p l) = l.
  Proof.
    induction l as [|a l IH]; [auto|]. cbn. destruct (groupby p l) as [|[b g] rest]; cbn in *; [congruence|].
    destruct (Bool.eqb (p a) b); cbn; congruence.
  Qed.
  Lemma groupby_const {A} (p : A -> bool) l b g : In (b, g) (groupby p l) -> g <> [] /\ forall a, In a g -> p a = b.
  Proof.
    revert b g; induction l as [|a l IH]; intros b g; [intros []|]. cbn.
    destruct (groupby p l) as [|[b' g'] rest]; cbn in *.
    - intros [[= <- <-]|[]]. split; [congruence|]. intros ? [<-|[]]; auto.
    - destruct (Bool.eqb (p a) b') eqn:E; cbn.
      + apply Bool.eqb_prop in E. intros [[= <- <-]|H].
        * split; [congruence|]. intros ? [<-|Hi]; [auto|]. destruct (IH b' g') as [_ H']; auto.
        * apply IH; auto.
      + intros [[= <- <-]|H]; [|apply IH; auto]. split; [congruence|]. intros ? [<-|[]]; auto.
  Qed.
  Lemma groupby_alternate {A} (p : A -> bool) l l1 x y l2 :
    groupby p l = l1 ++ x :: y :: l2 -> fst x <> fst y.
  Proof.
    revert l1 x y l2. induction l as [|a l IH]; intros l1 x y l2; [destruct l1; discriminate|]. cbn.
    destruct (groupby p l) as [|[b g] rest].
    - destruct l1 as [|? [|? ?]]; discriminate.
    - destruct (Bool.eqb (p a) b) eqn:E.
      + destruct l1 as [|z l1]; cbn; intros H; inv H.
        * apply (IH [] (b, g) y l2). reflexivity.
        * eapply (IH ((b, g) :: l1)). reflexivity.
      + destruct l1 as [|z l1]; cbn; intros H; inv H.
        * cbn. intros F. rewrite F, Bool.eqb_reflx in E. discriminate.
        * eapply (IH l1). eauto.
  Qed.

  Lemma split_spec (c : circuit Num) p : valid_circuit c ->
    split_circuit c p = Ok (map (fun bg => (fst bg, Build_circuit (snd bg) (c_nq c))) (groupby p (c_ops c))).
  Proof.
    intros Hc. unfold split_circuit. apply mapM_Ok_map. intros [b g] Hin. cbn [fst snd].
    apply valid_nonneg in Hc as [Hc H0].
    destruct (Z.eq_dec (c_nq c) 0) as [E|E].
    - rewrite H0 in Hin by auto. destruct Hin.
    - rewrite mk_circuit_Z_pos by lia. reflexivity.
  Qed.

  (** ** C04 *)
  Lemma dagger_nf g d k : plain g -> 0 <= k -> (hermitian_flag g = true -> d = false) ->
    dagger (Num:=Num) (normal_form g d k) = Ok (normal_form g (if hermitian_flag g then d else negb d) k).
  Proof.
    destruct g as [n f ps q h| |]; cbn; try contradiction. intros _ Hk Hd. unfold normal_form.
    destruct (Z.eqb_spec k 0) as [->|].
    - destruct d, h; cbn; try reflexivity; specialize (Hd eq_refl); discriminate.
    - destruct d, h; cbn; try (specialize (Hd eq_refl); discriminate); unfold mk_controlled;
        destruct (Z.ltb_spec k 1); try lia; reflexivity.
  Qed.
  Lemma controlled_nf g d k j : plain g -> 0 <= k -> (hermitian_flag g = true -> d = false) ->
    controlled (Num:=Num) (normal_form g d k) j =
      if k + j <? 1 then Err ValueError else Ok (normal_form g d (k + j)).
  Proof.
    destruct g as [n f ps q h| |]; cbn [plain]; try contradiction. intros _ Hk Hd. unfold normal_form.
    destruct (Z.eqb_spec k 0) as [->|]; cbn [Z.add].
    - destruct d; cbn [controlled rbind]; unfold mk_controlled; destruct (Z.ltb_spec j 1); cbn [rbind]; try reflexivity;
      destruct (Z.eqb_spec j 0); try lia; try reflexivity.
      assert (h = false) as -> by (destruct h; [specialize (Hd eq_refl); discriminate|auto]).
      cbn. unfold mk_controlled. destruct (Z.ltb_spec j 1); [lia|reflexivity].
    - cbn. unfold mk_controlled. destruct (Z.ltb_spec (k + j) 1); [reflexivity|].
      destruct (Z.eqb_spec (k + j) 0); [lia|]. destruct d; reflexivity.
  Qed.

  Lemma apply_modifiers_nf g ms : plain g -> forall d k, 0 <= k -> (hermitian_flag g = true -> d = false) ->
    apply_modifiers (Num:=Num) (normal_form g d k) ms =
      let! dk := modifiers_effect (hermitian_flag g) ms d k in Ok (normal_form g (fst dk) (snd dk)).
  Proof.
    intros Hg. unfold apply_modifiers. induction ms as [|[|j] ms IH]; intros d k Hk Hd; cbn [foldM modifiers_effect apply_modifier]; [reflexivity| |].
    - rewrite dagger_nf by auto. cbn [rbind]. apply IH; auto.
      intros H; rewrite H; auto.
    - rewrite controlled_nf by auto. destruct (Z.ltb_spec (k + j) 1); [reflexivity|]. cbn [rbind]. apply IH; auto; lia.
  Qed.
  Lemma normal_form_00 (g : gate Num) : normal_form g false 0 = g.
  Proof. reflexivity. Qed.

  (** with replaced parameters *)
  Definition set_params (g : gate Num) ps : gate Num :=
    match g with MFG n f _ q h => MFG n f ps q h | _ => g end.
  Lemma plain_set_params g ps : plain g -> plain (set_params g ps) /\ hermitian_flag (set_params g ps) = hermitian_flag g /\
     gate_params (set_params g ps) = ps /\ gate_skeleton (set_params g ps) = gate_skeleton g /\ num_qubits (set_params g ps) = num_qubits g.
  Proof. destruct g; cbn; intuition. Qed.

  Definition gmap (tr : list (param Num) -> list (param Num)) (g : gate Num) := set_params g (tr (gate_params g)).
  Lemma replace_nf g d k ps : plain g -> 0 <= k -> (hermitian_flag g = true -> d = false) ->
    replace_params (normal_form g d k) ps = Ok (normal_form (set_params g ps) d k).
  Proof.
    intros Hg Hk Hd. pose proof (plain_set_params g ps Hg) as (P & Hh & _).
    assert (E : replace_params g ps = Ok (set_params g ps)) by (destruct g; cbn in *; tauto).
    unfold normal_form at 1.
    assert (E2 : replace_params (if d then Dagger g else g) ps = Ok (normal_form (set_params g ps) d 0)).
    { destruct d; [|exact E]. cbn [replace_params]. rewrite E. cbn [rbind].
      rewrite <- (normal_form_00 (set_params g ps)), dagger_nf; auto; [|lia]. rewrite Hh.
      destruct (hermitian_flag g); [specialize (Hd eq_refl); discriminate|]. reflexivity. }
    destruct (Z.eqb_spec k 0) as [->|]; [exact E2|].
    cbn [replace_params]. rewrite E2. cbn [rbind]. rewrite controlled_nf; [|auto|lia|rewrite Hh; auto].
    cbn. destruct (Z.ltb_spec k 1); [lia|reflexivity].
  Qed.
  Lemma bind_replace_gate g m : gate_bind O g m = replace_params g (map (fun p => sub_symbols O p m) (gate_params g)).
  Proof.
    induction g; cbn; auto; rewrite IHg; reflexivity.
  Qed.
  Lemma params_nf g d k : gate_params (Num:=Num) (normal_form g d k) = gate_params g.
  Proof. unfold normal_form. destruct (k =? 0), d; reflexivity. Qed.
  Lemma num_qubits_nf g d k : num_qubits (Num:=Num) (normal_form g d k) = num_qubits g + k.
  Proof. unfold normal_form. destruct (Z.eqb_spec k 0), d; cbn; lia. Qed.
  Lemma skeleton_nf g d k : gate_skeleton (Num:=Num) (normal_form g d k) = normal_form (gate_skeleton g) d k.
  Proof. unfold normal_form. destruct (Z.eqb_spec k 0), d; reflexivity. Qed.

  Lemma api_gate_nf g : api_gate O g ->
    exists b d k, plain b /\ 0 <= k /\ (hermitian_flag b = true -> d = false) /\ g = normal_form b d k.
  Proof.
    induction 1 as [g Hg|g g' H IH E|g g' k H IH E|g g' m H IH E|g g' ps H IH E].
    - exists g, false, 0. repeat split; auto. lia.
    - destruct IH as (b & d & k & P & Hk & Hd & ->). rewrite dagger_nf in E by auto. inv E.
      exists b, (if hermitian_flag b then d else negb d), k. repeat split; auto. intros Hh; rewrite Hh; auto.
    - destruct IH as (b & d & k0 & P & Hk & Hd & ->). rewrite controlled_nf in E by auto.
      destruct (Z.ltb_spec (k0 + k) 1); inv E. exists b, d, (k0 + k). repeat split; auto. lia.
    - destruct IH as (b & d & k & P & Hk & Hd & ->). rewrite bind_replace_gate, replace_nf in E by auto. inv E.
      destruct (plain_set_params b (map (fun p => sub_symbols O p m) (gate_params (normal_form b d k))) P) as (P' & Hh & _).
      eexists _, d, k. repeat split; [exact P'|auto|rewrite Hh; auto].
    - destruct IH as (b & d & k & P & Hk & Hd & ->). rewrite replace_nf in E by auto. inv E.
      destruct (plain_set_params b ps P) as (P' & Hh & _).
      eexists _, d, k. repeat split; [exact P'|auto|rewrite Hh; auto].
  Qed.

  Lemma api_dagger_ok g : api_gate O g -> exists g', dagger g = Ok g' /\ api_gate O g' /\ dagger g' = Ok g /\
     num_qubits g' = num_qubits g /\ gate_params g' = gate_params g.
  Proof.
    intros H. destruct (api_gate_nf _ H) as (b & d & k & P & Hk & Hd & ->).
    pose proof (dagger_nf b d k P Hk Hd) as E. eexists; split; [exact E|]. split; [eapply api_dagger; eauto|].
    split; [|now rewrite !num_qubits_nf, !params_nf].
    rewrite dagger_nf; auto.
    - destruct (hermitian_flag b) eqn:Hh; [auto|]. now rewrite Bool.negb_involutive.
    - intros Hh; rewrite Hh; auto.
  Qed.
  Lemma api_controlled_ok g k : api_gate O g -> 1 <= k -> exists g', controlled g k = Ok g' /\ api_gate O g' /\
     num_qubits g' = num_qubits g + k /\ gate_params g' = gate_params g.
  Proof.
    intros H Hk1. destruct (api_gate_nf _ H) as (b & d & k0 & P & Hk & Hd & ->).
    pose proof (controlled_nf b d k0 k P Hk Hd) as E. destruct (Z.ltb_spec (k0 + k) 1); [lia|].
    eexists; split; [exact E|]. split; [eapply api_controlled; eauto|]. now rewrite !num_qubits_nf, !params_nf, Z.add_assoc.
  Qed.
  Lemma api_controlled_add g j k : api_gate O g -> 1 <= j -> 1 <= k ->
    (let! g1 := controlled g j in controlled g1 k) = controlled g (j + k).
  Proof.
    intros H Hj Hk1. destruct (api_gate_nf _ H) as (b & d & k0 & P & Hk & Hd & ->).
    rewrite (controlled_nf b d k0 j) by auto. destruct (Z.ltb_spec (k0 + j) 1); [lia|]. cbn [rbind].
    rewrite !controlled_nf by (auto; lia). rewrite Z.add_assoc. reflexivity.
  Qed.
  Lemma api_controlled_dagger g k : api_gate O g ->
    (let! g1 := controlled g k in dagger g1) = (let! g1 := dagger g in controlled g1 k).
  Proof.
    intros H. destruct (api_gate_nf _ H) as (b & d & k0 & P & Hk & Hd & ->).
    rewrite controlled_nf, dagger_nf by auto. cbn [rbind].
    assert (Hd' : hermitian_flag b = true -> (if hermitian_flag b then d else negb d) = false) by (intros E; rewrite E; auto).
    rewrite controlled_nf by auto.
    destruct (Z.ltb_spec (k0 + k) 1); [reflexivity|]. cbn [rbind]. rewrite dagger_nf by (auto; lia). reflexivity.
  Qed.
  Lemma api_replace_ok g ps : api_gate O g -> exists g', replace_params g ps = Ok g' /\ gate_params g' = ps /\
     gate_skeleton g' = gate_skeleton g /\ num_qubits g' = num_qubits g.
  Proof.
    intros H. destruct (api_gate_nf _ H) as (b & d & k & P & Hk & Hd & ->).
    rewrite replace_nf by auto. eexists; split; [reflexivity|].
    destruct (plain_set_params b ps P) as (_ & _ & E1 & E2 & E3).
    now rewrite params_nf, !skeleton_nf, !num_qubits_nf, E1, E2, E3.
  Qed.
  Lemma api_replace_modifiers (g : gate Num) ms ps : plain g ->
    (let! g1 := apply_modifiers g ms in replace_params g1 ps) =
    (let! g1 := replace_params g ps in apply_modifiers g1 ms).
  Proof.
    intros P. rewrite <- (normal_form_00 g) at 1. rewrite apply_modifiers_nf; [|auto|lia|auto].
    assert (E : replace_params g ps = Ok (set_params g ps)) by (destruct g; cbn in *; tauto).
    rewrite E. cbn [rbind]. destruct (plain_set_params g ps P) as (P' & Hh & _).
    rewrite <- (normal_form_00 (set_params g ps)), (apply_modifiers_nf (set_params g ps)), Hh; [|auto|lia|auto].
    assert (G : forall ms d k, 0 <= k -> (hermitian_flag g = true -> d = false) -> forall d' k',
       modifiers_effect (hermitian_flag g) ms d k = Ok (d', k') -> 0 <= k' /\ (hermitian_flag g = true -> d' = false)).
    { clear. induction ms as [|[|j] ms IH]; cbn; intros d k Hk Hd d' k' H.
      - inv H; auto.
      - eapply IH; [| |exact H]; auto. intros Hh; rewrite Hh; auto.
      - destruct (Z.ltb_spec (k + j) 1); [discriminate|]. eapply IH; [| |exact H]; auto; lia. }
    destruct (modifiers_effect _ ms false 0) as [[d' k']|e] eqn:E3; cbn [rbind fst snd]; [|reflexivity].
    apply G in E3 as [H1 H2]; [|lia|auto]. apply replace_nf; auto.
  Qed.

  (** ** C03 *)
  Section Sympy.
    Hypothesis Hord : sympy_order_ok O.

    Lemma subst1_syms_num s n e x : In x (expr_syms (subst1 (Num:=Num) s (ENum n) e)) <-> In x (expr_syms e) /\ x <> s.
    Proof.
      induction e as [m|t|f args IH] using expr_ind'; cbn.
      - tauto.
      - destruct (String.eqb_spec s t) as [->|N]; cbn; [intuition congruence|]. split; [intros [->|[]]; auto|intuition].
      - rewrite !in_flat_map. rewrite Forall_forall in IH. split.
        + intros (y & Hy & Hx). apply in_map_iff in Hy as (z & <- & Hz). apply IH in Hx as [Hx Hn]; auto. split; eauto.
        + intros [(y & Hy & Hx) Hn]. exists (subst1 s (ENum n) y). split; [apply in_map; auto|]. apply IH; auto.
    Qed.

    Lemma number_map_order m : number_map m -> Forall (fun kv => exists n, snd kv = PNum n) (order O m).
    Proof.
      intros [_ H]. rewrite Forall_forall in *. intros kv Hkv. apply H. apply Hord; auto.
    Qed.

    Lemma subs_syms_incl (Hs : sympy_simp_no_new_symbols O) m e x : number_map m ->
      In x (expr_syms (subs O m e)) -> In x (expr_syms e) /\ ~ In x (map fst m).
    Proof.
      intros Hm. unfold subs.
      assert (G : forall l e, Forall (fun kv => exists n, snd kv = PNum n) l ->
         In x (expr_syms (fold_left (fun e kv => simp O (subst1 (fst kv) (expr_of_param (snd kv)) e)) l e)) ->
         In x (expr_syms e) /\ ~ In x (map fst l)).
      { clear -Hs. induction l as [|[s v] l IH]; intros e Hl H; cbn in *; [tauto|]. inv Hl. destruct H2 as [n Hn]; cbn in *; subst v.
        apply IH in H as [H Hn]; [|auto]. apply Hs in H. cbn in H. apply subst1_syms_num in H as [H Hne]. intuition. }
      intros H. apply G in H as [H Hn]; [|apply number_map_order; auto]. split; [auto|].
      intros Hi. apply Hn. apply in_map_iff in Hi as (kv & <- & Hkv). apply in_map. apply Hord; auto.
    Qed.
    Lemma subs_syms (Hs : sympy_simp_same_symbols O) m e x : number_map m ->
      In x (expr_syms (subs O m e)) <-> In x (expr_syms e) /\ ~ In x (map fst m).
    Proof.
      intros Hm. split.
      - apply subs_syms_incl; auto. intros e' y Hy. apply (proj1 (Hs e' y)); exact Hy.
      - unfold subs.
        assert (G : forall l e, Forall (fun kv => exists n, snd kv = PNum n) l ->
           In x (expr_syms e) -> ~ In x (map fst l) ->
           In x (expr_syms (fold_left (fun e kv => simp O (subst1 (fst kv) (expr_of_param (snd kv)) e)) l e))).
        { clear -Hs. induction l as [|[s v] l IH]; intros e Hl H Hn; cbn in *; [auto|]. inv Hl. destruct H2 as [n Hn']; cbn in *; subst v.
          apply IH; auto. apply Hs. cbn. apply subst1_syms_num. split; [auto|]. intuition. }
        intros [H Hn]. apply G; auto; [apply number_map_order; auto|].
        intros Hi. apply Hn. apply in_map_iff in Hi as (kv & <- & Hkv). apply in_map. apply Hord; auto.
    Qed.

    Lemma dget_num m s v : number_map m -> dget String.eqb s m = Some v -> (exists n, v = PNum (Num:=Num) n) /\ In s (map fst m).
    Proof.
      intros [_ H] E. apply (dget_In _ string_eqb_spec) in E. rewrite Forall_forall in H. split; [apply H in E; auto|].
      apply in_map with (f := fst) in E; auto.
    Qed.

    Lemma sub_symbols_syms_incl (Hs : sympy_simp_no_new_symbols O) m p x : number_map m ->
      In x (param_syms (sub_symbols O p m)) -> In x (param_syms p) /\ ~ In x (map fst m).
    Proof.
      intros Hm. destruct p as [n|[n|s|f args]]; try (cbn; tauto).
      - intros H. cbn in H. apply subs_syms_incl in H; auto.
      - cbn. destruct (dget String.eqb s m) as [v|] eqn:E.
        + apply dget_num in E as [[n ->] _]; auto; cbn; tauto.
        + cbn. intros [->|[]]. split; [auto|]. apply (dget_None _ string_eqb_spec) in E. auto.
      - intros H. cbn [sub_symbols param_syms] in H. apply subs_syms_incl in H; auto.
    Qed.
    Lemma sub_symbols_syms (Hs : sympy_simp_same_symbols O) m p x : number_map m ->
      In x (param_syms (sub_symbols O p m)) <-> In x (param_syms p) /\ ~ In x (map fst m).
    Proof.
      intros Hm. split; [apply sub_symbols_syms_incl; auto; intros e' y Hy; apply (proj1 (Hs e' y)); exact Hy|].
      destruct p as [n|[n|s|f args]]; try (cbn; tauto).
      - cbn. intros [[->|[]] Hn]. apply (dget_None _ string_eqb_spec) in Hn. rewrite Hn. cbn; auto.
      - intros H. cbn [sub_symbols param_syms]. apply subs_syms; auto.
    Qed.

    (** Evaluation. *)
    Lemma eval_ext {V} (I : interp V) r1 r2 (e : expr Num) :
      (forall s, In s (expr_syms e) -> r1 s = r2 s) -> eval I r1 e = eval I r2 e.
    Proof.
      induction e as [n|s|f args IH] using expr_ind'; cbn; intros H; auto.
      f_equal. apply map_ext_in. intros a Ha. rewrite Forall_forall in IH. apply IH; auto.
      intros s Hs. apply H. apply in_flat_map; eauto.
    Qed.
    Lemma eval_subst1 {V} (I : interp V) rho s n (e : expr Num) :
      eval I rho (subst1 s (ENum n) e) = eval I (fun t => if String.eqb t s then i_num _ I n else rho t) e.
    Proof.
      induction e as [m|t|f args IH] using expr_ind'; cbn; auto.
      - rewrite String.eqb_sym. destruct (String.eqb t s); reflexivity.
      - f_equal. rewrite map_map. apply map_ext_in. rewrite Forall_forall in IH. auto.
    Qed.
    Lemma eval_subs {V} (I : interp V) (Hs : sympy_simp_sound O I) m e rho : number_map m ->
      eval I rho (subs O m e) = eval I (override I m rho) e.
    Proof.
      intros Hm. unfold subs.
      assert (G : forall l e (ov : sym -> V),
        Forall (fun kv => exists n, snd kv = PNum n) l ->
        (forall s n, In (s, PNum n) l -> ov s = i_num _ I n) ->
        (forall s, ~ In s (map fst l) -> ov s = rho s) ->
        eval I rho (fold_left (fun e kv => simp O (subst1 (fst kv) (expr_of_param (snd kv)) e)) l e) = eval I ov e).
      { clear -Hs. induction l as [|[s v] l IH]; intros e ov Hl H1 H2; cbn in *.
        - apply eval_ext. intros; symmetry; apply H2; tauto.
        - inv Hl. destruct H3 as [n Hn]; cbn in *; subst v.
          set (ov' := fun t => if in_dec string_dec t (map fst l) then ov t else rho t).
          rewrite (IH _ ov'); auto.
          + rewrite Hs. cbn. rewrite eval_subst1. apply eval_ext. intros t _.
            destruct (String.eqb_spec t s) as [->|N]; [symmetry; auto|].
            unfold ov'. destruct (in_dec string_dec t (map fst l)); [auto|]. symmetry; apply H2. intuition.
          + intros t m Ht. unfold ov'. destruct (in_dec string_dec t (map fst l)) as [|F]; [auto|].
            exfalso; apply F. apply in_map with (f := fst) in Ht; auto.
          + intros t Ht. unfold ov'. destruct (in_dec string_dec t (map fst l)); [tauto|auto]. }
      apply G; [apply number_map_order; auto| |].
      - intros s n Hin. apply (proj1 (Hord _ _)) in Hin. unfold override.
        destruct Hm as [Hnd _]. rewrite (In_dget _ string_eqb_spec _ _ _ Hnd Hin). reflexivity.
      - intros s Hn. unfold override. destruct (dget String.eqb s m) eqn:E; [|auto].
        exfalso; apply Hn. apply (dget_In _ string_eqb_spec) in E. apply (proj2 (Hord _ _)) in E. apply in_map with (f := fst) in E; auto.
    Qed.
    Lemma eval_sub_symbols {V} (I : interp V) (Hs : sympy_simp_sound O I) m p rho : number_map m ->
      eval_param I rho (sub_symbols O p m) = eval_param I (override I m rho) p.
    Proof.
      intros Hm. destruct p as [n|[n|s|f args]]; auto.
      - cbn [sub_symbols eval_param]. apply eval_subs; auto.
      - cbn. unfold override. destruct (dget String.eqb s m) as [v|] eqn:E; reflexivity.
      - cbn [sub_symbols eval_param]. apply eval_subs; auto.
    Qed.
  End Sympy.

  (** free symbols *)
  Lemma In_get_free_symbols (ps : list (param Num)) s : In s (get_free_symbols ps) <-> exists p, In p ps /\ In s (param_syms p).
  Proof.
    unfold get_free_symbols. split.
    - intros H. apply (Permutation_in _ (sort_by_perm _ _)) in H. rewrite (uniq_In _ string_eqb_spec) in H. apply in_flat_map in H; auto.
    - intros H. eapply Permutation_in; [symmetry; apply sort_by_perm|]. rewrite (uniq_In _ string_eqb_spec). apply in_flat_map; auto.
  Qed.
  Lemma get_free_symbols_NoDup (ps : list (param Num)) : NoDup (get_free_symbols ps).
  Proof.
    unfold get_free_symbols. eapply Permutation_NoDup; [symmetry; apply sort_by_perm|]. apply (uniq_NoDup _ string_eqb_spec).
  Qed.
  Lemma get_free_symbols_sorted (ps : list (param Num)) : StronglySorted (leP String.leb) (get_free_symbols ps).
  Proof. apply sort_by_sorted; [apply String.leb_total|apply string_leb_trans]. Qed.
  Lemma get_free_symbols_filter (ps ps' : list (param Num)) q :
    (forall s, (exists p, In p ps' /\ In s (param_syms p)) <-> (exists p, In p ps /\ In s (param_syms p)) /\ q s = true) ->
    get_free_symbols ps' = filter q (get_free_symbols ps).
  Proof.
    intros H. apply (sorted_unique String.leb String.leb_antisym).
    - apply get_free_symbols_sorted.
    - apply filter_sorted. apply get_free_symbols_sorted.
    - apply NoDup_Permutation; [apply get_free_symbols_NoDup|apply NoDup_filter, get_free_symbols_NoDup|].
      intros s. rewrite filter_In, !In_get_free_symbols. apply H.
  Qed.

  Lemma uniq_from_filter {A} (eqb : A -> A -> bool) (He : eqb_spec_of eqb) q l : forall seen seen',
    (forall a, q a = true -> (In a seen <-> In a seen')) ->
    uniq_from eqb seen' (filter q l) = filter q (uniq_from eqb seen l).
  Proof.
    induction l as [|a l IH]; intros seen seen' H; cbn; [auto|].
    destruct (q a) eqn:Hq.
    - cbn [uniq_from]. assert (memb eqb a seen' = memb eqb a seen) as ->.
      { specialize (H a Hq). pose proof (memb_In eqb He a seen). pose proof (memb_In eqb He a seen').
        destruct (memb eqb a seen), (memb eqb a seen'); intuition congruence. }
      destruct (memb eqb a seen); [apply IH; auto|]. cbn. rewrite Hq. f_equal. apply IH.
      intros b Hb. cbn. specialize (H b Hb). tauto.
    - destruct (memb eqb a seen); [apply IH; auto|]. cbn. rewrite Hq. apply IH. intros b Hb. cbn. specialize (H b Hb).
      split; [intros [->|Hi]; [congruence|tauto]|tauto].
  Qed.
  Lemma filter_flat_map {A B} (q : B -> bool) (f : A -> list B) l : filter q (flat_map f l) = flat_map (fun a => filter q (f a)) l.
  Proof. induction l; cbn; [auto|]. rewrite filter_app, IHl. auto. Qed.

  Lemma In_circuit_free_symbols (c : circuit Num) s : In s (circuit_free_symbols c) <-> occurs_in_circuit s c.
  Proof.
    unfold circuit_free_symbols, occurs_in_circuit. rewrite (uniq_In _ string_eqb_spec), in_flat_map. unfold op_free_symbols. split.
    - intros (o & Ho & Hs). apply In_get_free_symbols in Hs as (p & ? & ?). eauto.
    - intros (o & p & ? & ? & ?). exists o; split; auto. apply In_get_free_symbols; eauto.
  Qed.

  Definition notin (m : symbols_map Num) (s : sym) : bool := negb (memb String.eqb s (map fst m)).
  Lemma notin_spec m s : notin m s = true <-> ~ In s (map fst m).
  Proof.
    unfold notin. pose proof (memb_In _ string_eqb_spec s (map fst m)). destruct (memb _ _ _); cbn; intuition congruence.
  Qed.

  (** binding an operation *)
  Lemma op_bind_ok o m : api_op O o ->
    (forall ps, o = MultiPhase ps -> mk_multiphase O (map (fun p => sub_symbols O p m) ps) <> Err ValueError) ->
    exists o', op_bind O o m = Ok o' /\ op_skeleton o' = op_skeleton o /\ qubit_indices o' = qubit_indices o /\
      op_params o' = map (fun p => sub_symbols O p m) (op_params o).
  Proof.
    destruct o as [g qs|ps]; cbn [api_op op_bind]; intros Hg Hm.
    - rewrite bind_replace_gate. destruct (api_replace_ok g (map (fun p => sub_symbols O p m) (gate_params g)) Hg) as (g' & E & E1 & E2 & E3).
      rewrite E. cbn. eexists; split; [reflexivity|]. cbn. rewrite E2, E1. auto.
    - clear Hg. specialize (Hm ps eq_refl). unfold mk_multiphase in *. destruct (existsb _ _); [congruence|].
      eexists; split; [reflexivity|]. cbn. rewrite map_length. auto.
  Qed.

  Lemma bind_facts c m c' : valid_circuit c -> Forall (api_op O) (c_ops c) -> circuit_bind O c m = Ok c' ->
    c_nq c' = c_nq c /\
    Forall2 (fun o o' => op_skeleton o' = op_skeleton o /\ qubit_indices o' = qubit_indices o /\
      op_params o' = map (fun p => sub_symbols O p m) (op_params o)) (c_ops c) (c_ops c').
  Proof.
    intros Hc Ha H. unfold circuit_bind in H. destruct (mapM _ (c_ops c)) as [ops|] eqn:E; cbn in H; [|discriminate].
    assert (Hc' : c_nq c' = c_nq c /\ c_ops c' = ops).
    { apply valid_nonneg in Hc as [H1 H2]. destruct (Z.eq_dec (c_nq c) 0) as [E0|E0].
      - rewrite H2 in E by auto. inv E. rewrite E0, mk_circuit_Z_nil in H by lia. inv H. auto.
      - rewrite mk_circuit_Z_pos in H by lia. inv H. auto. }
    destruct Hc' as [-> ->]. clear H. split; [auto|]. apply mapM_Ok_Forall2 in E. revert Ha E.
    generalize (c_ops c). intros l Ha E. induction E as [|o o' l l' Ho E IH]; constructor.
    - inv Ha. destruct (op_bind_ok o m H1) as (o2 & E2 & Hs & Hq & Hp).
      { intros ps -> Hbad. cbn in Ho. rewrite Hbad in Ho. discriminate. }
      rewrite E2 in Ho. inv Ho. auto.
    - inv Ha. auto.
  Qed.

  Lemma bind_succeeds c m : valid_circuit c -> Forall (api_op O) (c_ops c) ->
    (forall ps, In (MultiPhase ps) (c_ops c) -> mk_multiphase O (map (fun p => sub_symbols O p m) ps) <> Err ValueError) ->
    exists c', circuit_bind O c m = Ok c'.
  Proof.
    intros Hc Ha Hm. unfold circuit_bind.
    assert (exists ops, mapM (fun o => op_bind O o m) (c_ops c) = Ok ops) as [ops E].
    { revert Ha Hm. generalize (c_ops c). induction l as [|o l IH]; intros Ha Hm; [cbn; eauto|]. inv Ha. cbn.
      destruct (op_bind_ok o m) as (o' & -> & _); [auto|intros ps ->; apply Hm; left; auto|]. cbn.
      destruct IH as [ops ->]; [auto|intros; apply Hm; right; auto|]. cbn; eauto. }
    rewrite E. cbn. apply valid_nonneg in Hc as [H1 H2]. destruct (Z.eq_dec (c_nq c) 0) as [E0|E0].
    - rewrite H2 in E by auto. inv E. rewrite E0, mk_circuit_Z_nil by lia. eauto.
    - rewrite mk_circuit_Z_pos by lia. eauto.
  Qed.

  Lemma bind_free_symbols c m c' : sympy_order_ok O -> sympy_simp_same_symbols O -> number_map m ->
    valid_circuit c -> Forall (api_op O) (c_ops c) -> circuit_bind O c m = Ok c' ->
    circuit_free_symbols c' = filter (notin m) (circuit_free_symbols c).
  Proof.
    intros Ho Hs Hm Hc Ha H. apply bind_facts in H as [_ H]; auto. unfold circuit_free_symbols, uniq.
    rewrite <- (uniq_from_filter String.eqb string_eqb_spec (notin m) _ [] []) by tauto.
    f_equal. rewrite filter_flat_map. clear Hc Ha. revert H. generalize (c_ops c) (c_ops c'). induction 1 as [|o o' l l' (_ & _ & Hp) F IH]; cbn; [auto|].
    rewrite IH. f_equal. unfold op_free_symbols. apply get_free_symbols_filter. intros s. rewrite Hp, notin_spec. split.
    - intros (p & Hip & Hin). apply in_map_iff in Hip as (p0 & <- & Hp0). apply sub_symbols_syms in Hin as [? ?]; eauto.
    - intros [(p & Hip & Hin) Hn]. exists (sub_symbols O p m). split; [apply in_map_iff; eauto|]. apply sub_symbols_syms; auto.
  Qed.
  Lemma bind_free_symbols_incl c m c' s : sympy_order_ok O -> sympy_simp_no_new_symbols O -> number_map m ->
    valid_circuit c -> Forall (api_op O) (c_ops c) -> circuit_bind O c m = Ok c' ->
    In s (circuit_free_symbols c') -> In s (circuit_free_symbols c) /\ ~ In s (map fst m).
  Proof.
    intros Ho Hs Hm Hc Ha H. apply bind_facts in H as [_ H]; auto. rewrite !In_circuit_free_symbols.
    intros (o' & p' & Ho' & Hp' & Hs'). unfold occurs_in_circuit. revert H Ho'. generalize (c_ops c) (c_ops c').
    induction 1 as [|o o2 l l' (_ & _ & Hp) F IH]; [intros []|]. intros [->|Hi].
    - rewrite Hp in Hp'. apply in_map_iff in Hp' as (p & <- & Hip). apply sub_symbols_syms_incl in Hs' as [? ?]; auto.
      split; [|auto]. exists o, p. cbn; auto.
    - destruct IH as [(oo & pp & ? & ? & ?) ?]; auto. split; [|auto]. exists oo, pp. cbn; auto.
  Qed.

  (** ** C11 *)
  Lemma append_all_spec ops : forall c : circuit Num, valid_circuit c ->
    (forall o, In o ops -> exists g q, o = GateOp g [q]) ->
    append_all c ops = Ok (Build_circuit (c_ops c ++ ops)
      (fold_left Z.max (map (fun o => Z.of_nat (max_nat (qubit_indices o)) + 1) ops) (c_nq c))).
  Proof.
    intros c Hc H. unfold append_all.
    assert (E : foldM (fun c o => circuit_add c (AddOp o)) ops c = foldM circuit_add (map AddOp ops) c).
    { clear. revert c; induction ops as [|o ops IH]; intros c; [reflexivity|]. cbn [foldM map]. destruct (circuit_add c (AddOp o)); cbn [rbind]; auto. }
    rewrite E. destruct (add_sequence (map AddOp ops) c Hc) as [-> _].
    - apply Forall_forall. intros a Hin. apply in_map_iff in Hin as (o & <- & Hin). apply H in Hin as (g & q & ->). cbn. congruence.
    - assert (E2 : flat_map item_ops (map AddOp ops) = ops) by (clear; induction ops as [|o ops IH]; cbn; congruence).
      rewrite E2, map_map. reflexivity.
  Qed.
  Lemma fold_max_spec l : forall n, n <= fold_left Z.max l n /\ (forall x, In x l -> x <= fold_left Z.max l n) /\
    (fold_left Z.max l n = n \/ In (fold_left Z.max l n) l).
  Proof.
    induction l as [|a l IH]; intros n; cbn; [split; [lia|]; split; [tauto|auto]|].
    destruct (IH (Z.max n a)) as (H1 & H2 & H3). split; [lia|]. split.
    - intros x [->|Hx]; [lia|auto].
    - destruct H3 as [H3|H3]; [|auto]. destruct (Z.max_spec n a) as [[? E]|[? E]]; [right; left; congruence|left; congruence].
  Qed.

  Lemma uniq_from_app {A} (eqb : A -> A -> bool) (He : eqb_spec_of eqb) l1 : forall seen l2, NoDup l2 ->
    uniq_from eqb seen (l1 ++ l2) =
    uniq_from eqb seen l1 ++ filter (fun x => negb (memb eqb x (seen ++ l1))) l2.
  Proof.
    induction l1 as [|a l1 IH]; intros seen l2 Hnd; cbn.
    - rewrite app_nil_r. revert seen. induction Hnd as [|b l2 Hb Hnd IH2]; intros seen; cbn; [auto|].
      destruct (memb eqb b seen) eqn:E; cbn; [apply IH2|]. f_equal. rewrite IH2. apply filter_ext_in.
      intros x Hx. f_equal. cbn. unfold memb. cbn. destruct (eqb x b) eqn:F; [|auto]. apply He in F. subst; contradiction.
    - destruct (memb eqb a seen) eqn:E.
      + rewrite IH by auto. f_equal. apply filter_ext. intros x. f_equal. unfold memb. rewrite !existsb_app. cbn.
        destruct (eqb x a) eqn:F; [|auto]. apply He in F. subst. unfold memb in E. rewrite E. reflexivity.
      + cbn. f_equal. rewrite IH by auto. f_equal. apply filter_ext. intros x. f_equal. unfold memb. cbn. rewrite !existsb_app. cbn.
        destruct (eqb x a), (existsb (eqb x) seen), (existsb (eqb x) l1); reflexivity.
  Qed.
  Lemma free_symbols_snoc ops (o : operation Num) n n' :
    circuit_free_symbols (Build_circuit (ops ++ [o]) n) =
    circuit_free_symbols (Build_circuit ops n') ++
    filter (fun s => negb (memb String.eqb s (circuit_free_symbols (Build_circuit ops n')))) (op_free_symbols o).
  Proof.
    unfold circuit_free_symbols, uniq; cbn [c_ops]. rewrite flat_map_app. cbn [flat_map]. rewrite app_nil_r.
    rewrite (uniq_from_app String.eqb string_eqb_spec) by (apply get_free_symbols_NoDup). f_equal. apply filter_ext. intros s.
    f_equal. cbn [app].
    pose proof (memb_In _ string_eqb_spec s (flat_map op_free_symbols ops)) as H1.
    pose proof (memb_In _ string_eqb_spec s (uniq_from String.eqb [] (flat_map op_free_symbols ops))) as H2.
    fold (uniq String.eqb (flat_map op_free_symbols ops)) in *.
    rewrite (uniq_In _ string_eqb_spec) in H2.
    destruct (memb _ _ _), (memb _ _ (uniq _ _)); intuition congruence.
  Qed.

  Lemma set_layer_spec (set_order : list nat -> list nat) (c : circuit Num) qs gf pars c' :
    valid_circuit c -> NoDup (set_order qs) -> (forall q, In q (set_order qs) <-> In q qs) ->
    apply_gate_to_qubits set_order c qs gf pars = Ok c' ->
    exists new, c_ops c' = c_ops c ++ new /\ map qubit_indices new = map (fun q => [q]) (set_order qs) /\
      (forall o, In o new -> exists q ps, o = GateOp (gf ps) [q]) /\
      match pars with None => Forall (fun o => exists q, o = GateOp (gf []) [q]) new
      | Some pss => new = map (fun qp => GateOp (gf (snd qp)) [fst qp]) (combine (set_order qs) pss) /\ length pss = length (set_order qs) end /\
      c_nq c <= c_nq c' /\ (forall q, In q qs -> Z.of_nat q < c_nq c') /\
      (c_nq c' = c_nq c \/ exists q, In q qs /\ c_nq c' = Z.of_nat q + 1).
  Proof.
    intros Hc Hnd Hin H. unfold apply_gate_to_qubits in H.
    set (new := match pars with None => map (fun q => GateOp (gf []) [q]) (set_order qs)
                 | Some pss => map (fun qp => GateOp (gf (snd qp)) [fst qp]) (combine (set_order qs) pss) end).
    assert (Hq : map qubit_indices new = map (fun q => [q]) (set_order qs) /\ append_all c new = Ok c' /\
       match pars with None => Forall (fun o => exists q, o = GateOp (gf []) [q]) new
      | Some pss => new = map (fun qp => GateOp (gf (snd qp)) [fst qp]) (combine (set_order qs) pss) /\ length pss = length (set_order qs) end).
    { destruct pars as [pss|]; subst new.
      - destruct (Nat.eqb_spec (length pss) (length (set_order qs))) as [El|]; cbn in H; [|discriminate].
        split; [|auto]. rewrite map_map. cbn. clear -El. revert pss El.
        induction (set_order qs) as [|q l IH]; intros [|p pss] El; cbn in *; try discriminate; auto. f_equal; auto.
      - split; [now rewrite map_map|]. split; [auto|]. apply Forall_forall. intros o Ho. apply in_map_iff in Ho as (q & <- & _). eauto. }
    assert (Hf : forall o, In o new -> exists q ps, o = GateOp (gf ps) [q]).
    { intros o Ho. subst new. destruct pars; apply in_map_iff in Ho as (? & <- & _); eauto. }
    clearbody new. destruct Hq as (Hq & Ha & Hn). rewrite append_all_spec in Ha; [|auto|intros o Ho; apply Hf in Ho as (? & ? & ->); eauto].
    inv Ha. cbn [c_ops c_nq]. exists new. split; [auto|]. split; [auto|]. split; [auto|]. split; [auto|].
    assert (E : map (fun o => Z.of_nat (max_nat (qubit_indices o)) + 1) new = map (fun q => Z.of_nat q + 1) (set_order qs)).
    { clear -Hq. revert Hq. generalize (set_order qs). induction new as [|o new IH]; intros [|q l]; cbn; try discriminate; auto.
      intros [= E1 E2]. rewrite E1. cbn. rewrite Nat.max_0_r. f_equal; auto. }
    rewrite E. destruct (fold_max_spec (map (fun q => Z.of_nat q + 1) (set_order qs)) (c_nq c)) as (H1 & H2 & H3).
    split; [auto|]. split.
    - intros q Hqi. apply Hin in Hqi. specialize (H2 (Z.of_nat q + 1)). rewrite in_map_iff in H2.
      assert (Z.of_nat q + 1 <= fold_left Z.max (map (fun q => Z.of_nat q + 1) (set_order qs)) (c_nq c)) by (apply H2; eauto). lia.
    - destruct H3 as [H3|H3]; [auto|]. right. apply in_map_iff in H3 as (q & Hq' & Hqi). exists q. split; [apply Hin; auto|]. lia.
  Qed.

  Lemma ancilla_spec (c : circuit Num) n : valid_circuit c ->
    add_ancilla_register c n = Ok (Build_circuit
      (c_ops c ++ map (fun i => GateOp gate_I [(Z.to_nat (c_nq c) + i)%nat]) (seq 0 n)) (c_nq c + Z.of_nat n)).
  Proof.
    intros Hc. unfold add_ancilla_register. rewrite append_all_spec; [|auto|].
    - f_equal. f_equal. apply valid_nonneg in Hc as [Hc _]. rewrite map_map. cbn [qubit_indices max_nat].
      induction n as [|n IH]; [cbn; lia|]. rewrite seq_S, map_app, fold_left_app, IH. cbn [map fold_left]. cbn [Nat.add]. lia.
    - intros o Ho. apply in_map_iff in Ho as (i & <- & _). eauto.
  Qed.
End P.
