(** Properties C01-C04 and C11 (vocabulary in [CircuitSpec.v]). *)
From Coq Require Import String QArith Sorting.Sorted.
From Verif Require Import Base BaseFacts CircuitModel CircuitSpec CircuitProofs.
Open Scope list_scope.
Open Scope Z_scope.

Section Statements.
  Context {Num : Type} (O : sympy_oracle Num).
  Notation circ := (circuit Num).

  (** ** C01 *)
  (** [c1 + c2] never fails and runs the operations of [c1] and then those of [c2] on max(width) qubits. *)
  Theorem C01_concat (a b : circ) : valid_circuit a -> valid_circuit b ->
    exists c, circuit_add a (AddCircuit b) = Ok c /\ valid_circuit c /\
      c_ops c = c_ops a ++ c_ops b /\ c_nq c = Z.max (c_nq a) (c_nq b).
  Proof.
    intros Ha Hb. pose proof (add_circuits a b Ha Hb) as E. eexists; split; [exact E|].
    split; [eapply add_valid; eauto|]. auto.
  Qed.

  Theorem C01_concat_associative (a b c : circ) : valid_circuit a -> valid_circuit b -> valid_circuit c ->
    exists r, (let! ab := circuit_add a (AddCircuit b) in circuit_add ab (AddCircuit c)) = Ok r /\
              (let! bc := circuit_add b (AddCircuit c) in circuit_add a (AddCircuit bc)) = Ok r.
  Proof. intros Ha Hb Hc. destruct (add_assoc a b c Ha Hb Hc) as [E [r Er]]. exists r. rewrite <- E. auto. Qed.

  (** The empty circuit [Circuit()] is a unit. *)
  Theorem C01_empty_unit (a e : circ) : valid_circuit a -> mk_circuit [] None = Ok e ->
    circuit_add a (AddCircuit e) = Ok a /\ circuit_add e (AddCircuit a) = Ok a.
  Proof.
    intros Ha He. assert (Hv : valid_circuit e) by (do 2 eexists; exact He). inv He.
    rewrite !add_circuits by auto. cbn. apply valid_nonneg in Ha as [H _]. destruct a as [ops n]; cbn in *.
    rewrite app_nil_r, Z.max_l, Z.max_r by lia. auto.
  Qed.

  (** Appending one gate operation is concatenation with the one-operation circuit. *)
  Theorem C01_append_is_concat (a b : circ) g qs : valid_circuit a -> mk_circuit [GateOp g qs] None = Ok b ->
    circuit_add a (AddOp (GateOp g qs)) = circuit_add a (AddCircuit b) /\ valid_circuit b.
  Proof.
    intros Ha Hb. assert (Hv : valid_circuit b) by (do 2 eexists; exact Hb). split; [|auto].
    destruct qs as [|q qs]; [discriminate|]. rewrite mk_single in Hb by congruence. inv Hb.
    rewrite add_op, add_circuits by (auto; congruence). reflexivity.
  Qed.

  (** An inferred width is the least one containing all qubits of the operations. *)
  Theorem C01_inferred_width ops (c : circ) : mk_circuit ops None = Ok c ->
    c_ops c = ops /\ least_bound (flat_map qubit_indices ops) (c_nq c) /\ fits c.
  Proof. intros H. destruct (fits_inferred _ _ H) as (F & L & E). rewrite E in L. auto. Qed.

  (** An explicit width other than 0 is accepted exactly if it is a positive integer, and is then kept. *)
  Theorem C01_explicit_width ops (q : Q) : ~ (q == 0)%Q ->
    (forall n, (q == inject_Z n)%Q -> 0 < n -> mk_circuit (Num:=Num) ops (Some q) = Ok (Build_circuit ops n)) /\
    ((~ exists n, (q == inject_Z n)%Q /\ 0 < n) -> mk_circuit (Num:=Num) ops (Some q) = Err ValueError).
  Proof.
    intros H0. assert (E0 : Qeq_bool q 0 = false).
    { destruct (Qeq_bool q 0) eqn:E; [|auto]. apply Qeq_bool_iff in E. contradiction. }
    unfold mk_circuit. rewrite E0. split.
    - intros n Hn Hp.
      assert (Hi : py_int q = n).
      { unfold py_int. unfold Qeq in Hn; cbn in Hn. rewrite Z.mul_1_r in Hn. rewrite Hn. apply Z.quot_mul. lia. }
      rewrite Hi. apply Qeq_bool_iff in Hn. rewrite Hn. cbn. destruct (Z.leb_spec n 0); [lia|]. reflexivity.
    - intros Hn. destruct (Qeq_bool q (inject_Z (py_int q))) eqn:E; cbn; [|auto].
      apply Qeq_bool_iff in E. destruct (Z.leb_spec (py_int q) 0); [auto|]. exfalso; apply Hn; eauto.
  Qed.

  (** Any sequence of appended circuits and gate operations: all succeed, operations accumulate in order,
      the width is the largest one met. *)
  Theorem C01_append_sequence items (c : circ) : valid_circuit c -> Forall item_ok items ->
    exists r, foldM circuit_add items c = Ok r /\ valid_circuit r /\ c_ops r = c_ops c ++ flat_map item_ops items /\
      c_nq c <= c_nq r /\ (forall i, In i items -> item_width i <= c_nq r) /\
      (c_nq r = c_nq c \/ exists i, In i items /\ c_nq r = item_width i).
  Proof.
    intros Hc Hi. destruct (add_sequence items c Hc Hi) as [E V]. eexists; split; [exact E|]. split; [exact V|]. split; [reflexivity|].
    cbn [c_nq]. destruct (fold_max_spec (map item_width items) (c_nq c)) as (H1 & H2 & H3). split; [auto|]. split.
    - intros i Hin. apply H2. apply in_map; auto.
    - destruct H3 as [H3|H3]; [auto|]. right. apply in_map_iff in H3 as (i & ? & ?). eauto.
  Qed.

  (** Fitting circuits stay fitting. *)
  Theorem C01_fits_preserved (a c : circ) x : valid_circuit a -> fits a ->
    match x with AddCircuit b => valid_circuit b /\ fits b | AddOp _ => True end ->
    circuit_add a x = Ok c -> fits c /\ valid_circuit c.
  Proof.
    intros Ha Fa Hx H. destruct x as [[g qs|ps]|b].
    - destruct qs as [|q qs]; [discriminate|].
      assert (E := add_op a g (q :: qs) Ha). rewrite E in H by congruence.
      apply (f_equal (fun r => match r with Ok x => x | Err _ => c end)) in H. subst c. split.
      + intros o q' Ho Hq. cbn [c_ops c_nq] in *. apply in_app_iff in Ho as [Ho|[<-|[]]].
        * specialize (Fa _ _ Ho Hq). lia.
        * apply (max_nat_ge (q :: qs)) in Hq. lia.
      + apply nonneg_valid; cbn [c_nq c_ops]; [|lia]. apply valid_nonneg in Ha as [? _]. lia.
    - discriminate.
    - destruct Hx as [Hb Fb]. split; [apply (fits_add_circuit a b c); auto|eapply add_valid; eauto].
  Qed.

  (** Finding: an explicit width smaller than the qubits used is accepted. *)
  Theorem C01_explicit_width_fits_refuted :
    exists ops n (c : circ), mk_circuit ops (Some n) = Ok c /\ ~ fits c.
  Proof.
    exists [GateOp gate_I [5%nat]], (2 # 1)%Q. eexists; split; [reflexivity|].
    intros F. specialize (F (GateOp gate_I [5%nat]) 5%nat). cbn in F. specialize (F (or_introl eq_refl) (or_introl eq_refl)). discriminate.
  Qed.
  (** Finding: a multi-phase operation cannot be appended with [+]. *)
  Theorem C01_append_multiphase_refuted (a : circ) ps : circuit_add a (AddOp (MultiPhase ps)) = Err NotImplementedError.
  Proof. reflexivity. Qed.

  (** ** C02 *)
  Theorem C02_split_circuit (c : circ) p : valid_circuit c ->
    exists chunks, split_circuit c p = Ok chunks /\
      flat_map (fun bc => c_ops (snd bc)) chunks = c_ops c /\
      (forall b s, In (b, s) chunks -> c_nq s = c_nq c /\ c_ops s <> [] /\ forall o, In o (c_ops s) -> p o = b) /\
      (forall l1 x y l2, chunks = l1 ++ x :: y :: l2 -> fst x <> fst y).
  Proof.
    intros Hc. rewrite split_spec by auto. eexists; split; [reflexivity|]. split; [|split].
    - rewrite flat_map_concat_map, map_map. cbn. rewrite <- flat_map_concat_map. apply groupby_concat.
    - intros b s Hin. apply in_map_iff in Hin as ([b' g] & E & Hin). inv E. cbn.
      apply groupby_const in Hin as [? ?]. auto.
    - intros l1 x y l2 E.
      apply map_eq_app in E as (m1 & m2 & E & E1 & E2). destruct m2 as [|x' [|y' m2]]; try discriminate. cbn in E2. inv E2.
      cbn. eapply groupby_alternate; eauto.
  Qed.

  (** ** C03 *)
  (** free_symbols: exactly the symbols of the circuit, each once ... *)
  Theorem C03_free_symbols_exact (c : circ) :
    NoDup (circuit_free_symbols c) /\ forall s, In s (circuit_free_symbols c) <-> occurs_in_circuit s c.
  Proof. split; [apply (uniq_NoDup _ string_eqb_spec)|apply In_circuit_free_symbols]. Qed.
  (** ... symbols of a new operation come after those already present, in sorted order. *)
  Theorem C03_free_symbols_order ops (o : operation Num) n :
    exists new, circuit_free_symbols (Build_circuit (ops ++ [o]) n) = circuit_free_symbols (Build_circuit ops n) ++ new /\
      StronglySorted (fun a b => String.leb a b = true) new /\
      forall s, In s new <-> (exists p, In p (op_params o) /\ In s (param_syms p)) /\ ~ In s (circuit_free_symbols (Build_circuit ops n)).
  Proof.
    eexists; split; [apply (free_symbols_snoc ops o n n)|]. split.
    - apply (filter_sorted String.leb). apply get_free_symbols_sorted.
    - intros s. rewrite filter_In. unfold op_free_symbols. rewrite In_get_free_symbols.
      pose proof (memb_In _ string_eqb_spec s (circuit_free_symbols (Build_circuit ops n))).
      destruct (memb _ _ _); cbn; intuition congruence.
  Qed.

  (** bind keeps width, number and order of operations, their qubits and gate structure, and acts on parameters
      as substitution: every parameter takes the value it had under the overridden assignment. *)
  Theorem C03_bind_meaning {V} (I : interp V) (c c' : circ) m rho : sympy_order_ok O -> sympy_simp_sound O I ->
    number_map m -> valid_circuit c -> Forall (api_op O) (c_ops c) -> circuit_bind O c m = Ok c' ->
    c_nq c' = c_nq c /\
    Forall2 (fun o o' => op_skeleton o' = op_skeleton o /\ qubit_indices o' = qubit_indices o /\
      map (eval_param I rho) (op_params o') = map (eval_param I (override I m rho)) (op_params o)) (c_ops c) (c_ops c').
  Proof.
    intros Ho Hs Hm Hc Ha H. apply bind_facts in H as [Hn H]; auto. split; [auto|].
    eapply Forall2_imp; [|exact H]. cbn. intros o o' (H1 & H2 & H3). split; [auto|]. split; [auto|].
    rewrite H3, map_map. apply map_ext. intros p. apply eval_sub_symbols; auto.
  Qed.

  (** bind succeeds unless a multi-phase operation would get a complex phase. *)
  Theorem C03_bind_succeeds (c : circ) m : valid_circuit c -> Forall (api_op O) (c_ops c) ->
    (forall n s, In (s, PNum n) m -> num_is_real O n = true) -> number_map m -> exists c', circuit_bind O c m = Ok c'.
  Proof.
    intros Hc Ha Hr Hm. apply bind_succeeds; auto. intros ps Hin. rewrite Forall_forall in Ha. apply Ha in Hin. cbn in Hin.
    unfold mk_multiphase in *. destruct (existsb _ ps) eqn:E1; [discriminate|].
    destruct (existsb _ (map _ ps)) eqn:E2; [|discriminate]. exfalso.
    apply existsb_exists in E2 as (p & Hp & Hb). apply in_map_iff in Hp as (p0 & <- & Hp0).
    assert (E3 : match p0 with PNum n => negb (num_is_real O n) | PExpr _ => false end = false).
    { destruct (match p0 with PNum n => negb (num_is_real O n) | PExpr _ => false end) eqn:E; [|auto].
      assert (existsb (fun p => match p with PNum n => negb (num_is_real O n) | PExpr _ => false end) ps = true) by (apply existsb_exists; eauto). congruence. }
    destruct p0 as [n|[n|s|f args]]; cbn in Hb; try congruence.
    destruct (dget String.eqb s m) as [v|] eqn:Ed; [|discriminate].
    pose proof Ed as Ed2. apply dget_num in Ed2 as [[k ->] _]; [|auto].
    apply (dget_In _ string_eqb_spec) in Ed. apply Hr in Ed. rewrite Ed in Hb. discriminate.
  Qed.

  (** A bound symbol disappears, no new symbol appears. *)
  Theorem C03_bind_removes_symbols (c c' : circ) m : sympy_order_ok O -> sympy_simp_no_new_symbols O -> number_map m ->
    valid_circuit c -> Forall (api_op O) (c_ops c) -> circuit_bind O c m = Ok c' ->
    forall s, In s (circuit_free_symbols c') -> In s (circuit_free_symbols c) /\ ~ In s (map fst m).
  Proof. intros. eapply bind_free_symbols_incl; eauto. Qed.

  (** If simplification does not cancel symbols, free_symbols is exactly the old list without the bound ones. *)
  Theorem C03_bind_keeps_other_symbols (c c' : circ) m : sympy_order_ok O -> sympy_simp_same_symbols O -> number_map m ->
    valid_circuit c -> Forall (api_op O) (c_ops c) -> circuit_bind O c m = Ok c' ->
    circuit_free_symbols c' = filter (fun s => negb (existsb (String.eqb s) (map fst m))) (circuit_free_symbols c).
  Proof. intros. erewrite bind_free_symbols by eauto. reflexivity. Qed.

  (** Binding in two steps has the meaning of binding at once. *)
  Theorem C03_bind_twice {V} (I : interp V) (c c1 c2 c12 : circ) m1 m2 rho : sympy_order_ok O -> sympy_simp_sound O I ->
    number_map m1 -> number_map m2 -> number_map (m1 ++ m2) ->
    valid_circuit c -> Forall (api_op O) (c_ops c) ->
    circuit_bind O c m1 = Ok c1 -> circuit_bind O c1 m2 = Ok c2 -> circuit_bind O c (m1 ++ m2) = Ok c12 ->
    c_nq c2 = c_nq c12 /\
    Forall2 (fun o o' => op_skeleton o = op_skeleton o' /\ qubit_indices o = qubit_indices o' /\
      map (eval_param I rho) (op_params o) = map (eval_param I rho) (op_params o')) (c_ops c2) (c_ops c12).
  Proof.
    intros Ho Hs H1 H2 H12 Hc Ha E1 E2 E12.
    assert (Hc1 : valid_circuit c1 /\ Forall (api_op O) (c_ops c1)).
    { split; [unfold circuit_bind in E1; destruct (mapM _ _); cbn [rbind] in E1; [do 2 eexists; exact E1|discriminate]|].
      pose proof (bind_facts O _ _ _ Hc Ha E1) as [En _].
      unfold circuit_bind in E1. destruct (mapM _ (c_ops c)) as [ops|] eqn:Em; cbn [rbind] in E1; [|discriminate].
      assert (c_ops c1 = ops) as ->.
      { pose proof (valid_nonneg _ Hc) as [Hn Hn0]. destruct (Z.eq_dec (c_nq c) 0) as [E0|E0].
        - rewrite Hn0 in Em by auto. inv Em. rewrite E0, mk_circuit_Z_nil in E1 by lia. inv E1. auto.
        - rewrite mk_circuit_Z_pos in E1 by lia. inv E1. auto. }
      apply mapM_Ok_Forall2 in Em. clear -Em Ha. induction Em as [|o o' l l' Hb F IH]; [constructor|]. inv Ha. constructor; [|auto].
      destruct o as [g qs|ps]; cbn in *.
      - destruct (gate_bind O g m1) eqn:Eg; cbn in Hb; [|discriminate]. inv Hb. cbn. eapply api_bind; eauto.
      - pose proof Hb as Hb2. unfold mk_multiphase in Hb2. destruct (existsb _ _); [discriminate|]. inv Hb2. cbn. auto. }
    destruct Hc1 as [Hc1 Ha1].
    destruct (C03_bind_meaning I _ _ _ rho Ho Hs H2 Hc1 Ha1 E2) as [N2 F2].
    destruct (C03_bind_meaning I _ _ _ (override I m2 rho) Ho Hs H1 Hc Ha E1) as [N1 F1].
    destruct (C03_bind_meaning I _ _ _ rho Ho Hs H12 Hc Ha E12) as [N12 F12].
    split; [congruence|]. clear -F1 F2 F12 H1 H2 H12.
    revert F1 F2 F12. generalize (c_ops c) (c_ops c1) (c_ops c2) (c_ops c12). intros l l1 l2 l12 F1 F2 F12. revert l2 l12 F2 F12.
    induction F1 as [|o o1 l l1 (S1 & Q1 & P1) F1 IH]; intros l2 l12 F2 F12; inv F2; inv F12; [constructor|]. constructor; [|auto].
    match goal with H : op_skeleton _ = op_skeleton o1 /\ _ |- _ => destruct H as (S2 & Q2 & P2) end.
    match goal with H : op_skeleton _ = op_skeleton o /\ _ |- _ => destruct H as (S3 & Q3 & P3) end. split; [congruence|]. split; [congruence|].
    rewrite P2, P3, P1. apply map_ext. intros p.
    assert (Eo : forall s, override I m1 (override I m2 rho) s = override I (m1 ++ m2) rho s).
    { intros s. unfold override.
      assert (Hd : dget String.eqb s (m1 ++ m2) = match dget String.eqb s m1 with Some v => Some v | None => dget String.eqb s m2 end).
      { clear. induction m1 as [|[k v] m1 IH]; cbn; [auto|]. destruct (String.eqb s k); auto. }
      rewrite Hd. destruct (dget String.eqb s m1) as [v|] eqn:E; [|auto].
      apply dget_num in E as [[n ->] _]; auto. }
    destruct p as [n|e]; cbn; [auto|]. apply eval_ext. auto.
  Qed.

  (** ** C04 *)
  (** Every sequence of modifiers yields the normal form given by parity of inversions and sum of control counts,
      or ValueError when a control count drops below 1. *)
  Theorem C04_normal_form (g : gate Num) ms : plain g ->
    apply_modifiers g ms =
      match modifiers_effect (hermitian_flag g) ms false 0 with
      | Ok (d, k) => Ok (normal_form g d k)
      | Err e => Err e
      end.
  Proof.
    intros Hg. rewrite <- (normal_form_00 g) at 1. rewrite apply_modifiers_nf; [|auto|lia|auto].
    destruct (modifiers_effect _ _ _ _) as [[d k]|]; reflexivity.
  Qed.
  Theorem C04_arity_and_params (g : gate Num) d k :
    num_qubits (normal_form g d k) = num_qubits g + k /\ gate_params (normal_form g d k) = gate_params g.
  Proof. split; [apply num_qubits_nf|apply params_nf]. Qed.
  (** .dagger never fails, is an involution, keeps arity and parameters. *)
  Theorem C04_dagger_involution (g : gate Num) : api_gate O g ->
    exists g', dagger g = Ok g' /\ dagger g' = Ok g /\ num_qubits g' = num_qubits g /\ gate_params g' = gate_params g.
  Proof. intros H. destruct (api_dagger_ok O g H) as (g' & ? & _ & ? & ? & ?). eauto. Qed.
  Theorem C04_controlled (g : gate Num) k : api_gate O g -> 1 <= k ->
    exists g', controlled g k = Ok g' /\ num_qubits g' = num_qubits g + k /\ gate_params g' = gate_params g.
  Proof. intros H Hk. destruct (api_controlled_ok O g k H Hk) as (g' & ? & _ & ? & ?). eauto. Qed.
  Theorem C04_controlled_adds (g : gate Num) j k : api_gate O g -> 1 <= j -> 1 <= k ->
    (let! g1 := controlled g j in controlled g1 k) = controlled g (j + k).
  Proof. apply api_controlled_add. Qed.
  Theorem C04_controlled_dagger_commute (g : gate Num) k : api_gate O g ->
    (let! g1 := controlled g k in dagger g1) = (let! g1 := dagger g in controlled g1 k).
  Proof. apply api_controlled_dagger. Qed.
  Theorem C04_plain_control_count_rejected (g : gate Num) k : plain g -> k < 1 -> controlled g k = Err ValueError.
  Proof.
    destruct g; cbn [plain]; try contradiction. intros _ H. cbn. unfold mk_controlled.
    destruct (Z.ltb_spec k 1); [auto|lia].
  Qed.
  (** Replacing parameters (and hence binding) commutes with modifiers and changes nothing but parameters. *)
  Theorem C04_replace_params_commutes (g : gate Num) ms ps : plain g ->
    (let! g1 := apply_modifiers g ms in replace_params g1 ps) =
    (let! g1 := replace_params g ps in apply_modifiers g1 ms).
  Proof. apply api_replace_modifiers. Qed.
  Theorem C04_replace_params (g : gate Num) ps : api_gate O g ->
    exists g', replace_params g ps = Ok g' /\ gate_params g' = ps /\ gate_skeleton g' = gate_skeleton g /\ num_qubits g' = num_qubits g.
  Proof. apply api_replace_ok. Qed.
  Theorem C04_bind (g : gate Num) m : api_gate O g ->
    exists g', gate_bind O g m = Ok g' /\ gate_params g' = map (fun p => sub_symbols O p m) (gate_params g) /\
      gate_skeleton g' = gate_skeleton g /\ num_qubits g' = num_qubits g.
  Proof. intros H. rewrite bind_replace_gate. apply (api_replace_ok O); auto. Qed.

  (** ** C11 *)
  (** [set_order l] is any enumeration of the distinct elements of [l] (Python's set iteration order). *)
  Definition enumerates_set (set_order : list nat -> list nat) : Prop :=
    forall l, NoDup (set_order l) /\ forall q, In q (set_order l) <-> In q l.

  Theorem C11_apply_gate_to_qubits set_order (c c' : circ) qs gf pars : enumerates_set set_order -> valid_circuit c ->
    apply_gate_to_qubits set_order c qs gf pars = Ok c' ->
    exists new, c_ops c' = c_ops c ++ new /\
      (* one operation per distinct qubit *)
      map qubit_indices new = map (fun q => [q]) (set_order qs) /\
      match pars with
      | None => forall o, In o new -> exists q, o = GateOp (gf []) [q]
      | Some pss => length pss = length (set_order qs) /\
          forall i q ps, nth_error (set_order qs) i = Some q -> nth_error pss i = Some ps ->
            nth_error new i = Some (GateOp (gf ps) [q])
      end /\
      c_nq c <= c_nq c' /\ (forall q, In q qs -> Z.of_nat q < c_nq c') /\
      (c_nq c' = c_nq c \/ exists q, In q qs /\ c_nq c' = Z.of_nat q + 1).
  Proof.
    intros He Hc H. destruct (He qs) as [Hnd Hin].
    destruct (set_layer_spec set_order c qs gf pars c' Hc Hnd Hin H) as (new & E1 & E2 & _ & E4 & E5).
    exists new. split; [auto|]. split; [auto|]. split; [|auto]. destruct pars as [pss|].
    - destruct E4 as [-> El]. split; [auto|]. intros i q ps H1 H2.
      apply (map_nth_error (fun qp => GateOp (gf (snd qp)) [fst qp]) i _ (d := (q, ps))).
      clear -H1 H2. revert i pss H1 H2. induction (set_order qs) as [|a l IH]; intros [|i] [|p pss]; cbn; try discriminate; [congruence|apply IH].
    - intros o Ho. rewrite Forall_forall in E4. auto.
  Qed.
  Theorem C11_apply_gate_succeeds set_order (c : circ) qs gf : valid_circuit c ->
    exists c', apply_gate_to_qubits set_order c qs gf None = Ok c'.
  Proof.
    intros Hc. unfold apply_gate_to_qubits. rewrite append_all_spec; eauto.
    intros o Ho. apply in_map_iff in Ho as (q & <- & _); eauto.
  Qed.
  Theorem C11_wrong_parameter_count set_order (c : circ) qs gf pss : length pss <> length (set_order qs) ->
    apply_gate_to_qubits set_order c qs gf (Some pss) = Err AssertionError.
  Proof. intros H. unfold apply_gate_to_qubits. destruct (Nat.eqb_spec (length pss) (length (set_order qs))); [contradiction|]. reflexivity. Qed.

  (** A layer contains exactly one gate per qubit 0..n-1 and is n qubits wide. *)
  Theorem C11_layer set_order n gf pars (c' : circ) : enumerates_set set_order ->
    create_layer_of_gates set_order n gf pars = Ok c' ->
    c_nq c' = Z.of_nat n /\ length (c_ops c') = n /\
    forall q, (q < n)%nat -> exists! i, exists o, nth_error (c_ops c') i = Some o /\ qubit_indices o = [q].
  Proof.
    intros He H. unfold create_layer_of_gates in H. cbn [mk_circuit circuit_size_by_operations rbind] in H.
    assert (Hv : valid_circuit (Build_circuit (@nil (operation Num)) 0)) by (apply nonneg_valid; cbn; [lia|auto]).
    destruct (C11_apply_gate_to_qubits _ _ _ _ _ _ He Hv H) as (new & E1 & E2 & _ & _ & Hlt & Hw). cbn in E1.
    destruct (He (seq 0 n)) as [Hnd Hin]. rewrite E1.
    assert (Hlen : length (set_order (seq 0 n)) = n).
    { rewrite <- (seq_length n 0) at 2. apply Permutation.Permutation_length, Permutation.NoDup_Permutation; auto using seq_NoDup. }
    assert (Hl : length new = n) by (rewrite <- (map_length qubit_indices new), E2, map_length; auto).
    split; [|split; [auto|]].
    - cbn in Hw. destruct (Nat.eq_dec n 0) as [->|Hn].
      + destruct Hw as [Hw|(q & Hq & _)]; [auto|]. destruct Hq.
      + assert (Hm : Z.of_nat (n - 1) < c_nq c') by (apply Hlt; apply in_seq; lia).
        destruct Hw as [Hw|(q & Hq & Hw)]; [lia|]. apply in_seq in Hq. lia.
    - intros q Hq. assert (Hq' : In q (set_order (seq 0 n))) by (apply Hin, in_seq; lia).
      apply In_nth_error in Hq' as [i Hi]. exists i.
      assert (Hmap : forall j o, nth_error new j = Some o -> exists r, nth_error (set_order (seq 0 n)) j = Some r /\ qubit_indices o = [r]).
      { intros j o Hj. apply (map_nth_error qubit_indices) in Hj. rewrite E2 in Hj.
        destruct (nth_error (set_order (seq 0 n)) j) as [r|] eqn:Er.
        - rewrite (map_nth_error (fun q => [q]) j _ Er) in Hj. inv Hj. eauto.
        - apply nth_error_None in Er. assert (nth_error (map (fun q => [q]) (set_order (seq 0 n))) j <> None) by congruence.
          apply nth_error_Some in H0. rewrite map_length in H0. lia. }
      split.
      + destruct (nth_error new i) as [o|] eqn:Eo.
        * exists o. split; [auto|]. apply Hmap in Eo as (r & Hr & ->). congruence.
        * apply nth_error_None in Eo. assert (nth_error (set_order (seq 0 n)) i <> None) by congruence. apply nth_error_Some in H0. lia.
      + intros j (o & Ho & Hqo). apply Hmap in Ho as (r & Hr & Hqr). rewrite Hqr in Hqo. inv Hqo.
        eapply NoDup_nth_error; [exact Hnd| |congruence]. apply nth_error_Some. congruence.
  Qed.

  (** add_ancilla_register never fails, keeps the circuit as prefix, widens by exactly n and appends one identity per
      new qubit. *)
  Theorem C11_add_ancilla (c : circ) n : valid_circuit c ->
    exists c', add_ancilla_register c n = Ok c' /\ c_nq c' = c_nq c + Z.of_nat n /\
      c_ops c' = c_ops c ++ map (fun i => GateOp gate_I [(Z.to_nat (c_nq c) + i)%nat]) (seq 0 n).
  Proof. intros H. rewrite ancilla_spec by auto. eauto. Qed.
End Statements.

(** ** Non-vacuity: concrete instances *)
Section Examples.
  Open Scope string_scope.
  Open Scope list_scope.
  Open Scope Z_scope.
  Definition exO : sympy_oracle Z := {| order := fun m => m; simp := fun e => e; num_is_real := fun _ => true |}.
  Definition gX : gate Z := MFG "X" (FBuiltin "x_matrix") [] 1 true.
  Definition gRX (p : param Z) : gate Z := MFG "RX" (FBuiltin "rx_matrix") [p] 1 false.
  Definition px := PExpr (Num:=Z) (ESym "x").
  Definition pxy := PExpr (Num:=Z) (EApp "Add" [ESym "y"; EApp "Mul" [ENum 2; ESym "x"]]).
  Definition exc : circuit Z := {| c_ops := [GateOp (gRX pxy) [2%nat]; GateOp gX [0%nat]; GateOp (Controlled (Dagger (gRX px)) 2) [1%nat; 0%nat; 3%nat];
     MultiPhase [px; PNum 3; PNum 0; px]]; c_nq := 4 |}.

  Example ex_valid : valid_circuit exc.
  Proof. exists (c_ops exc), None. reflexivity. Qed.
  Example ex_api : Forall (api_op exO) (c_ops exc).
  Proof.
    apply Forall_cons; [apply api_plain; exact I|]. apply Forall_cons; [apply api_plain; exact I|].
    apply Forall_cons; [|apply Forall_cons; [reflexivity|apply Forall_nil]].
    eapply api_controlled with (g := Dagger (gRX px)) (k := 2); [|reflexivity].
    eapply api_dagger with (g := gRX px); [|reflexivity]. apply api_plain; exact I.
  Qed.
  Example ex_oracle : sympy_order_ok exO /\ sympy_simp_same_symbols exO /\ sympy_simp_no_new_symbols exO.
  Proof. repeat split; cbn; auto. intros e x Hx. exact Hx. Qed.
  Definition Zinterp : interp (Num:=Z) Z :=
    {| i_num := fun n => n; i_fun := fun f l => if String.eqb f "Add" then fold_right Z.add 0 l else fold_right Z.mul 1 l |}.
  Example ex_sound : sympy_simp_sound exO Zinterp.
  Proof. intros rho e. reflexivity. Qed.
  Definition exm : symbols_map Z := [("x"%string, PNum 7)].
  Example ex_map : number_map exm.
  Proof. split; repeat constructor; cbn; eauto. Qed.
  Example ex_bind : exists c', circuit_bind exO exc exm = Ok c' /\ circuit_free_symbols exc = ["x"; "y"]%string /\ circuit_free_symbols c' = ["y"]%string.
  Proof. eexists; split; [reflexivity|]. split; reflexivity. Qed.
  Example ex_split : exists l, split_circuit exc (fun o => match o with GateOp g _ => match gate_params g with [] => false | _ => true end | _ => false end) = Ok l /\ length l = 4%nat.
  Proof. eexists; split; reflexivity. Qed.
  Example ex_items : Forall (item_ok (Num:=Z)) [AddOp (GateOp gX [6%nat]); AddCircuit exc].
  Proof. repeat constructor; cbn; try congruence. apply ex_valid. Qed.
  Example ex_modifiers : apply_modifiers (gRX px) [MDagger; MControlled 2; MDagger; MControlled 1; MDagger] = Ok (Controlled (Dagger (gRX px)) 3).
  Proof. reflexivity. Qed.
  Example ex_set_order : enumerates_set (uniq Nat.eqb).
  Proof. intros l. split; [apply (uniq_NoDup _ nat_eqb_spec)|]. intros q. rewrite (uniq_In _ nat_eqb_spec). tauto. Qed.
  Example ex_layer : exists c, create_layer_of_gates (uniq Nat.eqb) 3 (fun ps => MFG "RX" (FBuiltin "rx_matrix") ps 1 false) (Some [[px]; [pxy]; [PNum 1]]) = Ok c.
  Proof. eexists; reflexivity. Qed.
  Example ex_ancilla : rmap c_nq (add_ancilla_register exc 3) = Ok 7.
  Proof. reflexivity. Qed.
End Examples.

Print Assumptions C01_concat.
Print Assumptions C01_concat_associative.
Print Assumptions C01_empty_unit.
Print Assumptions C01_append_is_concat.
Print Assumptions C01_inferred_width.
Print Assumptions C01_explicit_width.
Print Assumptions C01_append_sequence.
Print Assumptions C01_fits_preserved.
Print Assumptions C02_split_circuit.
Print Assumptions C03_free_symbols_exact.
Print Assumptions C03_free_symbols_order.
Print Assumptions C03_bind_meaning.
Print Assumptions C03_bind_succeeds.
Print Assumptions C03_bind_removes_symbols.
Print Assumptions C03_bind_keeps_other_symbols.
Print Assumptions C03_bind_twice.
Print Assumptions C04_normal_form.
Print Assumptions C04_dagger_involution.
Print Assumptions C04_controlled_adds.
Print Assumptions C04_controlled_dagger_commute.
Print Assumptions C04_replace_params_commutes.
Print Assumptions C04_bind.
Print Assumptions C11_apply_gate_to_qubits.
Print Assumptions C11_layer.
Print Assumptions C11_add_ancilla.
