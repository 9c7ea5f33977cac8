(** C09 and C10: writing and reading circuits, equality of custom gate definitions. *)
From Coq Require Import String ZArith QArith Reals Lra Lia.
From Verif Require Import Base BaseFacts Json MatModel MatFacts Cplx CircuitModel CircuitProofs GateMatModel SerdeModel SerdeSpec SerdeProofs.
Open Scope list_scope.
Local Open Scope nat_scope.

Section C09.
  Context {Num : Type} (T : text_oracle Num).

  (** Writing a circuit and reading it back gives the same circuit, for every circuit object whose text parts survive. *)
  Theorem C09_round_trip : forall ops n c, mk_circuit ops n = Ok c -> writable T ops ->
    exists j c', circuit_to_dict T c = Ok j /\ circuit_from_dict T j = Ok c' /\ same_circuit T c c' /\
      circuit_eq T c c' = true /\ circuit_eq T c' c = true.
  Proof.
    intros ops n c M W.
    assert (Eo : c_ops c = ops).
    { unfold mk_circuit in M. destruct n as [q|]; [destruct (Qeq_bool q 0); [|destruct (negb _); [discriminate|]; destruct (Z.leb _ _); [discriminate|]; injection M as <-; reflexivity]|];
      destruct (circuit_size_by_operations ops); try discriminate; injection M as <-; reflexivity. }
    subst ops. destruct (collect_ok T c W) as (ds & Ed & Gd & Fd). destruct (write_ops T (c_ops c) W (c_ops c) (fun o H => H)) as (js & Ej & Lj).
    destruct (read_ops T (c_ops c) ds W Fd (c_ops c) js (fun o H => H) Ej) as (ops' & Eo & So).
    assert (SC : same_circuit T c (Build_circuit ops' (c_nq c))) by (split; auto).
    eexists. exists (Build_circuit ops' (c_nq c)). split; [unfold circuit_to_dict; rewrite Ed; cbn [rbind]; rewrite Ej; cbn [rbind]; reflexivity|].
    split; [|split; [exact SC|apply same_circuit_eq; exact SC]].
    unfold circuit_from_dict. cbn [as_dict rbind]. set (d := _ :: _).
    change (jget "schema" d) with (Some (JStr (K := Z) CIRCUIT_SCHEMA)). cbv iota. rewrite String.eqb_refl.
    assert (E1 : get_list "custom_gate_definitions" d = Ok (map (def_to_dict T) ds)).
    { unfold d, get_list, jget, jopt. destruct (c_ops c), ds; reflexivity. }
    assert (E2 : get_list "operations" d = Ok js).
    { unfold d, get_list, jget, jopt. destruct (c_ops c) as [|o os] eqn:Q, ds; try reflexivity; cbn in Lj; destruct js; try discriminate; reflexivity. }
    rewrite E1. cbn [rbind]. rewrite read_defs by exact Gd. cbn [rbind]. rewrite E2. cbn [rbind]. rewrite Eo. cbn [rbind].
    change (jitem "n_qubits" d) with (Ok (JNum (c_nq c))). cbn [rbind as_int]. eapply rebuild; eauto.
  Qed.

  (** Lists of circuits: order and length are kept. *)
  Theorem C09_circuitset : forall cs, (forall c, In c cs -> exists n, mk_circuit (c_ops c) n = Ok c /\ writable T (c_ops c)) ->
    exists j cs', circuitset_to_dict T cs = Ok j /\ circuitset_from_dict T j = Ok cs' /\ Forall2 (same_circuit T) cs cs'.
  Proof.
    intros cs H.
    assert (X : exists js cs', mapM (circuit_to_dict T) cs = Ok js /\ mapM (circuit_from_dict T) js = Ok cs' /\ Forall2 (same_circuit T) cs cs').
    { induction cs as [|c cs IH]; [exists [], []; repeat split; constructor|].
      destruct (H c (or_introl eq_refl)) as (n & M & W). destruct (C09_round_trip _ _ _ M W) as (j & c' & E1 & E2 & S & _).
      destruct IH as (js & cs' & F1 & F2 & F3); [intros; apply H; right; auto|]. exists (j :: js), (c' :: cs'). cbn [mapM].
      rewrite E1, E2. cbn [rbind]. rewrite F1, F2. repeat split; constructor; auto. }
    destruct X as (js & cs' & E1 & E2 & F). unfold circuitset_to_dict. rewrite E1. cbn [rbind]. do 2 eexists. split; [reflexivity|].
    unfold circuitset_from_dict. cbn [as_dict rbind jget dget String.eqb Ascii.eqb Bool.eqb CIRCUITSET_SCHEMA jitem as_list].
    split; [exact E2|exact F].
  Qed.

  (** Reading something that is not labelled as a circuit, or as a list of circuits, is a ValueError. *)
  Theorem C09_schema : forall d, (jget "schema" d <> Some (JStr "zapata-v1-circuit-v2"%string) -> circuit_from_dict T (JObj d) = Err ValueError) /\
    (jget "schema" d <> Some (JStr "zapata-v1-circuitset-v2"%string) -> circuitset_from_dict T (JObj d) = Err ValueError).
  Proof.
    intros d. split; intros H; unfold circuit_from_dict, circuitset_from_dict; cbn [as_dict rbind]; destruct (jget "schema" d) as [[]|]; auto.
    all: match goal with |- context [String.eqb ?s ?x] => destruct (String.eqb_spec s x) as [->|]; auto; destruct H; reflexivity end.
  Qed.

  (** Two different definitions with one name, both used directly: ValueError. *)
  Lemma fold_clash ops u n d1 : (forall o, In o ops -> exists g qs, o = GateOp g qs) -> dget String.eqb n u = Some d1 ->
    (exists o d2, In o ops /\ uses_directly o d2 /\ cd_name d2 = n /\ def_eq T d1 d2 = false) -> foldM (add_def T) ops u = Err ValueError.
  Proof.
    revert u. induction ops as [|o ops IH]; intros u G D (o2 & d2 & I & U & N & E); [destruct I|]. cbn [foldM].
    destruct (G o (or_introl eq_refl)) as (g & qs & ->).
    assert (Step : forall u1, dget String.eqb n u1 = Some d1 -> In o2 ops -> foldM (add_def T) ops u1 = Err ValueError).
    { intros u1 D1 I2. apply IH; [intros; apply G; right; auto|exact D1|exists o2, d2; auto]. }
    destruct g as [nm [f|d] ps q h|w k|w]; cbn [add_def custom_of rbind foldM].
    - cbn. apply Step; auto. destruct I as [<-|I]; [destruct U as (? & ? & ? & ? & ? & X); discriminate|auto].
    - unfold add_def. cbn [custom_of rbind foldM]. destruct (dget String.eqb (cd_name d) u) as [d'|] eqn:Ed.
      + destruct (def_eq T d' d) eqn:Eq; [|reflexivity]. cbn [negb rbind]. apply Step; auto.
        destruct I as [<-|I]; [|exact I]. destruct U as (? & ? & ? & ? & ? & [= _ <- _ _ _ _]). rewrite N in Ed. congruence.
      + cbn [rbind]. assert (Nn : n <> cd_name d) by (intros ->; congruence). apply Step.
        * rewrite dget_dset_other; auto using string_eqb_spec.
        * destruct I as [<-|I]; [|exact I]. destruct U as (? & ? & ? & ? & ? & [= _ <- _ _ _ _]). congruence.
    - cbn. apply Step; auto. destruct I as [<-|I]; [destruct U as (? & ? & ? & ? & ? & X); discriminate|auto].
    - cbn. apply Step; auto. destruct I as [<-|I]; [destruct U as (? & ? & ? & ? & ? & X); discriminate|auto].
  Qed.
  Lemma fold_clash' ops u o1 mid d1 : (forall o, In o (ops ++ o1 :: mid) -> exists g qs, o = GateOp g qs) ->
    uses_directly o1 d1 -> dget String.eqb (cd_name d1) u = None -> (forall o d, In o ops -> uses_directly o d -> cd_name d <> cd_name d1) ->
    (exists o d2, In o mid /\ uses_directly o d2 /\ cd_name d2 = cd_name d1 /\ def_eq T d1 d2 = false) ->
    foldM (add_def T) (ops ++ o1 :: mid) u = Err ValueError.
  Proof.
    revert u. induction ops as [|o ops IH]; intros u G U D F X; cbn [app foldM].
    - destruct U as (n & ps & q & h & qs & ->). unfold add_def at 1. cbn [custom_of rbind foldM]. rewrite D. cbn [rbind].
      apply (fold_clash _ _ (cd_name d1) d1); auto; [intros; apply G; right; auto|]. apply dget_dset_same, string_eqb_spec.
    - destruct (G o (or_introl eq_refl)) as (g & qs & ->).
      assert (Step : forall u1, dget String.eqb (cd_name d1) u1 = None -> foldM (add_def T) (ops ++ o1 :: mid) u1 = Err ValueError).
      { intros u1 D1. apply IH; auto; [intros; apply G; right; auto|]. intros; eapply F; eauto; right; auto. }
      destruct g as [nm [f|d] ps q h|w k|w]; try (cbn; apply Step; auto; fail).
      unfold add_def at 1. cbn [custom_of rbind foldM]. assert (Nd : cd_name d <> cd_name d1).
      { apply (F (GateOp (MFG nm (FCustom d) ps q h) qs)); [left; auto|]. do 5 eexists. reflexivity. }
      destruct (dget String.eqb (cd_name d) u) as [d'|] eqn:Ed.
      + destruct (def_eq T d' d); [|reflexivity]. cbn [negb rbind]. apply Step; auto.
      + cbn [rbind]. apply Step. rewrite dget_dset_other; auto using string_eqb_spec.
  Qed.
  Theorem C09_clash : forall c pre o1 mid o2 post d1 d2, c_ops c = pre ++ o1 :: mid ++ o2 :: post ->
    (forall o, In o (c_ops c) -> exists g qs, o = GateOp g qs) ->
    uses_directly o1 d1 -> uses_directly o2 d2 -> cd_name d1 = cd_name d2 -> def_eq T d1 d2 = false ->
    (forall o d, In o pre -> uses_directly o d -> cd_name d <> cd_name d1) ->
    circuit_to_dict T c = Err ValueError.
  Proof.
    intros c pre o1 mid o2 post d1 d2 E G U1 U2 N D F. unfold circuit_to_dict, collect_custom_gate_definitions. rewrite E in *.
    rewrite (fold_clash' pre [] o1 (mid ++ o2 :: post) d1); auto.
    exists o2, d2. split; [apply in_or_app; right; left; auto|auto].
  Qed.

  (** Findings. A custom gate used only under a modifier cannot be read back: ValueError, for every such gate. *)
  Theorem C09_modified_custom_refuted : forall g qs n d ps q h, core g = MFG n (FCustom d) ps q h -> g <> core g -> ~ reserved n -> qs <> [] ->
    exists c j, mk_circuit [GateOp g qs] None = Ok c /\ circuit_to_dict T c = Ok j /\ circuit_from_dict T j = Err ValueError.
  Proof.
    intros g qs n d ps q h C M R Q.
    assert (Sz : exists s, circuit_size_by_operations [GateOp g qs] = Ok s).
    { unfold circuit_size_by_operations. cbn [flat_map qubit_indices]. rewrite app_nil_r. destruct qs; [contradiction|]. cbn. eauto. }
    destruct Sz as (s & Es). exists (Build_circuit [GateOp g qs] s). unfold mk_circuit. rewrite Es. cbn [rbind].
    assert (Cc : collect_custom_gate_definitions T (Build_circuit [GateOp g qs] s) = Ok []).
    { unfold collect_custom_gate_definitions. cbn [c_ops foldM]. destruct g; cbn; auto. cbn in C. destruct M. reflexivity. }
    eexists. split; [reflexivity|]. unfold circuit_to_dict. rewrite Cc. cbn [rbind c_ops mapM op_to_dict jopt app]. split; [reflexivity|].
    unfold circuit_from_dict. cbn [as_dict rbind jget dget String.eqb Ascii.eqb Bool.eqb CIRCUIT_SCHEMA get_list as_list mapM].
    assert (E : gate_from_dict T [] (gate_to_dict T g) = Err ValueError).
    { apply read_modified_err; [discriminate|]. rewrite C. cbn [gate_to_dict gate_from_dict]. fold (basic_dict T n ps).
      rewrite basic_wrapped. unfold builtin_gate_from_dict at 1. rewrite basic_name. cbn [rbind as_str]. rewrite not_reserved_lookup by auto. cbn [rbind].
      assert (X : custom_gate_instance_from_dict T (basic_dict T n ps) [] = Err ValueError) by reflexivity.
      destruct (String.eqb n "Control"); [exact X|]. destruct (String.eqb n "Dagger"); exact X. }
    unfold op_from_dict. cbn [as_dict rbind jitem jget dget String.eqb Ascii.eqb Bool.eqb]. rewrite E. reflexivity.
  Qed.
  (** A custom gate without parameters that has the name of a built-in gate is read back as the built-in gate. *)
  Theorem C09_builtin_name_refuted : forall b d qs, In b builtins -> b_arity b = 0 -> cd_name d = b_name b ->
    (exists n, length (cd_matrix d) = 2 ^ n /\ forall r, In r (cd_matrix d) -> length r = 2 ^ n) -> qs <> [] ->
    (forall r, In r (cd_matrix d) -> forall e, In e r -> survives T (cd_ordering d) (PExpr e)) ->
    exists g c j s, call_def d [] = Ok g /\ mk_circuit [GateOp g qs] None = Ok c /\ circuit_to_dict T c = Ok j /\
      circuit_from_dict T j = Ok (Build_circuit [GateOp (mk_builtin b []) qs] s).
  Proof.
    intros b d qs I A N (m & L & R) Q S.
    exists (MFG (cd_name d) (FCustom d) [] (Z.of_nat m) false).
    assert (Qs : exists q, py_max qs = Ok q) by (destruct qs; [contradiction|]; cbn; eauto). destruct Qs as (q & Eq).
    set (g := MFG (cd_name d) (FCustom d) [] (Z.of_nat m) false).
    exists (Build_circuit [GateOp g qs] (Z.of_nat q + 1)). do 2 eexists.
    split; [unfold call_def; rewrite (def_qubits_ok _ m L R); reflexivity|].
    assert (Es : circuit_size_by_operations (Num := Num) [GateOp g qs] = Ok (Z.of_nat q + 1)%Z).
    { unfold circuit_size_by_operations. cbn [flat_map qubit_indices]. rewrite app_nil_r, Eq. reflexivity. }
    split; [unfold mk_circuit; rewrite Es; reflexivity|]. split; [reflexivity|].
    unfold circuit_from_dict. cbn [as_dict rbind jget dget String.eqb Ascii.eqb Bool.eqb CIRCUIT_SCHEMA get_list as_list app jopt c_ops].
    assert (Ed : def_from_dict T (def_to_dict T d) = Ok (reread_def T d)).
    { unfold def_from_dict, def_to_dict. cbn [as_dict rbind].
      change (get_strs "params_ordering" _) with (as_strs (jstrs (cd_ordering d))). rewrite as_strs_jstrs. cbn [rbind].
      cbn [jitem jget dget String.eqb Ascii.eqb Bool.eqb rbind as_str as_list].
      replace (map _ (cd_matrix d)) with (map jstrs (map (map (fun e => ser T (PExpr e))) (cd_matrix d))) by (rewrite map_map; reflexivity).
      rewrite mapM_as_strs. cbn [rbind]. unfold mk_def.
      replace (map (map (fun s => deser T s (cd_ordering d))) _) with (cd_matrix (reread_def T d)) by (cbn; rewrite map_map; apply map_ext; intros r; symmetry; apply map_map).
      rewrite (def_qubits_ok (cd_matrix (reread_def T d)) m); [reflexivity| |].
      - cbn. rewrite map_length. auto.
      - cbn. intros r Hr. apply in_map_iff in Hr as (r0 & <- & H). rewrite map_length. auto. }
    cbn [mapM dvals dset add_def custom_of foldM rbind]. 
    change (sort_by _ _) with [d]. cbn [map mapM]. cbn [get_list jget jopt dget String.eqb Ascii.eqb Bool.eqb as_list rbind mapM]. rewrite Ed. cbn [rbind].
    unfold op_from_dict. cbn [as_dict rbind jitem jget dget String.eqb Ascii.eqb Bool.eqb].
    assert (Eg : gate_to_dict T g = gate_to_dict T (mk_builtin b [])) by (unfold g; cbn [gate_to_dict mk_builtin]; rewrite N; reflexivity).
    rewrite Eg, (read_builtin T _ b []) by auto. cbn [rbind as_list]. rewrite read_indices. cbn [rbind map as_int c_nq].
    unfold mk_circuit_Z, mk_circuit. 
    assert (Eb : Qeq_bool (inject_Z (Z.of_nat q + 1)) 0 = false).
    { destruct (Qeq_bool _ 0) eqn:X; [|reflexivity]. apply Qeq_bool_iff in X. unfold Qeq in X. cbn in X. lia. }
    rewrite Eb. assert (P : py_int (inject_Z (Z.of_nat q + 1)) = (Z.of_nat q + 1)%Z) by (unfold py_int; cbn [Qnum Qden inject_Z]; apply Z.quot_1_r).
    rewrite P, (proj2 (Qeq_bool_iff _ _) (Qeq_refl _)). cbn [negb]. destruct (Z.leb_spec (Z.of_nat q + 1) 0); [lia|]. reflexivity.
  Qed.

  (** C10.  Definitions of equal shape are equal iff name, ordering and all entries are. *)
  Theorem C10_same_shape : forall d1 d2 n m, length (cd_matrix d1) = n -> length (cd_matrix d2) = n ->
    (forall r, In r (cd_matrix d1) -> length r = m) -> (forall r, In r (cd_matrix d2) -> length r = m) ->
    (def_eq T d1 d2 = true <-> cd_name d1 = cd_name d2 /\ cd_ordering d1 = cd_ordering d2 /\
       Forall2 (Forall2 (fun a b => elem_eq T (PExpr a) (PExpr b) = true)) (cd_matrix d1) (cd_matrix d2)).
  Proof.
    intros d1 d2 n m L1 L2 R1 R2. unfold def_eq. rewrite !Bool.andb_true_iff, String.eqb_eq.
    pose proof (list_eqb_spec String.eqb string_eqb_spec (cd_ordering d1) (cd_ordering d2)) as LE.
    enough (G : matrices_equal T (cd_matrix d1) (cd_matrix d2) = true <->
       Forall2 (Forall2 (fun a b => elem_eq T (PExpr a) (PExpr b) = true)) (cd_matrix d1) (cd_matrix d2)) by tauto.
    split; [|apply matrices_equal_of]. unfold matrices_equal. revert n L1 L2. generalize dependent (cd_matrix d2).
    induction (cd_matrix d1) as [|r1 m1 IH]; intros [|r2 m2] R2 n L1 L2 H; cbn in *; try (subst; discriminate); [constructor|].
    destruct n as [|n]; [discriminate|].
    assert (E1 : length r1 = m) by (apply R1; auto). assert (E2 : length r2 = m) by (apply R2; auto).
    assert (Cb : combine (r1 ++ concat m1) (r2 ++ concat m2) = combine r1 r2 ++ combine (concat m1) (concat m2)).
    { clear - E1 E2. subst m. revert r2 E2. induction r1 as [|a r1 IH]; intros [|b r2] E; cbn in *; try discriminate; auto. f_equal. auto. }
    rewrite Cb, forallb_app, Bool.andb_true_iff in H. destruct H as [H1 H2]. constructor.
    - clear - H1 E1 E2. subst m. revert r2 E2 H1. induction r1 as [|a r1 IH]; intros [|b r2] E H; cbn in *; try discriminate; constructor.
      + apply Bool.andb_true_iff in H as [H _]. exact H.
      + apply IH; [lia|]. apply Bool.andb_true_iff in H as [_ H]. exact H.
    - apply (IH (fun r H => R1 r (or_intror H)) m2 (fun r H => R2 r (or_intror H)) n); auto.
  Qed.
End C09.

(** ** Different shapes *)
Section Shapes.
  Local Open Scope R_scope.
  Definition sumsq (l : list C) : R := fold_right (fun z s => cabs2 z + s) 0 l.
  Lemma sumsq_app l1 l2 : sumsq (l1 ++ l2) = sumsq l1 + sumsq l2.
  Proof. unfold sumsq. induction l1 as [|a l1 IH]; cbn [app fold_right]; [|rewrite IH]; lra. Qed.
  Lemma sumsq_nonneg l : 0 <= sumsq l.
  Proof. unfold sumsq. induction l as [|z l IH]; cbn [fold_right]; [lra|]. pose proof (cabs2_nonneg z). lra. Qed.
  Lemma sumsq_firstn k l : sumsq (firstn k l) <= sumsq l.
  Proof. rewrite <- (firstn_skipn k l) at 2. rewrite sumsq_app. pose proof (sumsq_nonneg (skipn k l)). lra. Qed.
  Lemma sumsq_rows (m : list (list C)) : (forall r, In r m -> sumsq r = 1) -> sumsq (concat m) = INR (length m).
  Proof.
    induction m as [|r m IH]; intros H; [reflexivity|]. cbn [concat length]. rewrite sumsq_app, H, IH, S_INR by auto with datatypes. ring.
  Qed.
  Lemma sumsq_prefix N r : forall k (m : list (list C)), (k <= r * N)%nat -> (forall row, In row m -> length row = N /\ sumsq row = 1) ->
    sumsq (firstn k (concat m)) <= INR r.
  Proof.
    induction r as [|r IH]; intros k m K H.
    - assert (k = 0%nat) as -> by lia. cbn. lra.
    - destruct m as [|row m]; [rewrite firstn_nil; cbn [sumsq fold_right]; apply pos_INR|].
      cbn [concat]. rewrite firstn_app, sumsq_app, S_INR. destruct (H row (or_introl eq_refl)) as [L S].
      pose proof (sumsq_firstn k row). rewrite L.
      assert (sumsq (firstn (k - N) (concat m)) <= INR r) by (apply IH; [lia|]; intros; apply H; right; auto). lra.
  Qed.
  (** For unitary matrices of at least one qubit the comparison also recognises the shape: a smaller one never agrees with the
      beginning of a larger one.  [val] is the numerical value of an entry. *)
  Theorem C10_unitary_shape : forall (Num : Type) (T : text_oracle Num) (val : expr Num -> C) m1 m2 n1 n2,
    (forall a b, elem_eq T (PExpr a) (PExpr b) = true -> val a = val b) ->
    (1 <= n1)%nat -> (1 <= n2)%nat -> length m1 = (2 ^ n1)%nat -> length m2 = (2 ^ n2)%nat ->
    (forall r, In r m1 -> length r = (2 ^ n1)%nat /\ sumsq (map val r) = 1) -> (forall r, In r m2 -> length r = (2 ^ n2)%nat /\ sumsq (map val r) = 1) ->
    matrices_equal T m1 m2 = true -> n1 = n2.
  Proof.
    intros Num T val.
    assert (Main : forall m1 m2 n1 n2, (1 <= n1)%nat -> (n1 < n2)%nat -> length m1 = (2 ^ n1)%nat -> length m2 = (2 ^ n2)%nat ->
      (forall r, In r m1 -> length r = (2 ^ n1)%nat /\ sumsq (map val r) = 1) -> (forall r, In r m2 -> length r = (2 ^ n2)%nat /\ sumsq (map val r) = 1) ->
      (forall a b, In (a, b) (combine (concat m1) (concat m2)) -> val a = val b) -> False).
    { intros m1 m2 n1 n2 P1 P2 L1 L2 R1 R2 E.
      assert (Len : forall (m : list (list (expr Num))) N, (forall r, In r m -> length r = N) -> length (concat m) = (length m * N)%nat).
      { induction m as [|r m IH]; intros N H; [reflexivity|]. cbn. rewrite app_length, (H r), (IH N) by auto with datatypes. reflexivity. }
      assert (E1 : length (concat m1) = (2 ^ n1 * 2 ^ n1)%nat) by (rewrite (Len m1 (2 ^ n1)%nat), L1; [reflexivity|apply R1]).
      assert (E2 : length (concat m2) = (2 ^ n2 * 2 ^ n2)%nat) by (rewrite (Len m2 (2 ^ n2)%nat), L2; [reflexivity|apply R2]).
      assert (Hp : (2 ^ n1 < 2 ^ n2)%nat) by (apply Nat.pow_lt_mono_r; lia).
      assert (Q : map val (concat m1) = firstn (2 ^ n1 * 2 ^ n1) (map val (concat m2))).
      { rewrite <- E1. assert (Le : (length (concat m1) <= length (concat m2))%nat) by (rewrite E1, E2; nia).
        clear - E Le. revert E Le. generalize (concat m1) (concat m2). induction l as [|a l IH]; intros [|b l'] E Le; cbn in *; auto; [lia|].
        f_equal; [apply E; left; auto|]. apply IH; [intros; apply E; right; auto|lia]. }
      assert (S1 : sumsq (map val (concat m1)) = INR (2 ^ n1)).
      { rewrite concat_map, sumsq_rows, map_length, L1; [reflexivity|]. intros r Hr. apply in_map_iff in Hr as (r0 & <- & H0). apply R1; auto. }
      assert (S2 : sumsq (firstn (2 ^ n1 * 2 ^ n1) (map val (concat m2))) <= INR (2 ^ (2 * n1 - n2))).
      { rewrite concat_map. apply (sumsq_prefix (2 ^ n2)).
        - rewrite <- !Nat.pow_add_r. apply Nat.pow_le_mono_r; lia.
        - intros r Hr. apply in_map_iff in Hr as (r0 & <- & H0). rewrite map_length. apply R2; auto. }
      rewrite Q in S1. rewrite S1 in S2. apply INR_le in S2. assert ((2 ^ (2 * n1 - n2) < 2 ^ n1)%nat) by (apply Nat.pow_lt_mono_r; lia). lia. }
    intros m1 m2 n1 n2 EV P1 P2 L1 L2 R1 R2 H. unfold matrices_equal in H. rewrite forallb_forall in H.
    assert (E : forall a b, In (a, b) (combine (concat m1) (concat m2)) -> val a = val b) by (intros a b I; apply EV; apply (H (a, b) I)).
    destruct (Nat.lt_trichotomy n1 n2) as [L|[L|L]]; [exfalso; apply (Main m1 m2 n1 n2); auto|exact L|exfalso; apply (Main m2 m1 n2 n1); auto].
    intros a b I. symmetry. apply E. clear - I. revert I. generalize (concat m1) (concat m2).
    induction l as [|x l IH]; intros [|y l'] I; cbn in *; auto. destruct I as [[= -> ->]|I]; auto.
  Qed.
End Shapes.

(** ** Examples: a small text format.  Numbers are written in decimal, a symbol by its name; a name is read as a symbol only if it is
    among the known names or is not the name of a function. *)
Local Open Scope string_scope.
Definition toy_ser (p : param Z) : string :=
  match expr_of_param p with
  | ENum 0%Z => "0" | ENum 1%Z => "1" | ENum 2%Z => "2" | ESym s => s | _ => "?"
  end.
Definition toy_deser (s : string) (names : list string) : expr Z :=
  if memb String.eqb s names then ESym s
  else if String.eqb s "0" then ENum 0%Z else if String.eqb s "1" then ENum 1%Z else if String.eqb s "2" then ENum 2%Z
  else if String.eqb s "beta" then EApp "function" [] else ESym s.
Definition toy_eq (a b : param Z) : bool :=
  match expr_of_param a, expr_of_param b with
  | ENum x, ENum y => Z.eqb x y
  | ESym x, ESym y => String.eqb x y
  | _, _ => false
  end.
Definition toy : text_oracle Z := {| ser := toy_ser; deser := toy_deser; elem_eq := toy_eq |}.
Definition toy_def : custom_def Z :=
  {| cd_name := "U"; cd_matrix := [[ENum 0; ESym "beta"]; [ENum 1; ENum 0]]%Z; cd_ordering := ["beta"] |}.
Definition toy_gate (ps : list (param Z)) : gate Z := MFG "U" (FCustom toy_def) ps 1 false.
Definition toy_ops : list (operation Z) :=
  [GateOp (MFG "RX" (FBuiltin "rx_matrix") [PExpr (ESym "beta")] 1 false) [0];
   GateOp (Controlled (Dagger (toy_gate [PNum 2%Z])) 2%Z) [0; 1; 3];
   GateOp (toy_gate [PExpr (ESym "beta")]) [1]; GateOp (MFG "CNOT" (FBuiltin "cnot_matrix") [] 2 true) [0; 1]]%nat.
Example C09_example_writable : writable toy toy_ops.
Proof.
  assert (Gd : good_def toy toy_def).
  { split; [intros [H|H]; cbn in H; repeat (destruct H as [H|H]; [discriminate|]); exact H|]. split.
    - exists 1%nat. split; [reflexivity|]. intros r [<-|[<-|[]]]; reflexivity.
    - intros r e [<-|[<-|[]]] He; repeat (destruct He as [<-|He]; [repeat split|]); destruct He. }
  assert (U : forall o d, In o toy_ops -> uses o d -> d = toy_def).
  { intros o d H (g & qs & n & ps & q & h & -> & C). repeat (destruct H as [[= <- <-]|H]; [cbn in C; try discriminate; injection C; intros; congruence|]). destruct H. }
  split; [|split].
  - intros o H. repeat (destruct H as [<-|H]; [do 2 eexists; split; [reflexivity|]; split; [cbn; lia || (repeat split; lia) || exact I|]|]); [| | | |destruct H].
    + left. exists (Build_builtin "RX" "rx_matrix" 1 false 1 (args1 rx_matrix)), [PExpr (ESym "beta")].
      split; [cbn; tauto|]. split; [reflexivity|]. split; [reflexivity|]. constructor; [split; reflexivity|constructor].
    + right. exists toy_def. eexists. split; [reflexivity|]. split; [exact Gd|]. intros p ps' [= <- <-]. split; [split; reflexivity|constructor].
    + right. exists toy_def. eexists. split; [reflexivity|]. split; [exact Gd|]. intros p ps' [= <- <-]. split; [split; reflexivity|constructor].
    + left. exists (Build_builtin "CNOT" "cnot_matrix" 2 true 0 (args0 cnot_matrix)), [].
      split; [cbn; tauto|]. split; [reflexivity|]. split; [reflexivity|]. constructor.
  - intros o d H Us. rewrite (U o d H Us). exists (GateOp (toy_gate [PExpr (ESym "beta")]) [1%nat]). split; [right; right; left; reflexivity|].
    do 5 eexists. reflexivity.
  - intros o1 o2 d1 d2 H1 H2 U1 U2 _. rewrite (U _ _ H1 U1), (U _ _ H2 U2). reflexivity.
Qed.
Example C09_example : exists c j, mk_circuit toy_ops None = Ok c /\ circuit_to_dict toy c = Ok j /\
  exists c', circuit_from_dict toy j = Ok c' /\ c_nq c' = 4%Z /\ circuit_eq toy c c' = true.
Proof.
  eexists. eexists. split; [reflexivity|]. split; [vm_compute; reflexivity|]. eexists. split; [vm_compute; reflexivity|]. split; vm_compute; reflexivity.
Qed.
(** The iterator of symbol names is exhausted by the first parameter: a second parameter named like a function is lost. *)
Theorem C09_second_parameter_refuted : exists c j c',
  mk_circuit [GateOp (toy_gate [PExpr (ESym "beta"); PExpr (ESym "beta")]) [0%nat]] None = Ok c /\
  survives toy (cd_ordering toy_def) (PExpr (ESym "beta")) /\
  circuit_to_dict toy c = Ok j /\ circuit_from_dict toy j = Ok c' /\ circuit_eq toy c c' = false.
Proof.
  eexists. eexists. eexists. split; [reflexivity|]. split; [split; reflexivity|]. split; [vm_compute; reflexivity|]. split; [vm_compute; reflexivity|]. vm_compute; reflexivity.
Qed.
(** C10 fails for matrices of different shapes: the zip compares only the common beginning. *)
Definition small_def : custom_def Z := {| cd_name := "U"; cd_matrix := [[ENum 1; ENum 0]; [ENum 0; ENum 1]]%Z; cd_ordering := [] |}.
Definition large_def : custom_def Z :=
  {| cd_name := "U"; cd_matrix := [[ENum 1; ENum 0; ENum 0; ENum 1]; [ENum 0; ENum 1; ENum 0; ENum 0]; [ENum 0; ENum 0; ENum 1; ENum 0]; [ENum 0; ENum 0; ENum 0; ENum 1]]%Z;
     cd_ordering := [] |}.
Theorem C10_shapes_refuted : def_eq toy small_def large_def = true /\ length (cd_matrix small_def) <> length (cd_matrix large_def) /\
  (exists n, mk_def "U" (cd_matrix small_def) [] = Ok small_def /\ def_qubits (cd_matrix large_def) = Ok n).
Proof. split; [reflexivity|]. split; [discriminate|]. exists 2%nat. split; reflexivity. Qed.
Print Assumptions C09_round_trip.
Print Assumptions C10_unitary_shape.
