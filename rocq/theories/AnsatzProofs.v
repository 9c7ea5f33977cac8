(** Lemmas about cached circuits and the mock ansatz. *)
From Coq Require Import List ZArith NArith String Ascii Bool Lia Permutation Sorted DecimalString Decimal DecimalPos.
From Verif Require Import Base BaseFacts CircuitModel UtilsModel SymModel SymSpec SymProofs EstModel CostModel AnsatzModel AnsatzSpec SymProps.
Import ListNotations.
Open Scope nat_scope.
Open Scope string_scope.
Open Scope list_scope.

Section Caching.
  Context {V Num Circ : Type}.
  Notation at_ := (attrs V Circ).
  Lemma getattr_set_same n v (d : at_) : getattr n (setattr n v d) = Some v.
  Proof. apply (dget_dset_same String.eqb String.eqb_eq). Qed.
  Lemma getattr_set_other n m v (d : at_) : n <> m -> getattr n (setattr m v d) = getattr n d.
  Proof. intros N. apply (dget_dset_other String.eqb String.eqb_eq). congruence. Qed.
  Lemma attrname_inj a b : attrname a = attrname b -> a = b.
  Proof. unfold attrname. cbn. congruence. Qed.

  Lemma dynamic_get_spec n v (d : at_) : exists d', dynamic_get n v d = (d', Ok (worth d (n, v))) /\
    (forall p, fst p <> n -> worth d' p = worth d p) /\ worth d' (n, v) = worth d (n, v) /\ (getattr (attrname n) d <> None -> d' = d) /\
    (forall k, k <> attrname n -> getattr k d' = getattr k d).
  Proof.
    unfold dynamic_get, worth. cbn [fst snd]. destruct (getattr (attrname n) d) as [w|] eqn:E.
    - rewrite E. exists d. rewrite E. auto 6.
    - rewrite getattr_set_same. eexists. split; [reflexivity|]. split.
      { intros [m w] H. cbn [fst snd] in *. rewrite getattr_set_other by (intros X; apply attrname_inj in X; congruence). reflexivity. }
      split; [rewrite getattr_set_same; reflexivity|]. split; [congruence|]. intros k Hk. apply getattr_set_other, Hk.
  Qed.
  Context (decls : list (string * V)).
  Lemma get_harmless n v : In (n, v) decls -> NoDup (map fst decls) ->
    forall d : at_, getattr cache d <> None -> unchanged decls d (fst (dynamic_get n v d)).
  Proof.
    intros HI ND d HC. destruct (dynamic_get_spec n v d) as (d' & E & H1 & H2 & H3 & H4). rewrite E. cbn [fst]. split.
    - apply map_ext_in. intros [m w] Hm. destruct (String.string_dec m n) as [->|N]; [|apply H1; exact N].
      assert (w = v) as ->; [|exact H2].
      clear - HI ND Hm. induction decls as [|[k x] l IH]; [contradiction|]. cbn in *. inversion ND as [|? ? N1 N2]; subst.
      destruct Hm as [Hm|Hm], HI as [HI|HI]; try congruence; auto.
      + injection Hm as -> ->. exfalso. apply N1. apply in_map_iff. exists (n, v). auto.
      + injection HI as -> ->. exfalso. apply N1. apply in_map_iff. exists (n, w). auto.
    - destruct (String.string_dec cache (attrname n)) as [X|X]; [|apply H4; exact X]. rewrite H3; [reflexivity|]. rewrite <- X. exact HC.
  Qed.

  Context (supports : bool) (generate : M at_ Circ) (generate_with : list Num -> M at_ Circ)
          (free_symbols : Circ -> list string) (bind : Circ -> list (string * Num) -> result Circ) (key_leb : string -> string -> bool)
          (Hdecls : NoDup (map fst decls)) (Hname : ~ In "parametrized_circuit" (map fst decls))
          (Hgen : determined decls generate) (Hgen' : harmless decls generate) (Hwith : forall p, harmless decls (generate_with p)).
  Notation circuit_ := (parametrized_circuit supports generate).
  Notation run_ := (run supports generate generate_with free_symbols bind key_leb).
  (** the cache is empty or holds what would be generated *)
  Definition inv (o : obj V Circ) : Prop :=
    exists c, getattr cache (o_attrs o) = Some (SCircuit c) /\ match c with None => True | Some c => supports = true /\ snd (generate (o_attrs o)) = Ok c end.
  Lemma inv_unchanged o d : inv o -> unchanged decls (o_attrs o) d -> inv {| o_attrs := d; o_made := o_made o |}.
  Proof.
    intros (c & E & H) (U1 & U2). exists c. cbn [o_attrs]. split; [congruence|]. destruct c as [c|]; [|exact I]. destruct H as [S H]. split; [exact S|]. rewrite <- H. apply Hgen. exact U1.
  Qed.
  Lemma worth_cache v (d : at_) : map (worth (setattr cache v d)) decls = map (worth d) decls.
  Proof.
    apply map_ext_in. intros [m w] Hm. unfold worth. cbn [fst snd]. rewrite getattr_set_other; [reflexivity|].
    intros X. apply Hname. apply in_map_iff. exists (m, w). split; [|exact Hm]. cbn [fst]. apply attrname_inj. exact X.
  Qed.
  Lemma circuit_spec o : inv o ->
    inv (fst (circuit_ o)) /\ snd (circuit_ o) = (if supports then snd (generate (o_attrs o)) else Err NotImplementedError) /\
    map (worth (o_attrs (fst (circuit_ o)))) decls = map (worth (o_attrs o)) decls.
  Proof.
    intros (c & E & H). unfold parametrized_circuit. rewrite E. destruct c as [c|].
    - destruct H as [S H]. rewrite S. cbn [fst snd]. split; [exists (Some c); rewrite E; auto|]. split; [symmetry; exact H|reflexivity].
    - destruct supports eqn:ES; [|cbn [fst snd]; split; [exists None; auto|auto]].
      destruct (generate (o_attrs o)) as [d [c|e]] eqn:G; cbn [fst snd o_attrs].
      + pose proof (Hgen' (o_attrs o)) as [U1 U2]. rewrite G in U1, U2. cbn [fst] in U1, U2.
        rewrite (worth_cache (SCircuit (Some c)) d). split; [|split; [reflexivity|exact U1]].
        exists (Some c). cbn [o_attrs]. split; [apply getattr_set_same|]. split; [exact ES|].
        replace (Ok c) with (snd (generate (o_attrs o))) by (rewrite G; reflexivity). apply Hgen. rewrite worth_cache. exact U1.
      + pose proof (Hgen' (o_attrs o)) as [U1 U2]. rewrite G in U1, U2. cbn [fst] in U1, U2.
        split; [exists None; cbn [o_attrs]; split; [congruence|exact I]|]. split; [reflexivity|exact U1].
  Qed.
  Lemma params_spec o : inv o -> inv (fst (number_of_params supports generate free_symbols o)) /\
    map (worth (o_attrs (fst (number_of_params supports generate free_symbols o)))) decls = map (worth (o_attrs o)) decls.
  Proof.
    intros H. destruct (circuit_spec o H) as (H1 & H2 & H3). unfold number_of_params. destruct supports; [|split; [exact H|reflexivity]].
    unfold bindM, retM. destruct (parametrized_circuit true generate o) as [o' [c|e]]; cbn [fst] in *; auto.
  Qed.
  Lemma execute_spec p o : inv o -> let m := get_executable_circuit supports generate generate_with free_symbols bind key_leb p in
    inv (fst (m o)) /\ map (worth (o_attrs (fst (m o)))) decls = map (worth (o_attrs o)) decls.
  Proof.
    intros H. cbv zeta. unfold get_executable_circuit. destruct p as [p|]; [|split; [exact H|reflexivity]].
    destruct supports eqn:ES.
    - destruct (circuit_spec o H) as (H1 & H2 & H3). unfold bindM, liftM. rewrite ES in *.
      destruct (parametrized_circuit true generate o) as [o1 [c|e]] eqn:E1; cbn [fst snd] in *; [|auto].
      destruct (create_symbols_map (sort_by key_leb (free_symbols c)) p) as [m|e]; cbn [fst]; [|auto].
      destruct (circuit_spec o1 H1) as (H4 & H5 & H6). rewrite ES in *. destruct (parametrized_circuit true generate o1) as [o2 [c2|e]]; cbn [fst snd] in *.
      + split; [exact H4|congruence].
      + split; [exact H4|congruence].
    - unfold on_attrs. pose proof (Hwith p (o_attrs o)) as U. destruct (generate_with p (o_attrs o)) as [d r]. cbn [fst] in *.
      split; [|exact (proj1 U)]. apply (inv_unchanged o d H). exact U.
  Qed.
  Lemma run_inv a o : inv o -> allowed decls a -> inv (run_ a o).
  Proof.
    intros H A. destruct a as [n v|n v|b|b| | |p]; cbn [run allowed] in *.
    - exists None. unfold on_attrs, property_set, invalidating, bindM, dynamic_set. cbn [fst o_attrs]. split; [apply getattr_set_same|exact I].
    - unfold on_attrs, property_get. pose proof (get_harmless n v A Hdecls (o_attrs o)) as U.
      destruct H as (c & E & H). specialize (U ltac:(congruence)). destruct (dynamic_get n v (o_attrs o)) as [d r]. cbn [fst] in *.
      apply (inv_unchanged o d); [exists c; auto|exact U].
    - unfold on_attrs, invalidating, bindM. specialize (A (o_attrs o)). destruct (b (o_attrs o)) as [d [r|e]]; cbn [fst snd] in *.
      + exists None. cbn [o_attrs]. split; [apply getattr_set_same|exact I].
      + apply (inv_unchanged o d H). eapply A. reflexivity.
    - unfold on_attrs. specialize (A (o_attrs o)). destruct (b (o_attrs o)) as [d r]. cbn [fst] in *. apply (inv_unchanged o d H A).
    - apply circuit_spec, H.
    - apply params_spec, H.
    - apply execute_spec, H.
  Qed.
  Lemma run_all_inv l o : inv o -> Forall (allowed decls) l -> inv (run_all supports generate generate_with free_symbols bind key_leb l o).
  Proof.
    intros H F. revert o H. unfold run_all. induction F as [|a l A F IH]; intros o H; cbn [fold_left]; [exact H|]. apply IH. apply run_inv; assumption.
  Qed.

  (** ** No second generation *)
  Definition cached (c : Circ) (o : obj V Circ) : Prop := getattr cache (o_attrs o) = Some (SCircuit (Some c)).
  Lemma cached_circuit c o : cached c o -> circuit_ o = (o, Ok c).
  Proof. unfold cached, parametrized_circuit. intros ->. reflexivity. Qed.
  Lemma run_cached c a o : supports = true -> cached c o -> only_reads decls a -> cached c (run_ a o) /\ o_made (run_ a o) = o_made o.
  Proof.
    intros S C A. destruct a as [n v|n v|b|b| | |p]; cbn [run only_reads allowed] in *; try contradiction.
    - unfold on_attrs, property_get, cached in *. pose proof (get_harmless n v A Hdecls (o_attrs o) ltac:(congruence)) as [_ U].
      destruct (dynamic_get n v (o_attrs o)) as [d r]. cbn [fst o_attrs o_made] in *. split; [congruence|reflexivity].
    - unfold on_attrs, cached in *. destruct (A (o_attrs o)) as [_ U]. destruct (b (o_attrs o)) as [d r]. cbn [fst o_attrs o_made] in *. split; [congruence|reflexivity].
    - rewrite (cached_circuit c o C). auto.
    - unfold number_of_params, bindM. pose proof (cached_circuit c o C) as E. rewrite S in *. rewrite E. auto.
    - unfold get_executable_circuit. destruct p as [p|]; [|auto]. pose proof (cached_circuit c o C) as E. rewrite S in *. unfold bindM, liftM. rewrite E.
      destruct (create_symbols_map _ p) as [m|e]; [|auto]. rewrite E. auto.
  Qed.
End Caching.

(** ** Names theta_i *)
Lemma decimal_app l1 l2 : (decimal_value (l1 ++ l2) = decimal_value l1 * 10 ^ N.of_nat (length l2) + decimal_value l2)%N.
Proof.
  induction l1 as [|c l1 IH]; cbn [app decimal_value]; [lia|]. rewrite IH, app_length, Nat2N.inj_add, N.pow_add_r. lia.
Qed.
Definition chars (d : uint) : list ascii := list_ascii_of_string (NilEmpty.string_of_uint d).
Lemma chars_digits d : forall c, In c (chars d) -> is_digit c = true.
Proof. unfold chars. induction d; cbn; intros c H; try contradiction; destruct H as [<-|H]; try reflexivity; apply IHd, H. Qed.
Lemma chars_acc d acc : Pos.of_uint_acc d acc = match (Npos acc * 10 ^ N.of_nat (length (chars d)) + decimal_value (chars d))%N with N0 => xH | Npos p => p end.
Proof.
  revert acc. induction d; intros acc; unfold chars; cbn [NilEmpty.string_of_uint list_ascii_of_string]; [cbn; destruct acc; cbn; lia|..];
    (cbn [Pos.of_uint_acc]; rewrite IHd; fold (chars d); cbn [length decimal_value]; rewrite Nat2N.inj_succ, N.pow_succ_r'; 
     match goal with |- match ?x with _ => _ end = match ?y with _ => _ end => replace y with x; [reflexivity|] end;
     match goal with |- context [(N_of_ascii ?c - N_of_ascii "0")%N] => let v := eval vm_compute in (N_of_ascii c - N_of_ascii "0")%N in change (N_of_ascii c - N_of_ascii "0")%N with v end;
     first [match goal with |- context [N.pos (?k + 10 * acc)] => change (N.pos (k + 10 * acc)) with (N.pos k + 10 * N.pos acc)%N end
           |change (N.pos (10 * acc)) with (10 * N.pos acc)%N]; ring).
Qed.
Lemma chars_value d : Pos.of_uint d = decimal_value (chars d).
Proof.
  induction d; cbn [Pos.of_uint]; [reflexivity|..]; unfold chars; cbn [NilEmpty.string_of_uint list_ascii_of_string]; fold (chars d);
    [rewrite IHd; cbn [decimal_value]; 
     match goal with |- context [(N_of_ascii ?c - N_of_ascii "0")%N] => let v := eval vm_compute in (N_of_ascii c - N_of_ascii "0")%N in change (N_of_ascii c - N_of_ascii "0")%N with v end; lia|..];
    (rewrite chars_acc; cbn [decimal_value];
     match goal with |- context [(N_of_ascii ?c - N_of_ascii "0")%N] => let v := eval vm_compute in (N_of_ascii c - N_of_ascii "0")%N in change (N_of_ascii c - N_of_ascii "0")%N with v end;
     
     match goal with |- Npos (match ?x with _ => _ end) = ?y => replace y with x; [destruct x as [|p0] eqn:E0; [exfalso|reflexivity]|reflexivity] end;
     assert (0 < 10 ^ N.of_nat (length (chars d)))%N by (apply N.neq_0_lt_0, N.pow_nonzero; lia); lia).
Qed.
Lemma str_numeral (i : nat) : numeral (str_of_int (Z.of_nat i)) /\ numeral_value (str_of_int (Z.of_nat i)) = N.of_nat i.
Proof.
  destruct i as [|i].
  - split; [split; [discriminate|]|reflexivity]. intros c H. cbn in H. destruct H as [<-|[]]. reflexivity.
  - unfold str_of_int. cbn [Z.of_nat Z.to_int]. unfold NilZero.string_of_int. set (p := Pos.of_succ_nat i).
    assert (NZ : Pos.to_uint p <> Nil) by apply DecimalPos.Unsigned.to_uint_nonnil.
    assert (E : NilZero.string_of_uint (Pos.to_uint p) = NilEmpty.string_of_uint (Pos.to_uint p)) by (destruct (Pos.to_uint p); congruence || reflexivity).
    rewrite E. unfold numeral, numeral_value. fold (chars (Pos.to_uint p)). rewrite <- chars_value, DecimalPos.Unsigned.of_to.
    split; [split; [destruct (Pos.to_uint p); discriminate || congruence|apply chars_digits]|]. reflexivity.
Qed.
Lemma theta_stem : no_digits "theta_".
Proof. intros c H. cbn in H. repeat destruct H as [<-|H]; try reflexivity. contradiction. Qed.
Lemma theta_lt i j : key_lt (natural_key_revlex (theta i)) (natural_key_revlex (theta j)) = Ok (Nat.ltb i j).
Proof.
  unfold theta. destruct (str_numeral i) as [N1 V1]. destruct (str_numeral j) as [N2 V2].
  rewrite (C66_revlex "theta_" "theta_" _ _ theta_stem theta_stem N1 N2), V1, V2.
  destruct (N.eqb_spec (N.of_nat i) (N.of_nat j)) as [E|E].
  - apply Nat2N.inj in E. subst j. rewrite Nat.ltb_irrefl. reflexivity.
  - f_equal. destruct (Nat.ltb_spec i j); [apply N.ltb_lt; lia|apply N.ltb_ge; lia].
Qed.
Lemma theta_inj i j : theta i = theta j -> i = j.
Proof.
  intros E. pose proof (theta_lt i j) as H1. pose proof (theta_lt j i) as H2. rewrite E in H1. rewrite <- E in H2 at 1. rewrite E in H2.
  pose proof (theta_lt j j) as H3. rewrite H3, Nat.ltb_irrefl in H1, H2. injection H1 as H1. injection H2 as H2. symmetry in H1, H2.
  apply Nat.ltb_ge in H1, H2. lia.
Qed.
Lemma revlex_total a b : revlex_leb a b = true \/ revlex_leb b a = true.
Proof.
  unfold revlex_leb. destruct (C66_order natural_key_revlex (or_intror eq_refl)) as (I1 & T1 & _).
  destruct (key_lt (natural_key_revlex b) (natural_key_revlex a)) as [[]|] eqn:E1; auto.
  destruct (key_lt (natural_key_revlex a) (natural_key_revlex b)) as [[]|] eqn:E2; auto.
  pose proof (T1 _ _ _ E1 E2) as X. rewrite I1 in X. discriminate.
Qed.
Lemma revlex_trans a b c : revlex_leb a b = true -> revlex_leb b c = true -> revlex_leb a c = true.
Proof.
  unfold revlex_leb. destruct (C66_order natural_key_revlex (or_intror eq_refl)) as (I1 & T1 & C1).
  destruct (proj2 (C66_comparable b a)) as [r1 E1]. destruct (proj2 (C66_comparable c b)) as [r2 E2]. destruct (proj2 (C66_comparable c a)) as [r3 E3].
  rewrite E1, E2, E3. destruct r1; [discriminate|]. destruct r2; [discriminate|]. intros _ _. destruct r3; [exfalso|reflexivity].
  destruct (list_eq_dec (fun x y : key_part => ltac:(decide equality; [apply String.string_dec|apply N.eq_dec])) (natural_key_revlex a) (natural_key_revlex b)) as [Q|Q].
  - rewrite <- Q, E3 in E2. discriminate.
  - destruct (C1 a b Q) as [L|L]; [|congruence]. pose proof (T1 _ _ _ E3 L). congruence.
Qed.
(** a list that is strictly increasing is the only sorted permutation of itself *)
Lemma sorted_strict {A} (leb : A -> A -> bool) l1 l2 : StronglySorted (fun a b => leb a b = true) l1 -> StronglySorted (fun a b => leb b a = false) l2 ->
  Permutation l1 l2 -> l1 = l2.
Proof.
  revert l2; induction l1 as [|a l1 IH]; intros l2 H1 H2 HP.
  - apply Permutation_nil in HP; auto.
  - destruct l2 as [|b l2]; [symmetry in HP; apply Permutation_nil in HP; discriminate|].
    apply StronglySorted_inv in H1 as [H1 F1]. apply StronglySorted_inv in H2 as [H2 F2].
    assert (a = b) as ->.
    { assert (In a (b :: l2)) as Ha by (eapply Permutation_in; [exact HP|left; auto]).
      assert (In b (a :: l1)) as Hb by (eapply Permutation_in; [symmetry; exact HP|left; auto]).
      destruct Ha as [Ha|Ha]; [auto|]. destruct Hb as [Hb|Hb]; [auto|].
      rewrite Forall_forall in F1, F2. specialize (F1 b Hb). specialize (F2 a Ha). congruence. }
    f_equal. apply IH; auto. eapply Permutation_cons_inv; eauto.
Qed.
Lemma thetas_increasing n k : StronglySorted (fun a b => revlex_leb b a = false) (map theta (seq k n)).
Proof.
  revert k. induction n as [|n IH]; intros k; cbn [seq map]; constructor; [apply IH|].
  apply Forall_forall. intros x Hx. apply in_map_iff in Hx. destruct Hx as (j & <- & Hj). apply in_seq in Hj.
  unfold revlex_leb. rewrite theta_lt. destruct (Nat.ltb_spec k j); [reflexivity|lia].
Qed.
Lemma sort_thetas n l : Permutation l (map theta (seq 0 n)) -> sort_by revlex_leb l = map theta (seq 0 n).
Proof.
  intros P. apply (sorted_strict revlex_leb).
  - apply (sort_by_sorted revlex_leb revlex_total revlex_trans).
  - apply thetas_increasing.
  - rewrite sort_by_perm. exact P.
Qed.

(** ** The circuit of the mock ansatz *)
Section MockCircuit.
  Context {Num : Type} (O : sympy_oracle Num).
  Lemma add_rx (c : circuit Num) p q : (0 <= c_nq c)%Z ->
    circuit_add c (AddOp (GateOp (gate_RX p) [q])) = Ok (Build_circuit (c_ops c ++ [GateOp (gate_RX p) [q]]) (Z.max (c_nq c) (Z.of_nat q + 1))).
  Proof.
    intros H. unfold circuit_add. cbn [py_max rbind]. replace (max_nat [q]) with q by (cbn; lia).
    unfold mk_circuit_Z, mk_circuit. set (z := Z.max (c_nq c) (Z.of_nat q + 1)). assert (Hz : (0 < z)%Z) by (unfold z; lia).
    unfold QArith_base.Qeq_bool, QArith_base.inject_Z, py_int. cbn [QArith_base.Qnum QArith_base.Qden]. rewrite Z.quot_1_r.
    destruct (Zeq_bool (z * 1) (0 * 1)) eqn:E0; [apply Zeq_bool_eq in E0; lia|].
    destruct (Zeq_bool (z * 1) (z * 1)) eqn:E1; [|apply Zeq_bool_neq in E1; lia]. cbn [negb].
    destruct (Z.leb_spec z 0); [lia|]. reflexivity.
  Qed.
  Lemma layer_loop p n k (c : circuit Num) : (0 <= c_nq c)%Z ->
    foldM (fun c q => circuit_add c (AddOp (GateOp (gate_RX p) [q]))) (seq k n) c
    = Ok (Build_circuit (c_ops c ++ map (fun q => GateOp (gate_RX p) [q]) (seq k n)) (if Nat.eqb n 0 then c_nq c else Z.max (c_nq c) (Z.of_nat (k + n)))).
  Proof.
    revert k c. induction n as [|n IH]; intros k c H; cbn [seq foldM map Nat.eqb].
    - rewrite app_nil_r. destruct c; reflexivity.
    - rewrite add_rx by exact H. cbn [rbind]. rewrite IH by (cbn [c_nq]; lia). cbn [c_ops c_nq]. rewrite <- app_assoc. cbn [app]. do 2 f_equal.
      destruct (Nat.eqb_spec n 0); lia.
  Qed.
  Lemma loops_spec symbols n : mock_loops symbols n =
    Ok (Build_circuit (rx_layers (map (fun t => PExpr (ESym t)) symbols) n : list (operation Num)) (match symbols with [] => 0%Z | _ => Z.of_nat n end)).
  Proof.
    unfold mock_loops.
    assert (G : forall l (c : circuit Num), (0 <= c_nq c)%Z ->
      foldM (fun c t => foldM (fun c q => circuit_add c (AddOp (GateOp (gate_RX (PExpr (ESym t))) [q]))) (seq 0 n) c) l c
      = Ok (Build_circuit (c_ops c ++ rx_layers (map (fun t => PExpr (ESym t)) l) n) (match l with [] => c_nq c | _ => Z.max (c_nq c) (Z.of_nat n) end))).
    { induction l as [|t l IH]; intros c H; cbn [foldM map rx_layers flat_map].
      - rewrite app_nil_r. destruct c; reflexivity.
      - rewrite layer_loop by exact H. cbn [rbind]. rewrite IH; cbn [c_ops c_nq].
        + rewrite <- app_assoc. do 2 f_equal. destruct (Nat.eqb_spec n 0), l; cbn; lia.
        + destruct (Nat.eqb n 0); lia. }
    rewrite G by (cbn; lia). cbn [empty_circuit c_ops c_nq app]. do 2 f_equal. destruct symbols; lia.
  Qed.
  Lemma rx_free_symbols p q : op_free_symbols (GateOp (gate_RX p) [q] : operation Num) = get_free_symbols [p].
  Proof. reflexivity. Qed.
  Lemma layers_free_symbols symbols n : 0 < n -> NoDup symbols ->
    uniq String.eqb (flat_map op_free_symbols (rx_layers (map (fun t => PExpr (ESym t)) symbols) n : list (operation Num))) = symbols.
  Proof.
    intros Hn ND. unfold uniq.
    assert (L : forall t k l, flat_map op_free_symbols (map (fun q => GateOp (MFG "RX" (FBuiltin "rx_matrix") [PExpr (ESym t)] 1 false) [q] : operation Num) (seq k l)) = repeat t l).
    { intros t k l. revert k. induction l as [|l IH]; intros k; [reflexivity|]. cbn [seq map flat_map]. rewrite IH. reflexivity. }
    assert (R : forall t l seen rest, In t seen -> uniq_from String.eqb seen (repeat t l ++ rest) = uniq_from String.eqb seen rest).
    { intros t l seen rest Hi. induction l as [|l IH]; [reflexivity|]. cbn [repeat app uniq_from].
      assert (X : memb String.eqb t seen = true) by (apply (memb_In String.eqb String.eqb_eq); exact Hi). rewrite X. exact IH. }
    assert (G : forall symbols seen, NoDup symbols -> (forall t, In t symbols -> ~ In t seen) ->
      uniq_from String.eqb seen (flat_map op_free_symbols (rx_layers (map (fun t => PExpr (ESym t)) symbols) n : list (operation Num))) = symbols).
    { clear symbols ND. induction symbols as [|t l IH]; intros seen ND Hs; [reflexivity|]. cbn [map rx_layers flat_map]. rewrite flat_map_app.
      rewrite (L t 0 n). inversion ND as [|? ? N1 N2]; subst. destruct n as [|n']; [lia|]. cbn [repeat app uniq_from].
      assert (X : memb String.eqb t seen = false). { destruct (memb String.eqb t seen) eqn:X; [|reflexivity]. apply (memb_In String.eqb String.eqb_eq) in X. exfalso. apply (Hs t); [left; reflexivity|exact X]. }
      rewrite X. f_equal. rewrite R by (left; reflexivity || (apply in_or_app; right; left; reflexivity)). apply IH; [exact N2|].
      intros u Hu Hi. destruct Hi as [<-|Hi]; [exact (N1 Hu)|]. apply (Hs u); [right; exact Hu|exact Hi]. }
    apply G; [exact ND|]. intros t _ [].
  Qed.
  Lemma bind_layers symbols n m (ps : list (param Num)) : Forall2 (fun t p => dget String.eqb t m = Some p) symbols ps ->
    mapM (fun o => op_bind O o m) (rx_layers (map (fun t => PExpr (ESym t)) symbols) n) = Ok (rx_layers ps n).
  Proof.
    induction 1 as [|t p symbols ps E H IH]; [reflexivity|]. cbn [map rx_layers flat_map]. unfold rx_layers in IH.
    assert (A : forall (X Y : Type) (f : X -> result Y) a b a' b', mapM f a = Ok a' -> mapM f b = Ok b' -> mapM f (a ++ b) = Ok (a' ++ b')).
    { intros X Y f a. induction a as [|x a IHa]; intros b a' b' Ea Eb; cbn [mapM app] in *; [injection Ea as <-; exact Eb|].
      destruct (f x); cbn [rbind] in *; [|discriminate]. destruct (mapM f a) as [la|] eqn:Em; cbn [rbind] in *; [|discriminate]. injection Ea as <-.
      rewrite (IHa b la b' eq_refl Eb). reflexivity. }
    apply A; [|exact IH]. clear - E. generalize (seq 0 n) as l. induction l as [|q l IHl]; [reflexivity|]. cbn [map mapM]. rewrite IHl.
    cbn [op_bind gate_bind rbind map sub_symbols]. rewrite E. reflexivity.
  Qed.
End MockCircuit.
