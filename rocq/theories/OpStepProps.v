(** C92: the steps that make operators. *)
From Coq Require Import NArith Nnat Permutation Ring String Reals Lra Sorting.
From Verif Require Import Base BaseFacts MatModel MatFacts LiftSpec LiftProofs OpModel OpSpec OpProofs PauliProofs OpProofs2 OpProps
  FermiModel FermiSpec FermiProofs FermiProofs2 FermiProofs3 FermiProofs6 FermiProofs7 FermiProps FermiProps2 TensorModel TensorSpec TensorProofs TensorProps ConvModel ConvProps DiagSpec ActsProps
  JWInterModel JWInterSpec JWInterProofs JWInterProps BKInterModel BKInterSpec BKInterProofs8 BKInterProps EstProofs3 HermTensorProps GaussQ MolProps Cplx OpStepModel OpStepSpec.
Open Scope list_scope.
Local Open Scope nat_scope.

Section C92.
  Context {K : cring} (im half : K) (Him : kmul im im = kopp k1) (Hhalf : kadd half half = k1) (small is_zero : K -> bool).
  Context (Hz : forall c, is_zero c = true -> c = k0) (Hs : only_zero small) (Hs0 : small k0 = true).
  Add Ring Kring_c92 : (kth K).
  Open Scope K_scope.
  Notation qadd := (op_add pauli_eqb small).

  (** ** One qubit operators *)
  Lemma sum_matrix n (a b : qop K) : meq (qop_matrix im n (qadd a b)) (madd (qop_matrix im n a) (qop_matrix im n b)).
  Proof.
    destruct (C42_sum im n small a b) as (r & R & _ & _ & E). destruct (qop_matrix_shape im n (qadd a b)) as [S1 S2].
    apply (qop_exact small n im _ _ r); auto.
  Qed.
  Lemma times_matrix n c t : (forall f, In f t -> (fst f < n)%nat) -> meq (qop_matrix im n (times_pauli im c t)) (mscale c (term_matrix im n t)).
  Proof.
    intros Ht. unfold times_pauli. etransitivity; [apply C42_scalar|]. pose proof (C42_constructor im Him n t 1 Ht) as (R & C & E).
    split; [cbn [nr mscale]; exact R|]. split; [cbn [nc mscale]; exact C|]. cbn [nr nc ent mscale] in *. intros i j Hi Hj. rewrite E by auto. ring.
  Qed.
  Lemma term1 p i j : (i < 2)%nat -> (j < 2)%nat -> ent (term_matrix im 1 [(0%nat, p)]) i j = ent (pauli_matrix im p) i j.
  Proof.
    intros Hi Hj. destruct i as [|[|i]]; [| |lia]; destruct j as [|[|j]]; try lia; destruct p; cbn; ring.
  Qed.
  (** c + x X + y Y + z Z, in any order of the terms *)
  Lemma four_terms x y z c (a : qop K) :
    (forall i j, (i < 2)%nat -> (j < 2)%nat -> ent (qop_matrix im 1 a) i j = x * ent (pauli_matrix im Px) i j + y * ent (pauli_matrix im Py) i j + z * ent (pauli_matrix im Pz) i j + c * ent (pauli_matrix im Pid) i j) ->
    meq (qop_matrix im 1 a) (of_rows [[c + z; x - im * y]; [x + im * y; c - z]]).
  Proof.
    intros H. destruct (qop_matrix_shape im 1 a) as [S1 S2]. split; [rewrite S1; reflexivity|]. split; [rewrite S2; reflexivity|].
    rewrite S1, S2. change (2 ^ 1)%nat with 2%nat. intros i j Hi Hj. rewrite H by auto. destruct i as [|[|i]]; [| |lia]; destruct j as [|[|j]]; try lia; cbn; ring.
  Qed.
  Lemma sum_ent (a b : qop K) i j : (i < 2)%nat -> (j < 2)%nat -> ent (qop_matrix im 1 (qadd a b)) i j = ent (qop_matrix im 1 a) i j + ent (qop_matrix im 1 b) i j.
  Proof. intros Hi Hj. destruct (sum_matrix 1 a b) as (_ & _ & H). destruct (qop_matrix_shape im 1 (qadd a b)) as [S1 S2]. rewrite S1, S2 in H. exact (H i j Hi Hj). Qed.
  Lemma times_ent c t i j : (forall f, In f t -> (fst f < 1)%nat) -> (i < 2)%nat -> (j < 2)%nat -> ent (qop_matrix im 1 (times_pauli im c t)) i j = c * ent (term_matrix im 1 t) i j.
  Proof. intros Ht Hi Hj. destruct (times_matrix 1 c t Ht) as (_ & _ & H). destruct (qop_matrix_shape im 1 (times_pauli im c t)) as [S1 S2]. rewrite S1, S2 in H. exact (H i j Hi Hj). Qed.
  Lemma pauli_ent c p i j : (i < 2)%nat -> (j < 2)%nat -> ent (qop_matrix im 1 (times_pauli im c [(0%nat, p)])) i j = c * ent (pauli_matrix im p) i j.
  Proof. intros Hi Hj. rewrite times_ent by (auto; intros f [<-|[]]; cbn; lia). rewrite term1 by auto. reflexivity. Qed.
  Lemma id_ent c i j : (i < 2)%nat -> (j < 2)%nat -> ent (qop_matrix im 1 (times_pauli im c [])) i j = c * ent (pauli_matrix im Pid) i j.
  Proof. intros Hi Hj. rewrite times_ent by (auto; intros f []). destruct i as [|[|i]]; [| |lia]; destruct j as [|[|j]]; try lia; cbn; ring. Qed.
  (** create_one_qubit_operator(x, y, z, c) is the operator with the matrix c + x X + y Y + z Z. *)
  Theorem C92_one_qubit_operator x y z c :
    meq (qop_matrix im 1 (create_one_qubit_operator im small x y z c)) (of_rows [[c + z; x - im * y]; [x + im * y; c - z]]).
  Proof. apply four_terms. intros i j Hi Hj. unfold create_one_qubit_operator. rewrite !sum_ent, !pauli_ent, id_ent by auto. ring. Qed.

  (** ** Entries of a fermion operator as constants of normal ordered products *)
  Definition vacuum (n : nat) : list bool := repeat false n.
  Lemma vacuum_nth n p : nth p (vacuum n) false = false.
  Proof. unfold vacuum. apply nth_repeat. Qed.
  (** A normal ordered term other than the identity has no vacuum expectation. *)
  Lemma normal_vacuum n t : normal_term t -> on_modes n t -> t <> [] -> ent (fterm_matrix (K := K) n t) (bval (vacuum n)) (bval (vacuum n)) = 0.
  Proof.
    intros Nt On Ne. destruct (exists_last Ne) as (u & f & ->). assert (Hf : (fst f < n)%nat) by (apply On, in_or_app; right; left; auto).
    assert (Lv : length (vacuum n) = n) by apply repeat_length.
    assert (Of : on_modes n (u ++ [f])) by exact On.
    destruct (fterm_mono (K := K) n (u ++ [f]) Of) as (S1 & S2 & E). destruct (fterm_shape (K := K) n (u ++ [f])) as [R1 R2]. rewrite R1, R2 in E.
    rewrite E by (rewrite <- Lv at 2; apply bval_lt). rewrite mono_ent by (auto; rewrite fact_length; auto). rewrite fact_app.
    unfold mcomp. cbn [fact]. unfold mcomp. cbn [fst snd ladder_act]. rewrite vacuum_nth.
    destruct (snd f) eqn:Ef; cbn [negb Bool.eqb].
    - (* all factors create *)
      set (c := setb (fst f) true (vacuum n)).
      assert (Hn : forall v w, length w = n -> (forall g, In g v -> snd g = true /\ (fst g < n)%nat) -> nth (fst f) w false = true -> nth (fst f) (snd (fact (K := K) v w)) false = true).
      { induction v as [|g v IHv]; intros w Hw Hv Hq; cbn [fact]; [exact Hq|]. unfold mcomp. cbn [snd ladder_act]. destruct (Hv g (or_introl eq_refl)) as [Hg1 Hg2]. rewrite BKInterProofs8.nth_setb by (rewrite fact_length, Hw; exact Hg2).
        rewrite Hg1. destruct (Nat.eqb (fst g) (fst f)); [reflexivity|]. apply IHv; auto. intros g' Hg'. apply Hv. right; auto. }
      destruct (list_eqb Bool.eqb (vacuum n) _) eqn:X; [|reflexivity]. exfalso. apply (list_eqb_spec _ bool_eqb_spec) in X.
      assert (Y : nth (fst f) (snd (fact (K := K) u c)) false = true).
      { apply Hn; [unfold c; rewrite setb_length; exact Lv| |unfold c; rewrite BKInterProofs8.nth_setb by (rewrite Lv; lia); rewrite Nat.eqb_refl; reflexivity].
        intros g Hg. split; [|apply On, in_or_app; left; exact Hg]. apply In_nth_error in Hg as (k & Hk). assert (Lk : (k < length u)%nat) by (apply (proj1 (nth_error_Some u k)); intros Q; discriminate (eq_trans (eq_sym Hk) Q)).
        pose proof (Nt k (length u) g f Lk) as B. rewrite nth_error_app1 in B by auto. rewrite nth_error_app2, Nat.sub_diag in B by lia. specialize (B Hk eq_refl).
        unfold before in B. rewrite Ef in B. destruct (snd g); [reflexivity|contradiction]. }
      fold c in X. rewrite <- X, vacuum_nth in Y. discriminate.
    - destruct (list_eqb _ _ _); ring.
  Qed.
  (** The constant of normal_ordered(a) is the vacuum expectation of a. *)
  Lemma constant_of_normal n (a : fop K) : on_qubits n a ->
    coef Bool.eqb (normal_ordered small a) [] = ent (fop_matrix n a) (bval (vacuum n)) (bval (vacuum n)) /\
    dget (term_eqb Bool.eqb) [] (normal_ordered small a) = if small (coef Bool.eqb (normal_ordered small a) []) then None else Some (coef Bool.eqb (normal_ordered small a) []).
  Proof.
    intros Ha. destruct (C46_normal small a) as (No & W & Sm & _).
    assert (Lv : length (vacuum n) = n) by apply repeat_length. assert (Bv : (bval (vacuum n) < 2 ^ n)%nat) by (rewrite <- Lv at 2; apply bval_lt).
    split.
    - destruct (C46_same_operator_exact small n a Ha Hs) as (S1 & S2 & E). destruct (fop_shape n (normal_ordered small a)) as [R1 R2]. rewrite R1, R2 in E. rewrite <- E by auto.
      destruct (normal_ordered_ok small (on_modes n) (on_modes_perm n) (on_modes_del n) a Ha) as [G _].
      rewrite fop_ent, (lval_single _ _ [] W).
      + assert (X : ent (fterm_matrix (K := K) n []) (bval (vacuum n)) (bval (vacuum n)) = 1) by (cbn [fterm_matrix fold_right ent eye]; unfold delta; rewrite Nat.eqb_refl; reflexivity).
        rewrite X. ring.
      + intros u c Hin Hu. rewrite normal_vacuum; [ring|exact (No u c Hin)| |exact Hu]. destruct (good_In _ bool_eqb_spec _ _ _ G u c Hin) as [[_ X] _]. exact X.
    - unfold coef. destruct (dget (term_eqb Bool.eqb) [] (normal_ordered small a)) as [c|] eqn:D; [|rewrite Hs0; reflexivity].
      rewrite (Sm [] c); [reflexivity|]. apply (dget_In _ (term_eqb_spec _ bool_eqb_spec)) in D. exact D.
  Qed.
  Lemma single_matrix n t : meq (fop_matrix n (fermion_op (K := K) t 1)) (fterm_matrix n t).
  Proof.
    destruct (fop_shape n (fermion_op (K := K) t 1)) as [R1 R2]. destruct (fterm_shape (K := K) n t) as [S1 S2]. split; [congruence|]. split; [congruence|].
    intros i j _ _. unfold fermion_op, mk_op, fermion_simplify. cbn [fop_matrix fold_right fst snd ent madd mscale MatModel.zeros]. ring.
  Qed.
  Lemma sandwich n (f : fop K) t u : on_modes n t -> on_modes n u -> let v := vacuum n in
    ent (fop_matrix n (fermion_mul (fermion_mul (fermion_op (dagger t) 1) f) (fermion_op u 1))) (bval v) (bval v) =
    kconj (fst (fact t v)) * fst (fact u v) * ent (fop_matrix n f) (bval (snd (fact (K := K) t v))) (bval (snd (fact (K := K) u v))).
  Proof.
    intros Ht Hu v. assert (Lv : length v = n) by apply repeat_length. assert (Bv : (bval v < 2 ^ n)%nat) by (rewrite <- Lv; apply bval_lt).
    assert (Bt : forall w, (bval (snd (fact (K := K) w v)) < 2 ^ n)%nat) by (intros w; rewrite <- Lv, <- (fact_length (K := K) w v); apply bval_lt).
    pose proof (fop_shape n f) as [F1 F2].
    set (B := fermion_op (dagger t) 1 : fop K). set (A := fermion_op u 1 : fop K).
    assert (E1 : meq (fop_matrix n (fermion_mul (fermion_mul B f) A)) (mmul (mmul (adjoint (mono n (fact t))) (fop_matrix n f)) (mono n (fact u)))).
    { etransitivity; [apply fop_mul_matrix|]. apply mmul_ext.
      - rewrite (proj2 (fop_shape n _)), (proj1 (fop_shape n _)). reflexivity.
      - etransitivity; [apply fop_mul_matrix|]. apply mmul_ext; [rewrite (proj2 (fop_shape n _)), (proj1 (fop_shape n _)); reflexivity| |reflexivity].
        etransitivity; [apply single_matrix|]. etransitivity; [apply fterm_adjoint|]. apply adjoint_ext. apply fterm_mono, Ht.
      - etransitivity; [apply single_matrix|]. apply fterm_mono, Hu. }
    destruct E1 as (_ & _ & E1). rewrite E1 by (rewrite ?(proj1 (fop_shape n _)), ?(proj2 (fop_shape n _)); exact Bv).
    rewrite mmul_mono_r; [|cbn [nc mmul]; exact F2|exact Lv|rewrite fact_length; exact Lv].
    assert (E2 : forall j, (j < 2 ^ n)%nat -> ent (mmul (adjoint (mono n (fact t))) (fop_matrix n f)) (bval v) j = kconj (fst (fact t v)) * ent (fop_matrix n f) (bval (snd (fact (K := K) t v))) j).
    { intros j Hj. assert (X : ent (mmul (adjoint (mono n (fact t))) (fop_matrix n f)) (bval v) j = kconj (ent (mmul (adjoint (fop_matrix n f)) (mono n (fact t))) j (bval v))).
      { cbn [ent mmul adjoint nc nr mono]. rewrite F1. rewrite bigsum_conj. apply bigsum_ext. intros l Hl. rewrite kconj_mul, kconj_invol. ring. }
      rewrite X, mmul_mono_r; [|cbn [nc adjoint]; exact F1|exact Lv|rewrite fact_length; exact Lv]. cbn [ent adjoint]. rewrite kconj_mul, kconj_invol. ring. }
    rewrite E2 by apply Bt. ring.
  Qed.
  Lemma pair_act n p q : (p < q)%nat -> (q < n)%nat -> fact (K := K) [(q, true); (p, true)] (vacuum n) = (- (1), occupied n [p; q]).
  Proof.
    intros Hpq Hq. assert (Lv : length (vacuum n) = n) by apply repeat_length. cbn [fact]. unfold mcomp, ladder_act. cbn [fst snd negb].
    rewrite vacuum_nth, BKInterProofs8.nth_setb, vacuum_nth by lia. assert (D : Nat.eqb p q = false) by (apply Nat.eqb_neq; lia). rewrite D. cbn [Bool.eqb].
    assert (O1 : forall k l, odd_count (firstn k (repeat false l)) = false).
    { induction k as [|k IH]; intros [|l]; try reflexivity. cbn [repeat firstn]. unfold odd_count in *. cbn [fold_right]. rewrite IH. reflexivity. }
    f_equal.
    - rewrite odd_count_setb by lia. unfold vacuum. rewrite nth_repeat, !O1. assert (L : Nat.ltb p q = true) by (apply Nat.ltb_lt; lia). rewrite ?L. cbn. ring.
    - apply (nth_ext _ _ false false); [unfold occupied; rewrite !setb_length, map_length, seq_length; exact Lv|]. rewrite !setb_length, Lv. intros k Hk.
      rewrite !BKInterProofs8.nth_setb by (rewrite ?setb_length; lia). rewrite vacuum_nth. unfold occupied.
      rewrite (nth_indep _ false (existsb (Nat.eqb 0%nat) [p; q])) by (rewrite map_length, seq_length; exact Hk). rewrite (map_nth (fun r => existsb (Nat.eqb r) [p; q])), seq_nth by exact Hk. cbn [existsb Nat.add].
      rewrite (Nat.eqb_sym q k), (Nat.eqb_sym p k). destruct (Nat.eqb k q), (Nat.eqb k p); reflexivity.
  Qed.
  Lemma element_value n (f : fop K) p q p' q' : on_qubits n f -> (p < q)%nat -> (q < n)%nat -> (p' < q')%nat -> (q' < n)%nat ->
    let e := ent (fop_matrix n f) (bval (occupied n [p; q])) (bval (occupied n [p'; q'])) in
    matrix_element small f [(p, false); (q, false)] [(q', true); (p', true)] = if small e then Err KeyError else Ok e.
  Proof.
    intros Of H1 H2 H3 H4 e. unfold matrix_element.
    match goal with |- match dget _ _ (normal_ordered _ ?a) with _ => _ end = _ => set (w := a) end.
    assert (Ow : on_qubits n w).
    { unfold w. apply fmul_on; [apply fmul_on; [|exact Of]|];
      intros t c [Q|[]] g Hg; inversion Q; subst t; cbn in Hg; destruct Hg as [<-|[<-|[]]]; cbn; lia. }
    destruct (constant_of_normal n w Ow) as [C1 C2]. rewrite C2, C1.
    assert (E : ent (fop_matrix n w) (bval (vacuum n)) (bval (vacuum n)) = e).
    { unfold w. change [(p, false); (q, false)] with (dagger [(q, true); (p, true)]).
      rewrite (sandwich n f [(q, true); (p, true)] [(q', true); (p', true)]) by (intros g [<-|[<-|[]]]; cbn; lia).
      rewrite !pair_act by lia. cbn [fst snd]. rewrite kconj_opp, kconj_1. fold e. ring. }
    rewrite E. destruct (small e); reflexivity.
  Qed.

  (** ** The one qubit Hamiltonian of hydrogen *)
  Lemma element_of_tensor (h : heap K) (a : ptensor K) : tensor_ok h a -> (4 <= n_qubits a)%nat -> exists f, get_fermion_operator small is_zero h a = Ok f /\
    forall p q p' q', (p < q < 4)%nat -> (p' < q' < 4)%nat -> let e := tensor_entry h a (occupied (n_qubits a) [p; q]) (occupied (n_qubits a) [p'; q']) in
      matrix_element small f [(p, false); (q, false)] [(q', true); (p', true)] = if small e then Err KeyError else Ok e.
  Proof.
    intros Ha Hn. destruct (C53_operator_of_tensor small is_zero Hz Hs0 h a Ha) as (f & Ef & _ & Of & _).
    destruct (C53_operator_of_tensor_acts_exact small is_zero Hz Hs0 h a Hs Ha) as (f' & Ef' & Af). rewrite Ef in Ef'. inversion Ef'; subst f'. exists f. split; [exact Ef|].
    intros p q p' q' H1 H2 e. rewrite (element_value (n_qubits a) f p q p' q' Of) by lia. rewrite Af. reflexivity.
  Qed.
  (** For a Hermitian interaction operator on at least four modes the result is the operator restricted to the span of the states with the modes 0 and 1 occupied and with the
      modes 2 and 3 occupied, provided that no entry of this restriction vanishes. *)
  Theorem C92_hydrogen (h : heap K) (a : ptensor K) : interaction_ok h a -> hermitian_tensor h a -> (4 <= n_qubits a)%nat ->
    let x := occupied (n_qubits a) [0%nat; 1%nat] in let y := occupied (n_qubits a) [2%nat; 3%nat] in let T := tensor_entry h a in
    T x x <> 0 -> T y y <> 0 -> T y x <> 0 ->
    exists o, get_one_qubit_hydrogen_hamiltonian im half small is_zero h a = Ok o /\ meq (qop_matrix im 1 o) (of_rows [[T x x; T x y]; [T y x; T y y]]).
  Proof.
    intros Ha Hh Hn x y T N1 N2 N3. destruct (element_of_tensor h a (proj1 Ha) Hn) as (f & Ef & El).
    assert (B : forall e : K, e <> 0 -> small e = false) by (intros e He; destruct (small e) eqn:Q; [apply Hs in Q; contradiction|reflexivity]).
    unfold get_one_qubit_hydrogen_hamiltonian. rewrite Ef. cbn [rbind]. rewrite !El by lia. fold x y. fold T. rewrite !B by assumption. cbn [rbind].
    eexists. split; [reflexivity|].
    assert (Hxy : kconj (T y x) = T x y) by (apply Hh; unfold x, y, occupied; rewrite map_length, seq_length; reflexivity). rewrite Hxy.
    match goal with |- meq (qop_matrix im 1 (op_add _ _ (op_add _ _ (op_add _ _ (times_pauli _ ?ri _) (times_pauli _ ?rx _)) (times_pauli _ ?ry _)) (times_pauli _ ?rz _))) _ => set (r0 := ri); set (r1 := rx); set (r2 := ry); set (r3 := rz) end.
    assert (V0 : r0 = half * (T x x + T y y)) by (unfold r0, trace_of; cbn; ring).
    assert (V1 : r1 = half * (T x y + T y x)) by (unfold r1, trace_of; cbn; ring).
    assert (V2 : r2 = half * (im * T x y - im * T y x)) by (unfold r2, trace_of; cbn; ring).
    assert (V3 : r3 = half * (T x x - T y y)) by (unfold r3, trace_of; cbn; ring).
    assert (Hd : forall e : K, half * e + half * e = e) by (intros e; transitivity ((half + half) * e); [ring|rewrite Hhalf; ring]).
    etransitivity; [apply (four_terms r1 r2 r3 r0)|].
    - intros i j Hi Hj. rewrite !sum_ent, !pauli_ent, id_ent by auto. ring.
    - rewrite V0, V1, V2, V3. split; [reflexivity|]. split; [reflexivity|]. cbn [nr nc of_rows length hd]. intros i j Hi Hj.
      destruct i as [|[|i]]; [| |lia]; destruct j as [|[|j]]; try lia; cbn.
      + rewrite <- (Hd (T x x)) at 3. ring.
      + transitivity (half * T x y + half * T y x - (im * im) * (half * T x y) + (im * im) * (half * T y x)); [ring|]. rewrite Him. rewrite <- (Hd (T x y)) at 3. ring.
      + transitivity (half * T x y + half * T y x + (im * im) * (half * T x y) - (im * im) * (half * T y x)); [ring|]. rewrite Him. rewrite <- (Hd (T y x)) at 3. ring.
      + rewrite <- (Hd (T y y)) at 3. ring.
  Qed.
  (** When one of them does vanish there is no result: a KeyError. *)
  Theorem C92_hydrogen_zero_refuted (h : heap K) (a : ptensor K) : interaction_ok h a -> (4 <= n_qubits a)%nat ->
    let x := occupied (n_qubits a) [0%nat; 1%nat] in let y := occupied (n_qubits a) [2%nat; 3%nat] in let T := tensor_entry h a in
    T x x = 0 \/ T y y = 0 \/ T y x = 0 -> get_one_qubit_hydrogen_hamiltonian im half small is_zero h a = Err KeyError.
  Proof.
    intros Ha Hn x y T Z. destruct (element_of_tensor h a (proj1 Ha) Hn) as (f & Ef & El).
    unfold get_one_qubit_hydrogen_hamiltonian. rewrite Ef. cbn [rbind]. rewrite !El by lia. fold x y. fold T.
    destruct Z as [Z|[Z|Z]]; rewrite Z, Hs0; [reflexivity| |]; destruct (small (T x x)); cbn [rbind]; try reflexivity. destruct (small (T y y)); reflexivity.
  Qed.

  (** ** The choice of a transformation *)
  Context (order : list N -> list N) (Horder : forall l, Permutation (order l) l).
  Notation transform := (transform_interaction_operator im half small is_zero order).
  Theorem C92_unknown_transformation name (h : heap K) (a : ptensor K) : name <> "Jordan-Wigner"%string -> name <> "Bravyi-Kitaev"%string -> transform name h a = Err RuntimeError.
  Proof. intros H1 H2. unfold transform_interaction_operator. apply String.eqb_neq in H1, H2. rewrite H1, H2. reflexivity. Qed.
  (** For a Hermitian interaction operator whose fermion operator uses the last mode, the Jordan-Wigner operator acts as the interaction operator and the Bravyi-Kitaev operator
      is the same operator after the Bravyi-Kitaev encoding of the basis states, which is unitary. *)
  Theorem C92_transformations (h : heap K) (a : ptensor K) : small half = false -> small (half * im) = false -> small (- (half * im)) = false ->
    interaction_ok h a -> hermitian_tensor h a -> (forall f, get_fermion_operator small is_zero h a = Ok f -> fermion_count_qubits f = n_qubits a) ->
    let n := n_qubits a in exists jw bk, transform "Jordan-Wigner" h a = Ok jw /\ transform "Bravyi-Kitaev" h a = Ok bk /\ acts_exactly im n jw (tensor_entry h a) /\
      unitary (bk_encoding (K := K) n) /\ meq (mmul (qop_matrix im n bk) (bk_encoding n)) (mmul (bk_encoding n) (qop_matrix im n jw)).
  Proof.
    intros Q1 Q2 Q3 Ha Hh Hc n. destruct (C73_hermitian im half Him Hhalf small is_zero Hz h a None Ha Hh (or_introl eq_refl)) as (o & E & A). apply C73_exact in A; [|exact Hs].
    destruct (C53_operator_of_tensor small is_zero Hz Hs0 h a (proj1 Ha)) as (f & Ef & _ & Of & _).
    destruct (C53_operator_of_tensor_acts_exact small is_zero Hz Hs0 h a Hs (proj1 Ha)) as (f' & Ef' & Af). rewrite Ef in Ef'. inversion Ef'; subst f'.
    destruct (proj1 (proj1 (C48_total im half small (n_qubits a) order f)) Of) as [b Eb].
    exists o, b. unfold transform_interaction_operator. cbn [String.eqb Ascii.eqb Bool.eqb]. split; [exact E|]. split.
    { rewrite Ef. cbn [rbind]. rewrite C48_default, (Hc f Ef). exact Eb. }
    split; [exact A|]. split; [apply C48_encoding|]. etransitivity; [apply (C48_acts_exact im half Him Hhalf small Q1 Q2 Q3 n order Horder f b Eb Hs)|].
    apply mmul_ext; [rewrite (proj1 (fop_shape n f)); reflexivity|reflexivity|].
    apply (meq_bits n); try apply qop_matrix_shape; try apply fop_shape. intros x y Hx Hy. etransitivity; [apply Af|symmetry; apply (A x y Hx Hy)].
  Qed.
End C92.

(** ** The local zero state operator *)
Section LocalZero.
  Context {K : cring} (small : K -> bool) (Hs : only_zero small) (quotient : nat -> K).
  Add Ring Kring_c92b : (kth K).
  Open Scope K_scope.
  Lemma sub_value (a b : isop K) s : isop_value s (op_sub zact_eqb small a b) = isop_value s a - isop_value s b.
  Proof.
    assert (Hf : forall x y : K, ksub x y = kadd x (kmul (kopp k1) y)) by (intros; ring).
    destruct (lval_merge zact_eqb zact_eqb_spec (zterm_value s) ksub small (kopp k1) Hf b a) as (r & H1 & _ & _ & H3). rewrite !isop_value_lval. unfold op_sub.
    rewrite (lval_small small _ r H1 Hs) in H3. transitivity (OpProofs.lval (zterm_value s) (fold_left (merge_term zact_eqb small ksub) b a) + 0); [ring|]. rewrite H3. ring.
  Qed.
  (** On n > 0 qubits the value at a bitstring is 2 w / n where w is the number of its ones: zero for the zero state alone, and n times it counts the ones twice. *)
  Theorem C92_local_zero n s : of_nat n * quotient n = 1 -> of_nat n * isop_value s (get_local_zero_state_operator small quotient n) = of_nat (2 * ones n s).
  Proof.
    intros Hq. set (c := quotient n). assert (G : forall l o, isop_value s (fold_left (fun o q => op_sub zact_eqb small o (mk_op ising_simplify [(q, ZZ)] c)) l o)
        = isop_value s o - (of_nat (length l) - of_nat (2 * length (filter s l))) * c).
    { assert (S2 : forall m, of_nat (2 * S m) = 1 + 1 + of_nat (2 * m) :> K). { intros m. replace (2 * S m)%nat with (S (S (2 * m))) by lia. change (of_nat (S (S (2 * m)))) with (1 + (1 + of_nat (2 * m)) : K). ring. }
      induction l as [|q l IH]; intros o; cbn [fold_left length filter]; [cbn; ring|]. rewrite IH, sub_value.
      assert (V : isop_value s (mk_op ising_simplify [(q, ZZ)] c) = zsign (s q) * c).
      { unfold mk_op. rewrite EstProofs3.ising_simplify_sorted by (cbn; constructor; constructor). cbn [isop_value fold_right zterm_value fst snd]. ring. }
      rewrite V.
      change (of_nat (S (length l))) with (1 + of_nat (length l) : K). unfold zsign. destruct (s q); cbn [length]; [rewrite S2|]; ring. }
    unfold get_local_zero_state_operator. fold c. rewrite G, seq_length. fold (ones n s).
    assert (V : isop_value s (mk_op ising_simplify [] 1) = (1 : K)) by (cbn; ring). rewrite V.
    transitivity (of_nat n - of_nat n * (of_nat n * c) + of_nat (2 * ones n s) * (of_nat n * c)); [ring|]. unfold c. rewrite Hq. ring.
  Qed.
End LocalZero.

(** ** Interpolation *)
(** Up to pruned terms, the interpolated operator is epsilon times the target plus (1 - epsilon) times the reference; outside the interval there is no result. *)
Theorem C92_interpolation small (reference target : qop CC) (epsilon : R) n : (0 <= epsilon <= 1)%R ->
  exists o (pruned : qop CC), interpolate_qubit_operators small (Ok reference) (Ok target) epsilon = Ok o /\ all_small small pruned /\ length pruned <= length reference /\
    meq (madd (qop_matrix (K := CC) ci n o) (qop_matrix (K := CC) ci n pruned))
        (madd (mscale (K := CC) (rc epsilon) (qop_matrix (K := CC) ci n target)) (mscale (K := CC) (rc (1 - epsilon)) (qop_matrix (K := CC) ci n reference))).
Proof.
  intros He. unfold interpolate_qubit_operators. cbn [rbind]. destruct (Rlt_dec 1 epsilon) as [L|_]; [lra|]. destruct (Rlt_dec epsilon 0) as [L|_]; [lra|].
  destruct (C42_sum (K := CC) ci n small (op_scale target (rc epsilon)) (op_scale reference (rc (1 - epsilon)))) as (r & R & _ & Rl & E).
  eexists _, r. split; [reflexivity|]. split; [exact R|]. split; [unfold op_scale in Rl; rewrite map_length in Rl; exact Rl|].
  etransitivity; [exact E|]. pose proof (proj1 (C42_scalar (K := CC) ci n target (rc epsilon))) as (T1 & T2 & T3). pose proof (proj1 (C42_scalar (K := CC) ci n reference (rc (1 - epsilon)))) as (U1 & U2 & U3).
  destruct (qop_matrix_shape (K := CC) ci n (op_scale target (rc epsilon))) as [S1 S2]. destruct (qop_matrix_shape (K := CC) ci n (op_scale reference (rc (1 - epsilon)))) as [S3 S4].
  split; [exact T1|]. split; [exact T2|]. cbn [nr nc madd ent]. intros i j Hi Hj. rewrite T3 by auto. rewrite S1 in Hi. rewrite S2 in Hj. rewrite U3 by (rewrite ?S3, ?S4; auto). reflexivity.
Qed.
Theorem C92_interpolation_range small (reference target : qop CC) (epsilon : R) : (epsilon < 0 \/ 1 < epsilon)%R ->
  interpolate_qubit_operators small (Ok reference) (Ok target) epsilon = Err ValueError.
Proof.
  intros He. unfold interpolate_qubit_operators. cbn [rbind]. destruct (Rlt_dec 1 epsilon) as [L|L]; [reflexivity|]. destruct (Rlt_dec epsilon 0) as [L'|L']; [reflexivity|lra].
Qed.
(** In complex numbers: the value is exactly 2 w / n. *)
Theorem C92_local_zero_value (small : CC -> bool) n s : only_zero small -> 0 < n ->
  isop_value s (get_local_zero_state_operator (K := CC) small (fun n => rc (/ INR n)) n) = rc (2 * INR (ones n s) / INR n).
Proof.
  intros Hs Hn. assert (Nz : INR n <> 0%R) by (apply not_0_INR; lia). set (v := isop_value s _).
  assert (O : forall m, of_nat (K := CC) m = rc (INR m)).
  { induction m as [|m IH]; [reflexivity|]. change (of_nat (K := CC) (S m)) with (cadd c1 (of_nat (K := CC) m)). rewrite IH, S_INR. unfold cadd, c1, rc. cbn [fst snd]. f_equal; ring. }
  assert (Q : kmul (c := CC) (of_nat n) (rc (/ INR n)) = (k1 : CC)) by (rewrite O; apply c_eq; cbn; field; exact Nz).
  pose proof (C92_local_zero (K := CC) small Hs (fun n => rc (/ INR n)) n s Q) as E. fold v in E. rewrite !O in E. rewrite mult_INR in E. cbn [kmul CC] in E. unfold cmul, rc in E. cbn [fst snd] in E.
  inversion E as [[E1 E2]]. change (INR 2) with 2%R in E1.
  assert (F1 : (INR n * fst v = 2 * INR (ones n s))%R) by lra. assert (F2 : (INR n * snd v = 0)%R) by lra.
  destruct v as [a b]. cbn [fst snd] in *. unfold rc. f_equal; [rewrite <- F1; field; exact Nz|]. apply Rmult_integral in F2 as [F2|F2]; [contradiction|exact F2].
Qed.
(** Without qubits it is the identity, not zero. *)
Lemma local_zero_empty {K : cring} (small : K -> bool) quotient : get_local_zero_state_operator small quotient 0 = [([], k1)].
Proof. reflexivity. Qed.

(** ** A mode that is not used: the Bravyi-Kitaev step takes the number of qubits from the fermion operator, so the result can differ from the transform of the interaction operator. *)
Definition idle_heap : heap GQ := [{| shape0 := 6; data := fun i => match i with [0; 4] | [4; 0] => gq 4 0 | _ => k0 end |}; {| shape0 := 6; data := fun _ => k0 |}].
Definition idle_tensor : ptensor GQ := {| n_qubits := 6; n_body_tensors := [([], Num (gq 4 0)); ([true; false], Arr 0); ([true; true; false; false], Arr 1)] |}.
Lemma idle_hermitian : interaction_ok idle_heap idle_tensor /\ hermitian_tensor idle_heap idle_tensor.
Proof.
  assert (Ok : interaction_ok idle_heap idle_tensor).
  { split; [|reflexivity]. split; [repeat constructor; cbn; intuition discriminate|]. split; [intros k1 k2 r [E1|[E1|[E1|[]]]] [E2|[E2|[E2|[]]]]; inversion E1; inversion E2; subst; try discriminate; reflexivity|].
    split; [exists [true; false], 0; right; left; reflexivity|]. intros k e [E|[E|[E|[]]]]; inversion E; subst; cbn; [reflexivity| |]; repeat split; try discriminate; lia. }
  split; [exact Ok|]. apply C73_hermitian_coefficients; [exact Ok|].
  assert (B : forallb (fun k => forallb (fun i => gq_zero (ksub (kconj (value idle_heap idle_tensor k i)) (value idle_heap idle_tensor k (rev i)))) (TensorModel.indices 6 (length k)))
      [[]; [true; false]; [true; true; false; false]] = true) by (vm_compute; reflexivity).
  intros k i Hk Hi. rewrite forallb_forall in B. specialize (B k Hk). rewrite forallb_forall in B. apply c73_same, B. apply in_indices. exact Hi.
Qed.
Theorem C92_idle_mode_refuted : exists bk direct t, interaction_ok idle_heap idle_tensor /\ hermitian_tensor idle_heap idle_tensor /\
  transform_interaction_operator qi qhalf gq_zero gq_zero c85_id "Bravyi-Kitaev" idle_heap idle_tensor = Ok bk /\
  bravyi_kitaev_interaction_operator qi qhalf gq_zero gq_zero c85_id idle_heap idle_tensor None = Ok direct /\ coef pauli_eqb bk t <> coef pauli_eqb direct t.
Proof.
  assert (B : match transform_interaction_operator qi qhalf gq_zero gq_zero c85_id "Bravyi-Kitaev" idle_heap idle_tensor, bravyi_kitaev_interaction_operator qi qhalf gq_zero gq_zero c85_id idle_heap idle_tensor None with
    | Ok b, Ok d => existsb (fun tc => negb (gq_zero (ksub (coef pauli_eqb b (fst tc)) (coef pauli_eqb d (fst tc))))) b | _, _ => false end = true) by (vm_compute; reflexivity).
  destruct (transform_interaction_operator qi qhalf gq_zero gq_zero c85_id "Bravyi-Kitaev" idle_heap idle_tensor) as [b|] eqn:E1; [|discriminate].
  destruct (bravyi_kitaev_interaction_operator qi qhalf gq_zero gq_zero c85_id idle_heap idle_tensor None) as [d|] eqn:E2; [|discriminate].
  apply existsb_exists in B as ([t c] & _ & X). exists b, d, t. destruct idle_hermitian as [I1 I2]. split; [exact I1|]. split; [exact I2|]. split; [reflexivity|]. split; [reflexivity|].
  cbn [fst] in X. intros Q. rewrite Q in X. assert (Z : ksub (coef pauli_eqb d t) (coef pauli_eqb d t) = k0) by (rewrite (Rsub_def (kth GQ)); apply (Ropp_def (kth GQ))). rewrite Z in X. discriminate.
Qed.

(** ** Cases *)
Example C92_hydrogen_run : match get_one_qubit_hydrogen_hamiltonian qi qhalf gq_zero gq_zero pair_heap pair_tensor with
  | Ok o => gq_zero (ksub (ent (qop_matrix qi 1 o) 0 0) (gq 8 0)) && gq_zero (ksub (ent (qop_matrix qi 1 o) 1 0) (gq 1 (-2))) && gq_zero (ksub (ent (qop_matrix qi 1 o) 0 1) (gq 1 2)) && gq_zero (ksub (ent (qop_matrix qi 1 o) 1 1) (gq 15 0))
  | Err _ => false end = true.
Proof. vm_compute. reflexivity. Qed.
Example C92_hydrogen_case : interaction_ok pair_heap pair_tensor /\ hermitian_tensor pair_heap pair_tensor /\ 4 <= n_qubits pair_tensor /\
  let x := occupied 4 [0; 1] in let y := occupied 4 [2; 3] in let T := tensor_entry pair_heap pair_tensor in T x x <> k0 /\ T y y <> k0 /\ T y x <> k0.
Proof.
  destruct C73_coefficients as [I1 I2]. split; [exact I1|]. split; [apply C73_hermitian_coefficients; auto|]. split; [cbn; lia|]. cbv zeta.
  assert (Z : gq_zero k0 = true) by (vm_compute; reflexivity). assert (L : 4 <= n_qubits pair_tensor) by (cbn; lia).
  pose proof (C92_hydrogen_zero_refuted qi qhalf gq_zero gq_zero gq_only_zero gq_only_zero Z pair_heap pair_tensor I1 L) as H.
  pose proof C92_hydrogen_run as R. cbv zeta in H. change (n_qubits pair_tensor) with 4 in H.
  assert (N : get_one_qubit_hydrogen_hamiltonian qi qhalf gq_zero gq_zero pair_heap pair_tensor <> Err KeyError) by (intros Q; rewrite Q in R; discriminate R). clear R.
  revert H N. generalize (get_one_qubit_hydrogen_hamiltonian qi qhalf gq_zero gq_zero pair_heap pair_tensor). intros r H N.
  split; [|split]; intros Q; apply N, H; [left; exact Q|right; left; exact Q|right; right; exact Q].
Qed.
(** No two-body term: the off-diagonal entry is zero. *)
Example C92_hydrogen_key : match get_one_qubit_hydrogen_hamiltonian qi qhalf gq_zero gq_zero [nth 0 pair_heap {| shape0 := 0; data := fun _ => k0 |}; {| shape0 := 4; data := fun _ => k0 |}] pair_tensor with
  | Err KeyError => true | _ => false end = true.
Proof. vm_compute. reflexivity. Qed.
Example C92_local_zero_case : kmul (of_nat 2) qhalf = (k1 : GQ).
Proof. change (kadd k1 (kadd k1 k0)) with (kadd (k1 : GQ) (kadd k1 k0)). apply c73_same. vm_compute. reflexivity. Qed.
Example C92_transformations_case : interaction_ok c73_heap c73_tensor /\ hermitian_tensor c73_heap c73_tensor /\
  match get_fermion_operator gq_zero gq_zero c73_heap c73_tensor with Ok f => Nat.eqb (fermion_count_qubits f) (n_qubits c73_tensor) | Err _ => false end = true /\
  gq_zero qhalf = false /\ gq_zero (kmul qhalf qi) = false /\ gq_zero (kopp (kmul qhalf qi)) = false.
Proof. destruct C73_hypotheses as [I1 I2]. split; [exact I1|]. split; [exact I2|]. split; [vm_compute; reflexivity|]. repeat split; vm_compute; reflexivity. Qed.

Print Assumptions C92_one_qubit_operator.
Print Assumptions C92_hydrogen.
Print Assumptions C92_hydrogen_zero_refuted.
Print Assumptions C92_unknown_transformation.
Print Assumptions C92_transformations.
Print Assumptions C92_local_zero.
Print Assumptions C92_local_zero_value.
Print Assumptions C92_interpolation.
Print Assumptions C92_interpolation_range.
Print Assumptions C92_idle_mode_refuted.
