(** C86: qubit operators from vectors of labels, random operators, evaluation, expectation values, circuits of Pauli strings. *)
From Coq Require Import String Ascii ZArith Lia Ring Reals.
From Verif Require Import Base BaseFacts MatModel MatFacts LiftModel LiftSpec LiftProofs Cplx CircuitModel CircuitSpec CircuitProofs GateMatModel GateMatProofs ConjProofs
  OpModel OpSpec OpProofs PauliProofs OpProofs2 OpTextModel FermiModel FermiSpec FermiProofs6 FermiProofs7 ReindexProofs FermiProps3 BKInterProofs5 EstProofs3 EstProofs5 EvolModel EvolSpec EvolProofs2 EvolProofs3 EvolProofs4 EvolProofs5 LayoutProofs
  SparseModel SparseProps SectorSpec SectorProps WfModel ReindexModel GaussQ RdmProps3 QopUtilModel QopUtilSpec QopUtilProofs QopUtilProofs2 QopUtilProofs3.
Open Scope list_scope.
Local Open Scope nat_scope.

(** ** Vectors of labels *)
Section Labels.
  Context {K : cring} (im : K) (small : K -> bool) (float_of complex_of : text -> option K).
  Notation from_labels := (get_qubitop_from_coeffs_and_labels im small float_of complex_of).
  (** Every vector of labels has exactly one Pauli string. *)
  Theorem C86_label_string label : exists t, string_of_label label t /\ forall u, string_of_label label u -> u = t.
  Proof. exists (lterm 0 label). split; [now apply string_of_label_iff|]. intros u H. now apply string_of_label_iff in H. Qed.
  (** The coefficient of a Pauli string is the sum of the coefficients of its vectors of labels; coefficients beyond the labels are not used. *)
  Theorem C86_labels (coeffs : list K) labels ts : only_zero small -> Forall2 string_of_label labels ts -> length labels <= length coeffs ->
    exists a, from_labels coeffs labels = Ok a /\ NoDup (dkeys a) /\ forall t, coef pauli_eqb a t = total_of (combine coeffs ts) t.
  Proof.
    intros Hs F L. assert (E : ts = map (lterm 0) labels). { induction F as [|l t labels ts H F IH]; [reflexivity|]. cbn [map]. f_equal; [now apply string_of_label_iff in H|]. apply IH. cbn in L. lia. }
    subst ts. eexists. split; [now apply labels_run|]. destruct (lsteps_coef small (combine coeffs (map (lterm 0) labels)) Hs []) as [W H]; [constructor|]. split; [exact W|].
    intros t. rewrite H. change (coef pauli_eqb [] t) with (k0 (c := K)). apply (Radd_0_l (kth K)).
  Qed.
  (** Labels of different strings: one term each, in order, without those whose coefficient is negligible. *)
  Theorem C86_labels_distinct (coeffs : list K) labels ts : Forall2 string_of_label labels ts -> NoDup ts -> length labels = length coeffs ->
    from_labels coeffs labels = Ok (filter (fun tc => negb (small (snd tc))) (combine ts coeffs)).
  Proof.
    intros F N L. assert (E : ts = map (lterm 0) labels). { clear -F. induction F as [|l t labels ts H F IH]; [reflexivity|]. cbn [map]. f_equal; [now apply string_of_label_iff in H|exact IH]. }
    subst ts. rewrite labels_run by lia. f_equal.
    assert (X : map snd (combine coeffs (map (lterm 0) labels)) = map (lterm 0) labels).
    { clear -L. revert coeffs L. induction labels as [|l labels IH]; intros [|c coeffs] L; cbn in L; try lia; [reflexivity|]. cbn [map combine snd]. f_equal. apply IH. lia. }
    rewrite lsteps_distinct; [|rewrite X; exact N|intros t _ []]. cbn [app]. unfold kept. clear X N F.
    revert coeffs L. induction labels as [|l labels IH]; intros [|c coeffs] L; cbn in L; try lia; [reflexivity|]. cbn [map combine filter fst snd].
    destruct (small c); cbn [negb map fst snd]; [apply IH; lia|]. f_equal. apply IH. lia.
  Qed.
  Theorem C86_labels_too_few (coeffs : list K) labels : length coeffs < length labels -> from_labels coeffs labels = Err IndexError.
  Proof. apply labels_short. Qed.
End Labels.

(** ** Random operators *)
Section Random.
  Context {K : cring} (im : K) (small : K -> bool) (float_of complex_of : text -> option K) (r : random_source K) (nqubits nterms nlocality : nat) (max_coeff : K) (fixed_coeff : bool).
  Notation random_op fuel := (generate_random_qubitop im small float_of complex_of r fuel nqubits nterms nlocality max_coeff fixed_coeff).
  (** What the module random promises: samples without repetition from the qubits, numbers from 1 to 3. *)
  Definition honest : Prop :=
    (forall t, NoDup (sample r t) /\ length (sample r t) = nlocality /\ forall q, In q (sample r t) -> q < nqubits) /\ (forall t j, (1 <= randint r t j <= 3)%Z).
  Definition coefficient (j : nat) : K := if fixed_coeff then max_coeff else uniform r j.
  Context (H : honest).
  Lemma enough : nlocality <= nqubits.
  Proof.
    destruct H as [H1 _]. destruct (H1 0) as (N & L & B). rewrite <- L. rewrite <- (seq_length nqubits 0). apply NoDup_incl_length; [exact N|]. intros q Hq. apply in_seq. specialize (B q Hq). lia.
  Qed.
  Lemma coeffs_nth j : (if fixed_coeff then repeat max_coeff nterms else map (uniform r) (seq 0 nterms)) = map coefficient (seq 0 nterms) /\ coefficient j = coefficient j.
  Proof. split; [|reflexivity]. unfold coefficient. destruct fixed_coeff; [|reflexivity]. generalize 0. induction nterms as [|m IH]; intros s; [reflexivity|]. cbn [repeat seq map]. f_equal. apply IH. Qed.
  (** When it returns: different strings on the given number of qubits, each with the given number of letters, and the j-th one has the j-th coefficient; strings with a negligible coefficient are missing. *)
  Theorem C86_random fuel x : random_op fuel = Some x -> exists ts, x = Ok (filter (fun tc => negb (small (snd tc))) (combine ts (map coefficient (seq 0 nterms)))) /\
    length ts = nterms /\ NoDup ts /\ forall t, In t ts -> canonical t /\ length t = nlocality /\ forall f, In f t -> fst f < nqubits.
  Proof.
    unfold generate_random_qubitop. pose proof enough as He. destruct (Nat.ltb_spec nqubits nlocality) as [L|_]; [lia|]. rewrite andb_false_r.
    destruct (draw_labels r nqubits nterms fuel 0 []) as [labels|] eqn:E; [|discriminate]. intros [= <-].
    destruct (draw_sound r nqubits nterms fuel 0 [] labels) as (N & L & D); [constructor|cbn; lia|exact E|].
    assert (F : forall l, In l labels -> length l = nqubits /\ proper l /\ weight l = nlocality).
    { intros l Hl. destruct (D l Hl) as [[]|(u & _ & ->)]. destruct (label_facts r nqubits nlocality H u) as (F1 & F2 & F3 & _). auto. }
    exists (map (lterm 0) labels). rewrite (proj1 (coeffs_nth 0)). split.
    - apply C86_labels_distinct.
      + clear. induction labels as [|l labels IH]; cbn [map]; constructor; [now apply string_of_label_iff|exact IH].
      + apply NoDup_map_inj'; [|exact N]. intros a b Ha Hb. destruct (F a Ha) as (A1 & A2 & _). destruct (F b Hb) as (B1 & B2 & _). apply lterm_inj; auto; congruence.
      + rewrite map_length, seq_length. exact L.
    - split; [rewrite map_length; exact L|]. split.
      + apply NoDup_map_inj'; [|exact N]. intros a b Ha Hb. destruct (F a Ha) as (A1 & A2 & _). destruct (F b Hb) as (B1 & B2 & _). apply lterm_inj; auto; congruence.
      + intros t Ht. apply in_map_iff in Ht as (l & <- & Hl). destruct (F l Hl) as (F1 & F2 & F3). split; [apply lterm_canonical|]. split; [rewrite lterm_length by exact F2; exact F3|].
        intros [q p] Hq. apply lterm_In in Hq as (_ & _ & Hq). cbn [fst]. rewrite Nat.sub_0_r in Hq. rewrite <- F1. apply nth_error_Some. congruence.
  Qed.
  (** It returns within a number of rounds exactly when these rounds give enough different labels. *)
  Theorem C86_random_returns fuel : (exists x, random_op fuel = Some x) <->
    exists ls, NoDup ls /\ length ls = nterms /\ forall l, In l ls -> exists u, u < fuel /\ l = random_label r nqubits u.
  Proof.
    unfold generate_random_qubitop. pose proof enough as He. destruct (Nat.ltb_spec nqubits nlocality) as [L|_]; [lia|]. rewrite andb_false_r. split.
    - intros [x Hx]. destruct (draw_labels r nqubits nterms fuel 0 []) as [labels|] eqn:E; [|discriminate].
      destruct (draw_sound r nqubits nterms fuel 0 [] labels) as (N & L & D); [constructor|cbn; lia|exact E|]. exists labels. split; [exact N|]. split; [exact L|].
      intros l Hl. destruct (D l Hl) as [[]|(u & Hu & ->)]. exists u. split; [lia|reflexivity].
    - intros (ls & N & L & D). destruct (draw_complete r nqubits nterms ls fuel N L 0 []) as [l E]; [|rewrite E; eexists; reflexivity].
      intros l Hl. right. destruct (D l Hl) as (u & Hu & ->). exists u. split; [lia|reflexivity].
  Qed.
  (** A round gives the sampled qubits numbers from 1 to 3 and the others 0. *)
  Theorem C86_random_round u : let l := random_label r nqubits u in length l = nqubits /\
    forall q, q < nqubits -> (In q (sample r u) -> (1 <= nth q l 0 <= 3)%Z) /\ (~ In q (sample r u) -> nth q l 0%Z = 0%Z).
  Proof. destruct (label_facts r nqubits nlocality H u) as (F1 & _ & _ & F4). split; [exact F1|exact F4]. Qed.
  (** It never returns when more terms are asked for than there are strings of the given locality, whatever the random numbers. *)
  Theorem C86_random_refuted : choose nqubits nlocality * 3 ^ nlocality < nterms -> forall fuel, random_op fuel = None.
  Proof.
    intros L fuel. unfold generate_random_qubitop. pose proof enough as He. destruct (Nat.ltb_spec nqubits nlocality) as [L'|_]; [lia|]. rewrite andb_false_r.
    destruct (draw_labels r nqubits nterms fuel 0 []) as [labels|] eqn:E; [|reflexivity]. apply (draws_bounded r nqubits nlocality H) in E. lia.
  Qed.
End Random.
Theorem C86_random_too_local {K : cring} (im : K) small fo co (r : random_source K) fuel nqubits nterms nlocality max fixed : nqubits < nlocality -> 0 < nterms ->
  generate_random_qubitop im small fo co r fuel nqubits nterms nlocality max fixed = Some (Err ValueError).
Proof. intros L P. unfold generate_random_qubitop. destruct (Nat.ltb_spec nqubits nlocality); [|lia]. destruct (Nat.ltb_spec 0 nterms); [|lia]. reflexivity. Qed.

(** ** Evaluation *)
Section Evaluate.
  Context {K : cring} (im half : K) (Him : kmul im im = kopp k1) (small is_zero : K -> bool) (Hz : forall c, is_zero c = true <-> c = k0).
  Context (re : K -> K).
  Add Ring Kring_c86 : (kth K).
  Open Scope K_scope.
  Notation value_of := (get_expectation_value im half small is_zero).
  (** The sum over the terms, in order, of the real part of coefficient times value; more values are ignored, fewer are an error. *)
  Theorem C86_evaluate (a : qop K) values : (length a <= length values)%nat ->
    evaluate_qubit_operator re a values = Ok (fold_right (fun (x : (term pauli * K) * K) s => re (snd (fst x) * snd x) + s) 0 (combine a values)).
  Proof.
    intros L. unfold evaluate_qubit_operator. pose proof (evaluate_run re a [] values 0 L) as E. cbn [app length] in E. rewrite E. cbn [rbind fst]. f_equal. unfold weighted. ring.
  Qed.
  Theorem C86_evaluate_too_few (a : qop K) values : (length values < length a)%nat -> evaluate_qubit_operator re a values = Err IndexError.
  Proof. intros L. unfold evaluate_qubit_operator. pose proof (evaluate_short re a [] values 0 L) as E. cbn [app length] in E. rewrite E. reflexivity. Qed.
  (** A list of operators is evaluated like all their terms in order. *)
  Theorem C86_evaluate_list (l : list (qop K)) values : evaluate_qubit_operator_list re l values = evaluate_qubit_operator re (concat l) values.
  Proof. unfold evaluate_qubit_operator_list, evaluate_qubit_operator. rewrite evaluate_concat. reflexivity. Qed.

  Lemma bit_length_pow n : (bit_length (2 ^ n) - 1 = n)%nat.
  Proof. unfold bit_length. pose proof (Nat.pow_nonzero 2 n ltac:(lia)). destruct (2 ^ n)%nat eqn:E; [contradiction|]. rewrite <- E, Nat.log2_pow2 by lia. lia. Qed.
  (** The expectation value of the matrix of the operator. *)
  Theorem C86_expectation (a : qop K) n v : canonical_terms a -> on_qubits n a -> vlen v = (2 ^ n)%nat -> value_of a v false = Ok (mean (qop_matrix im n a) v).
  Proof.
    intros Ca Oa Hv. unfold get_expectation_value. rewrite Hv, bit_length_pow. cbn [rbind]. destruct (C74_qubit im half Him small is_zero Hz a n Ca Oa) as (A & EA & HA). rewrite EA. cbn [rbind].
    destruct (qop_matrix_shape im n a) as [S1 S2]. destruct HA as (H1 & H2 & H3). rewrite C75_expectation by congruence. f_equal. apply mean_ext; [split; [exact H1|split; [exact H2|exact H3]]|congruence|congruence].
  Qed.
  Theorem C86_expectation_too_few (a : qop K) n v b : canonical_terms a -> ~ on_qubits n a -> vlen v = (2 ^ n)%nat -> value_of a v b = Err ValueError.
  Proof.
    intros Ca Oa Hv. unfold get_expectation_value. rewrite Hv, bit_length_pow. destruct b.
    - rewrite (proj2 (C50_reverse_total im small a n Ca) Oa). reflexivity.
    - cbn [rbind]. rewrite (C74_qubit_too_few im half small is_zero a n Ca Oa). reflexivity.
  Qed.
  (** Evaluating an operator with the expectation values of its Pauli strings gives the real part of its expectation value. *)
  Theorem C86_consistent (a : qop K) n v : (forall x y, re (x + y) = re x + re y) -> canonical_terms a -> on_qubits n a -> vlen v = (2 ^ n)%nat ->
    exists values x, mapM (fun tc : term pauli * K => value_of [(fst tc, 1)] v false) a = Ok values /\ value_of a v false = Ok x /\ evaluate_qubit_operator re a values = Ok (re x).
  Proof.
    intros Hre Ca Oa Hv. exists (map (fun tc => mean (term_matrix im n (fst tc)) v) a), (mean (qop_matrix im n a) v). split.
    - rewrite (mapM_ok_map _ (fun tc => mean (term_matrix im n (fst tc)) v)); [reflexivity|]. intros [t c] Ht. cbn [fst]. rewrite (C86_expectation [(t, 1)] n v).
      + rewrite (mean_of_one im n t v). reflexivity.
      + intros t' c' [[= <- <-]|[]]. exact (Ca t c Ht).
      + intros t' c' [[= <- <-]|[]]. exact (Oa t c Ht).
      + exact Hv.
    - split; [exact (C86_expectation a n v Ca Oa Hv)|]. rewrite C86_evaluate by (rewrite map_length; lia). f_equal.
      rewrite (mean_qop im n a v). exact (weighted_map re Hre (fun t => mean (term_matrix im n t) v) a).
  Qed.

  Lemma reversal_symmetric n : meq (adjoint (bit_reversal (K := K) n)) (bit_reversal n).
  Proof.
    split; [reflexivity|]. split; [reflexivity|]. intros i j _ _. cbn [adjoint bit_reversal ent].
    assert (X : list_eqb Bool.eqb (bits n j) (rev (bits n i)) = list_eqb Bool.eqb (bits n i) (rev (bits n j))).
    { apply Bool.eq_iff_eq_true. pose proof (list_eqb_spec _ bool_eqb_spec (bits n j) (rev (bits n i))) as L1. pose proof (list_eqb_spec _ bool_eqb_spec (bits n i) (rev (bits n j))) as L2.
      rewrite L1, L2. split; [intros ->|intros ->]; now rewrite rev_involutive. }
    rewrite X. destruct (list_eqb Bool.eqb (bits n i) (rev (bits n j))); [apply kconj_1|apply kconj_0].
  Qed.
  Lemma mean_inner (A : mat K) v : nr A = vlen v -> nc A = vlen v -> mean A v = bigsum (vlen v) (fun i => kconj (vent v i) * vent (mvmul A v) i).
  Proof. intros Hr Hc. unfold mean. apply bigsum_ext. intros i _. cbn [mvmul vent]. rewrite Hc. reflexivity. Qed.
  Lemma mean_moved n (A B : mat K) v : sq (2 ^ n) A -> sq (2 ^ n) B -> vlen v = (2 ^ n)%nat -> meq (mmul B (bit_reversal n)) (mmul (bit_reversal n) A) -> mean B v = mean A (mvmul (bit_reversal n) v).
  Proof.
    intros [A1 A2] [B1 B2] Hv E. set (P := bit_reversal (K := K) n) in *. assert (P1 : nr P = (2 ^ n)%nat) by reflexivity. assert (P2 : nc P = (2 ^ n)%nat) by reflexivity.
    rewrite (mean_inner A) by (cbn [mvmul vlen]; congruence). cbn [mvmul vlen].
    pose proof (adjoint_expect P v (mvmul A (mvmul P v))) as X. cbn [mvmul vlen] in X. rewrite A1, P1 in X. specialize (X ltac:(congruence) ltac:(congruence)). rewrite P1.
    transitivity (bigsum (vlen v) (fun i => kconj (vent v i) * vent (mvmul (adjoint P) (mvmul A (mvmul P v))) i)); [|exact X].
    rewrite (mean_inner B) by congruence. apply bigsum_ext. intros i Hi. f_equal.
    pose proof (C50_bit_reversal_unitary im small n) as (_ & U1 & _). fold P in U1. rewrite P2 in U1.
    assert (V : veq (mvmul (adjoint P) (mvmul A (mvmul P v))) (mvmul B v)).
    { transitivity (mvmul (mmul (mmul (adjoint P) A) P) v); [|apply mvmul_ext; [cbn [mmul nc]; congruence| |reflexivity]].
      - symmetry. etransitivity; [apply (mvmul_assoc (mmul (adjoint P) A) P v); cbn [mmul nc]; congruence|]. apply mvmul_assoc. cbn. congruence.
      - (* P A P = B *)
        transitivity (mmul (mmul P A) P).
        + apply (mmul_sq (2 ^ n)); [split; cbn; congruence|split; congruence| |reflexivity]. apply (mmul_sq (2 ^ n)); [split; cbn; congruence|split; congruence|apply reversal_symmetric|reflexivity].
        + transitivity (mmul (mmul B P) P); [apply (mmul_sq (2 ^ n)); [split; cbn; congruence|split; congruence|symmetry; exact E|reflexivity]|].
          etransitivity; [apply mmul_assoc; cbn; congruence|]. transitivity (mmul B (eye (2 ^ n))); [|apply mmul_eye_r; congruence].
          apply (mmul_sq (2 ^ n)); [split; congruence|split; cbn; congruence|reflexivity|]. etransitivity; [|exact U1].
          apply (mmul_sq (2 ^ n)); [split; congruence|split; congruence|symmetry; apply reversal_symmetric|reflexivity]. }
    destruct V as [V1 V2]. symmetry. apply V2. cbn [mvmul vlen adjoint nr]. congruence.
  Qed.
  Lemma renamed_tidy s n (a : qop K) : (forall q, q < n -> s q < n)%nat -> on_qubits n a -> BKInterProofs5.tidy n (ReindexProofs.renamed s im small a).
  Proof.
    intros Hs. unfold ReindexProofs.renamed. enough (G : forall o, BKInterProofs5.tidy n o -> on_qubits n a -> BKInterProofs5.tidy n
      (fold_left (fun o (tc : term pauli * K) => op_add pauli_eqb small o (mk_op (qubit_simplify im) (ReindexProofs.rename s (fst tc)) (snd tc))) a o)) by (apply G, BKInterProofs5.tidy_nil).
    induction a as [|[t c] a' IH]; intros o Ho Oa; cbn [fold_left fst snd]; [exact Ho|]. apply IH; [|intros u d Hu; apply (Oa u d); now right].
    apply BKInterProofs5.tidy_add; [exact Ho|]. apply BKInterProofs5.tidy_mk. intros f Hf. unfold ReindexProofs.rename in Hf. apply in_map_iff in Hf as (g & <- & Hg). cbn [fst]. apply Hs. exact (Oa t c (or_introl eq_refl) g Hg).
  Qed.
  (** With the order of the qubits reversed: the expectation value in the state with reversed bits, up to dropped coefficients. *)
  Theorem C86_expectation_reversed (a : qop K) n v : canonical_terms a -> on_qubits n a -> vlen v = (2 ^ n)%nat ->
    exists x (dropped : qop K), value_of a v true = Ok x /\ all_small small dropped /\ (length dropped <= length a)%nat /\
      x + mean (qop_matrix im n dropped) v = mean (qop_matrix im n a) (mvmul (bit_reversal n) v).
  Proof.
    intros Ca Oa Hv. destruct (proj2 (proj1 (C50_reverse_total im small a n Ca)) Oa) as [b Eb].
    destruct (C50_reverse_matrix im Him small a b n Ca Eb) as (d & D1 & D2 & D3).
    assert (Cb : canonical_terms b /\ on_qubits n b).
    { assert (Hf : forall q, (q < n -> n - 1 - q < n)%nat) by (intros; lia). rewrite (reverse_renamed im small a n Ca Oa) in Eb. injection Eb as <-. split.
      - intros t c Ht. destruct (renamed_tidy (fun q => n - 1 - q)%nat n a Hf Oa) as (_ & _ & C). exact (C t c Ht).
      - exact (proj1 (renamed_tidy (fun q => n - 1 - q)%nat n a Hf Oa)). }
    destruct Cb as [Cb Ob]. exists (mean (qop_matrix im n b) v), d. unfold get_expectation_value. rewrite Hv, bit_length_pow, Eb. cbn [rbind].
    destruct (C74_qubit im half Him small is_zero Hz b n Cb Ob) as (A & EA & H1 & H2 & H3). rewrite EA. cbn [rbind].
    destruct (qop_matrix_shape im n b) as [S1 S2]. split; [|split; [exact D1|split; [exact D2|]]].
    - rewrite C75_expectation by congruence. f_equal. apply mean_ext; [split; [exact H1|split; [exact H2|exact H3]]|congruence|congruence].
    - transitivity (mean (madd (qop_matrix im n b) (qop_matrix im n d)) v).
      + unfold mean. rewrite <- bigsum_add. apply bigsum_ext. intros i _. cbn [madd ent].
        transitivity (kconj (vent v i) * (bigsum (vlen v) (fun j => ent (qop_matrix im n b) i j * vent v j) + bigsum (vlen v) (fun j => ent (qop_matrix im n d) i j * vent v j))); [ring|].
        f_equal. rewrite <- bigsum_add. apply bigsum_ext. intros j _. ring.
      + apply (mean_moved n); [apply qop_matrix_shape|split; cbn [madd nr nc]; [exact S1|exact S2]|exact Hv|exact D3].
  Qed.
End Evaluate.

(** ** Circuits of Pauli strings *)
Section Circuits.
  Context {Num : Type} (O : sympy_oracle Num) (IR : interp (Num := Num) R) (IC : interp (Num := Num) C) (rho : sym -> R) {K : cring}.
  Lemma one_circuit (t : term pauli) : (forall f, In f t -> snd f <> Pid) -> forall c : circuit Num, (0 <= c_nq c)%Z ->
    foldM (fun c (f : factor pauli) => let! g := term_gate_map (snd f) in circuit_add c (AddOp (GateOp g [fst f]))) t c = Ok (Build_circuit (c_ops c ++ pauli_ops t) (Z.max (c_nq c) (span (map fst t)))).
  Proof.
    induction t as [|f t IH]; intros Hp c Hc; cbn [foldM].
    - cbn [pauli_ops map span fold_right]. rewrite app_nil_r, Z.max_l by exact Hc. destruct c; reflexivity.
    - assert (Eg : term_gate_map (Num := Num) (snd f) = Ok (gate_of (snd f))). { specialize (Hp f (or_introl eq_refl)). destruct (snd f); [congruence|reflexivity..]. }
      rewrite Eg. cbn [rbind]. unfold circuit_add. cbn [py_max rbind]. rewrite mk_circuit_Z_pos by lia. cbn [rbind]. rewrite IH; [|intros; apply Hp; now right|cbn [c_nq]; lia].
      cbn [c_ops c_nq pauli_ops map span fold_right]. f_equal. f_equal; [rewrite <- app_assoc; reflexivity|]. cbn [max_nat fold_right]. unfold span. cbn [max_nat]. lia.
  Qed.
  (** One circuit per term, in order: it applies the Pauli string of the term, on any number of qubits that holds it, and its unitary is the matrix of the string. *)
  Theorem C86_circuits (a : qop K) : canonical_terms a -> exists cs : list (circuit Num), create_circuits_from_qubit_operator a = Ok cs /\
    Forall2 (fun (tc : term pauli * K) (c : circuit Num) => let t := fst tc in
      c_nq c = span (map fst t) /\ length (c_ops c) = length t /\
      (forall n v, (forall f, In f t -> fst f < n) -> vlen v = 2 ^ n -> exists w, apply_ops O IR IC rho (c_ops c) v = Ok w /\ veq w (mvmul (term_matrix (K := CC) ci n t) v)) /\
      (t <> [] -> exists U, to_unitary O IR IC rho c = Ok U /\ meq U (term_matrix (K := CC) ci (Z.to_nat (span (map fst t))) t))) a cs.
  Proof.
    intros Ca. exists (map (fun tc => Build_circuit (pauli_ops (fst tc)) (span (map fst (fst tc)))) a). split.
    - unfold create_circuits_from_qubit_operator. apply mapM_ok_map. intros [t c] Ht. cbn [fst]. cbn [mk_circuit circuit_size_by_operations rbind].
      rewrite one_circuit; [cbn [c_ops c_nq app]; rewrite Z.max_r by apply span_nonneg; reflexivity| |cbn; lia].
      intros f. apply canonical_not_id. exact (Ca t c Ht).
    - assert (G : forall t, canonical t -> let c := Build_circuit (pauli_ops (Num := Num) t) (span (map fst t)) in
        c_nq c = span (map fst t) /\ length (c_ops c) = length t /\
        (forall n v, (forall f, In f t -> fst f < n) -> vlen v = 2 ^ n -> exists w, apply_ops O IR IC rho (c_ops c) v = Ok w /\ veq w (mvmul (term_matrix (K := CC) ci n t) v)) /\
        (t <> [] -> exists U, to_unitary O IR IC rho c = Ok U /\ meq U (term_matrix (K := CC) ci (Z.to_nat (span (map fst t))) t))).
      { intros t Ct c. split; [reflexivity|]. split; [unfold c, pauli_ops; cbn [c_ops]; apply map_length|]. split.
        - intros n v Hn Hv. apply (EvolProofs5.implements_run O IR IC rho n); [|exact Hv]. now apply pauli_ops_implement.
        - intros Ne. set (n := Z.to_nat (span (map fst t))).
          assert (Hn : forall f, In f t -> fst f < n) by (intros f Hf; pose proof (span_in (fst f) (map fst t) (in_map fst t f Hf)); unfold n; lia).
          destruct (pauli_ops_implement O IR IC rho n t Ct Hn) as (ms & E & EM).
          assert (NQ : c_nq c = Z.of_nat n) by (unfold n; rewrite Z2Nat.id by apply span_nonneg; reflexivity).
          destruct (to_unitary_total O IR IC rho c ms) as [U EU].
          { unfold c, pauli_ops. cbn [c_ops]. destruct t; [congruence|discriminate]. }
          { rewrite NQ. exact E. }
          exists U. split; [exact EU|]. destruct (to_unitary_spec O IR IC rho c U EU) as (ms' & E' & HU). rewrite NQ in E', HU. change (c_ops c) with (pauli_ops (Num := Num) t) in E'. rewrite E in E'. injection E' as <-.
          etransitivity; [|exact EM]. destruct HU as (_ & _ & HU). unfold pow2Z in HU. rewrite Nat2Z.id in HU. exact HU. }
      clear -G Ca. induction a as [|[t c] a IH]; cbn [map]; constructor; [apply G; exact (Ca t c (or_introl eq_refl))|]. apply IH. intros u d Hu. apply (Ca u d). now right.
  Qed.
  (** The constant term gives an empty circuit without qubits, which has no unitary. *)
  Theorem C86_identity_refuted (c : K) : exists e : circuit Num, create_circuits_from_qubit_operator [([], c)] = Ok [e] /\ c_nq e = 0%Z /\ to_unitary O IR IC rho e = Err TypeError.
  Proof. exists (Build_circuit [] 0). split; [reflexivity|]. split; reflexivity. Qed.
End Circuits.

(** ** Instances *)
Definition c86_labels : list (list Z) := [[0; 1; 3]; [2]; [0; 1; 3; 0]; [0; 0]]%Z.
Definition c86_terms : list (term pauli) := [[(1, Px); (2, Pz)]; [(0, Py)]; [(1, Px); (2, Pz)]; []].
Example c86_labels_case : Forall2 string_of_label c86_labels c86_terms.
Proof. apply Forall2_cons; [now apply string_of_label_iff|]. apply Forall2_cons; [now apply string_of_label_iff|]. apply Forall2_cons; [now apply string_of_label_iff|]. apply Forall2_cons; [now apply string_of_label_iff|]. constructor. Qed.
Example c86_from_labels : match get_qubitop_from_coeffs_and_labels (K := GQ) qi gq_zero (fun _ => None) (fun _ => None) [gq 1 2; gq 4 0; gq 3 0; gq 0 8; gq 5 5] c86_labels with
  | Ok a => list_eqb (fun x y => term_eqb pauli_eqb (fst x) (fst y) && gq_eqb (snd x) (snd y))%bool a [([(1, Px); (2, Pz)], gq 4 2); ([(0, Py)], gq 4 0); ([], gq 0 8)]
  | Err _ => false end = true.
Proof. vm_compute. reflexivity. Qed.
(** random numbers that repeat a label once before a different one comes *)
Definition c86_random : random_source GQ := {| uniform := fun j => gq (Z.of_nat (S j)) 0; sample := fun t => if Nat.ltb t 3 then [2; 0] else [1; 2]; randint := fun t k => if Nat.eqb t 2 then 3%Z else if Nat.eqb k 0 then 1%Z else 2%Z |}.
Example c86_random_honest : honest c86_random 3 2.
Proof.
  split.
  - intros t. cbn [c86_random sample]. destruct (Nat.ltb t 3).
    + split; [apply NoDup_cons; [intros [Q|[]]; discriminate Q|apply NoDup_cons; [intros []|constructor]]|]. split; [reflexivity|]. intros q [<-|[<-|[]]]; lia.
    + split; [apply NoDup_cons; [intros [Q|[]]; discriminate Q|apply NoDup_cons; [intros []|constructor]]|]. split; [reflexivity|]. intros q [<-|[<-|[]]]; lia.
  - intros t j. cbn [c86_random randint]. destruct (Nat.eqb t 2); [lia|]. destruct (Nat.eqb j 0); lia.
Qed.
Definition c86_same (a b : qop GQ) : bool := list_eqb (fun x y => term_eqb pauli_eqb (fst x) (fst y) && gq_eqb (snd x) (snd y))%bool a b.
Notation c86_draw fuel fixed := (generate_random_qubitop (K := GQ) qi gq_zero (fun _ => None) (fun _ => None) c86_random fuel 3 3 2 (gq 0 7) fixed).
(** three terms after four rounds, and none before *)
Example c86_random_case : (match c86_draw 4 false with
  | Some (Ok a) => c86_same a [([(0, Px); (2, Py)], gq 1 0); ([(0, Pz); (2, Pz)], gq 2 0); ([(1, Px); (2, Py)], gq 3 0)] | _ => false end &&
  match c86_draw 4 true with Some (Ok a) => c86_same a [([(0, Px); (2, Py)], gq 0 7); ([(0, Pz); (2, Pz)], gq 0 7); ([(1, Px); (2, Py)], gq 0 7)] | _ => false end &&
  match c86_draw 3 false with None => true | _ => false end)%bool = true.
Proof. vm_compute. reflexivity. Qed.
(** four strings of one letter cannot be drawn on one qubit *)
Example c86_random_forever : (choose 1 1 * 3 ^ 1 < 4)%nat.
Proof. vm_compute. repeat constructor. Qed.
Definition c86_re (x : GQ) : GQ := (fst x, Qcanon.Q2Qc (QArith_base.Qmake 0 1)).
Lemma c86_re_add : forall x y : GQ, c86_re (kadd x y) = kadd (c86_re x) (c86_re y).
Proof. intros [x x'] [y y']. unfold c86_re. cbn. f_equal. Qed.
Definition c86_op : qop GQ := [([(0, Pz)], gq 4 0); ([(0, Px); (1, Py)], gq 0 8); ([], gq 1 0)].
Definition c86_state : vec GQ := {| vlen := 4; vent := fun i => nth i [gq 1 0; gq 0 2; gq 3 0; gq 1 1] (gq 0 0) |}.
Example c86_op_fine : canonical_terms c86_op /\ on_qubits 2 c86_op.
Proof.
  split; intros t c [[= <- <-]|[[= <- <-]|[[= <- <-]|[]]]].
  - apply canonical_cons_intro; [discriminate|intros g []|constructor].
  - apply canonical_cons_intro; [discriminate|intros g [<-|[]]; cbn; lia|]. apply canonical_cons_intro; [discriminate|intros g []|constructor].
  - constructor.
  - intros f [<-|[]]. cbn. lia.
  - intros f [<-|[<-|[]]]; cbn; lia.
  - intros f [].
Qed.
Notation c86_value rev := (get_expectation_value (K := GQ) qi qhalf gq_zero gq_zero c86_op c86_state rev).
Definition c86_is (x : result GQ) (y : GQ) : bool := match x with Ok x => gq_eqb x y | Err _ => false end.
Example c86_values : (c86_is (c86_value false) (mean (qop_matrix (K := GQ) qi 2 c86_op) c86_state) && c86_is (c86_value true) (mean (qop_matrix (K := GQ) qi 2 c86_op) (mvmul (bit_reversal 2) c86_state))
  && negb (gq_eqb (mean (qop_matrix (K := GQ) qi 2 c86_op) c86_state) (mean (qop_matrix (K := GQ) qi 2 c86_op) (mvmul (bit_reversal 2) c86_state))))%bool = true.
Proof. vm_compute. reflexivity. Qed.
Example c86_evaluated : c86_is (evaluate_qubit_operator (K := GQ) c86_re c86_op [gq 2 0; gq 0 4; gq 4 0; gq 9 9]) (gq (2 - 8 + 1) 0) = true.
Proof. vm_compute. reflexivity. Qed.
Example c86_circuit_sizes : match create_circuits_from_qubit_operator (Num := Z) [([(1, Px); (4, Pz)], gq 1 0); ([(0, Py)], gq 2 0)] with
  | Ok cs => map (fun c => (length (c_ops c), c_nq c)) cs | Err _ => [] end = [(2, 5%Z); (1, 1%Z)].
Proof. vm_compute. reflexivity. Qed.

Print Assumptions C86_label_string.
Print Assumptions C86_labels.
Print Assumptions C86_labels_distinct.
Print Assumptions C86_labels_too_few.
Print Assumptions C86_random.
Print Assumptions C86_random_returns.
Print Assumptions C86_random_round.
Print Assumptions C86_random_refuted.
Print Assumptions C86_random_too_local.
Print Assumptions C86_evaluate.
Print Assumptions C86_evaluate_too_few.
Print Assumptions C86_evaluate_list.
Print Assumptions C86_expectation.
Print Assumptions C86_expectation_too_few.
Print Assumptions C86_expectation_reversed.
Print Assumptions C86_consistent.
Print Assumptions C86_circuits.
Print Assumptions C86_identity_refuted.
