(** Theorems for C71 (Fermi-Hubbard Hamiltonians), stated over HubbardModel.v, FermiSpec.v and HubbardSpec.v. *)
From Coq Require Import ZArith Ring.
From Verif Require Import Base BaseFacts MatModel MatFacts LiftSpec LiftProofs OpModel OpSpec OpProofs PauliProofs OpProofs2 ConjProofs
  FermiModel FermiSpec FermiProofs FermiProofs2 FermiProofs3 FermiProofs4 FermiProofs6 FermiProofs7 RevJWModel RevJWProofs RevJWProps HubbardModel HubbardSpec HubbardProofs GaussQ.
Open Scope list_scope.
Local Open Scope nat_scope.

Section C71.
  Context {K : cring} (half : K) (small : K -> bool) (Hh : small (ksub k0 half) = false).
  Add Ring Kring_c71 : (kth K).
  Open Scope K_scope.

  Lemma over_edges_mul per X Y c (f : nat -> nat -> K) : over_edges per X Y (fun i j => c * f i j) = c * over_edges per X Y f.
  Proof.
    unfold over_edges. rewrite bigsum_mul_l. apply bigsum_ext. intros t _. rewrite bigsum_mul_l. apply bigsum_ext. intros s _. destruct (connected per X Y s t); ring.
  Qed.
  Lemma over_edges_add per X Y (f g : nat -> nat -> K) : over_edges per X Y (fun i j => f i j + g i j) = over_edges per X Y f + over_edges per X Y g.
  Proof.
    unfold over_edges. rewrite <- bigsum_add. apply bigsum_ext. intros t _. rewrite <- bigsum_add. apply bigsum_ext. intros s _. destruct (connected per X Y s t); ring.
  Qed.
  Lemma over_edges_ext per X Y (f g : nat -> nat -> K) : (forall i j, f i j = g i j) -> over_edges per X Y f = over_edges per X Y g.
  Proof. intros H. unfold over_edges. apply bigsum_ext. intros t _. apply bigsum_ext. intros s _. rewrite H. reflexivity. Qed.
  Lemma over_edges_if per X Y (b : bool) (f : nat -> nat -> K) : over_edges per X Y (fun i j => if b then f i j else 0) = if b then over_edges per X Y f else 0.
  Proof.
    destruct b; [reflexivity|]. unfold over_edges. apply bigsum_0. intros t _. apply bigsum_0. intros s _. destruct (connected per X Y s t); reflexivity.
  Qed.

  Lemma bigsum_sub N (f g : nat -> K) : bigsum N (fun s => f s - g s) = bigsum N f - bigsum N g.
  Proof. transitivity (bigsum N f + - (1) * bigsum N g); [|ring]. rewrite bigsum_mul_l, <- bigsum_add. apply bigsum_ext. intros s _. ring. Qed.
  Section Model.
    Context (X Y : nat) (per ph : bool) (t U mu h : K).
    Notation same x y := (list_eqb Bool.eqb x y).
    (** what a site and a neighbor contribute, in the direction of the loop *)
    Definition hop_in (n i j : nat) (x y : list bool) : K := - t * move n i j x y + kconj (- t) * move n j i x y.
    Definition spinful_part (s : nat) (x y : list bool) : K :=
      let n := (2 * (X * Y))%nat in
      let f i j := hop_in n (2 * i) (2 * j) x y + hop_in n (2 * i + 1) (2 * j + 1) x y in
      opt f s (fst (neighbors s X Y per)) + opt f s (snd (neighbors s X Y per)) +
      (if same x y then U * (shifted half ph x (2 * s) * shifted half ph x (2 * s + 1)) else 0) +
      (if same x y then (- mu - h) * occupation x (2 * s) else 0) + (if same x y then (- mu + h) * occupation x (2 * s + 1) else 0).
    Lemma spinful_loop : exists o, fermi_hubbard half small X Y t U mu h per false ph = Ok o /\
      acc small (2 * (X * Y)) o (X * Y * 18) (fun x y => bigsum (X * Y) (fun s => spinful_part s x y)).
    Proof.
      unfold fermi_hubbard. apply loop_acc. intros s o j V Hs A. unfold spinful_site, spinful_part.
      set (n := (2 * (X * Y))%nat) in *. cbn zeta.
      destruct (neighbors s X Y per) as [nr nb] eqn:En. cbn [fst snd].
      assert (Lr : forall q, nr = Some q -> (q < X * Y)%nat) by (intros q ->; apply (neighbors_lt X Y per s q Hs); rewrite En; auto).
      assert (Lb : forall q, nb = Some q -> (q < X * Y)%nat) by (intros q ->; apply (neighbors_lt X Y per s q Hs); rewrite En; auto).
      set (f := fun i j x y => hop_in n (2 * i) (2 * j) x y + hop_in n (2 * i + 1) (2 * j + 1) x y).
      assert (H1 : forall (m : fop K) k W q, (forall p, q = Some p -> (p < X * Y)%nat) -> acc small n m k W ->
        acc small n (match q with
                     | Some j => fermion_add small (fermion_add small m (hopping_term small (up_index s) (up_index j) (- t))) (hopping_term small (down_index s) (down_index j) (- t))
                     | None => m end) (k + 6) (fun x y => W x y + opt (fun i j => f i j x y) s q)).
      { intros m k W [q|] Hq Am; cbn [opt]; [|apply (acc_ext small n _ _ _ _ _ Am); [lia|intros; ring]]. specialize (Hq q eq_refl). unfold up_index, down_index.
        destruct (hop_acc small n (2 * s) (2 * q) (- t)) as [B1 B2]; [unfold n; lia|unfold n; lia|]. destruct (hop_acc small n (2 * s + 1) (2 * q + 1) (- t)) as [B3 B4]; [unfold n; lia|unfold n; lia|].
        eapply acc_ext; [apply acc_add; [apply acc_add; [exact Am|exact B1|exact B2]|exact B3|exact B4]|lia|]. intros x y _ _. unfold f, hop_in. cbn beta. ring. }
      pose proof (H1 _ _ _ nb Lb (H1 _ _ _ nr Lr A)) as A1. clear H1.
      match type of A1 with acc _ _ ?m _ _ => set (m0 := m) in * end.
      destruct (coulomb_acc half small Hh n n (up_index s) (down_index s) U ph) as (oc & Ec & Lc & Ac); [unfold up_index, n; lia|unfold down_index, n; lia|].
      rewrite Ec. cbn [rbind]. unfold number_operator. cbn [Z.eqb Pos.eqb negb rbind fermion_op mk_op fermion_simplify].
      eexists. split; [reflexivity|].
      eapply acc_ext; [apply acc_add; [apply acc_add; [apply acc_add; [exact A1|exact Ac|exact Lc]|apply (number_acc half); unfold up_index, n; lia|apply le_n]|apply (number_acc half); unfold down_index, n; lia|apply le_n]|cbn [length]; lia|].
      intros x y _ _. cbn beta. unfold up_index, down_index, f. ring.
    Qed.
    Definition spinless_part (s : nat) (x y : list bool) : K :=
      let n := (X * Y)%nat in
      let f i j := hop_in n i j x y + (if same x y then U * (shifted half ph x i * shifted half ph x j) else 0) in
      opt f s (fst (neighbors s X Y per)) + opt f s (snd (neighbors s X Y per)) + (if same x y then - mu * occupation x s else 0).
    Lemma spinless_loop : exists o, fermi_hubbard half small X Y t U mu h per true ph = Ok o /\
      acc small (X * Y) o (X * Y * 15) (fun x y => bigsum (X * Y) (fun s => spinless_part s x y)).
    Proof.
      unfold fermi_hubbard. apply loop_acc. intros s o j V Hs A. unfold spinless_site, spinless_part.
      set (n := (X * Y)%nat) in *. cbn zeta.
      destruct (neighbors s X Y per) as [nr nb] eqn:En. cbn [fst snd].
      assert (Lr : forall q, nr = Some q -> (q < n)%nat) by (intros q ->; apply (neighbors_lt X Y per s q Hs); rewrite En; auto).
      assert (Lb : forall q, nb = Some q -> (q < n)%nat) by (intros q ->; apply (neighbors_lt X Y per s q Hs); rewrite En; auto).
      set (f := fun i j x y => hop_in n i j x y + (if same x y then U * (shifted half ph x i * shifted half ph x j) else 0)).
      assert (H1 : forall (m : fop K) k W q, (forall p, q = Some p -> (p < n)%nat) -> acc small n m k W -> exists m',
        match q with
        | Some j => let! coulomb_term := coulomb_interaction_term half small n s j U ph in Ok (fermion_add small (fermion_add small m (hopping_term small s j (- t))) coulomb_term)
        | None => Ok m end = Ok m' /\ acc small n m' (k + 7) (fun x y => W x y + opt (fun i j => f i j x y) s q)).
      { intros m k W [q|] Hq Am; cbn [opt]; [|exists m; split; [reflexivity|]; apply (acc_ext small n _ _ _ _ _ Am); [lia|intros; ring]]. specialize (Hq q eq_refl).
        destruct (hop_acc small n s q (- t) Hs Hq) as [B1 B2]. destruct (coulomb_acc half small Hh n n s q U ph Hs Hq) as (oc & Ec & Lc & Ac). rewrite Ec. cbn [rbind]. eexists. split; [reflexivity|].
        eapply acc_ext; [apply acc_add; [apply acc_add; [exact Am|exact B1|exact B2]|exact Ac|exact Lc]|lia|]. intros x y _ _. unfold f, hop_in. cbn beta. ring. }
      destruct (H1 _ _ _ nr Lr A) as (m1 & E1 & A1). rewrite E1. cbn [rbind]. destruct (H1 _ _ _ nb Lb A1) as (m2 & E2 & A2). rewrite E2. cbn [rbind].
      unfold number_operator. cbn [Z.eqb Pos.eqb negb rbind fermion_op mk_op fermion_simplify]. eexists. split; [reflexivity|].
      eapply acc_ext; [apply acc_add; [exact A2|apply (number_acc half); exact Hs|apply le_n]|cbn [length]; lia|]. intros x y _ _. cbn beta. unfold f. ring.
    Qed.

    (** Every Hamiltonian of these forms is hermitian, also for complex tunneling. *)
    Lemma move_conj n i j x y : length x = n -> length y = n -> kconj (move (K := K) n i j y x) = move n j i x y.
    Proof.
      intros Hx Hy. unfold move. assert (Bx : (bval x < 2 ^ n)%nat) by (rewrite <- Hx; apply bval_lt). assert (By : (bval y < 2 ^ n)%nat) by (rewrite <- Hy; apply bval_lt).
      destruct (adjoint_mmul (ladder_matrix (K := K) n (i, true)) (ladder_matrix n (j, false)) eq_refl) as (_ & _ & E). specialize (E (bval x) (bval y)). cbn [nr nc adjoint mmul ladder_matrix] in E.
      change (ent (adjoint (mmul (ladder_matrix (K := K) n (i, true)) (ladder_matrix n (j, false)))) (bval x) (bval y) = ent (mmul (ladder_matrix (K := K) n (j, true)) (ladder_matrix n (i, false))) (bval x) (bval y)).
      rewrite E by auto.
      assert (Q : meq (mmul (adjoint (ladder_matrix (K := K) n (j, false))) (adjoint (ladder_matrix n (i, true)))) (mmul (ladder_matrix n (j, true)) (ladder_matrix n (i, false)))).
      { apply (mmul_sq (2 ^ n)); [split; reflexivity|split; reflexivity|apply ladder_adjoint|apply ladder_adjoint]. }
      destruct Q as (_ & _ & Q). apply Q; cbn; auto.
    Qed.
    Lemma hop_conj n i j x y : length x = n -> length y = n -> kconj (hop_in n i j y x) = hop_in n i j x y.
    Proof. intros Hx Hy. unfold hop_in. rewrite kconj_add, !kconj_mul, !kconj_invol, !move_conj by auto. ring. Qed.
    Lemma same_sym x y : same x y = same y x.
    Proof. apply eq_true_iff_eq. split; intros E; apply (list_eqb_spec _ bool_eqb_spec) in E; subst; apply (list_eqb_spec _ bool_eqb_spec); reflexivity. Qed.
    Lemma real_if x y (v : list bool -> K) : (forall z, kconj (v z) = v z) -> kconj (if same y x then v y else 0) = if same x y then v x else 0.
    Proof.
      intros Hv. rewrite (same_sym y x). destruct (same x y) eqn:E; [|apply kconj_0]. apply (list_eqb_spec _ bool_eqb_spec) in E. subst. apply Hv.
    Qed.
    Lemma opt_conj (f g : nat -> nat -> K) s o : (forall i j, kconj (f i j) = g i j) -> kconj (opt f s o) = opt g s o.
    Proof. intros H. destruct o; cbn [opt]; [apply H|apply kconj_0]. Qed.
    Context (RU : kconj U = U) (Rmu : kconj mu = mu) (Rh : kconj h = h) (Rhalf : kconj half = half).
    Lemma occupation_real (x : list bool) p : kconj (occupation (K := K) x p) = occupation x p.
    Proof. unfold occupation. destruct (nth p x false); [apply kconj_1|apply kconj_0]. Qed.
    Lemma shifted_real (x : list bool) p : kconj (shifted half ph x p) = shifted half ph x p.
    Proof.
      unfold shifted. destruct ph; [|apply occupation_real]. assert (G : forall a b : K, a - b = a + - b) by (intros; ring). rewrite G, kconj_add, kconj_opp, Rhalf, occupation_real. reflexivity.
    Qed.
    Theorem C71_hermitian (spinless : bool) (H : fop K) : only_zero small -> fermi_hubbard half small X Y t U mu h per spinless ph = Ok H ->
      let n := (if spinless then X * Y else 2 * (X * Y))%nat in meq (adjoint (fop_matrix n H)) (fop_matrix n H).
    Proof.
      intros Hz E. cbn zeta.
      assert (G : forall n k (V : list bool -> list bool -> K), acc small n H k V -> (forall x y, length x = n -> length y = n -> kconj (V y x) = V x y) -> meq (adjoint (fop_matrix n H)) (fop_matrix n H)).
      { intros n k V (_ & r & R1 & _ & _ & R4) HV. apply (meq_bits n); try (cbn [nr nc adjoint]; apply fop_shape). intros x y Hx Hy. cbn [ent adjoint].
        assert (Q : forall x y, length x = n -> length y = n -> ent (fop_matrix n H) (bval x) (bval y) = V x y).
        { intros x0 y0 Hx0 Hy0. rewrite <- R4 by auto. unfold at_. rewrite (fop_ent n r), (lval_small small _ r R1 Hz). ring. }
        rewrite !Q by auto. apply HV; auto. }
      assert (S0 : forall (a b : K), a - b = a + - b) by (intros; ring).
      destruct spinless.
      - destruct spinless_loop as (o & E' & A). rewrite E in E'. inversion E'; subst o. apply (G _ _ _ A). intros x y Hx Hy. rewrite bigsum_conj. apply bigsum_ext. intros s _. unfold spinless_part. cbn zeta.
        rewrite !kconj_add. rewrite !(opt_conj _ (fun i j => hop_in (X * Y) i j x y + (if same x y then U * (shifted half ph x i * shifted half ph x j) else 0))).
        2,3: intros i j; rewrite kconj_add, hop_conj by auto; f_equal; apply (real_if x y (fun z => U * (shifted half ph z i * shifted half ph z j))); intros z; rewrite !kconj_mul, !shifted_real, RU; reflexivity.
        f_equal. apply (real_if x y (fun z => - mu * occupation z s)). intros z. rewrite kconj_mul, kconj_opp, Rmu, occupation_real. reflexivity.
      - destruct spinful_loop as (o & E' & A). rewrite E in E'. inversion E'; subst o. apply (G _ _ _ A). intros x y Hx Hy. rewrite bigsum_conj. apply bigsum_ext. intros s _. unfold spinful_part. cbn zeta.
        rewrite !kconj_add. rewrite !(opt_conj _ (fun i j => hop_in (2 * (X * Y)) (2 * i) (2 * j) x y + hop_in (2 * (X * Y)) (2 * i + 1) (2 * j + 1) x y)) by (intros i j; rewrite kconj_add, !hop_conj by auto; reflexivity).
        f_equal; [f_equal; [f_equal|]|].
        + apply (real_if x y (fun z => U * (shifted half ph z (2 * s) * shifted half ph z (2 * s + 1)))). intros z. rewrite !kconj_mul, !shifted_real, RU. reflexivity.
        + apply (real_if x y (fun z => (- mu - h) * occupation z (2 * s))). intros z. rewrite S0, kconj_mul, kconj_add, !kconj_opp, Rmu, Rh, occupation_real. reflexivity.
        + apply (real_if x y (fun z => (- mu + h) * occupation z (2 * s + 1))). intros z. rewrite kconj_mul, kconj_add, kconj_opp, Rmu, Rh, occupation_real. reflexivity.
    Qed.

    (** real tunneling: the sum over the edges *)
    Hypothesis Ht : kconj t = t.
    Lemma hop_in_entry n i j x y : hop_in n i j x y = - t * hopping_entry n i j x y.
    Proof. unfold hop_in, hopping_entry, move. rewrite kconj_opp, Ht. cbn [ent madd]. ring. Qed.
    Lemma hopping_entry_sym n i j x y : hopping_entry (K := K) n i j x y = hopping_entry n j i x y.
    Proof. unfold hopping_entry. cbn [ent madd]. ring. Qed.
    Lemma if_mul (b : bool) (a c : K) : (if b then a * c else 0) = a * (if b then c else 0). Proof. destruct b; ring. Qed.
    Theorem C71_spinful : exists H r : fop K, fermi_hubbard half small X Y t U mu h per false ph = Ok H /\ on_qubits (2 * (X * Y)) H /\
      all_small small r /\ (length r <= 18 * (X * Y))%nat /\ on_qubits (2 * (X * Y)) r /\
      forall x y, length x = (2 * (X * Y))%nat -> length y = (2 * (X * Y))%nat ->
        ent (fop_matrix (2 * (X * Y)) H) (bval x) (bval y) + ent (fop_matrix (2 * (X * Y)) r) (bval x) (bval y) = spinful_entry half per ph X Y t U mu h x y.
    Proof.
      destruct spinful_loop as (o & E & Ho & r & R1 & R2 & R3 & R4). exists o, r. split; [exact E|]. split; [exact Ho|]. split; [exact R1|]. split; [lia|]. split; [exact R3|].
      intros x y Hx Hy. unfold at_ in R4. rewrite R4 by auto. unfold spinful_part. cbn zeta. set (n := (2 * (X * Y))%nat) in *. rewrite !bigsum_add.
      rewrite <- bigsum_add. rewrite (edges X Y per).
      2:{ intros s q _ _. rewrite !hop_in_entry. rewrite (hopping_entry_sym n (2 * s)), (hopping_entry_sym n (2 * s + 1)). reflexivity. }
      unfold spinful_entry. fold n. rewrite <- over_edges_mul. rewrite (over_edges_ext per X Y _ (fun i j => - t * (hopping_entry n (2 * i) (2 * j) x y + hopping_entry n (2 * i + 1) (2 * j + 1) x y))) by (intros i j; rewrite !hop_in_entry; ring).
      unfold spinful_energy. destruct (same x y).
      - rewrite <- !bigsum_mul_l, bigsum_sub, bigsum_add. ring.
      - rewrite !bigsum_0 by auto. ring.
    Qed.
    Theorem C71_spinless : exists H r : fop K, fermi_hubbard half small X Y t U mu h per true ph = Ok H /\ on_qubits (X * Y) H /\
      all_small small r /\ (length r <= 15 * (X * Y))%nat /\ on_qubits (X * Y) r /\
      forall x y, length x = (X * Y)%nat -> length y = (X * Y)%nat ->
        ent (fop_matrix (X * Y) H) (bval x) (bval y) + ent (fop_matrix (X * Y) r) (bval x) (bval y) = spinless_entry half per ph X Y t U mu x y.
    Proof.
      destruct spinless_loop as (o & E & Ho & r & R1 & R2 & R3 & R4). exists o, r. split; [exact E|]. split; [exact Ho|]. split; [exact R1|]. split; [lia|]. split; [exact R3|].
      intros x y Hx Hy. unfold at_ in R4. rewrite R4 by auto. unfold spinless_part. cbn zeta. rewrite bigsum_add.
      assert (D : forall i j, hop_in (X * Y) i j x y + (if same x y then U * (shifted half ph x i * shifted half ph x j) else 0) =
        - t * hopping_entry (X * Y) i j x y + (if same x y then U * (shifted half ph x i * shifted half ph x j) else 0)) by (intros i j; rewrite hop_in_entry; reflexivity).
      rewrite (edges X Y per).
      2:{ intros s q _ _. rewrite !D, (hopping_entry_sym (X * Y) s q). destruct (same x y); ring. }
      rewrite (over_edges_ext per X Y _ _ D), over_edges_add, over_edges_mul, over_edges_if, over_edges_mul. unfold spinless_entry, spinless_energy.
      destruct (same x y); [rewrite <- bigsum_mul_l; ring|rewrite bigsum_0 by auto; ring].
    Qed.
    (** No coefficient below the threshold but 0: the stored operator is the documented one exactly. *)
    Corollary C71_exact : only_zero small ->
      (exists H, fermi_hubbard half small X Y t U mu h per false ph = Ok H /\ forall x y, length x = (2 * (X * Y))%nat -> length y = (2 * (X * Y))%nat ->
        ent (fop_matrix (2 * (X * Y)) H) (bval x) (bval y) = spinful_entry half per ph X Y t U mu h x y) /\
      (exists H, fermi_hubbard half small X Y t U mu h per true ph = Ok H /\ forall x y, length x = (X * Y)%nat -> length y = (X * Y)%nat ->
        ent (fop_matrix (X * Y) H) (bval x) (bval y) = spinless_entry half per ph X Y t U mu x y).
    Proof.
      intros Hz. split.
      - destruct C71_spinful as (H & r & E & _ & R1 & _ & _ & R). exists H. split; [exact E|]. intros x y Hx Hy. rewrite <- R by auto. rewrite (fop_ent _ r), (lval_small small _ r R1 Hz). ring.
      - destruct C71_spinless as (H & r & E & _ & R1 & _ & _ & R). exists H. split; [exact E|]. intros x y Hx Hy. rewrite <- R by auto. rewrite (fop_ent _ r), (lval_small small _ r R1 Hz). ring.
    Qed.
  End Model.

  (** The operators of general_hubbard.py: the coefficient multiplies the first occupation, before one half is taken off. *)
  Theorem C71_general n (i j : nat) (c : K) (ph : bool) : (i < n)%nat -> (j < n)%nat ->
    meq (fop_matrix n (general_interaction_operator half small i j c ph))
      (RevJWSpec.diagonal n (fun x => (if ph then c * occupation x i - half else c * occupation x i) * shifted half ph x j)).
  Proof.
    intros Hi Hj. assert (S1 : forall m d, fermion_sub small (fermion_op [(m, true); (m, false)] d) (fermion_op [] half) = counted half true m d).
    { intros m d. unfold fermion_sub, op_sub. cbn [fermion_op mk_op fermion_simplify fold_left]. unfold merge_term. cbn [fst snd dget dset term_eqb list_eqb]. rewrite Hh. reflexivity. }
    assert (E : forall m d, general_number_operator half small m d ph = counted half ph m d) by (intros m d; unfold general_number_operator; destruct ph; [apply S1|reflexivity]).
    assert (D : forall m d, (m < n)%nat -> diag n (counted half ph m d) (fun x => if ph then d * occupation x m - half else d * occupation x m)).
    { intros m d Hm x y Hx Hy. unfold at_. rewrite fop_ent. pose proof (number_diag small n m d Hm x y Hx Hy) as N. unfold at_ in N. rewrite fop_ent in N. cbn [lval fst snd] in N.
      unfold counted. destruct ph; cbn [lval fst snd fterm_matrix fold_right ent eye]; [|exact N].
      rewrite eqb_bval by congruence. cbn [fterm_matrix fold_right] in N. match type of N with ?a + 0 = _ => match goal with |- a + ?b = _ => transitivity (a + 0 + b); [ring|] end end. rewrite N. destruct (list_eqb Bool.eqb x y); cbn [delta]; ring. }
    apply (meq_bits n); try apply fop_shape; try reflexivity. intros x y Hx Hy. rewrite diagonal_ent by auto. unfold general_interaction_operator. rewrite !E.
    pose proof (diag_mul n _ _ _ _ (D i c Hi) (D j 1 Hj) x y Hx Hy) as Q. unfold at_ in Q. etransitivity; [exact Q|].
    destruct (list_eqb Bool.eqb x y) eqn:Exy; [|reflexivity]. apply (list_eqb_spec _ bool_eqb_spec) in Exy. subst y. unfold shifted. destruct ph; ring.
  Qed.
End C71.

(** Concrete cases over the Gaussian rationals: hypotheses, and the edges of small grids. *)
Example C71_hypotheses : gq_zero (ksub k0 qhalf) = false /\ kconj (gq 3 0) = gq 3 0.
Proof. split; [vm_compute; reflexivity|]. apply (f_equal2 pair); apply Qcanon.Qc_is_canon; reflexivity. Qed.
Definition edge_list (per : bool) (X Y : nat) : list (nat * nat) := flat_map (fun t => map (fun s => (s, t)) (filter (fun s => connected per X Y s t) (seq 0 t))) (seq 0 (X * Y)).
Example C71_edges : edge_list true 2 2 = [(0, 1); (0, 2); (1, 3); (2, 3)] /\ edge_list false 3 2 = [(0, 1); (1, 2); (0, 3); (1, 4); (3, 4); (2, 5); (4, 5)] /\
  edge_list true 3 1 = [(0, 1); (0, 2); (1, 2)] /\ edge_list true 1 2 = [(0, 1)] /\ edge_list false 1 1 = [] /\ length (edge_list true 3 4) = 24.
Proof. vm_compute. intuition. Qed.
Example C71_spinless_case : match fermi_hubbard qhalf gq_zero 2 1 (gq 1 0) (gq 4 0) (gq 3 0) (gq 7 0) true true false with
    | Ok b => gq_same Bool.eqb b [([(0, true); (1, false)], gq (-1) 0); ([(1, true); (0, false)], gq (-1) 0); ([(0, true); (0, false); (1, true); (1, false)], gq 4 0);
        ([(0, true); (0, false)], gq (-3) 0); ([(1, true); (1, false)], gq (-3) 0)] | Err _ => false end = true.
Proof. vm_compute. reflexivity. Qed.
Example C71_spinful_case : match fermi_hubbard qhalf gq_zero 1 1 (gq 1 0) (gq 4 0) (gq 3 0) (gq 7 0) true false true with
    | Ok b => gq_same Bool.eqb b [([(0, true); (0, false); (1, true); (1, false)], gq 4 0); ([(0, true); (0, false)], gq (-12) 0); ([(1, true); (1, false)], gq 2 0); ([], gq 1 0)]
    | Err _ => false end = true.
Proof. vm_compute. reflexivity. Qed.
(** So with particle-hole symmetry and a coefficient other than 1 the interaction of general_hubbard.py is not the coefficient times (n_i - 1/2)(n_j - 1/2),
    which is what hubbard.py uses. *)
Theorem C71_general_particle_hole_refuted : exists (c : GQ) (i j : nat),
  ~ meq (fop_matrix 2 (general_interaction_operator qhalf gq_zero i j c true)) (RevJWSpec.diagonal 2 (fun x => kmul c (kmul (shifted qhalf true x i) (shifted qhalf true x j)))) /\
  exists o, coulomb_interaction_term qhalf gq_zero 2 i j c true = Ok o /\
    meq (fop_matrix 2 o) (RevJWSpec.diagonal 2 (fun x => kmul c (kmul (shifted qhalf true x i) (shifted qhalf true x j)))).
Proof.
  exists (gq 2 0), 0, 1. split.
  - intros M. destruct (C71_general qhalf gq_zero eq_refl 2 0 1 (gq 2 0) true) as (S1 & S2 & E); [lia|lia|].
    destruct M as (_ & _ & M). specialize (M 0 0). specialize (E 0 0). rewrite (proj1 (fop_shape 2 _)), (proj2 (fop_shape 2 _)) in *. rewrite E in M by (cbn; lia). specialize (M ltac:(cbn; lia) ltac:(cbn; lia)). cbn [ent RevJWSpec.diagonal Nat.eqb] in M. unfold shifted, occupation in M. cbn [nth bits] in M. discriminate M.
  - destruct (coulomb_acc qhalf gq_zero eq_refl 2 2 0 1 (gq 2 0) true) as (o & E & _ & _ & r & R1 & R2 & _ & R4); [lia|lia|]. exists o. split; [exact E|].
    apply (meq_bits 2); try apply fop_shape; try reflexivity. intros x y Hx Hy. rewrite diagonal_ent by auto. assert (r = []) as -> by (destruct r; [reflexivity|cbn in R2; lia]).
    specialize (R4 x y Hx Hy). unfold at_ in R4. cbn [fop_matrix fold_right ent zeros] in R4. etransitivity; [|etransitivity; [exact R4|]].
    + symmetry. etransitivity; [apply (Radd_comm (kth GQ))|]. apply (Radd_0_l (kth GQ)).
    + destruct (list_eqb Bool.eqb x y) eqn:Exy; [|reflexivity]. apply (list_eqb_spec _ bool_eqb_spec) in Exy. subst y. reflexivity.
Qed.

Print Assumptions C71_spinful.
Print Assumptions C71_spinless.
Print Assumptions C71_hermitian.
Print Assumptions C71_general.
