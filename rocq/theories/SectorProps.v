(** C75: occupation-number states, number sectors and expectation values. *)
From Coq Require Import Ring.
From Verif Require Import Base BaseFacts MatModel MatFacts LiftSpec LiftProofs OpModel OpSpec PauliProofs OpProofs2 FermiModel FermiSpec FermiProofs2 FermiProofs3 SparseModel SparseProofs SectorSpec SectorProofs SectorProofs2 GaussQ.
Open Scope list_scope.
Local Open Scope nat_scope.

Section C75.
  Context {K : cring}.
  Add Ring Kring_c75 : (kth K).
  Open Scope K_scope.

  (** ** States *)
  (** jw_configuration_state is the basis state with these modes occupied. *)
  Theorem C75_configuration n l : NoDup l -> (forall i, In i l -> i < n)%nat -> exists v, jw_configuration_state (K := K) l n = Ok v /\ is_basis_state n v (occupation n l).
  Proof.
    intros Hn Hl. unfold jw_configuration_state. rewrite (occupation_index n l Hn Hl).
    assert (F : forallb (fun i => Nat.ltb i n) l = true) by (apply forallb_forall; intros i Hi; apply Nat.ltb_lt; auto). rewrite F.
    pose proof (bval_lt (occupation n l)) as L. rewrite occupation_length in L. rewrite (proj2 (Nat.ltb_lt _ _) L). cbn [andb]. eexists. split; [reflexivity|].
    split; [reflexivity|]. split; [apply occupation_length|]. intros c Hc. cbn [vent]. rewrite eqb_bval by (rewrite occupation_length; auto). unfold delta. reflexivity.
  Qed.
  Theorem C75_configuration_beyond n l : (exists i, In i l /\ n <= i)%nat -> jw_configuration_state (K := K) l n = Err IndexError.
  Proof.
    intros (i & Hi & Hn). unfold jw_configuration_state. destruct (forallb (fun i => Nat.ltb i n) l) eqn:F; [|reflexivity]. rewrite forallb_forall in F. specialize (F i Hi). apply Nat.ltb_lt in F. lia.
  Qed.
  (** The Hartree-Fock state has the first modes occupied. *)
  Theorem C75_hartree_fock k n : (k <= n)%nat -> exists v, jw_hartree_fock_state (K := K) k n = Ok v /\ is_basis_state n v (repeat true k ++ repeat false (n - k)).
  Proof.
    intros Hk. unfold jw_hartree_fock_state. destruct (C75_configuration n (seq 0 k)) as (v & E & V); [apply seq_NoDup|intros i Hi; apply in_seq in Hi; lia|].
    exists v. split; [exact E|]. replace (repeat true k ++ repeat false (n - k)) with (occupation n (seq 0 k)); [exact V|].
    unfold occupation. replace n with (k + (n - k))%nat at 1 by lia. rewrite seq_app, map_app. f_equal.
    - apply (nth_ext _ _ false false); [rewrite map_length, seq_length, repeat_length; reflexivity|]. rewrite map_length, seq_length. intros q Hq.
      rewrite (nth_indep _ false (memb Nat.eqb 0%nat (seq 0 k))) by (rewrite map_length, seq_length; auto). rewrite (map_nth (fun i => memb Nat.eqb i (seq 0 k)) (seq 0 k) 0%nat q), seq_nth by auto.
      assert (R : nth q (repeat true k) false = true) by (clear - Hq; revert q Hq; induction k as [|k IH]; intros [|q] H; cbn; auto; try lia; apply IH; lia).
      rewrite R. unfold memb. apply existsb_exists. exists q. split; [apply in_seq; lia|apply Nat.eqb_refl].
    - apply (nth_ext _ _ false false); [rewrite map_length, seq_length, repeat_length; reflexivity|]. rewrite map_length, seq_length. intros q Hq.
      rewrite (nth_indep _ false (memb Nat.eqb 0%nat (seq 0 k))) by (rewrite map_length, seq_length; auto). rewrite (map_nth (fun i => memb Nat.eqb i (seq 0 k)) (seq (0 + k) (n - k)) 0%nat q), seq_nth by auto. rewrite nth_repeat.
      unfold memb. destruct (existsb _ _) eqn:E'; [|reflexivity]. apply existsb_exists in E' as (z & Hz & Ez). apply in_seq in Hz. apply Nat.eqb_eq in Ez. lia.
  Qed.
  Theorem C75_hartree_fock_beyond k n : (n < k)%nat -> jw_hartree_fock_state (K := K) k n = Err IndexError.
  Proof. intros H. apply C75_configuration_beyond. exists n. split; [apply in_seq; lia|lia]. Qed.

  (** ** Sectors *)
  (** jw_number_indices lists the states with k particles, each once. *)
  Theorem C75_indices k n : NoDup (jw_number_indices k n) /\ forall i, In i (jw_number_indices k n) <-> exists b, length b = n /\ particles b = k /\ i = bval b.
  Proof. split; [apply indices_NoDup|apply indices_spec]. Qed.
  (** jw_number_restrict_operator has the entries between the states with k particles; the number of qubits may be left out. *)
  Theorem C75_restrict n (A : mat K) k nq : nr A = (2 ^ n)%nat -> nc A = (2 ^ n)%nat -> (nq = None \/ nq = Some n) ->
    exists R, jw_number_restrict_operator A k nq = Ok R /\ nr R = length (jw_number_indices k n) /\ nc R = length (jw_number_indices k n) /\
      forall i j x y, (i < nr R)%nat -> (j < nr R)%nat -> length x = n -> length y = n -> nth_error (jw_number_indices k n) i = Some (bval x) -> nth_error (jw_number_indices k n) j = Some (bval y) -> ent R i j = ent A (bval x) (bval y).
  Proof.
    intros Hr Hc Hq. unfold jw_number_restrict_operator. assert (P : (2 ^ n <> 0)%nat) by (apply Nat.pow_nonzero; lia).
    assert (E : match nq with Some n => Ok n | None => if Nat.eqb (nr A) 0 then Err OverflowError else Ok (Nat.log2 (nr A)) end = Ok n).
    { destruct Hq as [->| ->]; [|reflexivity]. rewrite Hr, (proj2 (Nat.eqb_neq _ _) P), Nat.log2_pow2 by lia. reflexivity. }
    rewrite E. cbn [rbind]. unfold ix. assert (F : forallb (fun i => Nat.ltb i (nr A) && Nat.ltb i (nc A))%bool (jw_number_indices k n) = true).
    { apply forallb_forall. intros i Hi. apply indices_lt in Hi. rewrite Hr, Hc, (proj2 (Nat.ltb_lt _ _) Hi). reflexivity. }
    rewrite F. eexists. split; [reflexivity|]. cbn [nr nc ent]. split; [reflexivity|]. split; [reflexivity|]. intros i j x y _ _ _ _ Ei Ej. rewrite (nth_error_nth _ _ _ Ei), (nth_error_nth _ _ _ Ej). reflexivity.
  Qed.
  Notation ground := (jw_get_ground_state_at_particle_number (K := K)).
  Lemma ground_form n (A : mat K) k solver : nr A = (2 ^ n)%nat -> nc A = (2 ^ n)%nat ->
    ground solver A k = let! ev := solver (Build_mat (length (jw_number_indices k n)) (length (jw_number_indices k n)) (fun i j => ent A (nth i (jw_number_indices k n) 0%nat) (nth j (jw_number_indices k n) 0%nat))) in
      Ok (fst ev, Build_vec (2 ^ n) (expand (jw_number_indices k n) (vent (snd ev)))).
  Proof.
    intros Hr Hc. unfold jw_get_ground_state_at_particle_number, jw_number_restrict_operator, ix. assert (P : (2 ^ n <> 0)%nat) by (apply Nat.pow_nonzero; lia). rewrite Hr, (proj2 (Nat.eqb_neq _ _) P), Nat.log2_pow2 by lia. cbn [rbind].
    assert (F : forallb (fun i => Nat.ltb i (nr A) && Nat.ltb i (nc A))%bool (jw_number_indices k n) = true).
    { apply forallb_forall. intros i Hi. apply indices_lt in Hi. rewrite Hr, Hc, (proj2 (Nat.ltb_lt _ _) Hi). reflexivity. }
    rewrite Hr in F. rewrite F. reflexivity.
  Qed.
  (** What eigensolvers return: an eigenvalue and an eigenvector that is not 0. *)
  Definition solves (solver : mat K -> result (K * vec K)) : Prop := forall R value v, solver R = Ok (value, v) -> eigenpair R value v /\ nonzero v.
  (** The state found in a sector is an eigenvector of the whole operator with that number of particles. *)
  Theorem C75_ground_state n (A : mat K) k solver value v : nr A = (2 ^ n)%nat -> nc A = (2 ^ n)%nat -> conserves_number n A -> solves solver ->
    ground solver A k = Ok (value, v) -> eigenpair A value v /\ in_sector n k v /\ nonzero v.
  Proof.
    intros Hr Hc Hcons Hs E. rewrite (ground_form n) in E by auto. set (l := jw_number_indices k n) in *. destruct (solver _) as [[mu s]|] eqn:Es; [|discriminate E]. cbn [rbind fst snd] in E. inversion E; subst value v. clear E.
    apply Hs in Es as [[Hl He] (i0 & Hi0 & Nz)]. cbn [nr nc ent] in Hl, He. pose proof (indices_NoDup k n) as Hn. fold l in Hn.
    assert (Hlt : forall i, In i l -> (i < 2 ^ n)%nat) by (intros i; apply indices_lt).
    assert (In1 : forall b, length b = n -> In (bval b) l -> particles b = k). { intros b Hb Hi. apply indices_spec in Hi as (c & Hc' & Hp & Eb). apply bval_inj in Eb; [subst; auto|congruence]. }
    split; [split; [exact Hc|]|split; [split; [reflexivity|]|]].
    - rewrite Hr, Hc. intros i Hi. cbn [vent]. rewrite expand_sum by auto. destruct (in_dec Nat.eq_dec i l) as [I|I].
      + destruct (In_nth l i 0%nat I) as (m & Hm & <-). rewrite expand_in by auto. apply He. exact Hm.
      + rewrite expand_out by auto. transitivity (0 : K); [|ring]. apply bigsum_0. intros m Hm. assert (Im : In (nth m l 0%nat) l) by (apply nth_In; auto).
        pose proof (proj1 (indices_spec k n _) Im) as (c & Hc' & Hp & Ec). rewrite Ec. rewrite <- (bval_bits_small n i Hi). rewrite Hcons; [ring|apply bits_length|auto|].
        intros Q. apply I. apply indices_spec. exists (bits n i). rewrite bits_length, Q. repeat split; auto. symmetry. apply bval_bits_small. auto.
    - intros b Hb Np. cbn [vent]. apply expand_out; [exact Hn|]. intros Hi. apply Np. auto.
    - exists (nth i0 l 0%nat). cbn [vlen vent]. split; [apply Hlt, nth_In; lia|]. rewrite expand_in by (auto; lia). exact Nz.
  Qed.
  (** If the eigensolver finds the lowest eigenvalue, so does the function among the eigenvectors with k particles. *)
  Theorem C75_lowest (le : K -> K -> Prop) n (A : mat K) k solver value v : nr A = (2 ^ n)%nat -> nc A = (2 ^ n)%nat ->
    (forall R mu s, solver R = Ok (mu, s) -> forall nu w, eigenpair R nu w -> nonzero w -> le mu nu) ->
    ground solver A k = Ok (value, v) -> forall nu w, eigenpair A nu w -> in_sector n k w -> nonzero w -> le value nu.
  Proof.
    intros Hr Hc Hs E nu w [_ Hw] [Lw Sw] (i0 & Hi0 & Nz). rewrite (ground_form n) in E by auto. set (l := jw_number_indices k n) in *. destruct (solver _) as [[mu s]|] eqn:Es; [|discriminate E]. cbn [rbind fst snd] in E. inversion E; subst value v. clear E.
    pose proof (indices_NoDup k n) as Hn. fold l in Hn. assert (Hlt : forall i, In i l -> (i < 2 ^ n)%nat) by (intros i; apply indices_lt).
    assert (Out : forall i, (i < 2 ^ n)%nat -> ~ In i l -> vent w i = 0).
    { intros i Hi Ni. rewrite <- (bval_bits_small n i Hi). apply Sw; [apply bits_length|]. intros Q. apply Ni. apply indices_spec. exists (bits n i). rewrite bits_length. repeat split; auto. symmetry. apply bval_bits_small. auto. }
    assert (Ex : forall i, (i < 2 ^ n)%nat -> vent w i = expand l (fun m => vent w (nth m l 0%nat)) i).
    { intros i Hi. destruct (in_dec Nat.eq_dec i l) as [I|I]; [|rewrite expand_out by auto; apply Out; auto]. destruct (In_nth l i 0%nat I) as (m & Hm & <-). rewrite expand_in by auto. reflexivity. }
    apply (Hs _ _ _ Es nu (Build_vec (length l) (fun m => vent w (nth m l 0%nat)))).
    - split; [reflexivity|]. cbn [nr nc ent vent]. intros i Hi. assert (Ii : In (nth i l 0%nat) l) by (apply nth_In; auto). rewrite <- (Hw (nth i l 0%nat)) by (rewrite Hr; auto). rewrite Hc.
      symmetry. transitivity (bigsum (2 ^ n) (fun j => ent A (nth i l 0%nat) j * expand l (fun m => vent w (nth m l 0%nat)) j)); [apply bigsum_ext; intros j Hj; rewrite <- Ex by auto; reflexivity|]. rewrite expand_sum by auto. reflexivity.
    - destruct (in_dec Nat.eq_dec i0 l) as [I|I]; [|exfalso; apply Nz; apply Out; [rewrite <- Lw|]; auto]. destruct (In_nth l i0 0%nat I) as (m & Hm & Em). exists m. cbn [vlen vent]. rewrite Em. auto.
  Qed.

  (** Both apply to the matrix of a fermion operator (C74) whose terms have as many creation as annihilation operators. *)
  Theorem C75_operator n (a : fop K) (A : mat K) : (forall t c, In (t, c) a -> length (filter (fun f => snd f) t) = length (filter (fun f => negb (snd f)) t)) -> on_qubits n a ->
    meq A (fop_matrix n a) -> nr A = (2 ^ n)%nat /\ nc A = (2 ^ n)%nat /\ conserves_number n A.
  Proof.
    intros Hb Ha (Hr & Hc & HA). destruct (fop_shape n a) as [Sr Sc]. rewrite Sr in Hr. rewrite Sc in Hc. repeat split; auto. intros x y Hx Hy N.
    rewrite HA by (rewrite ?Hr, ?Hc, <- ?Hx; first [apply bval_lt|rewrite Hx, <- Hy; apply bval_lt]). apply fop_conserves; auto. intros t c Hin. split; [exact (Ha t c Hin)|]. unfold creators, annihilators. rewrite !map_length. apply (Hb t c Hin).
  Qed.

  (** ** Expectation values *)
  Theorem C75_expectation (A : mat K) v b : nr A = vlen v -> nc A = vlen v -> expectation b A (SVector v) = Ok (mean A v).
  Proof. intros Hr Hc. cbn [expectation]. unfold matvec. rewrite Hc, Nat.eqb_refl. cbn [rbind mvmul vlen]. rewrite Hr, Nat.eqb_refl. unfold inner, mean. cbn [vent mvmul]. rewrite Hc. reflexivity. Qed.
  (** A column vector gives the same. *)
  Theorem C75_column (A : mat K) (m : mat K) b : nr A = nr m -> nc A = nr m -> nc m = 1%nat -> expectation b A (SArray m) = Ok (mean A (Build_vec (nr m) (fun i => ent m i 0%nat))).
  Proof.
    intros Hr Hc H1. cbn [expectation]. unfold matmul. rewrite Hc, Nat.eqb_refl. cbn [rbind adjoint mmul nr nc]. rewrite Hr, Nat.eqb_refl. cbn [rbind]. unfold mmul, adjoint. cbn [nr nc]. rewrite H1. cbn [Nat.ltb Nat.leb andb ent]. unfold mean. cbn [vlen vent]. rewrite Hc, ?Hr. reflexivity.
  Qed.
  Lemma density_acc N l : forall rho, nr rho = N -> nc rho = N -> (forall sp, In sp l -> vlen (fst sp) = N) ->
    exists r, foldM (fun rho (sp : vec K * K) => let '(state, probability) := sp in
      if Nat.eqb (vlen state) (nr rho) then Ok (madd rho (Build_mat (vlen state) (vlen state) (fun i j => probability * vent state i * kconj (vent state j)))) else Err ValueError) l rho = Ok r /\
      nr r = N /\ nc r = N /\ forall i j, ent r i j = ent rho i j + fold_right (fun sp s => snd sp * (vent (fst sp) i * kconj (vent (fst sp) j)) + s) 0 l.
  Proof.
    induction l as [|[s p] l IH]; intros rho Hr Hc Hl; cbn [foldM fold_right fst snd]; [exists rho; repeat split; auto; intros; ring|].
    assert (Ls : vlen s = N) by (apply (Hl (s, p)); left; auto). rewrite Ls, Hr, Nat.eqb_refl. cbn [rbind]. destruct (IH (madd rho (Build_mat N N (fun i j => p * vent s i * kconj (vent s j))))) as (r & E & R1 & R2 & R3); [cbn; auto|cbn; auto|intros sp Hsp; apply Hl; right; auto|].
    exists r. split; [exact E|]. split; [auto|]. split; [auto|]. intros i j. rewrite R3. cbn [ent madd]. ring.
  Qed.
  (** The expectation value in a mixture is the average of those in its states. *)
  Theorem C75_density (A : mat K) N states probabilities : nr A = N -> nc A = N -> states <> [] -> (forall s, In s states -> vlen s = N) ->
    exists rho, get_density_matrix states probabilities = Ok rho /\
      expectation false A (SSparse rho) = Ok (fold_right (fun sp s => snd sp * mean A (fst sp) + s) 0 (combine states probabilities)).
  Proof.
    intros Hr Hc Hne Hl. destruct states as [|s0 states]; [contradiction|]. cbn [get_density_matrix].
    destruct (density_acc N (combine (s0 :: states) probabilities) (zeros (vlen s0) (vlen s0))) as (rho & E & R1 & R2 & R3); [apply Hl; left; auto|apply Hl; left; auto| |].
    { intros [s p] Hsp. apply in_combine_l in Hsp. cbn [fst]. auto. }
    exists rho. split; [exact E|]. cbn [expectation]. unfold matmul. rewrite R2, Hr, Nat.eqb_refl. cbn [rbind mmul nr nc ent]. rewrite R1, R2, Hc, Nat.min_id. f_equal.
    transitivity (bigsum N (fun i => bigsum N (fun j => fold_right (fun sp s => snd sp * (vent (fst sp) i * kconj (vent (fst sp) j)) + s) 0 (combine (s0 :: states) probabilities) * ent A j i))).
    { apply bigsum_ext. intros i Hi. apply bigsum_ext. intros j Hj. rewrite R3. cbn [ent zeros]. ring. }
    assert (Hall : forall sp, In sp (combine (s0 :: states) probabilities) -> vlen (fst sp) = N) by (intros [s p] Hsp; apply in_combine_l in Hsp; cbn [fst]; auto).
    clear E R3. induction (combine (s0 :: states) probabilities) as [|[s p] l IH]; cbn [fold_right fst snd].
    - apply bigsum_0. intros i _. apply bigsum_0. intros j _. ring.
    - rewrite <- IH by (intros sp Hsp; apply Hall; right; auto). unfold mean. pose proof (Hall (s, p) (or_introl eq_refl)) as Ls. cbn [fst] in Ls. rewrite Ls.
      rewrite (bigsum_ext N (fun i => bigsum N (fun j => (p * (vent s i * kconj (vent s j)) + _) * ent A j i)) (fun i => bigsum N (fun j => (p * (vent s i * kconj (vent s j))) * ent A j i) + bigsum N (fun j => fold_right (fun sp s => snd sp * (vent (fst sp) i * kconj (vent (fst sp) j)) + s) 0 l * ent A j i))).
      2: { intros i _. rewrite <- bigsum_add. apply bigsum_ext. intros j _. ring. }
      rewrite bigsum_add. f_equal. rewrite bigsum_swap. rewrite bigsum_mul_l. apply bigsum_ext. intros j _. rewrite !bigsum_mul_l. apply bigsum_ext. intros i _. ring.
  Qed.
  (** In a basis state it is the diagonal element, and for a Hermitian matrix it is real. *)
  Theorem C75_basis_state n (A : mat K) v x : nr A = (2 ^ n)%nat -> nc A = (2 ^ n)%nat -> is_basis_state n v x -> expectation false A (SVector v) = Ok (ent A (bval x) (bval x)).
  Proof.
    intros Hr Hc (Lv & Lx & Hv). rewrite C75_expectation by congruence. f_equal. unfold mean. rewrite Lv.
    assert (Bx : (bval x < 2 ^ n)%nat) by (rewrite <- Lx; apply bval_lt).
    assert (V : forall i, (i < 2 ^ n)%nat -> vent v i = if Nat.eqb i (bval x) then 1 else 0). { intros i Hi. rewrite <- (bval_bits_small n i Hi). rewrite Hv by apply bits_length. rewrite eqb_bval by (rewrite bits_length; auto). reflexivity. }
    rewrite (bigsum_single (2 ^ n) (bval x)); auto.
    - rewrite V, Nat.eqb_refl, kconj_1 by auto. rewrite (bigsum_single (2 ^ n) (bval x)); auto; [rewrite V, Nat.eqb_refl by auto; ring|]. intros i Hi N. rewrite V, (proj2 (Nat.eqb_neq _ _) N) by auto. ring.
    - intros i Hi N. rewrite V, (proj2 (Nat.eqb_neq _ _) N), kconj_0 by auto. ring.
  Qed.
  Theorem C75_real (A : mat K) v : hermitian A -> nr A = vlen v -> kconj (mean A v) = mean A v.
  Proof.
    intros [_ HA] Hr. unfold mean. rewrite bigsum_conj. transitivity (bigsum (vlen v) (fun i => bigsum (vlen v) (fun j => vent v i * (kconj (ent A i j) * kconj (vent v j))))).
    { apply bigsum_ext. intros i _. rewrite kconj_mul, kconj_invol, bigsum_conj, bigsum_mul_l. apply bigsum_ext. intros j _. rewrite kconj_mul. reflexivity. }
    rewrite bigsum_swap. apply bigsum_ext. intros j Hj. rewrite bigsum_mul_l. apply bigsum_ext. intros i Hi. rewrite <- HA by (rewrite Hr; auto). ring.
  Qed.
  Theorem C75_refused (A : mat K) rho b : expectation true A (SSparse rho) = Err ValueError /\ expectation b A SOther = Err ValueError /\ get_density_matrix (K := K) [] [] = Err IndexError.
  Proof. repeat split. Qed.
End C75.

(** Concrete cases. *)
Example C75_indices_case : jw_number_indices 2 4 = [3; 5; 9; 6; 10; 12].
Proof. vm_compute. reflexivity. Qed.
Example C75_state_case : match jw_configuration_state (K := GQ) [2; 0] 3 with Ok v => gq_zero (ksub (vent v 5) k1) && gq_zero (vent v 4) | Err _ => false end = true.
Proof. vm_compute. reflexivity. Qed.
(** The number operator conserves the number and has an eigenvector in each sector. *)
Example C75_sector_case : conserves_number 2 (Build_mat 4 4 (fun i j => if Nat.eqb i j then gq (Z.of_nat i) 0 else k0) : mat GQ) /\
  eigenpair (Build_mat 4 4 (fun i j => if Nat.eqb i j then gq (Z.of_nat i) 0 else k0) : mat GQ) (gq 1 0) (Build_vec 4 (fun i => if Nat.eqb i 1 then k1 else k0)).
Proof.
  split.
  - intros x y Hx Hy N. cbn [ent]. destruct (Nat.eqb_spec (bval x) (bval y)) as [E|E]; [|reflexivity]. apply bval_inj in E; [|congruence]. subst. contradiction.
  - split; [reflexivity|]. intros i Hi. cbn [nr] in Hi. destruct i as [|[|[|[|i]]]]; [| | | |lia]; apply (f_equal2 pair); apply Qcanon.Qc_is_canon; reflexivity.
Qed.
(** A mode listed twice moves the particle to the mode before it, and no error is raised. *)
Theorem C75_duplicates_refuted : exists (v : vec GQ), jw_configuration_state [1; 1] 2 = Ok v /\ is_basis_state 2 v [true; false] /\ ~ is_basis_state 2 v (occupation 2 [1; 1]).
Proof.
  eexists. split; [reflexivity|]. split.
  - split; [reflexivity|]. split; [reflexivity|]. intros [|[] [|[] [|]]]; try discriminate; intros _; reflexivity.
  - intros (_ & _ & H). specialize (H [false; true] eq_refl). cbn in H. discriminate H.
Qed.
(** More states than probabilities: the rest is left out. *)
Example C75_zip_case (s1 s2 : vec GQ) : get_density_matrix [s1; s2] [k1] = get_density_matrix [s1] [k1].
Proof. reflexivity. Qed.

Print Assumptions C75_configuration.
Print Assumptions C75_indices.
Print Assumptions C75_ground_state.
Print Assumptions C75_lowest.
Print Assumptions C75_density.
Print Assumptions C75_real.
Print Assumptions C75_duplicates_refuted.
