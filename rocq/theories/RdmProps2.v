(** C82: density matrices of Hartree-Fock states and ground states, and the expectation values read from them; stated over RdmModel.v and RdmSpec.v. *)
From Coq Require Import ZArith Ring Permutation Sorted.
From Verif Require Import ReindexProofs2 Base BaseFacts MatModel MatFacts LiftSpec LiftProofs OpModel OpSpec OpProofs PauliProofs OpProofs2 FermiModel FermiSpec FermiProofs FermiProofs2 FermiProofs3 FermiProofs7 FermiProps2
  SparseModel SparseProps SectorSpec SectorProps TensorModel TensorSpec TensorProps DiagModel DiagSpec ConvModel ConvProofs MolModel MolProofs9 RevJWModel RevJWSpec RdmModel RdmSpec RdmProofs RdmProofs2 RdmProofs3 RdmProofs4 RdmProofs5 RdmProps
  ConvSpec GaussQ.
Open Scope list_scope.
Local Open Scope nat_scope.

Section C82.
  Context {K : cring} (im half : K) (Him : kmul im im = kopp k1) (Hhalf : kadd half half = k1).
  Add Ring Kring_c82 : (kth K).
  Open Scope K_scope.
  (** hf_rdm: the density matrices of the state whose lowest n_alpha spin-up orbitals (even modes) and n_beta spin-down orbitals (odd modes) are occupied. *)
  Theorem C82_hartree_fock h n_alpha n_beta n_orbitals (v : vec K) b : is_basis_state (2 * n_orbitals) v b ->
    (forall i, (i < n_orbitals)%nat -> nth (2 * i) b false = (i <? n_alpha)%nat /\ nth (2 * i + 1) b false = (i <? n_beta)%nat) ->
    exists h' rdm, hf_rdm h n_alpha n_beta n_orbitals = Ok (h', rdm) /\ preserved h h' /\ is_rdm (2 * n_orbitals) (pure v) h' rdm.
  Proof.
    intros Hv Hb. pose proof Hv as (Lv & Lb & _). unfold hf_rdm. set (n := (2 * n_orbitals)%nat) in *.
    assert (Ob : forall i, (i < n)%nat -> occ n_alpha n_beta i = nth i b false).
    { intros i Hi. unfold occ. destruct (Nat.even i) eqn:Ev.
      - apply Nat.even_spec in Ev. destruct Ev as [k ->]. rewrite (proj1 (Hb k ltac:(lia))). destruct (Nat.ltb_spec (2 * k) (2 * n_alpha)), (Nat.ltb_spec k n_alpha); auto; lia.
      - assert (Od : Nat.odd i = true) by (rewrite <- Nat.negb_even, Ev; reflexivity). apply Nat.odd_spec in Od. destruct Od as [k ->]. rewrite (proj2 (Hb k ltac:(lia))). destruct (Nat.ltb_spec (2 * k + 1) (2 * n_beta + 1)), (Nat.ltb_spec k n_beta); auto; lia. }
    apply rdm_new.
    - reflexivity.
    - destruct n as [|n']; [reflexivity|]. apply (hf_two_data (occ n_alpha n_beta) (S n') 0 0 0 0); lia.
    - intros p q Hp Hq. rewrite (basis_average n v b) by exact Hv. rewrite E2_diag by auto. cbn [data]. rewrite Ob by exact Hp. reflexivity.
    - intros p q r s Hp Hq Hr Hs. rewrite (basis_average n v b) by exact Hv. rewrite (T4_diag half Hhalf) by auto. destruct (hf_two_data (K := K) (occ n_alpha n_beta) n p q r s Hp Hq) as [_ ->]. unfold hf_two. rewrite !Ob by auto. reflexivity.
  Qed.

  (** Basis states have trace 1 and a definite number of particles, so C81 applies; the energy of an interaction operator is its diagonal entry. *)
  Theorem C82_basis_state n (v : vec K) b : is_basis_state n v b -> normalized n (pure v) /\ conserves_number n (pure v) /\ forall A, average n (pure v) A = ent A (bval b) (bval b).
  Proof.
    intros Hv. pose proof Hv as (Lv & Lb & Ev). split; [|split].
    - unfold normalized. rewrite (basis_average n v b) by exact Hv. cbn [eye ent]. unfold delta. rewrite Nat.eqb_refl. reflexivity.
    - intros x y Lx Ly N. cbn [pure ent]. rewrite !Ev by auto. destruct (list_eqb Bool.eqb x b) eqn:Ex; [|ring]. destruct (list_eqb Bool.eqb y b) eqn:Ey; [|rewrite kconj_0; ring].
      apply (list_eqb_spec _ bool_eqb_spec) in Ex, Ey. congruence.
    - intros A. apply basis_average, Hv.
  Qed.
  Theorem C82_hartree_fock_energy (h : heap K) n_alpha n_beta n_orbitals b a : interaction_ok h a -> n_qubits a = (2 * n_orbitals)%nat -> length b = (2 * n_orbitals)%nat ->
    (forall i, (i < n_orbitals)%nat -> nth (2 * i) b false = (i <? n_alpha)%nat /\ nth (2 * i + 1) b false = (i <? n_beta)%nat) ->
    exists h' rdm, hf_rdm h n_alpha n_beta n_orbitals = Ok (h', rdm) /\ expectation_interaction h' rdm a = Ok (tensor_entry h a b b).
  Proof.
    intros Ha Hn Lb Hb. set (v := {| vlen := 2 ^ (2 * n_orbitals); vent := fun i => if Nat.eqb i (bval b) then 1 else 0 |} : vec K).
    assert (Hv : is_basis_state (2 * n_orbitals) v b).
    { split; [reflexivity|]. split; [exact Lb|]. intros c Lc. cbn [v vent]. destruct (list_eqb Bool.eqb c b) eqn:E.
      - apply (list_eqb_spec _ bool_eqb_spec) in E. subst c. rewrite Nat.eqb_refl. reflexivity.
      - destruct (Nat.eqb_spec (bval c) (bval b)) as [X|]; [|reflexivity]. apply (f_equal (bits (2 * n_orbitals))) in X. rewrite !bits_bval_n in X by auto. subst c. rewrite (proj2 (list_eqb_spec _ bool_eqb_spec b b) eq_refl) in E. discriminate. }
    destruct (C82_hartree_fock h n_alpha n_beta n_orbitals v b Hv Hb) as (h' & rdm & E & P & R). exists h', rdm. split; [exact E|].
    assert (Lh : (length h <= length h')%nat) by (unfold hf_rdm, interaction_rdm, polynomial_tensor in E; cbn [rbind] in E; injection E as E _; rewrite <- E, app_length; lia).
    destruct (C82_basis_state _ v b Hv) as (N & _ & Av). destruct (moved_heap h h' a P Lh Ha) as [Ha' Et].
    rewrite (C81_interaction _ (pure v) h' rdm a R N Ha' Hn), Av. f_equal. unfold tensor_matrix. cbn [ent]. rewrite Hn, bits_bval_n by exact Lb. apply Et.
  Qed.

  (** ** Ground states *)
  Section Ground.
    Context (small isz : K -> bool) (Hz : forall c, isz c = true <-> c = 0).
    (** For an operator that conserves the number of particles, the arrays are the density matrices of an eigenvector with that number of particles, whose eigenvalue is the lowest
        of those (if the eigensolver returns the lowest). *)
    Theorem C82_ground_state (le : K -> K -> Prop) solver h (a : qop K) k h' rdm : stored_form a -> solves solver ->
      (forall R mu s, solver R = Ok (mu, s) -> forall nu w, eigenpair R nu w -> nonzero w -> le mu nu) ->
      (forall n, on_qubits n a -> (forall m, on_qubits m a -> n <= m)%nat -> conserves_number n (qop_matrix im n a)) ->
      get_ground_state_rdm_from_qubit_op im half small isz solver h a k = Ok (h', rdm) ->
      exists n value v, on_qubits n a /\ (forall m, on_qubits m a -> n <= m)%nat /\ eigenpair (qop_matrix im n a) value v /\ in_sector n k v /\ nonzero v /\
        (forall nu w, eigenpair (qop_matrix im n a) nu w -> in_sector n k w -> nonzero w -> le value nu) /\ preserved h h' /\ is_rdm n (pure v) h' rdm.
    Proof.
      intros [_ Ca] Hs Hle Hcons E. unfold get_ground_state_rdm_from_qubit_op in E.
      destruct (C74_qubit_default im half Him small isz Hz a Ca) as (m & A & EA & MA & Om & Lm). rewrite EA in E. cbn [rbind] in E.
      assert (Em : sorted_count_qubits a = m).
      { apply Nat.le_antisymm; [apply (sorted_count_spec a m Ca), Om|apply Lm, (sorted_count_spec a _ Ca); reflexivity]. }
      destruct (jw_get_ground_state_at_particle_number solver A k) as [[value v]|] eqn:Eg; [|discriminate]. cbn [rbind snd] in E. rewrite Em in E.
      pose proof MA as (Rr & Rc & ME). destruct (qop_matrix_shape (K := K) im m a) as [Sr Sc]. rewrite Sr in Rr. rewrite Sc in Rc.
      assert (HcA : conserves_number m A).
      { intros x y Lx Ly N. rewrite ME by (rewrite ?Rr, ?Rc, <- ?Lx; first [apply bval_lt|rewrite Lx, <- Ly; apply bval_lt]). apply (Hcons m Om Lm); auto. }
      destruct (C75_ground_state m A k solver value v Rr Rc HcA Hs Eg) as (EP & IS & NZ). pose proof (C75_lowest le m A k solver value v Rr Rc Hle Eg) as LO.
      assert (TR : forall nu w, eigenpair (qop_matrix im m a) nu w <-> eigenpair A nu w).
      { intros nu w. unfold eigenpair. rewrite Rc, Rr, Sc, Sr. split; intros [E1 E2]; (split; [exact E1|]); intros i Hi; rewrite <- E2 by exact Hi; apply bigsum_ext; intros j Hj; rewrite ME by congruence; reflexivity. }
      pose proof (proj1 IS) as Lv.
      destruct (one_body_ok im half Him Hhalf small isz Hz m v Lv) as (x & Ex & Sx & Dx). destruct (two_body_ok im half Him Hhalf small isz Hz m v Lv) as (y & Ey & Sy & Dy). rewrite Ex in E. cbn [rbind] in E. rewrite Ey in E. cbn [rbind] in E.
      destruct (rdm_new m (pure v) h x y Sx Sy Dx Dy) as (h2 & p & E2 & P & R). rewrite E2 in E. injection E as <- <-. exists m, value, v. split; [exact Om|]. split; [exact Lm|]. split; [apply TR, EP|]. split; [exact IS|]. split; [exact NZ|]. split; [|split; [exact P|exact R]].
      intros nu w H1 H2 H3. apply (LO nu w); auto. apply TR, H1.
    Qed.
  End Ground.

  (** ** Expectation values of the terms of qubit operators *)
  Section Values.
    Context (small : K -> bool) (Hs1 : small 1 = false) (Hs2 : small (- (1 + 1)) = false) (Hs3 : small (- im) = false) (Hz : only_zero small) (H0 : small 0 = true).
    Context (n : nat) (rho : mat K) (h : heap K) (rdm : ptensor K) (HR : is_rdm n rho h rdm) (HN : normalized n rho) (HC : conserves_number n rho).
    Context (larger : K -> K -> bool) (complex : K -> bool) (clip : K -> K).
    Context (larger_total : forall c d, larger c d = true \/ larger d c = true) (larger_trans : forall c d e, larger c d = true -> larger d e = true -> larger c e = true).
    Notation av t := (average n rho (term_matrix im n t)).
    Notation values := (get_expectation_values_from_rdms im small larger complex clip h rdm).
    (** The terms in the order in which their values are reported: as stored, or by decreasing absolute value of the coefficient. *)
    Definition reported (a b : qop K) (sort_terms : bool) : Prop :=
      Permutation b a /\ if sort_terms then StronglySorted (fun tc uc => larger (snd tc) (snd uc) = true) b else b = a.
    Lemma reported_order (a : qop K) sort_terms : stored_form a -> exists b, reported a b sort_terms /\ wf_op b /\
      values a sort_terms = let! packed := get_qubit_expectations im small h rdm (not_small_terms small b) in
        if existsb (fun tc : term pauli * K => complex (snd tc)) packed then Err RuntimeError else Ok (map (fun tc : term pauli * K => clip (snd tc)) packed).
    Proof.
      intros [W Ca]. set (b := if sort_terms then sort_by (fun tc uc : term pauli * K => larger (snd tc) (snd uc)) a else a).
      assert (P : Permutation b a) by (unfold b; destruct sort_terms; [apply sort_by_perm|reflexivity]).
      assert (Wb : wf_op b) by (unfold wf_op, dkeys; eapply Permutation_NoDup; [symmetry; apply Permutation_map, P|exact W]).
      exists b. split; [split; [exact P|]|split; [exact Wb|]].
      - unfold b. destruct sort_terms; [|reflexivity]. apply (sort_by_sorted (fun tc uc : term pauli * K => larger (snd tc) (snd uc))); [intros x y; apply larger_total|intros x y z; apply larger_trans].
      - unfold get_expectation_values_from_rdms. fold b. cbn zeta.
        assert (F : fold_left (fun o (tc : term pauli * K) => op_add pauli_eqb small o (mk_op (qubit_simplify im) (fst tc) (snd tc))) b [] = not_small_terms small b).
        { transitivity (fold_left (fun o (tc : term pauli * K) => op_add pauli_eqb small o [tc]) b []); [|rewrite (add_filter small pauli_eqb pauli_eqb_spec b []); [reflexivity|exact Wb]].
          assert (Cb : forall t c, In (t, c) b -> canonical t) by (intros t c Hin; apply (Ca t c); eapply Permutation_in; [exact P|exact Hin]). clearbody b. clear - Cb. assert (G : forall o : qop K, fold_left (fun o (tc : term pauli * K) => op_add pauli_eqb small o (mk_op (qubit_simplify im) (fst tc) (snd tc))) b o = fold_left (fun o (tc : term pauli * K) => op_add pauli_eqb small o [tc]) b o); [|apply G]. induction b as [|[t c] b IH]; intros o; [reflexivity|].
          cbn [fold_left fst snd]. unfold mk_op. rewrite canonical_simplify by (eapply Cb; left; reflexivity). apply IH. intros u d Hu. apply (Cb u d). right; exact Hu. }
        rewrite F. reflexivity.
    Qed.
    (** One value for each term whose coefficient is not small: the real part of its average, clipped; or RuntimeWarning if one of them is complex. *)
    Theorem C82_values (a : qop K) sort_terms : stored_form a -> on_qubits n a -> (forall t c, In (t, c) a -> few_body n (term_matrix im n t)) ->
      exists b, reported a b sort_terms /\
        values a sort_terms = if existsb (fun tc => complex (av (fst tc))) (not_small_terms small b) then Err RuntimeError else Ok (map (fun tc => clip (av (fst tc))) (not_small_terms small b)).
    Proof.
      intros Sa Oa Fa. destruct (reported_order a sort_terms Sa) as (b & Rb & Wb & ->). exists b. split; [exact Rb|]. pose proof (proj1 Rb) as P.
      assert (Inb : forall t c, In (t, c) (not_small_terms small b) -> In (t, c) a) by (intros t c Hin; apply filter_In in Hin; eapply Permutation_in; [exact P|apply Hin]).
      destruct (C81_qubits im Him small Hs1 Hs2 Hs3 Hz H0 n rho h rdm HR HN HC (not_small_terms small b)) as [-> _].
      - split; [apply not_small_wf, Wb|]. intros t c Hin. apply (proj2 Sa t c). auto.
      - intros t c Hin. apply (Oa t c). auto.
      - intros t c Hin. apply (Fa t c). auto.
      - cbn [rbind]. generalize (not_small_terms small b). intros l. rewrite map_map. cbn [snd]. replace (existsb (fun tc : term pauli * K => complex (snd tc)) (map (fun tc : term pauli * K => (fst tc, av (fst tc))) l)) with (existsb (fun tc : term pauli * K => complex (av (fst tc))) l); [reflexivity|].
        induction l as [|tc l IH]; [reflexivity|]. cbn [existsb map snd]. rewrite IH. reflexivity.
    Qed.
    (** For an operator without small coefficients, in a state whose averages are real numbers between -1 and 1, the values are the averages of all terms. *)
    Theorem C82_exact (a : qop K) sort_terms : stored_form a -> on_qubits n a -> (forall t c, In (t, c) a -> few_body n (term_matrix im n t) /\ small c = false /\ complex (av t) = false /\ clip (av t) = av t) ->
      exists b, reported a b sort_terms /\ values a sort_terms = Ok (map (fun tc => av (fst tc)) b).
    Proof.
      intros Sa Oa Fa. destruct (C82_values a sort_terms Sa Oa (fun t c Hin => proj1 (Fa t c Hin))) as (b & Rb & ->). exists b. split; [exact Rb|]. pose proof (proj1 Rb) as P.
      assert (Fb : forall t c, In (t, c) b -> few_body n (term_matrix im n t) /\ small c = false /\ complex (av t) = false /\ clip (av t) = av t) by (intros t c Hin; apply (Fa t c); eapply Permutation_in; [exact P|exact Hin]).
      rewrite not_small_id by (intros t c Hin; apply (Fb t c Hin)). clear - Fb. replace (existsb (fun tc : term pauli * K => complex (av (fst tc))) b) with false.
      - f_equal. apply map_ext_in. intros [t c] Hin. apply (Fb t c Hin).
      - symmetry. induction b as [|[t c] b IH]; [reflexivity|]. cbn [existsb fst]. rewrite IH by (intros u d Hu; apply (Fb u d); right; exact Hu). destruct (Fb t c (or_introl eq_refl)) as (_ & _ & -> & _). reflexivity.
    Qed.
    (** The values of a list of operators are those of its members, one after the other. *)
    Theorem C82_list (l : list (qop K)) sort_terms vs : Forall2 (fun a v => values a sort_terms = Ok v) l vs -> get_expectation_values_list im small larger complex clip h rdm l sort_terms = Ok (concat vs).
    Proof.
      intros H. unfold get_expectation_values_list. assert (G : forall acc, foldM (fun all a => let! e := values a sort_terms in Ok (all ++ e)) l acc = Ok (acc ++ concat vs)).
      { induction H as [|a v l vs E _ IH]; intros acc; cbn [foldM concat]; [rewrite app_nil_r; reflexivity|]. rewrite E. cbn [rbind]. rewrite IH, app_assoc. reflexivity. }
      apply G.
    Qed.
  End Values.
End C82.
