(** C81: InteractionRDM (expectation, get_qubit_expectations) and get_interaction_rdm, stated over RdmModel.v and RdmSpec.v. *)
From Coq Require Import ZArith Ring Permutation.
From Verif Require Import ReindexProofs2 Base BaseFacts MatModel MatFacts LiftSpec LiftProofs OpModel OpSpec OpProofs PauliProofs OpProofs2 FermiModel FermiSpec FermiProofs FermiProofs2 FermiProofs3 FermiProofs7 FermiProps2
  TensorModel TensorSpec TensorProps DiagModel DiagSpec ConvModel ConvProofs MolModel MolProofs9 SectorSpec RevJWModel RevJWSpec RdmModel RdmSpec RdmProofs RdmProofs2 RdmProofs3 LayoutProofs DiagProofs GaussQ.
Open Scope list_scope.
Local Open Scope nat_scope.

Section C81.
  Context {K : cring}.
  Add Ring Kring_c81 : (kth K).
  Open Scope K_scope.
  (** The average in the density matrix of a vector v is <v|A|v>; it has trace 1 when v has norm 1. *)
  Theorem C81_pure n (v : vec K) : vlen v = (2 ^ n)%nat -> (forall A, average n (pure v) A = mean A v) /\ (inner v v = 1 -> normalized n (pure v)).
  Proof.
    intros Hv. split; [intros A; apply average_pure; exact Hv|]. intros H. unfold normalized. rewrite average_pure by exact Hv. rewrite <- H. unfold mean, inner. rewrite Hv. apply bigsum_ext. intros i Hi. f_equal.
    rewrite (bigsum_single (2 ^ n) i); [|exact Hi|]; cbn [eye ent]; unfold delta; [rewrite Nat.eqb_refl; ring|]. intros j Hj Nj. rewrite (proj2 (Nat.eqb_neq i j)) by congruence. ring.
  Qed.
  (** ** Interaction operators *)
  (** The expectation of an interaction operator is its average in any (pure or mixed) state the density matrices come from. *)
  Theorem C81_interaction n (rho : mat K) h rdm a : is_rdm n rho h rdm -> normalized n rho -> interaction_ok h a -> n_qubits a = n ->
    expectation_interaction h rdm a = Ok (average n rho (tensor_matrix h a)).
  Proof. intros. apply interaction_average; auto. Qed.
  (** Arrays of different sizes are an error, unless numpy stretches one of them because its size is 1. *)
  Theorem C81_sizes h rdm (a : ptensor K) : rdm_ok h rdm -> interaction_ok h a -> n_qubits rdm <> n_qubits a -> n_qubits rdm <> 1%nat -> n_qubits a <> 1%nat -> expectation_interaction h rdm a = Err ValueError.
  Proof.
    intros Hr Ha N1 N2 N3. destruct (rdm_parts h rdm Hr) as (r1 & r2 & E & S1 & S2). destruct (interaction_parts h a Ha) as (c & s1 & s2 & E' & S1' & S2').
    unfold expectation_interaction, constant, array_at. rewrite E, E'. cbn [dget key_eqb list_eqb Bool.eqb andb rbind]. unfold sum_of_products, broadcast. rewrite S1, S1'.
    rewrite (proj2 (Nat.eqb_neq _ _) N1), (proj2 (Nat.eqb_neq _ _) N2), (proj2 (Nat.eqb_neq _ _) N3). reflexivity.
  Qed.

  Lemma moved_heap (h h' : heap K) a : preserved h h' -> (length h <= length h')%nat -> interaction_ok h a -> interaction_ok h' a /\ forall x y, tensor_entry h' a x y = tensor_entry h a x y.
  Proof.
    intros P Lh [(T1 & T2 & T3 & T4) Tk]. split.
    - split; [|exact Tk]. split; [exact T1|]. split; [exact T2|]. split; [exact T3|]. intros k e Hin. specialize (T4 k e Hin). destruct e as [|r]; [exact T4|]. destruct T4 as (X & Y & Z). split; [exact X|]. split; [lia|]. rewrite P by exact Y. exact Z.
    - intros x y. unfold tensor_entry. clear - T4 P. induction (n_body_tensors a) as [|[k e] d IH]; [reflexivity|]. cbn [fold_right fst snd]. rewrite IH by (intros k' e' H; apply T4; right; exact H). f_equal.
      apply DiagProofs.sum_over_ext. intros l _ _. f_equal. destruct e as [c|r]; [reflexivity|]. cbn [element]. destruct (T4 k (Arr r) (or_introl eq_refl)) as (_ & Y & _). rewrite P by exact Y. reflexivity.
  Qed.

  (** ** Qubit operators: scalars with an imaginary unit; only 0 is pruned *)
  Section Qubits.
    Context (im : K) (Him : im * im = - (1)) (small : K -> bool) (Hs1 : small 1 = false) (Hs2 : small (- (1 + 1)) = false) (Hs3 : small (- im) = false) (Hz : only_zero small) (H0 : small 0 = true).
    Context (n : nat) (rho : mat K) (h : heap K) (rdm : ptensor K).
    (** the arrays are the density matrices of a state that does not mix numbers of particles *)
    Context (HR : is_rdm n rho h rdm) (HN : normalized n rho) (HC : conserves_number n rho).
    Notation few t := (few_body (K := K) n (term_matrix im n t)).
    (** Each Pauli string gets its average in the state, and the expectation of the operator is its average, if the strings are combinations of products of at most four
        creation and annihilation operators. *)
    Theorem C81_qubits (a : qop K) : stored_form a -> on_qubits n a -> (forall t c, In (t, c) a -> few t) ->
      get_qubit_expectations im small h rdm a = Ok (map (fun tc => (fst tc, average n rho (term_matrix im n (fst tc)))) a) /\
      expectation_qubits im small h rdm a = Ok (average n rho (qop_matrix im n a)).
    Proof.
      intros [W Ca] On Hf. assert (G : get_qubit_expectations im small h rdm a = Ok (map (fun tc => (fst tc, average n rho (term_matrix im n (fst tc)))) a)).
      { unfold get_qubit_expectations. apply LayoutProofs.mapM_ok_map. intros [t c] Hin. cbn [fst]. destruct (qubit_expectation_cases im Him small Hs1 Hs2 Hs3 Hz H0 n rho h rdm HR HN HC t (Ca t c Hin) (On t c Hin)) as [[_ ->]|[X _]]; [reflexivity|]. exfalso. apply X. eauto. }
      split; [exact G|]. unfold expectation_qubits. rewrite G. cbn [rbind]. rewrite average_qop.
      set (e := map _ a). assert (De : forall t c, In (t, c) a -> dget (term_eqb pauli_eqb) t e = Some (average n rho (term_matrix im n t))).
      { intros t c Hin. apply (BaseFacts.In_dget _ (term_eqb_spec _ pauli_eqb_spec)); [unfold e, dkeys; rewrite map_map; exact W|]. apply in_map_iff. exists (t, c). auto. }
      clearbody e. clear - De. assert (Q : forall s, foldM (fun s (tc : term pauli * K) => match dget (term_eqb pauli_eqb) (fst tc) e with Some v => Ok (s + snd tc * v) | None => Err KeyError end) a s = Ok (s + lval (fun t => average n rho (term_matrix im n t)) a)).
      { induction a as [|[t c] a IH]; intros s; cbn [foldM lval fst snd]; [f_equal; ring|]. rewrite (De t c (or_introl eq_refl)). cbn [rbind]. rewrite IH by (intros u d Hu; apply (De u d); right; exact Hu). f_equal. ring. }
      rewrite Q. f_equal. ring.
    Qed.
    (** If one of the strings is not, both raise InteractionRDMError. *)
    Theorem C81_many_body (a : qop K) t c : stored_form a -> on_qubits n a -> In (t, c) a -> ~ few t ->
      get_qubit_expectations im small h rdm a = Err GenericException /\ expectation_qubits im small h rdm a = Err GenericException.
    Proof.
      intros [W Ca] On Hin Hn. assert (G : get_qubit_expectations im small h rdm a = Err GenericException).
      { unfold get_qubit_expectations. clear W. induction a as [|[u d] a IH]; [destruct Hin|]. cbn [mapM fst].
        destruct (qubit_expectation_cases im Him small Hs1 Hs2 Hs3 Hz H0 n rho h rdm HR HN HC u (Ca u d (or_introl eq_refl)) (On u d (or_introl eq_refl))) as [[F ->]|[_ ->]]; [|reflexivity]. cbn [rbind].
        destruct Hin as [E|Hin]; [inversion E; subst; contradiction|]. rewrite IH; auto; [intros v w Hv; apply (Ca v w); right; exact Hv|intros v w Hv; apply (On v w); right; exact Hv]. }
      split; [exact G|]. unfold expectation_qubits. rewrite G. reflexivity.
    Qed.
  End Qubits.

  (** ** Density matrices from measured expectations of Pauli strings *)
  Section Measured.
    Context (im half : K) (Him : im * im = - (1)) (Hhalf : half + half = 1) (small : K -> bool).
    Context (Hs1 : small half = false) (Hs2 : small (half * im) = false) (Hs3 : small (- (half * im)) = false) (Hz : only_zero small).
    (** The operator's coefficients are the averages of the strings that make up a product of ladder operators; a string that is missing has average 0. *)
    Definition measures (n : nat) (rho : mat K) (m : qop K) (t : fterm) : Prop :=
      forall u c, In (u, c) (jordan_wigner im half small (fermion_op t 1)) -> coef pauli_eqb m u = average n rho (term_matrix im n u).
    Theorem C81_measured n (rho : mat K) h (m : qop K) :
      (forall p q, (p < n)%nat -> (q < n)%nat -> measures n rho m [(p, true); (q, false)]) ->
      (forall p q r s, (p < n)%nat -> (q < n)%nat -> (r < n)%nat -> (s < n)%nat -> measures n rho m [(p, true); (q, true); (r, false); (s, false)]) ->
      exists h' rdm, get_interaction_rdm im half small h m (Some n) = Ok (h', rdm) /\ preserved h h' /\ is_rdm n rho h' rdm.
    Proof.
      intros M1 M2. unfold get_interaction_rdm. apply rdm_new.
      - destruct (measured_loop im half small m [true; false] (indices n 2) (fun i H => proj1 (proj1 (in_indices n 2 i) H)) (ConvProofs.indices_NoDup n 2) (zeros_array n) []) as [-> _]. reflexivity.
      - destruct (measured_loop im half small m [true; true; false; false] (indices n 4) (fun i H => proj1 (proj1 (in_indices n 4 i) H)) (ConvProofs.indices_NoDup n 4) (zeros_array n) []) as [-> _]. reflexivity.
      - intros p q Hp Hq. apply (measured_array im half Him Hhalf small Hs1 Hs2 Hs3 Hz n rho m [true; false]).
        + intros i Hi. apply in_indices in Hi. destruct Hi as [Li Fi]. destruct i as [|a [|b [|]]]; try discriminate. rewrite !Forall_cons_iff in Fi. apply M1; tauto.
        + apply in_indices. split; [reflexivity|]. repeat constructor; auto.
      - intros p q r s Hp Hq Hr Hs. apply (measured_array im half Him Hhalf small Hs1 Hs2 Hs3 Hz n rho m [true; true; false; false]).
        + intros i Hi. apply in_indices in Hi. destruct Hi as [Li Fi]. destruct i as [|a [|b [|c [|d [|]]]]]; try discriminate. rewrite !Forall_cons_iff in Fi. apply M2; tauto.
        + apply in_indices. split; [reflexivity|]. repeat constructor; auto.
    Qed.
    (** Without a number of qubits, the least one the operator acts on is used. *)
    Theorem C81_default h (m : qop K) : stored_form m -> exists n, on_qubits n m /\ (forall k, on_qubits k m -> n <= k)%nat /\ get_interaction_rdm im half small h m None = get_interaction_rdm im half small h m (Some n).
    Proof.
      intros [_ C]. exists (sorted_count_qubits m). split; [apply (ReindexProofs2.sorted_count_spec m _ C); reflexivity|]. split; [|reflexivity]. intros k Hk. apply (ReindexProofs2.sorted_count_spec m k C). exact Hk.
    Qed.
    (** So the energy of an interaction operator can be computed from measured Pauli strings. *)
    Theorem C81_energy n (rho : mat K) h (m : qop K) a : interaction_ok h a -> n_qubits a = n -> normalized n rho ->
      (forall p q, (p < n)%nat -> (q < n)%nat -> measures n rho m [(p, true); (q, false)]) ->
      (forall p q r s, (p < n)%nat -> (q < n)%nat -> (r < n)%nat -> (s < n)%nat -> measures n rho m [(p, true); (q, true); (r, false); (s, false)]) ->
      exists h' rdm, get_interaction_rdm im half small h m (Some n) = Ok (h', rdm) /\ expectation_interaction h' rdm a = Ok (average n rho (tensor_matrix h a)).
    Proof.
      intros Ha Hn HN M1 M2. destruct (C81_measured n rho h m M1 M2) as (h' & rdm & E & P & R). exists h', rdm. split; [exact E|].
      assert (Lh : (length h <= length h')%nat).
      { unfold get_interaction_rdm, interaction_rdm, polynomial_tensor in E. cbn [rbind] in E. injection E as E _. rewrite <- E, app_length. lia. }
      destruct (moved_heap h h' a P Lh Ha) as [Ha' Et].
      rewrite (C81_interaction n rho h' rdm a R HN Ha' Hn). f_equal. rewrite !average_AV. apply AV_ext. intros i j Hi Hj. unfold tensor_matrix. cbn [ent]. apply Et.
    Qed.
  End Measured.
End C81.
