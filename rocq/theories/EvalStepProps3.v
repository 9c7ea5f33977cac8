(** C100, part 3: the energy computed by three steps in a row; the analysis of groups; errors; examples.  Stated over EvalStepModel.v and EvalStepSpec.v. *)
From Coq Require Import String ZArith QArith Reals Ring Permutation.
From Verif Require Import ReindexProofs2 Base BaseFacts MatModel MatFacts LiftSpec LiftProofs OpModel OpSpec OpProofs PauliProofs OpProofs2 FermiModel FermiSpec FermiProofs
  SparseModel SparseProps SectorSpec SectorProofs SectorProps TensorModel TensorSpec DiagModel DiagSpec ConvModel ConvProofs ConvSpec RevJWModel RevJWSpec RdmModel RdmSpec RdmProofs RdmProps RdmProps2
  QopUtilModel QopUtilProofs3 QopUtilProps CostModel EvalStepModel EvalStepSpec EvalStepProps EvalStepProps2.
From Verif Require EstModel EstProps2.
Open Scope list_scope.
Local Open Scope nat_scope.

Section Energy.
  Context {K : cring} (im half : K) (Him : kmul im im = kopp k1) (Hhalf : kadd half half = k1) (small isz : K -> bool) (Hz : forall c, isz c = true <-> c = k0).
  Add Ring Kring_c100e : (kth K).
  Open Scope K_scope.
  Notation vec := (MatModel.vec K).
  Implicit Types (d : disk K).
  Context (Hs1 : small 1 = false) (Hs2 : small (- (1 + 1)) = false) (Hs3 : small (- im) = false) (Hsz : only_zero small) (H0 : small 0 = true).
  Context (larger : K -> K -> bool) (complex : K -> bool) (clip re : K -> K).
  Context (larger_total : forall x y, larger x y = true \/ larger y x = true) (larger_trans : forall x y z, larger x y = true -> larger y z = true -> larger x z = true).
  Context (Hre : forall x y, re (x + y) = re x + re y).

  Lemma sector_density n k (v : vec) : in_sector n k v -> unit_vector v -> normalized n (pure v) /\ conserves_number n (pure v).
  Proof.
    intros [Lv Sv] U. split.
    - unfold normalized. rewrite average_pure by exact Lv. unfold mean. rewrite Lv. unfold unit_vector in U. rewrite Lv in U. rewrite <- U. apply bigsum_ext. intros i Hi. f_equal. unfold eye. cbn [ent].
      transitivity (bigsum (2 ^ n) (fun j => delta (Nat.eqb i j) * vent v j)); [reflexivity|]. rewrite (bigsum_single (2 ^ n) i) by (try exact Hi; intros j _ Hj; unfold delta; rewrite (proj2 (Nat.eqb_neq i j)) by auto; ring).
      unfold delta. rewrite Nat.eqb_refl. ring.
    - intros x y Lx Ly N. cbn [pure ent]. destruct (Nat.eq_dec (particles x) k) as [E|E]; [|rewrite (Sv x Lx E); ring]. rewrite (Sv y Ly) by congruence. rewrite kconj_0. ring.
  Qed.
  Lemma eigen_average n (A : mat K) value (v : vec) : nr A = (2 ^ n)%nat -> nc A = (2 ^ n)%nat -> eigenpair A value v -> unit_vector v -> average n (pure v) A = value.
  Proof.
    intros Hr Hc [Lv Hv] U. rewrite average_pure by congruence. unfold mean. rewrite <- Lv, Hc.
    transitivity (value * bigsum (2 ^ n) (fun i => kconj (vent v i) * vent v i)).
    - rewrite bigsum_mul_l. apply bigsum_ext. intros i Hi. specialize (Hv i ltac:(congruence)). rewrite Hc in Hv. rewrite Hv. ring.
    - unfold unit_vector in U. rewrite <- Lv, Hc in U. rewrite U. ring.
  Qed.
  (** Density matrices of the ground state of an operator, expectation values of the terms of a list of operators, their evaluation: if the list adds up to the operator, the last file
      holds the real part of the ground state energy. *)
  Theorem C100_energy le solver d hname oname (a : qop K) (l : list (qop K)) k d1 : holds d hname (Operator a) -> stored_form a -> solves solver -> finds_lowest le solver -> unit_solver solver -> conserving im a ->
    holds d oname (Operators l) -> oname <> "rdms.json"%string -> oname <> "expectation_values.json"%string ->
    (forall b, In b l -> stored_form b) -> (forall n, on_qubits n a -> on_qubits n (concat l) /\ meq (qop_matrix im n (concat l)) (qop_matrix im n a)) ->
    get_ground_state_rdm_from_qubit_operator im half small isz solver (inl hname) k d = (d1, Ok tt) ->
    exists n value v, ground_state im le a k n value v /\ ((forall t c, In (t, c) (concat l) -> readable im complex clip n (pure v) t /\ small c = false) ->
      exists d2 d3, expectation_values_from_rdms_list im small larger complex clip "rdms.json" oname false d1 = (d2, Ok tt) /\
        EvalStepModel.evaluate_qubit_operator_list re (inl oname) (inl "expectation_values.json"%string) d2 = (d3, Ok tt) /\
        only_files ["rdms.json"; "expectation_values.json"; "value-estimate.json"]%string d d3 /\ holds d3 "value-estimate.json" (Estimate (re value) NoPrecision)).
  Proof.
    intros Hh Sa Hs Hle Hu Hcons Ho N1 N2 Sl Hsum E1. destruct (C100_ground_rdm im half Him Hhalf small isz Hz le solver d hname a k d1 Hh Sa Hs Hle Hcons E1) as (n & value & v & one & two & G & U & F1 & R1 & D1).
    exists n, value, v. split; [exact G|]. intros Hread. specialize (U Hu). pose proof G as (On & _ & EP & IS & _). destruct (sector_density n k v IS U) as [HN HC]. destruct (Hsum n On) as [Ol ME].
    assert (Ho1 : holds d1 oname (Operators l)) by (unfold holds; rewrite F1; [exact Ho|intros [X|[]]; congruence]).
    destruct (C100_values_list im Him small Hs1 Hs2 Hs3 Hsz H0 larger complex clip larger_total larger_trans d1 "rdms.json" oname one two n (pure v) l false R1 D1 HN HC Ho1) as (bs & d2 & Rb & E2 & F2 & V2).
    { intros b Hb. split; [apply Sl, Hb|]. split; [intros t c Ht; apply (Ol t c); apply in_concat; eauto|]. intros t c Ht. apply (Hread t c). apply in_concat. eauto. }
    assert (Eb : bs = l) by (clear - Rb; induction Rb as [|x y l bs [_ H] _ IH]; [reflexivity|]; congruence). subst bs.
    assert (Ho2 : holds d2 oname (Operators l)) by (unfold holds; rewrite F2; [exact Ho1|intros [X|[]]; congruence]).
    destruct (C100_evaluate re d2 (inl oname) (inl "expectation_values.json"%string) l _ Ho2 V2) as (d3 & E3 & F3 & V3); [rewrite map_length; lia|].
    exists d2, d3. split; [exact E2|]. split; [exact E3|]. split.
    - intros x Hx. rewrite F3 by (intros [<-|[]]; apply Hx; right; right; left; reflexivity). rewrite F2 by (intros [<-|[]]; apply Hx; right; left; reflexivity). apply F1. intros [<-|[]]. apply Hx. left. reflexivity.
    - assert (W : fold_right (fun (x : (term pauli * K) * K) s => re (snd (fst x) * snd x) + s) 0 (combine (concat l) (map (fun tc => average n (pure v) (term_matrix im n (fst tc))) (concat l))) = re value); [|rewrite W in V3; exact V3].
      pose proof (weighted_map re Hre (fun t => average n (pure v) (term_matrix im n t)) (concat l)) as X. unfold weighted in X. rewrite X. f_equal. rewrite <- (average_qop n (pure v) im (concat l)).
      destruct (qop_matrix_shape (K := K) im n (concat l)) as [S1 S2]. rewrite (average_meq n (pure v) _ (qop_matrix im n a)) by auto. destruct (qop_matrix_shape (K := K) im n a) as [S3 S4]. apply eigen_average; auto.
  Qed.
End Energy.
