(** C100, part 2: density matrices, ground states, expectation values and energies in files; stated over EvalStepModel.v and EvalStepSpec.v. *)
From Coq Require Import String ZArith QArith Reals Ring Permutation.
From Verif Require Import ReindexProofs2 Base BaseFacts MatModel MatFacts LiftSpec LiftProofs OpModel OpSpec OpProofs PauliProofs OpProofs2 FermiModel FermiSpec FermiProofs FermiProofs2 FermiProofs3 FermiProofs7 FermiProps2
  SparseModel SparseProps SectorSpec SectorProofs SectorProps TensorModel TensorSpec TensorProps DiagModel DiagSpec ConvModel ConvProofs MolModel MolProofs9 RevJWModel RevJWSpec RdmModel RdmSpec RdmProofs RdmProofs2 RdmProofs3 RdmProofs4 RdmProofs5 RdmProps RdmProps2
  QopUtilModel QopUtilProofs3 QopUtilProps CostModel EvalStepModel EvalStepSpec EvalStepProps.
From Verif Require EstModel EstProps2.
Open Scope list_scope.
Local Open Scope nat_scope.

Section C100.
  Context {K : cring} (im half : K) (Him : kmul im im = kopp k1) (Hhalf : kadd half half = k1) (small isz : K -> bool) (Hz : forall c, isz c = true <-> c = k0).
  Add Ring Kring_c100 : (kth K).
  Open Scope K_scope.
  Notation arr := (TensorModel.ndarray K).
  Notation vec := (MatModel.vec K).
  Implicit Types (d : disk K).

  Lemma run_ok {A B} (m : M (disk K) A) (k : A -> M (disk K) B) d d1 a : m d = (d1, Ok a) -> bindM m k d = k a d1.
  Proof. unfold bindM. intros ->. reflexivity. Qed.
  Lemma run_err {A B} (m : M (disk K) A) (k : A -> M (disk K) B) d d1 e : m d = (d1, Err e) -> bindM m k d = (d1, Err e).
  Proof. unfold bindM. intros ->. reflexivity. Qed.
  Lemma loads {A} (kind : A -> artifact K) (from : artifact K -> option A) d name a : (forall y, from (kind y) = Some y) -> (forall y, kind y <> Broken) -> holds d name (kind a) ->
    load from name d = (d, Ok a).
  Proof. intros Hf Hb H. exact (given_loads kind from d (inl name) a Hf Hb H). Qed.

  (** ** Density matrices in files *)
  Lemma tensor_arrays n (rho : mat K) h a : is_rdm n rho h a -> exists one two, array_at h a [true; false] = Ok one /\ array_at h a [true; true; false; false] = Ok two /\ density_arrays n rho one two.
  Proof.
    intros (((_ & _ & _ & Ht) & Hk) & Hn & H1 & H2). unfold array_at, value in *. unfold dkeys in Hk. destruct (n_body_tensors a) as [|[k1 e1] [|[k2 e2] [|]]]; try discriminate Hk. cbn [map fst] in Hk. injection Hk as -> ->.
    cbn [dget key_eqb list_eqb Bool.eqb andb] in *.
    pose proof (Ht _ _ (or_introl eq_refl)) as A1. pose proof (Ht _ _ (or_intror (or_introl eq_refl))) as A2. cbn beta in A1, A2. destruct e1 as [|r1]; [discriminate A1|]. destruct e2 as [|r2]; [discriminate A2|]. destruct A1 as (_ & _ & S1), A2 as (_ & _ & S2).
    exists (read h r1), (read h r2). split; [reflexivity|]. split; [reflexivity|]. cbn [element] in H1, H2. split; [congruence|]. split; [congruence|]. split; assumption.
  Qed.
  Lemma rdm_loads n (rho : mat K) d name one two : holds d name (Rdm one two) -> density_arrays n rho one two ->
    exists h a, load_interaction_rdm name d = (d, Ok (h, a)) /\ is_rdm n rho h a.
  Proof.
    intros H (S1 & S2 & D1 & D2). unfold load_interaction_rdm. rewrite (run_ok _ _ d d (one, two)).
    - destruct (rdm_new n rho [] one two S1 S2 D1 D2) as (h & a & E & _ & R). exists h, a. cbn [fst snd]. unfold liftM. rewrite E. split; [reflexivity|exact R].
    - apply (loads (fun x => Rdm (fst x) (snd x))); [intros []; reflexivity|discriminate|exact H].
  Qed.

  (** The ground state of an operator in a sector. *)
  Definition ground_state (le : K -> K -> Prop) (a : qop K) (k n : nat) (value : K) (v : vec) : Prop :=
    on_qubits n a /\ (forall m, on_qubits m a -> n <= m)%nat /\ eigenpair (qop_matrix im n a) value v /\ in_sector n k v /\ nonzero v /\
    (forall nu w, eigenpair (qop_matrix im n a) nu w -> in_sector n k w -> nonzero w -> le value nu).
  Definition finds_lowest (le : K -> K -> Prop) (solver : mat K -> result (K * vec)) : Prop := forall R mu s, solver R = Ok (mu, s) -> forall nu w, eigenpair R nu w -> nonzero w -> le mu nu.
  Definition conserving (a : qop K) : Prop := forall n, on_qubits n a -> (forall m, on_qubits m a -> n <= m)%nat -> conserves_number n (qop_matrix im n a).
  Definition unit_vector (v : vec) : Prop := bigsum (vlen v) (fun i => kconj (vent v i) * vent v i) = 1.
  (** Unit vectors are returned by the eigensolvers. *)
  Definition unit_solver (solver : mat K -> result (K * vec)) : Prop := forall R mu s, solver R = Ok (mu, s) -> unit_vector s.

  Lemma sector_ground le solver (a : qop K) k A value v : stored_form a -> solves solver -> finds_lowest le solver -> conserving a ->
    get_sparse_operator im half small isz (OQubit a) None = Ok A -> SparseModel.jw_get_ground_state_at_particle_number solver A k = Ok (value, v) ->
    ground_state le a k (sorted_count_qubits a) value v /\ (unit_solver solver -> unit_vector v).
  Proof.
    intros [_ Ca] Hs Hle Hcons EA Eg.
    destruct (C74_qubit_default im half Him small isz Hz a Ca) as (m & A' & EA' & MA & Om & Lm). rewrite EA in EA'. injection EA' as <-.
    assert (Em : sorted_count_qubits a = m).
    { apply Nat.le_antisymm; [apply (sorted_count_spec a m Ca), Om|apply Lm, (sorted_count_spec a _ Ca); reflexivity]. }
    rewrite Em. pose proof MA as (Rr & Rc & ME). destruct (qop_matrix_shape (K := K) im m a) as [Sr Sc]. rewrite Sr in Rr. rewrite Sc in Rc.
    assert (HcA : conserves_number m A).
    { intros x y Lx Ly N. rewrite ME by (rewrite ?Rr, ?Rc, <- ?Lx; first [apply bval_lt|rewrite Lx, <- Ly; apply bval_lt]). apply (Hcons m Om Lm); auto. }
    destruct (C75_ground_state m A k solver value v Rr Rc HcA Hs Eg) as (EP & IS & NZ). pose proof (C75_lowest le m A k solver value v Rr Rc Hle Eg) as LO.
    assert (TR : forall nu w, eigenpair (qop_matrix im m a) nu w <-> eigenpair A nu w).
    { intros nu w. unfold eigenpair. rewrite Rc, Rr, Sc, Sr. split; intros [E1 E2]; (split; [exact E1|]); intros i Hi; rewrite <- E2 by exact Hi; apply bigsum_ext; intros j Hj; rewrite ME by congruence; reflexivity. }
    split.
    - split; [exact Om|]. split; [exact Lm|]. split; [apply TR, EP|]. split; [exact IS|]. split; [exact NZ|]. intros nu w H1 H2 H3. apply (LO nu w); auto. apply TR, H1.
    - intros Hu. rewrite (ground_form m) in Eg by auto. set (l := jw_number_indices k m) in *. destruct (solver _) as [[mu s]|] eqn:Es; [|discriminate Eg]. cbn [rbind fst snd] in Eg. inversion Eg; subst value v. clear Eg.
      pose proof (Hu _ _ _ Es) as U. destruct (Hs _ _ _ Es) as [[Ls _] _]. cbn [nc] in Ls. unfold unit_vector in *. cbn [vlen vent].
      rewrite (expand_sum (2 ^ m) l (vent s) (fun i => kconj (expand l (vent s) i))) by (first [exact (SectorProofs.indices_NoDup k m)|exact (SectorProofs.indices_lt k m)]).
      rewrite <- Ls in U. rewrite <- U. apply bigsum_ext. intros i Hi. rewrite expand_in by (first [exact (SectorProofs.indices_NoDup k m)|exact Hi]). reflexivity.
  Qed.

  (** The step writes, to rdms.json only, the density matrices of a lowest eigenvector of the operator among the states with the given number of particles. *)
  Theorem C100_ground_rdm le solver d name (a : qop K) k d' : holds d name (Operator a) -> stored_form a -> solves solver -> finds_lowest le solver -> conserving a ->
    get_ground_state_rdm_from_qubit_operator im half small isz solver (inl name) k d = (d', Ok tt) ->
    exists n value v one two, ground_state le a k n value v /\ (unit_solver solver -> unit_vector v) /\ only_files ["rdms.json"%string] d d' /\ holds d' "rdms.json" (Rdm one two) /\ density_arrays n (pure v) one two.
  Proof.
    intros H Sa Hs Hle Hcons. unfold get_ground_state_rdm_from_qubit_operator, load_qubit_operator. rewrite (run_ok _ _ d d a) by (apply (loads Operator); [reflexivity|discriminate|exact H]).
    intros E. destruct (get_ground_state_rdm_from_qubit_op im half small isz solver [] a k) as [[h rdm]|e] eqn:Er; [|rewrite (run_err _ _ d d e) in E by reflexivity; discriminate]. rewrite (run_ok _ _ d d (h, rdm)) in E by reflexivity.
    pose proof Er as Er'. unfold get_ground_state_rdm_from_qubit_op in Er'. destruct (get_sparse_operator im half small isz (OQubit a) None) as [A|] eqn:EA; [|discriminate]. cbn [rbind] in Er'.
    destruct (SparseModel.jw_get_ground_state_at_particle_number solver A k) as [[value v]|] eqn:Eg; [|discriminate]. cbn [rbind snd] in Er'.
    destruct (sector_ground le solver a k A value v Sa Hs Hle Hcons EA Eg) as [G U]. set (n := sorted_count_qubits a) in *.
    assert (Lv : vlen v = (2 ^ n)%nat) by apply G.
    destruct (one_body_ok im half Him Hhalf small isz Hz n v Lv) as (x & Ex & Sx & Dx). destruct (two_body_ok im half Him Hhalf small isz Hz n v Lv) as (y & Ey & Sy & Dy). rewrite Ex in Er'. cbn [rbind] in Er'. rewrite Ey in Er'. cbn [rbind] in Er'.
    destruct (rdm_new n (pure v) [] x y Sx Sy Dx Dy) as (h2 & p & E2 & _ & R). rewrite E2 in Er'. injection Er' as <- <-.
    destruct (tensor_arrays n (pure v) h2 p R) as (one & two & A1 & A2 & D). unfold save_interaction_rdm in E. rewrite (run_ok _ _ d d one), (run_ok _ _ d d two) in E by (unfold liftM; cbn [fst snd]; congruence).
    unfold save in E. injection E as <-. exists n, value, v, one, two. split; [exact G|]. split; [exact U|]. destruct (saved d "rdms.json" (Rdm one two)) as [S1 S2]. auto.
  Qed.
  (** The operator is annotated as a name or an operator, but an operator is rejected. *)
  Theorem C100_ground_rdm_object_refuted solver d (a : qop K) k : get_ground_state_rdm_from_qubit_operator im half small isz solver (inr a) k d = (d, Err TypeError).
  Proof. reflexivity. Qed.

  (** The step that writes the ground state and its energy. *)
  Theorem C100_ground_state le solver normalized d source (a : qop K) k d' : refers_to Operator d source a -> stored_form a -> solves solver -> finds_lowest le solver -> conserving a ->
    EvalStepModel.jw_get_ground_state_at_particle_number im half small isz solver normalized k source d = (d', Ok tt) ->
    exists n value v, ground_state le a k n value v /\ normalized v = true /\ (unit_solver solver -> unit_vector v) /\ only_files ["ground-state.json"; "value-estimate.json"]%string d d' /\
      holds d' "ground-state.json" (State v) /\ holds d' "value-estimate.json" (Estimate value NoPrecision).
  Proof.
    intros H Sa Hs Hle Hcons. unfold EvalStepModel.jw_get_ground_state_at_particle_number, load_qubit_operator. rewrite (run_ok _ _ d d a) by (apply (given_loads Operator); [reflexivity|discriminate|exact H]).
    intros E. destruct (get_sparse_operator im half small isz (OQubit a) None) as [A|e] eqn:EA; [|rewrite (run_err _ _ d d e) in E by reflexivity; discriminate]. rewrite (run_ok _ _ d d A) in E by reflexivity.
    destruct (SparseModel.jw_get_ground_state_at_particle_number solver A k) as [[value v]|e] eqn:Eg; [|rewrite (run_err _ _ d d e) in E by reflexivity; discriminate]. rewrite (run_ok _ _ d d (value, v)) in E by reflexivity. cbn [fst snd] in E.
    destruct (sector_ground le solver a k A value v Sa Hs Hle Hcons EA Eg) as [G U].
    destruct (normalized v) eqn:En; [|discriminate E]. unfold bindM, save in E. cbn in E. injection E as <-. exists (sorted_count_qubits a), value, v. split; [exact G|]. split; [exact En|]. split; [exact U|].
    set (d1 := dset String.eqb "ground-state.json"%string (State v) d). destruct (saved d "ground-state.json" (State v)) as [S1 S2]. destruct (saved d1 "value-estimate.json" (Estimate value NoPrecision)) as [S3 S4]. fold d1 in S1, S2. split; [|split; [|exact S3]].
    - intros x Hx. rewrite S4 by (intros [<-|[]]; apply Hx; right; left; reflexivity). apply S2. intros [<-|[]]. apply Hx. left. reflexivity.
    - unfold holds. rewrite S4 by (intros [X|[]]; discriminate X). exact S1.
  Qed.

  (** ** Expectation values *)
  Section Values.
    Context (Hs1 : small 1 = false) (Hs2 : small (- (1 + 1)) = false) (Hs3 : small (- im) = false) (Hsz : only_zero small) (H0 : small 0 = true).
    Context (larger : K -> K -> bool) (complex : K -> bool) (clip : K -> K).
    Context (larger_total : forall x y, larger x y = true \/ larger y x = true) (larger_trans : forall x y z, larger x y = true -> larger y z = true -> larger x z = true).
    (** A product of Pauli operators whose average can be read from density matrices, is real and lies between -1 and 1. *)
    Definition readable (n : nat) (rho : mat K) (t : term pauli) : Prop :=
      few_body n (term_matrix im n t) /\ complex (average n rho (term_matrix im n t)) = false /\ clip (average n rho (term_matrix im n t)) = average n rho (term_matrix im n t).

    (** One value for each term, the average of the term in the state; in the order of the terms or, if asked for, by decreasing absolute value of the coefficient. *)
    Theorem C100_values d rname oname one two n rho (a : qop K) sort_terms : holds d rname (Rdm one two) -> density_arrays n rho one two -> normalized n rho -> conserves_number n rho ->
      holds d oname (Operator a) -> stored_form a -> on_qubits n a -> (forall t c, In (t, c) a -> readable n rho t /\ small c = false) ->
      exists b d', reported larger a b sort_terms /\ expectation_values_from_rdms im small larger complex clip rname oname sort_terms d = (d', Ok tt) /\ only_files ["expectation_values.json"%string] d d' /\
        holds d' "expectation_values.json" (Values (map (fun tc => average n rho (term_matrix im n (fst tc))) b)).
    Proof.
      intros Hr Da HN HC Ho Sa Oa Fa. destruct (rdm_loads n rho d rname one two Hr Da) as (h & rdm & EL & R).
      destruct (C82_exact im Him small Hs1 Hs2 Hs3 Hsz H0 n rho h rdm R HN HC larger complex clip larger_total larger_trans a sort_terms Sa Oa) as (b & Rb & E).
      { intros t c Hin. destruct (Fa t c Hin) as [(F1 & F2 & F3) F4]. auto. }
      unfold expectation_values_from_rdms, load_qubit_operator. rewrite (run_ok _ _ d d a) by (apply (loads Operator); [reflexivity|discriminate|exact Ho]). rewrite (run_ok _ _ d d (h, rdm)) by exact EL. cbn [fst snd].
      rewrite (run_ok _ _ d d (map (fun tc => average n rho (term_matrix im n (fst tc))) b)) by (unfold liftM; rewrite E; reflexivity). exists b. eexists. split; [exact Rb|]. split; [reflexivity|]. destruct (saved d "expectation_values.json" (Values (map (fun tc => average n rho (term_matrix im n (fst tc))) b))); auto.
    Qed.
    (** For a list of operators: the values of its members one after the other. *)
    Theorem C100_values_list d rname oname one two n rho (l : list (qop K)) sort_terms : holds d rname (Rdm one two) -> density_arrays n rho one two -> normalized n rho -> conserves_number n rho ->
      holds d oname (Operators l) -> (forall a, In a l -> stored_form a /\ on_qubits n a /\ forall t c, In (t, c) a -> readable n rho t /\ small c = false) ->
      exists bs d', Forall2 (fun a b => reported larger a b sort_terms) l bs /\ expectation_values_from_rdms_list im small larger complex clip rname oname sort_terms d = (d', Ok tt) /\
        only_files ["expectation_values.json"%string] d d' /\ holds d' "expectation_values.json" (Values (map (fun tc => average n rho (term_matrix im n (fst tc))) (concat bs))).
    Proof.
      intros Hr Da HN HC Ho Fa. destruct (rdm_loads n rho d rname one two Hr Da) as (h & rdm & EL & R).
      assert (B : exists bs, Forall2 (fun a b => reported larger a b sort_terms) l bs /\
        Forall2 (fun a v => get_expectation_values_from_rdms im small larger complex clip h rdm a sort_terms = Ok v) l (map (map (fun tc => average n rho (term_matrix im n (fst tc)))) bs)).
      { clear Ho. induction l as [|a l IH]; [exists []; split; constructor|]. destruct IH as (bs & B1 & B2); [intros a' H'; apply Fa; right; exact H'|]. destruct (Fa a (or_introl eq_refl)) as (Sa & Oa & F).
        destruct (C82_exact im Him small Hs1 Hs2 Hs3 Hsz H0 n rho h rdm R HN HC larger complex clip larger_total larger_trans a sort_terms Sa Oa) as (b & Rb & E).
        { intros t c Hin. destruct (F t c Hin) as [(F1 & F2 & F3) F4]. auto. }
        exists (b :: bs). split; constructor; auto. }
      destruct B as (bs & B1 & B2). pose proof (C82_list im small h rdm larger complex clip l sort_terms _ B2) as E.
      rewrite <- concat_map in E. unfold expectation_values_from_rdms_list, load_qubit_operator_set. rewrite (run_ok _ _ d d l) by (apply (loads Operators); [reflexivity|discriminate|exact Ho]). rewrite (run_ok _ _ d d (h, rdm)) by exact EL. cbn [fst snd].
      rewrite (run_ok _ _ d d (map (fun tc => average n rho (term_matrix im n (fst tc))) (concat bs))) by (unfold liftM; rewrite E; reflexivity).
      exists bs. eexists. split; [exact B1|]. split; [reflexivity|]. destruct (saved d "expectation_values.json" (Values (map (fun tc => average n rho (term_matrix im n (fst tc))) (concat bs)))); auto.
    Qed.
  End Values.

  (** ** Evaluation *)
  Section Evaluate.
    Context (re : K -> K).
    (** The sum of the real parts of coefficient times value over all terms of the list, in order. *)
    Theorem C100_evaluate d os vs (l : list (qop K)) values : refers_to Operators d os l -> refers_to Values d vs values -> (length (concat l) <= length values)%nat ->
      exists d', EvalStepModel.evaluate_qubit_operator_list re os vs d = (d', Ok tt) /\ only_files ["value-estimate.json"%string] d d' /\
        holds d' "value-estimate.json" (Estimate (fold_right (fun (x : (term pauli * K) * K) s => re (snd (fst x) * snd x) + s) 0 (combine (concat l) values)) NoPrecision).
    Proof.
      intros Ho Hv L. unfold EvalStepModel.evaluate_qubit_operator_list, load_qubit_operator_set, load_expectation_values.
      rewrite (run_ok _ _ d d l) by (apply (given_loads Operators); [reflexivity|discriminate|exact Ho]). rewrite (run_ok _ _ d d values) by (apply (given_loads Values); [reflexivity|discriminate|exact Hv]).
      rewrite C86_evaluate_list, (C86_evaluate re (concat l) values L). unfold bindM, liftM, save. eexists. split; [reflexivity|]. match goal with |- context [dset _ _ ?x d] => destruct (saved d "value-estimate.json" x) end. auto.
    Qed.
    Theorem C100_evaluate_too_few d os vs (l : list (qop K)) values : refers_to Operators d os l -> refers_to Values d vs values -> (length values < length (concat l))%nat ->
      EvalStepModel.evaluate_qubit_operator_list re os vs d = (d, Err IndexError).
    Proof.
      intros Ho Hv L. unfold EvalStepModel.evaluate_qubit_operator_list, load_qubit_operator_set, load_expectation_values.
      rewrite (run_ok _ _ d d l) by (apply (given_loads Operators); [reflexivity|discriminate|exact Ho]). rewrite (run_ok _ _ d d values) by (apply (given_loads Values); [reflexivity|discriminate|exact Hv]).
      rewrite C86_evaluate_list, (C86_evaluate_too_few re (concat l) values L). reflexivity.
    Qed.
  End Evaluate.
End C100.
