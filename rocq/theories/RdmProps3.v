(** C81 and C82: concrete states that meet the hypotheses, and where the functions are wrong. *)
From Coq Require Import ZArith QArith Permutation Sorted.
From Verif Require Import ReindexProofs2 Base BaseFacts MatModel MatFacts LiftSpec OpModel OpSpec PauliProofs FermiModel FermiSpec FermiProofs SparseModel SectorSpec SectorProps
  TensorModel TensorSpec DiagModel DiagSpec ConvModel MolModel RevJWModel RevJWSpec RdmModel RdmSpec RdmProofs2 RdmProofs3 RdmProps RdmProps2 GaussQ JWInterProps MolProps MolProps2.
Open Scope list_scope.
Local Open Scope nat_scope.

(** One electron, with spin up, in one orbital. *)
Definition c81_v : vec GQ := Build_vec 4 (fun i => if Nat.eqb i 2 then k1 else k0).
Lemma c81_basis : is_basis_state 2 c81_v [true; false].
Proof. split; [reflexivity|]. split; [reflexivity|]. intros [|[] [|[] [|]]]; try discriminate; intros _; reflexivity. Qed.
Lemma c81_rdm : exists h rdm, hf_rdm (K := GQ) [] 1 0 1 = Ok (h, rdm) /\ is_rdm 2 (pure c81_v) h rdm /\ normalized 2 (pure c81_v) /\ conserves_number 2 (pure c81_v).
Proof.
  destruct (C82_hartree_fock (K := GQ) qhalf qhalf_two [] 1 0 1 c81_v _ c81_basis) as (h & rdm & E & _ & R).
  - intros [|i] Hi; [split; reflexivity|lia].
  - destruct (C82_basis_state 2 c81_v _ c81_basis) as (N & C & _). exists h, rdm. auto.
Qed.
(** Strings of at most two Pauli operators are fine. *)
Definition c81_q : qop GQ := [([(0, Pz); (1, Pz)], gq 4 0); ([(0, Px); (1, Px)], gq 8 0); ([(0, Pz)], gq 12 0); ([], gq 2 0)].
Lemma c81_stored : stored_form c81_q /\ on_qubits 2 c81_q.
Proof.
  split; [split|].
  - repeat constructor; cbn; intuition discriminate.
  - intros t c [H|[H|[H|[H|[]]]]]; injection H as <- <-; cbn; repeat split; first [discriminate|exact I|apply Nat.ltb_lt; reflexivity].
  - intros t c [H|[H|[H|[H|[]]]]] f Hf; injection H as <- <-; cbn in Hf; intuition (subst; cbn; apply Nat.ltb_lt; reflexivity).
Qed.
Lemma c81_few n t : canonical t -> (forall f, In f t -> fst f < n) -> short_form (K := GQ) qi gq_zero t = true -> few_body n (term_matrix (K := GQ) qi n t).
Proof. intros C O H. apply (short_form_spec qi qi_sq gq_zero eq_refl eq_refl eq_refl gq_only_zero eq_refl n t C O). exact H. Qed.
Example C81_qubits_case : exists h rdm, hf_rdm (K := GQ) [] 1 0 1 = Ok (h, rdm) /\ expectation_qubits qi gq_zero h rdm c81_q = Ok (average 2 (pure c81_v) (qop_matrix qi 2 c81_q)) /\
  average 2 (pure c81_v) (qop_matrix qi 2 c81_q) = gq (- 14) 0.
Proof.
  destruct c81_rdm as (h & rdm & E & R & N & C). exists h, rdm. split; [exact E|]. destruct c81_stored as [S O]. split.
  - apply (C81_qubits qi qi_sq gq_zero eq_refl eq_refl eq_refl gq_only_zero eq_refl 2 (pure c81_v) h rdm R N C c81_q S O).
    intros t c Hin. apply c81_few; [apply (proj2 S t c Hin)|apply (O t c Hin)|]. destruct Hin as [H|[H|[H|[H|[]]]]]; injection H as <- <-; vm_compute; reflexivity.
  - apply c73_same. vm_compute. reflexivity.
Qed.
(** Three Pauli operators need six ladder operators. *)
Lemma c81_zzz : canonical [(0, Pz); (1, Pz); (2, Pz)] /\ forall f, In f [(0, Pz); (1, Pz); (2, Pz)] -> fst f < 2 * 2.
Proof.
  split; [cbn; repeat split; first [discriminate|lia]|]. intros f [<-|[<-|[<-|[]]]]; cbn; lia.
Qed.
Example C81_many_body_case : exists h rdm, hf_rdm (K := GQ) [] 1 0 2 = Ok (h, rdm) /\ expectation_qubits qi gq_zero h rdm [([(0, Pz); (1, Pz); (2, Pz)], gq 4 0)] = Err GenericException.
Proof.
  set (v := Build_vec 16 (fun i => if Nat.eqb i 8 then k1 else k0) : vec GQ). assert (B : is_basis_state (2 * 2) v [true; false; false; false]).
  { split; [reflexivity|]. split; [reflexivity|]. intros [|[] [|[] [|[] [|[] [|]]]]]; try discriminate; intros _; reflexivity. }
  destruct (C82_hartree_fock (K := GQ) qhalf qhalf_two [] 1 0 2 v _ B) as (h & rdm & E & _ & R); [intros [|[|i]] Hi; try lia; split; reflexivity|].
  destruct (C82_basis_state _ v _ B) as (N & C & _). exists h, rdm. split; [exact E|].
  destruct c81_zzz as [Ca O].
  apply (C81_many_body qi qi_sq gq_zero eq_refl eq_refl eq_refl gq_only_zero eq_refl (2 * 2) (pure v) h rdm R N C _ [(0, Pz); (1, Pz); (2, Pz)] (gq 4 0)).
  - split; [repeat constructor; cbn; intuition|]. intros t c [H|[]]. injection H as <- <-. exact Ca.
  - intros t c [H|[]]. injection H as <- <-. exact O.
  - left. reflexivity.
  - intros F. apply (short_form_spec qi qi_sq gq_zero eq_refl eq_refl eq_refl gq_only_zero eq_refl (2 * 2) _ Ca O) in F. revert F. vm_compute. discriminate.
Qed.
(** Measured expectations of the same state. *)
Definition c81_m : qop GQ := [([], gq 4 0); ([(0, Pz)], gq (- 4) 0); ([(1, Pz)], gq 4 0); ([(0, Pz); (1, Pz)], gq (- 4) 0)].
Definition c81_measures (t : fterm) : bool := forallb (fun tc : term pauli * GQ => gq_eqb (coef pauli_eqb c81_m (fst tc)) (average 2 (pure c81_v) (term_matrix qi 2 (fst tc)))) (jordan_wigner qi qhalf gq_zero (fermion_op t k1)).
Lemma gq_eqb_eq (c d : GQ) : gq_eqb c d = true -> c = d.
Proof. destruct c, d. unfold gq_eqb. cbn [fst snd]. intros H. apply andb_prop in H as [H1 H2]. apply Qcanon.Qc_eq_bool_correct in H1, H2. subst. reflexivity. Qed.
Lemma c81_measures_spec t : c81_measures t = true -> measures qi qhalf gq_zero 2 (pure c81_v) c81_m t.
Proof. intros H u c Hin. unfold c81_measures in H. rewrite forallb_forall in H. apply gq_eqb_eq. apply (H (u, c) Hin). Qed.
Example C81_measured_case : exists h rdm, get_interaction_rdm qi qhalf gq_zero [] c81_m (Some 2) = Ok (h, rdm) /\ is_rdm 2 (pure c81_v) h rdm.
Proof.
  destruct (C81_measured qi qhalf qi_sq qhalf_two gq_zero eq_refl eq_refl eq_refl gq_only_zero 2 (pure c81_v) [] c81_m) as (h & rdm & E & _ & R); [| |eauto].
  - intros p q Hp Hq. apply c81_measures_spec. assert (F : forallb (fun i => c81_measures (combine i [true; false])) (indices 2 2) = true) by (vm_compute; reflexivity). rewrite forallb_forall in F. apply (F [p; q]).
    apply TensorProps.in_indices. split; [reflexivity|]. auto using Forall_cons, Forall_nil.
  - intros p q r s Hp Hq Hr Hs. apply c81_measures_spec. assert (F : forallb (fun i => c81_measures (combine i [true; true; false; false])) (indices 2 4) = true) by (vm_compute; reflexivity). rewrite forallb_forall in F. apply (F [p; q; r; s]).
    apply TensorProps.in_indices. split; [reflexivity|]. auto using Forall_cons, Forall_nil.
Qed.
(** The energy of the operator of C79 in the state with one electron. *)
Example C81_interaction_case : match hf_rdm c79_heap 1 0 1 with
  | Ok (h, rdm) => match expectation_interaction h rdm c79_op with Ok e => gq_eqb e (average 2 (pure c81_v) (tensor_matrix c79_heap c79_op)) | Err _ => false end
  | Err _ => false end = true.
Proof. vm_compute. reflexivity. Qed.

(** ** Where C81 needs its hypotheses *)
(** A state that mixes numbers of particles: (|0> + |1>) / sqrt 2.  The average of X is 1, the function returns 0 and raises nothing. *)
Definition c81_mixed : mat GQ := Build_mat 2 2 (fun _ _ => qhalf).
Definition c81_one : TensorModel.ndarray GQ := {| shape0 := 1; data := fun i => match i with [p; q] => average 1 c81_mixed (fterm_matrix 1 [(p, true); (q, false)]) | _ => k0 end |}.
Definition c81_two : TensorModel.ndarray GQ := {| shape0 := 1; data := fun i => match i with [p; q; r; s] => average 1 c81_mixed (fterm_matrix 1 [(p, true); (q, true); (r, false); (s, false)]) | _ => k0 end |}.
Definition c81_x : qop GQ := [([(0, Px)], gq 4 0)].
Theorem C81_number_refuted : exists n (rho : mat GQ) h rdm a e, is_rdm n rho h rdm /\ normalized n rho /\ stored_form a /\ on_qubits n a /\ (forall t c, In (t, c) a -> few_body n (term_matrix qi n t)) /\
  expectation_qubits qi gq_zero h rdm a = Ok e /\ e <> average n rho (qop_matrix qi n a).
Proof.
  destruct (rdm_new 1 c81_mixed [] c81_one c81_two eq_refl eq_refl) as (h & rdm & E & _ & R); [reflexivity|reflexivity|].
  destruct (expectation_qubits qi gq_zero h rdm c81_x) as [e|] eqn:Ee.
  - exists 1, c81_mixed, h, rdm, c81_x, e. split; [exact R|]. split; [apply c73_same; vm_compute; reflexivity|].
    assert (S : stored_form c81_x) by (split; [repeat constructor; cbn; intuition|]; intros t c [H|[]]; injection H as <- <-; cbn; repeat split; first [discriminate|exact I|apply Nat.ltb_lt; reflexivity]).
    assert (O : on_qubits 1 c81_x) by (intros t c [H|[]] f Hf; injection H as <- <-; cbn in Hf; intuition (subst; cbn; apply Nat.ltb_lt; reflexivity)).
    split; [exact S|]. split; [exact O|]. split.
    + intros t c Hin. apply c81_few; [apply (proj2 S t c Hin)|apply (O t c Hin)|]. destruct Hin as [H|[]]; injection H as <- <-; vm_compute; reflexivity.
    + split; [exact Ee|]. assert (Q : match interaction_rdm [] c81_one c81_two with Ok (h, rdm) => match expectation_qubits qi gq_zero h rdm c81_x with Ok e => gq_eqb e (average 1 c81_mixed (qop_matrix qi 1 c81_x)) | Err _ => true end | Err _ => true end = false) by (vm_compute; reflexivity).
      rewrite E, Ee in Q. apply gq_ne. exact Q.
  - exfalso. assert (Q : match interaction_rdm [] c81_one c81_two with Ok (h, rdm) => match expectation_qubits qi gq_zero h rdm c81_x with Ok e => true | Err _ => false end | Err _ => true end = true) by (vm_compute; reflexivity).
    rewrite E, Ee in Q. discriminate.
Qed.
(** Arrays of one mode are stretched: a density matrix of one mode gives a number for an operator on two modes. *)
Example C81_stretched_case : match interaction_rdm c79_heap c81_one c81_two with
  | Ok (h, rdm) => Nat.eqb (n_qubits rdm) 1 && Nat.eqb (n_qubits c79_op) 2 && match expectation_interaction h rdm c79_op with Ok _ => true | Err _ => false end
  | Err _ => false end = true.
Proof. vm_compute. reflexivity. Qed.
Example C81_sizes_case : match hf_rdm c79_heap 1 0 2 with
  | Ok (h, rdm) => match expectation_interaction h rdm c79_op with Err ValueError => true | _ => false end
  | Err _ => false end = true.
Proof. vm_compute. reflexivity. Qed.

(** ** C82 *)
Definition c82_solver (R : mat GQ) : result (GQ * vec GQ) :=
  if Nat.eqb (nr R) 1 && Nat.eqb (nc R) 1 then Ok (ent R 0 0, Build_vec 1 (fun _ => k1)) else Err RuntimeError.
Definition c82_le (c d : GQ) : Prop := exists w : GQ, w <> k0 /\ kmul c w = kmul d w.
Definition c82_q : qop GQ := [([(0, Pz)], gq 4 0); ([(1, Pz)], gq 8 0)].
Example C82_ground_state_case : stored_form c82_q /\ solves c82_solver /\ (forall R mu s, c82_solver R = Ok (mu, s) -> forall nu w, eigenpair R nu w -> nonzero w -> c82_le mu nu) /\
  (forall n, on_qubits n c82_q -> (forall m, on_qubits m c82_q -> n <= m)%nat -> conserves_number n (qop_matrix qi n c82_q)) /\
  match get_ground_state_rdm_from_qubit_op qi qhalf gq_zero gq_zero c82_solver [] c82_q 2 with
  | Ok (h, rdm) => gq_eqb (value h rdm [true; true; false; false] [1; 0; 0; 1]) (gq 4 0) && gq_eqb (value h rdm [true; false] [0; 0]) (gq 4 0) | Err _ => false end = true.
Proof.
  split.
  { split; [repeat constructor; cbn; intuition discriminate|]. intros t c [H|[H|[]]]; injection H as <- <-; cbn; repeat split; first [discriminate|exact I|apply Nat.ltb_lt; reflexivity]. }
  assert (Sh : forall R mu s, c82_solver R = Ok (mu, s) -> nr R = 1 /\ nc R = 1 /\ mu = ent R 0 0 /\ s = Build_vec 1 (fun _ => k1)).
  { intros R mu s E. unfold c82_solver in E. destruct (Nat.eqb_spec (nr R) 1); [|discriminate]. destruct (Nat.eqb_spec (nc R) 1); [|discriminate]. cbn in E. injection E as <- <-. auto. }
  split.
  { intros R mu s E. destruct (Sh R mu s E) as (Hr & Hc & -> & ->). split.
    - split; [rewrite Hc; reflexivity|]. intros i Hi. rewrite Hr in Hi. replace i with 0 by lia. rewrite Hc. cbn [vent bigsum]. apply (Radd_0_l (kth GQ)).
    - exists 0. split; [cbn; lia|]. discriminate. }
  split.
  { intros R mu s E nu w [Lw Hw] (i & Hi & Nz). destruct (Sh R mu s E) as (Hr & Hc & -> & ->). exists (vent w 0). rewrite <- Lw, Hc in Hi. replace i with 0 in Nz by lia. split; [exact Nz|].
    specialize (Hw 0 ltac:(lia)). rewrite Hc in Hw. rewrite <- Hw. cbn [bigsum]. symmetry. apply (Radd_0_l (kth GQ)). }
  split; [|vm_compute; reflexivity].
  intros n O L. assert (n = 2) as ->.
  { assert (2 <= n) by (specialize (O [(1, Pz)] (gq 8 0) (or_intror (or_introl eq_refl)) (1, Pz) (or_introl eq_refl)); cbn in O; lia). assert (n <= 2); [|lia].
    apply L. intros t c [H'|[H'|[]]] f Hf; injection H' as <- <-; cbn in Hf; intuition (subst; cbn; apply Nat.ltb_lt; reflexivity). }
  intros [|x0 [|x1 [|]]] [|y0 [|y1 [|]]] Lx Ly N; try discriminate. apply gq_zero_spec. destruct x0, x1, y0, y1; try (exfalso; apply N; reflexivity); vm_compute; reflexivity.
Qed.
(** The terms of the operator above, largest coefficient first. *)
Definition c82_larger (c d : GQ) : bool := Qle_bool (Qcanon.this (fst d) * Qcanon.this (fst d)) (Qcanon.this (fst c) * Qcanon.this (fst c)).
Example C82_values_case : match hf_rdm (K := GQ) [] 1 0 1 with
  | Ok (h, rdm) => match get_expectation_values_from_rdms qi gq_zero c82_larger (fun c => negb (Qcanon.Qc_eq_bool (snd c) (Qcanon.Q2Qc 0))) (fun c => c) h rdm c81_q true with
    | Ok l => list_eqb gq_eqb l [gq (- 4) 0; gq 0 0; gq (- 4) 0; gq 4 0] | Err _ => false end
  | Err _ => false end = true.
Proof. vm_compute. reflexivity. Qed.
(** A term whose coefficient is small has no value, so the values are not those of the operator's terms, one for one. *)
Theorem C82_small_refuted : exists h rdm (a : qop GQ), is_rdm 2 (pure c81_v) h rdm /\ stored_form a /\ on_qubits 2 a /\ (forall t c, In (t, c) a -> few_body 2 (term_matrix qi 2 t)) /\ length a = 1 /\
  forall larger complex clip sort_terms, get_expectation_values_from_rdms qi gq_zero larger complex clip h rdm a sort_terms = Ok [].
Proof.
  destruct c81_rdm as (h & rdm & _ & R & _). exists h, rdm, [([(0, Pz)], k0)]. split; [exact R|].
  assert (Ca : canonical [(0, Pz)]) by (cbn; repeat split; first [discriminate|exact I|apply Nat.ltb_lt; reflexivity]). assert (O : forall f, In f [(0, Pz)] -> fst f < 2) by (clear; intros f; cbn; intuition (subst; cbn; apply Nat.ltb_lt; reflexivity)).
  split; [split; [repeat constructor; cbn; intuition|]; intros t c [H|[]]; injection H as <- <-; exact Ca|]. split; [intros t c [H|[]]; injection H as <- <-; exact O|]. split.
  - intros t c [H|[]]; injection H as <- <-. apply c81_few; auto.
  - split; [reflexivity|]. intros larger complex clip []; reflexivity.
Qed.

Print Assumptions C81_pure.
Print Assumptions C81_interaction.
Print Assumptions C81_sizes.
Print Assumptions C81_qubits.
Print Assumptions C81_many_body.
Print Assumptions C81_measured.
Print Assumptions C81_default.
Print Assumptions C81_energy.
Print Assumptions C81_number_refuted.
Print Assumptions C82_hartree_fock.
Print Assumptions C82_basis_state.
Print Assumptions C82_hartree_fock_energy.
Print Assumptions C82_ground_state.
Print Assumptions C82_values.
Print Assumptions C82_exact.
Print Assumptions C82_list.
Print Assumptions C82_small_refuted.
