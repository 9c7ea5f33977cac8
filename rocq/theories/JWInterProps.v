(** C73: the direct Jordan-Wigner transform of one-body terms, two-body terms and interaction operators. *)
From Coq Require Import Ring.
From Verif Require Import Base BaseFacts MatModel MatFacts LiftSpec LiftProofs OpModel OpSpec OpProofs PauliProofs OpProofs2 FermiModel FermiSpec FermiProofs2 FermiProofs7 FermiProps2 TensorModel TensorSpec TensorProofs TensorProps
  ConvModel ConvProps DiagSpec ActsProps JWInterModel JWInterSpec JWInterProofs JWInterProofs2 JWInterProofs3 GaussQ.
Open Scope list_scope.
Local Open Scope nat_scope.

Section C73.
  Context {K : cring} (im half : K) (Him : kmul im im = kopp k1) (Hhalf : kadd half half = k1) (small is_zero : K -> bool) (Hz : forall c, is_zero c = true -> c = k0).
  Add Ring Kring_c73 : (kth K).
  Open Scope K_scope.
  Notation one_body := (jordan_wigner_one_body im half small).
  Notation two_body := (jordan_wigner_two_body im half small is_zero).
  Notation transform := (jordan_wigner_interaction_op im half small is_zero).

  (** jordan_wigner_one_body(p, q, c) is c a_p^ a_q + h.c. *)
  Theorem C73_one_body n p q c : (p < n)%nat -> (q < n)%nat -> acts_up_to im small n 4 (one_body p q c) (one_body_entry n p q c).
  Proof. apply one_body_acts; auto. Qed.
  (** jordan_wigner_two_body(p, q, r, s, c) is c a_p^ a_q^ a_r a_s + h.c., whichever of the modes coincide. *)
  Theorem C73_two_body n p q r s c : (p < n)%nat -> (q < n)%nat -> (r < n)%nat -> (s < n)%nat -> acts_up_to im small n 16 (two_body p q r s c) (two_body_entry n p q r s c).
  Proof. apply two_body_acts; auto. Qed.

  (** ** Whole operators *)
  Lemma dl_one x y : list_eqb Bool.eqb x y = list_eqb Bool.eqb y x.
  Proof.
    destruct (list_eqb Bool.eqb x y) eqn:E1, (list_eqb Bool.eqb y x) eqn:E2; auto; [apply (list_eqb_spec _ bool_eqb_spec) in E1|apply (list_eqb_spec _ bool_eqb_spec) in E2]; subst;
      rewrite (eqb_spec_refl _ (list_eqb_spec _ bool_eqb_spec)) in *; discriminate.
  Qed.
  Lemma entries (h : heap K) (a : ptensor K) x y : interaction_ok h a -> length x = n_qubits a -> length y = n_qubits a ->
    tensor_entry h a x y = value h a [] [] * dl x y
      + (lsum (fun p => h1 h a p p * L2 (n_qubits a) p p x y) (seq 0 (n_qubits a))
         + lsum (fun u => h1 h a (fst u) (snd u) * L2 (n_qubits a) (fst u) (snd u) x y + h1 h a (snd u) (fst u) * L2 (n_qubits a) (snd u) (fst u) x y) (combinations2 (seq 0 (n_qubits a))))
      + (lsum (fun u => w (h2 h a) u u * L4 (n_qubits a) u u x y) (combinations2 (seq 0 (n_qubits a)))
         + lsum (fun uv => w (h2 h a) (fst uv) (snd uv) * L4 (n_qubits a) (fst uv) (snd uv) x y + w (h2 h a) (snd uv) (fst uv) * L4 (n_qubits a) (snd uv) (fst uv) x y) (combinations2 (combinations2 (seq 0 (n_qubits a))))).
  Proof.
    intros [_ Ks] Hx Hy. rewrite <- one_body_expansion, <- two_body_expansion by auto. unfold tensor_entry, h1, h2, value.
    destruct (n_body_tensors a) as [|[k0 e0] [|[k1 e1] [|[k2 e2] [|]]]]; try discriminate. cbn [dkeys map fst] in Ks. inversion Ks; subst k0 k1 k2. cbn [fold_right fst snd dget key_eqb list_eqb Bool.eqb andb length sum_over combine].
    assert (Q : ent (fterm_matrix (K := K) (n_qubits a) []) (bval x) (bval y) = dl x y). { cbn [fterm_matrix fold_right ent eye]. rewrite eqb_bval by congruence. unfold dl, delta. reflexivity. }
    match goal with |- _ * _ + (?s1 + (?s2 + 0)) = _ * _ + ?s3 + ?s4 => transitivity (element h e0 [] * dl x y + s1 + s2); [|reflexivity] end.
    rewrite <- Q. match goal with |- ?a + (?b + (?c + 0)) = _ => transitivity (a + b + c); [ring|reflexivity] end.
  Qed.
  Lemma interaction_body (h : heap K) (a : ptensor K) nq : interaction_ok h a -> (nq = None \/ nq = Some (n_qubits a)) ->
    exists o, transform h a nq = Ok o /\ acts_up_to im small (n_qubits a) (interaction_bound (n_qubits a)) o (hermitised half (tensor_entry h a)).
  Proof.
    intros Ha Hn. set (n := n_qubits a). unfold jordan_wigner_interaction_op.
    assert (Nq : match nq with Some m => m | None => n_qubits a end = n) by (destruct Hn as [->| ->]; reflexivity). rewrite Nq. fold n. rewrite Nat.ltb_irrefl.
    rewrite (constant_value h a) by apply Ha. cbn [rbind]. set (c0 := value h a [] []).
    pose proof (acts_self im small n (mk_op (qubit_simplify im) [] c0)) as A0.
    destruct (diagonal_loop im half Him Hhalf small is_zero Hz h a Ha (seq 0 n)) with (1 := fun p Hp => proj2 (proj1 (in_seq n 0 p) Hp)) (2 := A0) as (o1 & E1 & A1).
    fold n in E1, A1. rewrite E1. cbn [rbind].
    destruct (pair_loop im half Him Hhalf small is_zero Hz h a Ha (combinations2 (seq 0 n))) with (1 := pair_facts n) (2 := A1) as (o2 & E2 & A2).
    fold n in E2, A2. rewrite E2. cbn [rbind].
    assert (Hp2 : forall u v, In (u, v) (combinations2 (combinations2 (seq 0 n))) -> In u (combinations2 (seq 0 n)) /\ In v (combinations2 (seq 0 n)) /\ u <> v).
    { intros u v H. pose proof (comb_neq _ _ _ (prs_NoDup n) H) as D. apply comb_in in H. tauto. }
    destruct (pairs_loop im half Him Hhalf small is_zero Hz h a Ha (combinations2 (combinations2 (seq 0 n)))) with (2 := A2) as (o3 & E3 & A3).
    { intros u v H. destruct (Hp2 u v H) as (U & V & D). auto using pair_facts. }
    fold n in E3, A3. exists o3. split; [exact E3|].
    eapply acts_ext; [|eapply acts_le; [|exact A3]].
    2: { rewrite !comb_length, seq_length. unfold interaction_bound. lia. }
    intros x y Hx Hy. cbn beta. rewrite E_mk by (auto; intros f []). rewrite nil_entry. fold (dl (K := K) x y).
    unfold hermitised. destruct (list_eqb Bool.eqb x y) eqn:Exy.
    - apply (list_eqb_spec _ bool_eqb_spec) in Exy. subst y. rewrite entries by auto. fold n c0.
      rewrite lsum_add. rewrite (lsum_0 (fun u => g1 half h a (fst u) (snd u) * _ + _)).
      2: { intros u Hu. apply pair_facts in Hu as [U1 U2]. rewrite !L2_off by (auto; lia). ring. }
      rewrite (lsum_0 (fun u => h1 h a (fst u) (snd u) * _ + _)).
      2: { intros u Hu. apply pair_facts in Hu as [U1 U2]. rewrite !L2_off by (auto; lia). ring. }
      rewrite (lsum_0 (fun uv => g2 half h a (fst uv) (snd uv) * _ + _)).
      2: { intros [u v] H. destruct (Hp2 u v H) as (U & V & D). cbn [fst snd]. rewrite !L4_off by auto. rewrite kconj_0. ring. }
      rewrite (lsum_0 (fun uv => w (h2 h a) (fst uv) (snd uv) * _ + _)).
      2: { intros [u v] H. destruct (Hp2 u v H) as (U & V & D). cbn [fst snd]. rewrite !L4_off by auto. ring. }
      ring.
    - rewrite !entries by auto. fold n c0. unfold dl. rewrite (dl_one y x), Exy.
      assert (Z1 : forall x y, length x = n -> length y = n -> list_eqb Bool.eqb x y = false -> lsum (fun p => h1 h a p p * L2 n p p x y) (seq 0 n) = 0).
      { intros x' y' Hx' Hy' N. apply lsum_0. intros p Hp. apply in_seq in Hp. rewrite L2_diag by (auto; lia). ring. }
      assert (Z2 : forall x y, length x = n -> length y = n -> list_eqb Bool.eqb x y = false -> lsum (fun u => w (h2 h a) u u * L4 n u u x y) (combinations2 (seq 0 n)) = 0).
      { intros x' y' Hx' Hy' N. apply lsum_0. intros u Hu. rewrite L4_diag by auto. ring. }
      assert (Eyx : list_eqb Bool.eqb y x = false) by (rewrite dl_one; exact Exy).
      rewrite lsum_add. rewrite !Z1, !Z2 by auto. rewrite !kconj_add, kconj_mul, kconj_0, !lsum_conj.
      match goal with |- _ = half * (?c * 0 + (0 + ?s1) + (0 + ?s2) + (_ * 0 + (0 + ?s3) + (0 + ?s4))) => transitivity (half * (s1 + s3) + half * (s2 + s4)); [|ring] end.
      rewrite <- !lsum_add, <- !lsum_mul.
      match goal with |- ?c * 0 + 0 + (?s1 + 0) + ?s2 = _ => transitivity (s1 + s2); [ring|] end.
      f_equal; apply lsum_ext.
      + intros u Hu. apply pair_facts in Hu as [U1 U2]. rewrite kconj_add, !kconj_mul, !conj_L2 by auto. unfold g1. rewrite kconj_mul, (kconj_half half Hhalf), kconj_add, kconj_invol. ring.
      + intros [u v] H. destruct (Hp2 u v H) as (U & V & D). cbn [fst snd]. rewrite kconj_add, !kconj_mul, !conj_L4 by auto. unfold g2. rewrite kconj_mul, (kconj_half half Hhalf), kconj_add, kconj_invol. ring.
  Qed.
  (** The transform of an interaction operator has its diagonal, and elsewhere its Hermitian part. *)
  Theorem C73_interaction (h : heap K) (a : ptensor K) nq : interaction_ok h a -> (nq = None \/ nq = Some (n_qubits a)) ->
    exists o, transform h a nq = Ok o /\ acts_up_to im small (n_qubits a) (interaction_bound (n_qubits a)) o (hermitised half (tensor_entry h a)).
  Proof. apply interaction_body. Qed.
  (** So the transform of a Hermitian interaction operator acts as the operator, with complex elements too. *)
  Theorem C73_hermitian (h : heap K) (a : ptensor K) nq : interaction_ok h a -> hermitian_tensor h a -> (nq = None \/ nq = Some (n_qubits a)) ->
    exists o, transform h a nq = Ok o /\ acts_up_to im small (n_qubits a) (interaction_bound (n_qubits a)) o (tensor_entry h a).
  Proof.
    intros Ha Hh Hn. destruct (C73_interaction h a nq Ha Hn) as (o & E & A). exists o. split; [exact E|]. eapply acts_ext; [|exact A]. intros x y Hx Hy. unfold hermitised. destruct (list_eqb Bool.eqb x y); [reflexivity|].
    rewrite (Hh x y) by auto. transitivity ((half + half) * tensor_entry h a x y); [ring|rewrite Hhalf; ring].
  Qed.
  (** Exactly, when only 0 is dropped. *)
  Theorem C73_exact n bound (o : qop K) v : only_zero small -> acts_up_to im small n bound o v -> acts_exactly im n o v.
  Proof.
    intros Hs (r & R & _ & A) x y Hx Hy. rewrite <- A by auto. rewrite (qop_matrix_ent im n r), (lval_small small _ r R Hs). ring.
  Qed.
  (** Transforming directly and transforming the fermion operator of the interaction operator give the same operator on qubits. *)
  Theorem C73_same_as_fermions (h : heap K) (a : ptensor K) : small half = false -> small (half * im) = false -> small (- (half * im)) = false -> small 0 = true -> only_zero small ->
    interaction_ok h a -> hermitian_tensor h a ->
    exists o f, transform h a None = Ok o /\ get_fermion_operator small is_zero h a = Ok f /\
      meq (qop_matrix im (n_qubits a) o) (qop_matrix im (n_qubits a) (jordan_wigner im half small f)).
  Proof.
    intros Hs1 Hs2 Hs3 Hs0 Hs Ha Hh. destruct (C73_hermitian h a None Ha Hh (or_introl eq_refl)) as (o & E & A). apply C73_exact in A; [|exact Hs].
    destruct (C53_operator_of_tensor small is_zero Hz Hs0 h a (proj1 Ha)) as (f & Ef & _ & Of & _).
    destruct (C53_operator_of_tensor_acts_exact small is_zero Hz Hs0 h a Hs (proj1 Ha)) as (f' & Ef' & Af). rewrite Ef in Ef'. inversion Ef'; subst f'.
    exists o, f. split; [exact E|]. split; [exact Ef|]. pose proof (C47_acts_exact im half Him Hhalf small Hs1 Hs2 Hs3 (n_qubits a) f Of Hs) as J.
    apply (meq_bits (n_qubits a)); try apply qop_matrix_shape. intros x y Hx Hy. rewrite (A x y Hx Hy). symmetry. rewrite <- Af. apply J; [rewrite (proj1 (qop_matrix_shape im _ _))|rewrite (proj2 (qop_matrix_shape im _ _))]; apply bval_n; auto.
  Qed.

  (** Too few qubits are refused. *)
  Theorem C73_too_few (h : heap K) (a : ptensor K) m : (m < n_qubits a)%nat -> transform h a (Some m) = Err ValueError.
  Proof. intros H. unfold jordan_wigner_interaction_op. rewrite (proj2 (Nat.ltb_lt _ _) H). reflexivity. Qed.
  (** More qubits than the operator has are not: they fail with an IndexError. *)
  Theorem C73_more_refuted (h : heap K) (a : ptensor K) m : interaction_ok h a -> (n_qubits a < m)%nat -> transform h a (Some m) = Err IndexError.
  Proof.
    intros Ha H. unfold jordan_wigner_interaction_op. rewrite (proj2 (Nat.ltb_ge _ _)) by lia. rewrite (constant_value h a) by apply Ha. cbn [rbind].
    replace m with (n_qubits a + (1 + (m - S (n_qubits a))))%nat by lia. rewrite seq_app. rewrite BackendProofs.foldM_app.
    destruct (diagonal_loop im half Him Hhalf small is_zero Hz h a Ha (seq 0 (n_qubits a))) with (1 := fun p Hp => proj2 (proj1 (in_seq (n_qubits a) 0 p) Hp)) (2 := acts_self im small (n_qubits a) (mk_op (qubit_simplify im) [] (value h a [] []))) as (o & E & _).
    rewrite E. cbn [rbind Nat.add seq foldM]. unfold diagonal_step at 1. unfold iop_item. cbn [forallb fst]. rewrite Nat.ltb_irrefl. reflexivity.
  Qed.
End C73.

(** Concrete cases: two modes, complex hopping, an interaction and a constant. *)
Definition c73_heap : heap GQ := [{| shape0 := 2; data := fun i => match i with [0; 0] => gq 1 0 | [0; 1] => gq 2 3 | [1; 0] => gq 2 (-3) | _ => k0 end |};
  {| shape0 := 2; data := fun i => match i with [1; 0; 0; 1] => gq 3 0 | [1; 0; 1; 0] => gq 5 0 | _ => k0 end |}].
Definition c73_tensor : ptensor GQ := {| n_qubits := 2; n_body_tensors := [([], Num (gq 7 0)); ([true; false], Arr 0); ([true; true; false; false], Arr 1)] |}.
Lemma c73_ok d0 d1 : interaction_ok [{| shape0 := 2; data := d0 |}; {| shape0 := 2; data := d1 |}] c73_tensor.
Proof.
  split; [|reflexivity]. split; [repeat constructor; cbn; intuition discriminate|]. split; [intros k1 k2 r [E1|[E1|[E1|[]]]] [E2|[E2|[E2|[]]]]; inversion E1; inversion E2; subst; try discriminate; reflexivity|].
  split; [exists [true; false], 0; right; left; reflexivity|]. intros k e [E|[E|[E|[]]]]; inversion E; subst; cbn; [reflexivity| |]; repeat split; try discriminate; lia.
Qed.
Lemma c73_same (a b : GQ) : gq_zero (ksub a b) = true -> a = b.
Proof.
  intros H. apply gq_zero_spec in H. transitivity (kadd (ksub a b) b); [|rewrite H; apply (Radd_0_l (kth GQ))].
  rewrite (Rsub_def (kth GQ)), <- (Radd_assoc (kth GQ)), (Radd_comm (kth GQ) (kopp b)), (Ropp_def (kth GQ)), (Radd_comm (kth GQ) a). symmetry. apply (Radd_0_l (kth GQ)).
Qed.
Example C73_hypotheses : interaction_ok c73_heap c73_tensor /\ hermitian_tensor c73_heap c73_tensor.
Proof.
  split; [apply c73_ok|]. set (bs := [[false; false]; [false; true]; [true; false]; [true; true]]).
  assert (I : forall x : list bool, length x = 2 -> In x bs). { intros [|[] [|[] [|]]]; try discriminate; intros _; unfold bs; cbn; tauto. }
  assert (B : forallb (fun x => forallb (fun y => gq_zero (ksub (kconj (tensor_entry c73_heap c73_tensor y x)) (tensor_entry c73_heap c73_tensor x y))) bs) bs = true) by (vm_compute; reflexivity).
  intros x y Hx Hy. rewrite forallb_forall in B. specialize (B x (I x Hx)). rewrite forallb_forall in B. specialize (B y (I y Hy)). now apply c73_same.
Qed.
Example C73_case : match jordan_wigner_interaction_op qi qhalf gq_zero gq_zero c73_heap c73_tensor None with
  | Ok o => gq_zero (ksub (ent (qop_matrix qi 2 o) 2 1) (gq 2 3)) && gq_zero (ksub (ent (qop_matrix qi 2 o) 1 2) (gq 2 (-3))) && gq_zero (ksub (ent (qop_matrix qi 2 o) 2 2) (gq 8 0))
      && gq_zero (ksub (ent (qop_matrix qi 2 o) 3 3) (gq 6 0)) && gq_zero (ksub (ent (qop_matrix qi 2 o) 0 0) (gq 7 0))
  | Err _ => false end = true.
Proof. vm_compute. reflexivity. Qed.
Example C73_body_case : gq_zero (ksub (ent (qop_matrix qi 4 (jordan_wigner_two_body qi qhalf gq_zero gq_zero 3 1 0 2 (gq 1 2))) 5 10) (gq 1 2)) = true.
Proof. vm_compute. reflexivity. Qed.
(** The transform of an operator that is not Hermitian is another operator, and no error is raised. *)
Theorem C73_not_hermitian_refuted : exists (h : heap GQ) a o x y, interaction_ok h a /\ jordan_wigner_interaction_op qi qhalf gq_zero gq_zero h a None = Ok o /\ length x = n_qubits a /\ length y = n_qubits a /\
  ent (qop_matrix qi (n_qubits a) o) (bval x) (bval y) <> tensor_entry h a x y.
Proof.
  set (h := [{| shape0 := 2; data := fun i => match i with [0; 1] => gq 4 0 | _ => k0 end |}; {| shape0 := 2; data := fun _ => k0 |}] : heap GQ).
  assert (B : match jordan_wigner_interaction_op qi qhalf gq_zero gq_zero h c73_tensor None with
    | Ok o => gq_zero (ksub (ent (qop_matrix qi 2 o) (bval [true; false]) (bval [false; true])) (tensor_entry h c73_tensor [true; false] [false; true])) | Err _ => true end = false) by (vm_compute; reflexivity).
  destruct (jordan_wigner_interaction_op qi qhalf gq_zero gq_zero h c73_tensor None) as [o|] eqn:E; [|discriminate].
  exists h, c73_tensor, o, [true; false], [false; true]. split; [apply c73_ok|]. split; [exact E|]. split; [reflexivity|]. split; [reflexivity|]. intros Q. change (n_qubits c73_tensor) with 2 in Q. rewrite Q in B.
  assert (Z : forall c : GQ, ksub c c = k0). { intros c. rewrite (Rsub_def (kth GQ)). apply (Ropp_def (kth GQ)). }
  rewrite Z in B. vm_compute in B. discriminate B.
Qed.

Print Assumptions C73_one_body.
Print Assumptions C73_two_body.
Print Assumptions C73_interaction.
Print Assumptions C73_hermitian.
Print Assumptions C73_exact.
Print Assumptions C73_same_as_fermions.
Print Assumptions C73_not_hermitian_refuted.
