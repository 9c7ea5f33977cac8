(** C85: the direct Bravyi-Kitaev transform of interaction operators. *)
From Coq Require Import NArith Nnat Permutation Ring.
From Verif Require Import Base BaseFacts MatModel MatFacts LiftSpec LiftProofs OpModel OpSpec OpProofs PauliProofs OpProofs2 PauliBasis
  FermiModel FermiSpec FermiProofs FermiProofs2 FermiProofs3 FermiProofs5 FermiProofs6 FermiProofs7 FermiProps2 TensorModel TensorSpec TensorProofs TensorProps ConvModel ConvProps DiagSpec ActsProps
  JWInterModel JWInterSpec JWInterProofs JWInterProofs2 JWInterProofs3 JWInterProps BKInterModel BKInterSpec BKInterProofs3 BKInterProofs4 BKInterProofs5 BKInterProofs6 BKInterProofs7 BKInterProofs8 BKInterProofs9 GaussQ.
Open Scope list_scope.
Local Open Scope nat_scope.

Section C85.
  Context {K : cring} (im half : K) (Him : kmul im im = kopp k1) (Hhalf : kadd half half = k1) (small is_zero : K -> bool) (Hz : forall c, is_zero c = true -> c = k0).
  (** the order in which sets are iterated *)
  Context (order : list N -> list N) (Horder : forall l, Permutation (order l) l).
  Add Ring Kring_c85 : (kth K).
  Open Scope K_scope.
  Notation transform := (bravyi_kitaev_interaction_operator im half small is_zero order).

  (** The strings of the Seeley-Richard-Love table for modes i and j are, on encoded states, c a_i^ a_j: for every pair of modes, every number of qubits and every order of iteration. *)
  Theorem C85_excitation n i j (c : K) : (i < n)%nat -> (j < n)%nat ->
    encodes_up_to im small n 4 (excitation im half small order i j c n) (fun x y => c * ladders n [(i, true); (j, false)] x y).
  Proof.
    intros Hi Hj. destruct (lrep_srl im half Him Hhalf order Horder n i j c Hi Hj) as [O X].
    assert (Ln : (length (seeley_richard_love im half order i j c n) <= 4)%nat).
    { destruct (Nat.eq_dec i j) as [<-|D]; [unfold seeley_richard_love; rewrite Nat.eqb_refl; cbn; lia|]. destruct (all_cases im half Him order Horder i j n D Hi Hj c) as (s0 & s1 & s2 & s3 & P & _). apply Permutation_length in P. rewrite P. cbn. lia. }
    assert (G : forall l (B : nat) (o : qop K) v, (forall tk, In tk l -> JWInterProofs.on n (fst tk)) -> acts_up_to im small n B o v ->
      acts_up_to im small n (B + length l) (fold_left (fun o (tc : term pauli * K) => op_add pauli_eqb small o (mk_op (qubit_simplify im) (fst tc) (snd tc))) l o)
        (fun x y => v x y + lsum (fun tk : term pauli * K => snd tk * tact im (fst tk) x y) l)).
    { induction l as [|[t k] l IH]; intros B o v Ol A; cbn [fold_left length].
      - eapply acts_ext; [|eapply acts_le; [|exact A]; lia]. intros x y _ _. cbn. ring.
      - eapply acts_ext; [|eapply acts_le; [|apply IH; [intros; apply Ol; right; auto|apply (acts_add im small n); [exact A|apply (acts_self im small n)]]]].
        + intros x y Hx Hy. cbn beta. cbn [fst snd]. rewrite (E_mk im Him n) by (auto; apply (Ol (t, k)); left; auto). unfold lsum. cbn [fold_right fst snd]. ring.
        + rewrite mk_length. lia. }
    destruct (G _ 0%nat [] _ O (acts_nil im small n)) as (r & R & L & A). exists r. split; [exact R|]. split; [lia|]. intros x y Hx Hy. specialize (A (bk_code n x) (bk_code n y) (bk_code_length _ _) (bk_code_length _ _)).
    unfold excitation, qubit_operator_creation. etransitivity; [exact A|]. cbn beta. rewrite <- X by auto. ring.
  Qed.
  (** The transform of a Hermitian interaction operator is, on encoded states, the operator of its tensors. *)
  Theorem C85_hermitian (h : heap K) (a : ptensor K) nq : only_zero small -> interaction_ok h a -> hermitian_tensor h a -> nq = None \/ nq = Some (n_qubits a) ->
    exists o, transform h a nq = Ok o /\ on_qubits (n_qubits a) o /\ encodes_exactly im (n_qubits a) o (tensor_entry h a).
  Proof.
    intros Hs Ha Hh Hn. destruct (whole im half Him Hhalf small is_zero Hs Hz order Horder h a Ha Hh nq Hn) as (o & E & T & X). exists o. split; [exact E|]. split; [apply T|exact X].
  Qed.
  (** Transforming directly and transforming the fermion operator of the interaction operator give the same operator on qubits, term by term, whatever the two orders of iteration. *)
  Theorem C85_same_as_fermions (order' : list N -> list N) (h : heap K) (a : ptensor K) : (forall l, Permutation (order' l) l) ->
    small half = false -> small (half * im) = false -> small (- (half * im)) = false -> small 0 = true -> only_zero small ->
    interaction_ok h a -> hermitian_tensor h a ->
    exists o f b, transform h a None = Ok o /\ get_fermion_operator small is_zero h a = Ok f /\ bravyi_kitaev im half small order' f (Some (n_qubits a)) = Ok b /\
      meq (qop_matrix im (n_qubits a) o) (qop_matrix im (n_qubits a) b) /\ forall t, coef pauli_eqb o t = coef pauli_eqb b t.
  Proof.
    intros Horder' Hs1 Hs2 Hs3 Hs0 Hs Ha Hh. destruct (whole im half Him Hhalf small is_zero Hs Hz order Horder h a Ha Hh None (or_introl eq_refl)) as (o & E & R).
    destruct (C53_operator_of_tensor small is_zero Hz Hs0 h a (proj1 Ha)) as (f & Ef & _ & Of & _).
    destruct (C53_operator_of_tensor_acts_exact small is_zero Hz Hs0 h a Hs (proj1 Ha)) as (f' & Ef' & Af). rewrite Ef in Ef'. inversion Ef'; subst f'.
    assert (Lt : (fermion_count_qubits f <= n_qubits a)%nat) by (apply ReindexProofs2.fermion_count_spec; exact Of).
    assert (Eb : exists b, bravyi_kitaev im half small order' f (Some (n_qubits a)) = Ok b). { unfold bravyi_kitaev. rewrite (proj2 (Nat.ltb_ge _ _) Lt). eexists. reflexivity. }
    destruct Eb as [b Eb]. exists o, f, b. split; [exact E|]. split; [exact Ef|]. split; [exact Eb|].
    pose proof (C48_acts_exact im half Him Hhalf small Hs1 Hs2 Hs3 (n_qubits a) order' Horder' f b Eb Hs) as J.
    apply (twist_of im (n_qubits a)) in R as [(Oo & Wo & Co) R].
    assert (M : meq (qop_matrix im (n_qubits a) o) (qop_matrix im (n_qubits a) b)).
    { apply (untwist (n_qubits a) (bk_encoding (n_qubits a)) (conj eq_refl eq_refl) (bk_encoding_unitary _)); try apply sq_qop. etransitivity; [exact R|]. symmetry. etransitivity; [exact J|].
      apply (ConjProofs.mmul_sq (2 ^ n_qubits a)); [split; reflexivity|apply sq_fop|reflexivity|]. apply (meq_bits (n_qubits a)); try apply fop_shape; try reflexivity. intros x y Hx Hy. rewrite Af. unfold mat_of. cbn [ent]. rewrite !bits_bval_n by auto. reflexivity. }
    split; [exact M|]. clear J. revert Eb. unfold bravyi_kitaev. destruct (Nat.ltb _ _); [discriminate|]. intros Q. inversion Q as [Q']. rewrite Q'.
    apply (pauli_independent im Him half Hhalf (n_qubits a)); [exact Wo| |exact Oo| |exact Co| |exact M]; rewrite <- Q'.
    - apply (image_wf im small (bk_ladder im half small order' (N.of_nat (n_qubits a)))).
    - exact (FermiProofs4.image_on im small (n_qubits a) (bk_ladder im half small order' (N.of_nat (n_qubits a))) (bk_encoding (n_qubits a))
        (fun f => match f with (p, d) => bk_ladder_matrix im half Him Hhalf small Hs1 Hs2 Hs3 order' Horder' (n_qubits a) p d end) f Of).
    - apply (image_canonical im small (bk_ladder im half small order' (N.of_nat (n_qubits a)))).
  Qed.
  (** Too few qubits are refused. *)
  Theorem C85_too_few (h : heap K) (a : ptensor K) m : (m < n_qubits a)%nat -> transform h a (Some m) = Err ValueError.
  Proof. intros H. unfold bravyi_kitaev_interaction_operator. rewrite (proj2 (Nat.ltb_lt _ _) H). reflexivity. Qed.
  (** More qubits than the operator has are not: they fail with an IndexError. *)
  Theorem C85_more_refuted (h : heap K) (a : ptensor K) m : interaction_ok h a -> (n_qubits a < m)%nat -> transform h a (Some m) = Err IndexError.
  Proof.
    intros Ha H. unfold bravyi_kitaev_interaction_operator. rewrite (proj2 (Nat.ltb_ge _ _)) by lia. rewrite (constant_value h a) by apply Ha. cbn [rbind].
    replace (seq 0 m) with (seq 0 (n_qubits a) ++ n_qubits a :: seq (S (n_qubits a)) (m - S (n_qubits a))) at 1.
    2: { replace m with (n_qubits a + S (m - S (n_qubits a)))%nat at 2 by lia. rewrite seq_app. reflexivity. }
    rewrite BackendProofs.foldM_app. destruct (number_steps_run im half small is_zero order h a Ha m (seq 0 (n_qubits a)) (fun i Hi => proj2 (proj1 (in_seq (n_qubits a) 0 i) Hi)) ([], [], value h a [] [])) as ([[ham ops] const] & E).
    match type of E with ?L = _ => match goal with |- context [rbind ?X _] => change X with L end end. rewrite E. cbn [rbind foldM]. unfold number_step at 1, one_body, iop_item. cbn [forallb fst]. rewrite Nat.ltb_irrefl. reflexivity.
  Qed.
End C85.

(** Concrete cases: the two-mode operator of C73 with complex hopping meets the hypotheses; four modes with a pair sharing a mode and a pair of disjoint pairs. *)
Definition c85_id (l : list N) : list N := l.
Definition bk_gq := bravyi_kitaev_interaction_operator qi qhalf gq_zero gq_zero c85_id.
Example C85_hypotheses : interaction_ok c73_heap c73_tensor /\ hermitian_tensor c73_heap c73_tensor /\ only_zero gq_zero /\ (forall l, Permutation (c85_id l) l).
Proof. split; [apply C73_hypotheses|]. split; [apply C73_hypotheses|]. split; [exact gq_zero_spec|]. intros l. apply Permutation_refl. Qed.
Example C85_case : match bk_gq c73_heap c73_tensor None with
  | Ok o => let e x y := ent (qop_matrix qi 2 o) (bval (bk_code 2 x)) (bval (bk_code 2 y)) in
      gq_zero (ksub (e [true; false] [false; true]) (gq 2 3)) && gq_zero (ksub (e [false; true] [true; false]) (gq 2 (-3))) && gq_zero (ksub (e [true; false] [true; false]) (gq 8 0))
      && gq_zero (ksub (e [true; true] [true; true]) (gq 6 0)) && gq_zero (ksub (e [false; false] [false; false]) (gq 7 0)) && Nat.ltb 3 (length o)
  | Err _ => false end = true.
Proof. vm_compute. reflexivity. Qed.
Definition c85_heap : heap GQ := [{| shape0 := 4; data := fun _ => k0 |};
  {| shape0 := 4; data := fun i => match i with [0; 3; 1; 2] => gq 1 2 | [2; 1; 3; 0] => gq 1 (-2) | [2; 0; 3; 2] => gq 4 1 | [2; 3; 0; 2] => gq 4 (-1) | _ => k0 end |}].
Definition c85_tensor : ptensor GQ := {| n_qubits := 4; n_body_tensors := [([], Num k0); ([true; false], Arr 0); ([true; true; false; false], Arr 1)] |}.
(** a_0^ a_3^ a_1 a_2 on modes 1 and 2, and a_2^ a_0^ a_3 a_2 on modes 2 and 3 *)
Example C85_double_case : match bk_gq c85_heap c85_tensor (Some 4) with
  | Ok o => let e x y := ent (qop_matrix qi 4 o) (bval (bk_code 4 x)) (bval (bk_code 4 y)) in
      gq_zero (ksub (e [true; false; false; true] [false; true; true; false]) (gq (-1) (-2))) && gq_zero (ksub (e [false; true; true; false] [true; false; false; true]) (gq (-1) 2))
      && gq_zero (ksub (e [true; false; true; false] [false; false; true; true]) (gq (-4) (-1))) && gq_zero (e [true; false; false; false] [false; false; false; true])
  | Err _ => false end = true.
Proof. vm_compute. reflexivity. Qed.
(** Only the lower triangle of the tensors is read: the transform of an operator that is not Hermitian is another operator, and no error is raised. *)
Theorem C85_not_hermitian_refuted : exists (h : heap GQ) a o x y, interaction_ok h a /\ bk_gq h a None = Ok o /\ length x = n_qubits a /\ length y = n_qubits a /\
  ent (qop_matrix qi (n_qubits a) o) (bval (bk_code (n_qubits a) x)) (bval (bk_code (n_qubits a) y)) <> tensor_entry h a x y.
Proof.
  set (h := [{| shape0 := 2; data := fun i => match i with [0; 1] => gq 4 0 | _ => k0 end |}; {| shape0 := 2; data := fun _ => k0 |}] : heap GQ).
  assert (B : match bk_gq h c73_tensor None with
    | Ok o => gq_zero (ksub (ent (qop_matrix qi 2 o) (bval (bk_code 2 [true; false])) (bval (bk_code 2 [false; true]))) (tensor_entry h c73_tensor [true; false] [false; true])) | Err _ => true end = false) by (vm_compute; reflexivity).
  destruct (bk_gq h c73_tensor None) as [o|] eqn:E; [|discriminate].
  exists h, c73_tensor, o, [true; false], [false; true]. split; [apply c73_ok|]. split; [exact E|]. split; [reflexivity|]. split; [reflexivity|]. intros Q. change (n_qubits c73_tensor) with 2 in Q. rewrite Q in B.
  assert (Z : forall c : GQ, ksub c c = k0). { intros c. rewrite (Rsub_def (kth GQ)). apply (Ropp_def (kth GQ)). }
  rewrite Z in B. vm_compute in B. discriminate B.
Qed.

Print Assumptions C85_excitation.
Print Assumptions C85_hermitian.
Print Assumptions C85_same_as_fermions.
Print Assumptions C85_too_few.
Print Assumptions C85_more_refuted.
Print Assumptions C85_not_hermitian_refuted.
