(** C74: sparse matrices of fermion operators, qubit operators and tensors. *)
From Coq Require Import Ring.
From Verif Require Import Base BaseFacts MatModel MatFacts LiftSpec LiftProofs OpModel OpSpec OpProofs PauliProofs OpProofs2 FermiModel FermiSpec FermiProofs FermiProofs2 FermiProofs3 FermiProofs7 FermiProps2 ReindexProofs2
  TensorModel TensorSpec TensorProps ConvModel ConvProps DiagSpec ActsProps SparseModel SparseProofs SparseProofs2 SparseProofs3 GaussQ.
Open Scope list_scope.
Local Open Scope nat_scope.

Section C74.
  Context {K : cring} (im half : K) (Him : kmul im im = kopp k1) (Hhalf : kadd half half = k1) (small is_zero : K -> bool) (Hz : forall c, is_zero c = true <-> c = k0).
  Add Ring Kring_c74 : (kth K).
  Open Scope K_scope.
  Notation sparse := (get_sparse_operator im half small is_zero).
  Let Hz1 c : is_zero c = true -> c = k0 := proj1 (Hz c).

  Lemma used_modes (a : fop K) : on_qubits (fermion_count_qubits a) a.
  Proof. exact (count_on (fun _ => true) is_zero Hz1 eq_refl a). Qed.
  Lemma least_modes (a : fop K) n : on_qubits n a -> (fermion_count_qubits a <= n)%nat.
  Proof. exact (count_least (fun _ => true) is_zero Hz1 eq_refl a n). Qed.
  (** The sparse matrix of a fermion operator is its matrix on occupation-number states. *)
  Theorem C74_fermion (a : fop K) n : on_qubits n a -> exists A, sparse (OFermion a) (Some n) = Ok A /\ meq A (fop_matrix n a).
  Proof. intros Ha. exact (jw_sparse_ok im half Him Hhalf is_zero Hz1 a (Some n) Ha). Qed.
  (** Without a number of qubits, the least possible number is used. *)
  Theorem C74_fermion_default (a : fop K) : exists m A, sparse (OFermion a) None = Ok A /\ meq A (fop_matrix m a) /\ on_qubits m a /\ forall n, on_qubits n a -> (m <= n)%nat.
  Proof.
    destruct (jw_sparse_ok im half Him Hhalf is_zero Hz1 a None (used_modes a)) as (A & E & H). exists (fermion_count_qubits a), A. split; [exact E|]. split; [exact H|]. split; [apply used_modes|]. intros n. apply least_modes.
  Qed.
  Theorem C74_fermion_too_few (a : fop K) n : ~ on_qubits n a -> sparse (OFermion a) (Some n) = Err IndexError.
  Proof. intros Ha. exact (jw_sparse_bad im half Him Hhalf is_zero Hz1 a n Ha). Qed.

  (** The sparse matrix of a qubit operator is its matrix. *)
  Theorem C74_qubit (a : qop K) n : (forall t c, In (t, c) a -> canonical t) -> on_qubits n a -> exists A, sparse (OQubit a) (Some n) = Ok A /\ meq A (qop_matrix im n a).
  Proof. intros Hc Ha. exact (qubit_sparse_ok im Him is_zero Hz a (Some n) Hc Ha). Qed.
  Theorem C74_qubit_default (a : qop K) : (forall t c, In (t, c) a -> canonical t) ->
    exists m A, sparse (OQubit a) None = Ok A /\ meq A (qop_matrix im m a) /\ on_qubits m a /\ forall n, on_qubits n a -> (m <= n)%nat.
  Proof.
    intros Hc. assert (Ho : on_qubits (sorted_count_qubits a) a) by (apply (sorted_count_spec a _ Hc); lia). destruct (qubit_sparse_ok im Him is_zero Hz a None Hc Ho) as (A & E & H).
    exists (sorted_count_qubits a), A. split; [exact E|]. split; [exact H|]. split; [exact Ho|]. intros n Hn. apply (sorted_count_spec a n Hc). exact Hn.
  Qed.
  Theorem C74_qubit_too_few (a : qop K) n : (forall t c, In (t, c) a -> canonical t) -> ~ on_qubits n a -> sparse (OQubit a) (Some n) = Err ValueError.
  Proof.
    intros Hc Ha. cbn [get_sparse_operator]. unfold qubit_operator_sparse. destruct (Nat.ltb_spec n (sorted_count_qubits a)) as [L|L]; [reflexivity|]. exfalso. apply Ha. apply (sorted_count_spec a n Hc). exact L.
  Qed.
  (** An operator and its Jordan-Wigner transform have the same sparse matrix. *)
  Theorem C74_jordan_wigner (a : fop K) n : small half = false -> small (half * im) = false -> small (- (half * im)) = false -> only_zero small -> on_qubits n a ->
    exists A B, sparse (OFermion a) (Some n) = Ok A /\ sparse (OQubit (jordan_wigner im half small a)) (Some n) = Ok B /\ meq A B.
  Proof.
    intros Hs1 Hs2 Hs3 Hs Ha. destruct (C74_fermion a n Ha) as (A & EA & HA). destruct (C47_acts im half Him Hhalf small Hs1 Hs2 Hs3 n a Ha) as [Hq _].
    destruct (C74_qubit (jordan_wigner im half small a) n) as (B & EB & HB); [apply (image_canonical im small (jw_ladder im half small) a)|exact Hq|].
    exists A, B. split; [exact EA|]. split; [exact EB|]. etransitivity; [exact HA|]. symmetry. etransitivity; [exact HB|]. apply C47_acts_exact; auto.
  Qed.
  Theorem C74_other nq : sparse OOther nq = Err TypeError.
  Proof. reflexivity. Qed.

  (** ** Tensors *)
  Lemma fact_pad t x z : on_modes (length x) t -> fact (K := K) t (x ++ z) = (fst (fact (K := K) t x), snd (fact (K := K) t x) ++ z).
  Proof.
    induction t as [|[p d] t IH]; intros Ht; [reflexivity|]. cbn [fact]. unfold mcomp. rewrite IH by (intros f Hf; apply Ht; right; auto). cbn [fst snd ladder_act].
    assert (Hp : (p < length (snd (fact (K := K) t x)))%nat) by (rewrite fact_length; apply (Ht (p, d)); left; auto). rewrite app_nth1, setb_app_l by auto.
    rewrite firstn_app. replace (p - length (snd (fact (K := K) t x)))%nat with 0%nat by lia. cbn [firstn]. rewrite app_nil_r. reflexivity.
  Qed.
  Lemma fop_pad (a : fop K) m n x y z w : on_qubits m a -> length x = m -> length y = m -> length z = (n - m)%nat -> length w = (n - m)%nat -> (m <= n)%nat ->
    ent (fop_matrix n a) (bval (x ++ z)) (bval (y ++ w)) = if list_eqb Bool.eqb z w then ent (fop_matrix m a) (bval x) (bval y) else 0.
  Proof.
    intros Ha Hx Hy Hzz Hw Hmn. rewrite !fop_ent. induction a as [|[t c] a IH]; [cbn; destruct (list_eqb Bool.eqb z w); reflexivity|]. cbn [lval fst snd]. rewrite IH by (intros t' c' H; apply (Ha t' c'); right; auto).
    assert (Ht : on_modes m t) by (exact (Ha t c (or_introl eq_refl))). assert (Ht' : on_modes n t) by (intros f Hf; specialize (Ht f Hf); lia).
    assert (E1 : ent (fterm_matrix n t) (bval (x ++ z)) (bval (y ++ w)) = ent (mono (K := K) n (fact t)) (bval (x ++ z)) (bval (y ++ w))).
    { destruct (fterm_mono (K := K) n t Ht') as (S1 & S2 & H). apply H; rewrite ?S1, ?S2; cbn [nr nc mono].
      - replace (2 ^ n)%nat with (2 ^ length (x ++ z))%nat by (f_equal; rewrite app_length; lia). apply bval_lt.
      - replace (2 ^ n)%nat with (2 ^ length (y ++ w))%nat by (f_equal; rewrite app_length; lia). apply bval_lt. }
    assert (E2 : ent (fterm_matrix m t) (bval x) (bval y) = ent (mono (K := K) m (fact t)) (bval x) (bval y)).
    { destruct (fterm_mono (K := K) m t Ht) as (S1 & S2 & H). apply H; rewrite ?S1, ?S2; cbn [nr nc mono]; [rewrite <- Hx|rewrite <- Hy]; apply bval_lt. }
    rewrite E1, E2. rewrite !mono_ent by (rewrite ?fact_length, ?app_length; lia). rewrite fact_pad by (rewrite Hy; exact Ht). cbn [fst snd]. rewrite list_eqb_app by (rewrite fact_length; congruence).
    destruct (list_eqb Bool.eqb x (snd (fact (K := K) t y))), (list_eqb Bool.eqb z w); cbn [andb]; ring.
  Qed.
  (** The sparse matrix A of a tensor is a matrix on the first m modes for some m: the tensor is A on these modes and the identity on the others. *)
  Theorem C74_tensor (h : heap K) (a : ptensor K) nq : small 0 = true -> only_zero small -> tensor_ok h a ->
    exists m A, sparse (OTensor h a) nq = Ok A /\ nr A = (2 ^ m)%nat /\ nc A = (2 ^ m)%nat /\ (m <= n_qubits a)%nat /\
      forall x y z w, length x = m -> length y = m -> length z = (n_qubits a - m)%nat -> length w = (n_qubits a - m)%nat ->
        tensor_entry h a (x ++ z) (y ++ w) = if list_eqb Bool.eqb z w then ent A (bval x) (bval y) else 0.
  Proof.
    intros Hs0 Hs Ha. destruct (C53_operator_of_tensor small is_zero Hz1 Hs0 h a Ha) as (f & Ef & _ & Of & _).
    destruct (C53_operator_of_tensor_acts_exact small is_zero Hz1 Hs0 h a Hs Ha) as (f' & Ef' & Af). rewrite Ef in Ef'. inversion Ef'; subst f'.
    destruct (jw_sparse_ok im half Him Hhalf is_zero Hz1 f None (used_modes f)) as (A & E & H). change (size_used f None) with (fermion_count_qubits f) in H. set (m := fermion_count_qubits f) in *.
    destruct H as (S1 & S2 & H). destruct (fop_shape (K := K) m f) as [F1 F2]. rewrite F1 in S1. rewrite F2 in S2.
    exists m, A. split; [cbn [get_sparse_operator]; rewrite Ef; exact E|]. split; [exact S1|]. split; [exact S2|]. split; [apply least_modes; exact Of|].
    intros x y z w Hx Hy Hzz Hw. rewrite <- Af. rewrite (fop_pad f m (n_qubits a) x y z w (used_modes f)); auto; [|apply least_modes; exact Of].
    rewrite H; [reflexivity| |]; rewrite ?S1, ?S2; [rewrite <- Hx|rewrite <- Hy]; apply bval_lt.
  Qed.
End C74.

(** Concrete cases. *)
Example C74_fermion_case : match get_sparse_operator qi qhalf gq_zero gq_zero (OFermion [([(2, true); (0, false)], gq 4 8)]) (Some 3) with
  | Ok A => Nat.eqb (nr A) 8 && gq_zero (ksub (ent A 3 6) (gq (-4) (-8))) && gq_zero (ksub (ent A 1 4) (gq 4 8)) | Err _ => false end = true.
Proof. vm_compute. reflexivity. Qed.
Example C74_qubit_case : match get_sparse_operator qi qhalf gq_zero gq_zero (OQubit [([(0, Py); (2, Px)], gq 4 8); ([(1, Pz)], gq 3 0)]) (Some 3) with
  | Ok A => Nat.eqb (nr A) 8 && gq_zero (ksub (ent A 0 5) (gq 8 (-4))) && gq_zero (ksub (ent A 5 0) (gq (-8) 4)) && gq_zero (ksub (ent A 2 2) (gq (-3) 0)) | Err _ => false end = true.
Proof. vm_compute. reflexivity. Qed.
(** The matrix of a tensor on two modes can have the size of one mode: the number of modes of the tensor is not used, nor is the argument n_qubits. *)
Definition c74_heap : heap GQ := [{| shape0 := 2; data := fun i => match i with [0; 0] => gq 1 0 | _ => k0 end |}].
Definition c74_tensor : ptensor GQ := {| n_qubits := 2; n_body_tensors := [([true; false], Arr 0)] |}.
Lemma c74_ok : tensor_ok c74_heap c74_tensor.
Proof.
  split; [repeat constructor; cbn; intuition discriminate|]. split; [intros k1 k2 r [E1|[]] [E2|[]]; inversion E1; inversion E2; subst; reflexivity|].
  split; [exists [true; false], 0; left; reflexivity|]. intros k e [E|[]]; inversion E; subst; cbn; repeat split; try discriminate; lia.
Qed.
Theorem C74_size_refuted : exists (h : heap GQ) a A, tensor_ok h a /\ get_sparse_operator qi qhalf gq_zero gq_zero (OTensor h a) (Some (n_qubits a)) = Ok A /\ nr A <> 2 ^ n_qubits a.
Proof.
  assert (B : match get_sparse_operator qi qhalf gq_zero gq_zero (OTensor c74_heap c74_tensor) (Some 2) with Ok A => negb (Nat.eqb (nr A) 4) | Err _ => false end = true) by (vm_compute; reflexivity).
  destruct (get_sparse_operator qi qhalf gq_zero gq_zero (OTensor c74_heap c74_tensor) (Some 2)) as [A|] eqn:E; [|discriminate B].
  exists c74_heap, c74_tensor, A. split; [exact c74_ok|]. split; [exact E|]. apply negb_true_iff, Nat.eqb_neq in B. exact B.
Qed.

Print Assumptions C74_fermion.
Print Assumptions C74_qubit.
Print Assumptions C74_jordan_wigner.
Print Assumptions C74_tensor.
Print Assumptions C74_size_refuted.
