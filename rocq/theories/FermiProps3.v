(** Theorems for C49 (hermitian conjugation) and C50 (reindexing), stated over FermiModel.v, ReindexModel.v, OpSpec.v and FermiSpec.v. *)
From Coq Require Import Reals Lra NArith Nnat Permutation Sorted Ring.
From Verif Require Import Base BaseFacts MatModel MatFacts LiftSpec LiftProofs Cplx CmpModel CmpProofs OpModel OpSpec OpProofs PauliProofs OpProofs2 OpProps OpProps2 ConjProofs
  FermiModel FermiSpec FermiProofs FermiProofs2 FermiProofs3 FermiProofs4 PauliBasis FermiProofs6 FermiProofs7 GaussQ ReindexModel ReindexProofs ReindexProofs2 FermiProps.
Open Scope list_scope.
Local Open Scope nat_scope.

(** ** C49.  Operators are dicts, so terms are distinct ([wf_op]); qubit terms are in canonical form, as the constructor makes them. *)
Section C49.
  Context {K : cring}.
  Open Scope K_scope.
  Theorem C49_involution : (forall a : fop K, wf_op a -> fermion_conjugated (fermion_conjugated a) = a) /\
    (forall a : qop K, wf_op a -> qubit_conjugated (qubit_conjugated a) = a).
  Proof. split; [apply fermion_conjugated_invol|apply qubit_conjugated_invol]. Qed.
  (** conjugation of a product is the product of the conjugates in the opposite order, coefficient by coefficient *)
  Theorem C49_product_fermion (a b : fop K) : wf_op a -> wf_op b ->
    forall t, coef Bool.eqb (fermion_conjugated (fermion_mul a b)) t = coef Bool.eqb (fermion_mul (fermion_conjugated b) (fermion_conjugated a)) t.
  Proof. intros Wa Wb t. apply conjugate_product_coef; auto. Qed.
  Theorem C49_adjoint_fermion n (a : fop K) : wf_op a -> meq (fop_matrix n (fermion_conjugated a)) (adjoint (fop_matrix n a)).
  Proof. apply fop_adjoint. Qed.
  Context (im : K) (Him : im * im = - (1)) (Hc : kconj im = - im).
  Theorem C49_adjoint_qubit n (a : qop K) : wf_op a -> on_qubits n a -> (forall t c, In (t, c) a -> canonical t) ->
    meq (qop_matrix im n (qubit_conjugated a)) (adjoint (qop_matrix im n a)).
  Proof. apply (qop_adjoint n im Hc). Qed.
  Theorem C49_product_qubit n (half : K) (a b : qop K) : half + half = 1 -> wf_op a -> wf_op b -> on_qubits n a -> on_qubits n b ->
    (forall t c, In (t, c) a -> canonical t) -> (forall t c, In (t, c) b -> canonical t) ->
    forall t, coef pauli_eqb (qubit_conjugated (op_mul pauli_eqb (qubit_simplify im) a b)) t =
      coef pauli_eqb (op_mul pauli_eqb (qubit_simplify im) (qubit_conjugated b) (qubit_conjugated a)) t.
  Proof.
    intros Hhalf Wa Wb Oa Ob Ca Cb.
    assert (Wm : wf_op (op_mul pauli_eqb (qubit_simplify im) a b)) by apply (mul_wf pauli_eqb pauli_eqb_spec).
    assert (Om : on_qubits n (op_mul pauli_eqb (qubit_simplify im) a b)) by (apply mul_on_qubits; auto).
    assert (Cm : canonical_op (op_mul pauli_eqb (qubit_simplify im) a b)) by apply mul_canonical.
    apply (pauli_independent im Him half Hhalf n); [apply qubit_conjugated_wf; auto|apply (mul_wf pauli_eqb pauli_eqb_spec)|apply qubit_conjugated_on; auto|apply mul_on_qubits; apply qubit_conjugated_on; auto
      |apply qubit_conjugated_canonical; auto|apply mul_canonical|].
    etransitivity; [apply (qop_adjoint n im Hc); auto|]. etransitivity; [apply adjoint_ext, qop_mul_matrix; auto|].
    etransitivity; [apply adjoint_mmul; rewrite (proj2 (qop_matrix_shape im n a)), (proj1 (qop_matrix_shape im n b)); auto|]. symmetry.
    etransitivity; [apply qop_mul_matrix; auto; apply qubit_conjugated_on; auto|]. apply (mmul_sq (2 ^ n)); try apply qop_matrix_shape; apply (qop_adjoint n im Hc); auto.
  Qed.
End C49.

(** is_hermitian: an operator that denotes a self-adjoint matrix is accepted, and the coefficients of an accepted one differ from those of its
    conjugate by less than the tolerance times the product of max(1, |coefficients|) over shared terms ([total_scale], C45). *)
Section Hermitian.
  Open Scope R_scope.
  Context (tol : R) (Htol : 0 < tol).
  Definition self_adjoint (A : mat CC) : Prop := meq (adjoint A) A.
  Lemma ci_sq : kmul (ci : CC) ci = kopp (k1 : CC).
  Proof. apply c_eq; cbn; ring. Qed.
  Lemma ci_conj : kconj (ci : CC) = kopp (ci : CC).
  Proof. apply c_eq; cbn; ring. Qed.
  Lemma rhalf : kadd (rc (/ 2) : CC) (rc (/ 2)) = (k1 : CC).
  Proof. apply c_eq; cbn; lra. Qed.
  Lemma equal_differ {A} (aeqb : A -> A -> bool) (a b : sop A CC) : (forall t, coef aeqb a t = coef aeqb b t) -> forall t, differ aeqb a b t < tol.
  Proof. intros H t. unfold differ. rewrite H. replace (csub (coef aeqb b t) (coef aeqb b t)) with c0; [rewrite cmod_0; auto|]. apply c_eq; cbn; ring. Qed.
  Section Qubit.
    Context (order : list (term pauli) -> list (term pauli)) (Hord : forall l, Permutation (order l) l) (n : nat) (a : qop CC).
    Context (Wa : wf_op a) (Oa : on_qubits n a) (Ca : forall t c, In (t, c) a -> canonical t).
    Theorem C49_hermitian_qubit : self_adjoint (qop_matrix (ci : CC) n a) -> qubit_is_hermitian order tol a = true.
    Proof.
      intros H. unfold qubit_is_hermitian. apply (C45_accepts pauli_eqb pauli_eqb_spec order Hord); auto; [apply qubit_conjugated_wf; auto|]. apply equal_differ.
      apply (pauli_independent (ci : CC) ci_sq (rc (/ 2)) rhalf n); auto; [apply qubit_conjugated_wf; auto|apply qubit_conjugated_on; auto|apply qubit_conjugated_canonical; auto|].
      symmetry. etransitivity; [apply (qop_adjoint n (ci : CC) ci_conj); auto|exact H].
    Qed.
    Theorem C49_hermitian_qubit_bound : qubit_is_hermitian order tol a = true ->
      forall t, cmod (csub (coef pauli_eqb a t) (cconj (coef pauli_eqb a t))) < tol * total_scale pauli_eqb a (qubit_conjugated a).
    Proof.
      intros H t. pose proof (C45_accepted_bound pauli_eqb pauli_eqb_spec order Hord a (qubit_conjugated a) tol Wa (qubit_conjugated_wf a Wa) Htol H t) as B.
      unfold differ in B. replace (coef pauli_eqb (qubit_conjugated a) t) with (cconj (coef pauli_eqb a t)) in B; [exact B|].
      rewrite qubit_conjugated_map by auto. unfold coef. clear. induction a as [|[u c] l IH]; cbn [map dget fst snd]; [apply c_eq; cbn; ring|]. destruct (term_eqb pauli_eqb t u); auto.
    Qed.
  End Qubit.
  Section Fermion.
    Context (order : list (term bool) -> list (term bool)) (Hord : forall l, Permutation (order l) l) (n : nat) (small : CC -> bool) (a : fop CC).
    Context (Wa : wf_op a) (Oa : on_qubits n a).
    (** exact when normal ordering prunes nothing but zeros *)
    Theorem C49_hermitian_fermion : only_zero small -> self_adjoint (fop_matrix n a) -> fermion_is_hermitian small order tol a = true.
    Proof.
      intros Hz H. unfold fermion_is_hermitian. apply (C45_accepts Bool.eqb bool_eqb_spec order Hord); auto; try apply C46_normal. apply equal_differ.
      apply (C46_unique small n); auto; [apply fermion_conjugated_on; auto|]. symmetry. etransitivity; [apply fop_adjoint; auto|exact H].
    Qed.
    Theorem C49_hermitian_fermion_bound : fermion_is_hermitian small order tol a = true ->
      forall t, differ Bool.eqb (normal_ordered small a) (normal_ordered small (fermion_conjugated a)) t <
        tol * total_scale Bool.eqb (normal_ordered small a) (normal_ordered small (fermion_conjugated a)).
    Proof. intros H. apply (C45_accepted_bound Bool.eqb bool_eqb_spec order Hord); auto; apply C46_normal. Qed.
  End Fermion.
End Hermitian.

(** ** C50 *)
(** reverse_qubit_order: conjugation by the permutation that reverses the bits of a basis state.  [wires n s] moves qubit q to qubit s q. *)
Section Reverse.
  Context {K : cring} (im : K) (Him : kmul im im = kopp k1) (small : K -> bool).
  Definition canonical_terms (a : qop K) : Prop := forall t c, In (t, c) a -> canonical t.
  Definition bit_reversal (n : nat) : mat K :=
    Build_mat (2 ^ n) (2 ^ n) (fun i j => if list_eqb Bool.eqb (bits n i) (rev (bits n j)) then k1 else k0).
  Notation flipq n := (fun q => n - 1 - q).
  Lemma flip_moves n : moves n (flipq n).
  Proof. split; intros; lia. Qed.
  Lemma bit_reversal_wires n : meq (bit_reversal n) (wires n (flipq n)).
  Proof.
    split; [reflexivity|]. split; [reflexivity|]. intros i j _ _. cbn [ent bit_reversal wires].
    assert (X : list_eqb Bool.eqb (bits n i) (rev (bits n j)) = forallb (fun q => Bool.eqb (nth (n - 1 - q) (bits n i) false) (nth q (bits n j) false)) (seq 0 n)).
    { apply Bool.eq_iff_eq_true. rewrite forallb_forall. pose proof (list_eqb_spec _ bool_eqb_spec (bits n i) (rev (bits n j))) as L. rewrite L. split.
      - intros -> q Hq. apply in_seq in Hq. rewrite rev_nth by (rewrite bits_length; lia). rewrite bits_length. replace (n - S (n - 1 - q)) with q by lia. apply eqb_reflx.
      - intros H. apply bits_ext; [rewrite rev_length, !bits_length; auto|]. rewrite bits_length. intros q Hq. rewrite rev_nth by (rewrite bits_length; lia). rewrite bits_length.
        assert (Hq' : In (n - 1 - q) (seq 0 n)) by (apply in_seq; lia). specialize (H _ Hq'). apply Bool.eqb_prop in H. replace (n - 1 - (n - 1 - q)) with q in H by lia. rewrite H. f_equal. lia. }
    rewrite X. reflexivity.
  Qed.
  Lemma reverse_renamed (a : qop K) n : canonical_terms a -> on_qubits n a -> reverse_qubit_order im small a (Some n) = Ok (renamed (flipq n) im small a).
  Proof.
    intros Ca Oa. unfold reverse_qubit_order. destruct (Nat.ltb_spec n (sorted_count_qubits a)) as [L|L]; [|reflexivity]. apply (sorted_count_spec a n Ca) in Oa. lia.
  Qed.
  Theorem C50_reverse_total (a : qop K) n : canonical_terms a ->
    ((exists b, reverse_qubit_order im small a (Some n) = Ok b) <-> on_qubits n a) /\ (~ on_qubits n a -> reverse_qubit_order im small a (Some n) = Err ValueError).
  Proof.
    intros Ca. pose proof (sorted_count_spec a n Ca) as S. unfold reverse_qubit_order. destruct (Nat.ltb_spec n (sorted_count_qubits a)) as [L|L].
    - split; [|auto]. split; [intros [b H]; discriminate|intros H; apply S in H; lia].
    - apply S in L. split; [|contradiction]. split; [auto|eauto].
  Qed.
  Theorem C50_reverse_matrix (a b : qop K) n : canonical_terms a -> reverse_qubit_order im small a (Some n) = Ok b ->
    exists r : qop K, all_small small r /\ (length r <= length a)%nat /\
      meq (mmul (madd (qop_matrix im n b) (qop_matrix im n r)) (bit_reversal n)) (mmul (bit_reversal n) (qop_matrix im n a)).
  Proof.
    intros Ca H. assert (Oa : on_qubits n a) by (apply (C50_reverse_total a n Ca); eauto). rewrite (reverse_renamed a n Ca Oa) in H. inversion H; subst b.
    destruct (renamed_matrix n (flipq n) (flip_moves n) im Him small a Oa) as (r & R & Rl & X). exists r. split; [exact R|]. split; [exact Rl|].
    etransitivity; [apply (mmul_sq (2 ^ n)); [apply qop_matrix_shape|split; reflexivity|reflexivity|apply bit_reversal_wires]|].
    etransitivity; [exact X|]. apply (mmul_sq (2 ^ n)); [split; reflexivity|apply qop_matrix_shape|symmetry; apply bit_reversal_wires|reflexivity].
  Qed.
  Theorem C50_bit_reversal_unitary n : unitary (bit_reversal n).
  Proof. eapply unitary_ext; [symmetry; apply bit_reversal_wires|]. apply wires_unitary, flip_moves. Qed.
  (** Reversing twice gives back an operator without small coefficients, exactly. *)
  Theorem C50_reverse_involution (a b : qop K) n : wf_op a -> canonical_terms a -> (forall t c, In (t, c) a -> small c = false) ->
    reverse_qubit_order im small a (Some n) = Ok b -> reverse_qubit_order im small b (Some n) = Ok a.
  Proof.
    intros Wa Ca Sa H. assert (Oa : on_qubits n a) by (apply (C50_reverse_total a n Ca); eauto). rewrite (reverse_renamed a n Ca Oa) in H. inversion H; subst b.
    assert (Cl : clean_on small n a) by (split; [auto|]; split; [auto|]; intros t c Hin; split; [eapply Ca; eauto|eapply Sa; eauto]).
    destruct (renamed_clean im small n _ (flip_moves n) a Cl) as (_ & O' & C'). rewrite reverse_renamed; [|intros t c Hin; eapply C'; eauto|auto].
    f_equal. apply (renamed_back im small n); auto using flip_moves. intros; lia.
  Qed.
  Theorem C50_reverse_default (a : qop K) : reverse_qubit_order im small a None = reverse_qubit_order im small a (Some (sorted_count_qubits a)).
  Proof. reflexivity. Qed.
End Reverse.

(** count_qubits: the least number of qubits the operator acts on. *)
Theorem C50_count_fermion {K : cring} (a : fop K) n : fermion_count_qubits a <= n <-> on_qubits n a.
Proof. apply fermion_count_spec. Qed.
Theorem C50_count_qubit {K : cring} (a : qop K) n : (forall t c, In (t, c) a -> canonical t) -> (sorted_count_qubits a <= n <-> on_qubits n a).
Proof. apply sorted_count_spec. Qed.

(** up_then_down: a bijection of 0..n-1 that puts the even modes first and keeps the order within the even and within the odd modes. *)
Theorem C50_up_then_down_bijection n : (forall i, i < n -> up_then_down i n < n) /\ (forall i j, i < n -> j < n -> up_then_down i n = up_then_down j n -> i = j) /\
  (forall k, k < n -> exists i, i < n /\ up_then_down i n = k).
Proof.
  pose proof (up_then_down_moves n) as M. split; [apply M|]. split; [apply M|]. intros k Hk. exists (inv n (fun i => up_then_down i n) k). split; [apply inv_lt; auto|apply (s_inv n (fun i => up_then_down i n)); auto].
Qed.
Theorem C50_up_then_down_order n i j : i < n -> j < n ->
  (up_then_down i n < up_then_down j n <-> (Nat.even i = Nat.even j /\ i < j) \/ (Nat.even i = true /\ Nat.even j = false)).
Proof. apply up_then_down_order. Qed.

(** reorder: renames the modes of every term by the order function, and with reverse=True undoes it. *)
Section Reorder.
  Context {K : cring} (small : K -> bool) (n : nat) (ord : nat -> nat -> nat).
  Definition reorders : Prop := (forall i, i < n -> ord i n < n) /\ (forall i j, i < n -> j < n -> ord i n = ord j n -> i = j).
  Definition rename_modes {A} (g : nat -> nat) (t : term A) : term A := map (fun f => (g (fst f), snd f)) t.
  Notation fermion_reorder := (reorder (fermion_op (K := K)) (fermion_add small)).
  Theorem C50_reorder (a : fop K) : reorders -> wf_op a -> on_qubits n a -> (forall t c, In (t, c) a -> small c = false) ->
    fermion_reorder a ord (Some n) false = Ok (map (fun tc => (rename_modes (fun i => ord i n) (fst tc), snd tc)) a).
  Proof.
    intros M W Oa Sa. rewrite (reorder_forward _ _ n ord a Oa). f_equal. apply (fermion_renamed small n (fun i => ord i n) M a W Oa Sa).
  Qed.
  Theorem C50_reorder_undone (a b : fop K) : reorders -> wf_op a -> on_qubits n a -> (forall t c, In (t, c) a -> small c = false) ->
    fermion_reorder a ord (Some n) false = Ok b -> fermion_reorder b ord (Some n) true = Ok a.
  Proof.
    intros M W Oa Sa H. rewrite (C50_reorder a M W Oa Sa) in H. inversion H as [E]. clear H.
    set (b' := map (fun tc : fterm * K => (rename_modes (fun i => ord i n) (fst tc), snd tc)) a) in *.
    assert (Ob : on_qubits n b').
    { intros t c Hin f Hf. apply in_map_iff in Hin as ([u d] & Eu & Hu). inversion Eu; subst. apply in_map_iff in Hf as (g & <- & Hg). cbn. apply M. eapply Oa; eauto. }
    assert (Wb : wf_op b').
    { unfold wf_op, dkeys, b' in *. rewrite map_map. cbn [fst]. rewrite <- (map_map (fun tc : fterm * K => fst tc) (rename_modes (A := bool) (fun i => ord i n))). apply NoDup_map_inj'; auto. intros t u Ht Hu.
      apply in_map_iff in Ht as ([t' c] & E1 & Ht). apply in_map_iff in Hu as ([u' d] & E2 & Hu). cbn in E1, E2. subst t' u'. apply (rename_inj n (fun i => ord i n) M); eapply Oa; eauto. }
    rewrite (reorder_backward _ _ n ord M b' Ob). f_equal. etransitivity; [apply (fermion_renamed small n (inv n (fun i => ord i n)) (inv_moves n _ M) b' Wb Ob)|].
    - intros t c Hin. apply in_map_iff in Hin as ([u d] & Eu & Hu). inversion Eu; subst. eapply Sa; eauto.
    - unfold b'. rewrite map_map. cbn [fst snd]. rewrite (map_ext_in _ (fun tc => tc)); [apply map_id|]. intros [t c] Hin. cbn [fst snd]. f_equal.
      apply (rename_back n (fun i => ord i n)); [intros q Hq; apply (inv_s n (fun i => ord i n)); auto|eapply Oa; eauto].
  Qed.
  (** A mode outside 0..n-1 is a KeyError. *)
  Theorem C50_reorder_missing (a : fop K) t c f : In (t, c) a -> In f t -> n <= fst f -> fermion_reorder a ord (Some n) false = Err KeyError.
  Proof.
    intros Hin Hf Hn. unfold reorder. cbn [rbind]. cbn zeta. generalize (@nil (term bool * K)) as o. induction a as [|[u d] l IH]; intros o; [destruct Hin|]. cbn [foldM fst snd].
    assert (X : mapM (fun f : factor bool => match dget Nat.eqb (fst f) (map (fun i => (i, ord i n)) (seq 0 n)) with Some m => Ok (m, snd f) | None => Err KeyError end) u = Err KeyError \/
      exists v, mapM (fun f : factor bool => match dget Nat.eqb (fst f) (map (fun i => (i, ord i n)) (seq 0 n)) with Some m => Ok (m, snd f) | None => Err KeyError end) u = Ok v).
    { clear. induction u as [|g u IH]; cbn [mapM]; [eauto|]. destruct (dget _ _ _); cbn [rbind]; [|auto]. destruct IH as [->|[v ->]]; cbn [rbind]; eauto. }
    destruct Hin as [E|Hin].
    - inversion E; subst u d. clear X. replace (mapM _ t) with (Err (A := list (nat * bool)) KeyError); [reflexivity|]. symmetry. clear -Hf Hn. induction t as [|g t IH]; [destruct Hf|]. cbn [mapM].
      rewrite (forward_get n ord). unfold fmap. destruct Hf as [->|Hf].
      + rewrite (proj2 (Nat.ltb_ge _ _) Hn). reflexivity.
      + destruct (fst g <? n); [|reflexivity]. cbn [rbind]. rewrite IH by auto. reflexivity.
    - destruct X as [->|[v ->]]; cbn [rbind]; [reflexivity|]. apply IH; auto.
  Qed.
End Reorder.
(** reorder of a qubit operator conjugates its matrix by the permutation of the qubits. *)
Theorem C50_reorder_qubit {K : cring} (im : K) (small : K -> bool) n ord (a : qop K) : kmul im im = kopp k1 -> reorders n ord -> on_qubits n a ->
  exists b r : qop K, reorder (mk_op (qubit_simplify im)) (op_add pauli_eqb small) a ord (Some n) false = Ok b /\ all_small small r /\ (length r <= length a)%nat /\
    meq (mmul (madd (qop_matrix im n b) (qop_matrix im n r)) (wires n (fun i => ord i n))) (mmul (wires n (fun i => ord i n)) (qop_matrix im n a)).
Proof.
  intros Him M Oa. destruct (renamed_matrix n (fun i => ord i n) M im Him small a Oa) as (r & R & X). exists (renamed (fun i => ord i n) im small a), r.
  split; [|auto]. apply reorder_forward; auto.
Qed.

(** prune_unused_indices: the used indices are renumbered 0, 1, ... in increasing order. *)
Definition used_by {K : cring} {A} (a : sop A K) (i : nat) : Prop := exists t c f, In (t, c) a /\ In f t /\ fst f = i.
Theorem C50_prune {K : cring} {A} (aeqb : A -> A -> bool) (a : sop A K) : eqb_spec_of aeqb -> wf_op a ->
  exists g k, prune_unused_indices aeqb a = map (fun tc => (rename_modes g (fst tc), snd tc)) a /\
    (forall i j, used_by a i -> used_by a j -> i < j -> g i < g j) /\ (forall m, m < k <-> exists i, used_by a i /\ g i = m).
Proof.
  intros Ha W. exists (rank a), (length (indices a)). split; [apply (prune_map aeqb Ha); auto|]. split; [apply rank_mono|apply rank_onto].
Qed.

(** Concrete cases. *)
Definition qexample : qop GQ := [([(0, Px); (2, Py)], gq 4 2); ([(1, Pz)], gq 0 3)].
Example C50_reverse_case : match reverse_qubit_order qi gq_zero qexample (Some 4) with
    | Ok b => gq_same pauli_eqb b [([(1, Py); (3, Px)], gq 4 2); ([(2, Pz)], gq 0 3)] | Err _ => false end = true /\
  reverse_qubit_order qi gq_zero qexample (Some 2) = Err ValueError.
Proof. split; vm_compute; reflexivity. Qed.
Definition fexample : fop GQ := [([(0, true); (3, false)], gq 4 2); ([(3, true); (5, true); (0, false)], gq 0 3)].
Example C50_reorder_case : match reorder (fermion_op (K := GQ)) (fermion_add gq_zero) fexample up_then_down (Some 6) false with
    | Ok b => gq_same Bool.eqb b [([(0, true); (4, false)], gq 4 2); ([(4, true); (5, true); (0, false)], gq 0 3)] &&
        match reorder (fermion_op (K := GQ)) (fermion_add gq_zero) b up_then_down (Some 6) true with Ok a => gq_same Bool.eqb a fexample | Err _ => false end
    | Err _ => false end = true /\ reorders 6 up_then_down.
Proof. split; [vm_compute; reflexivity|]. split; apply (C50_up_then_down_bijection 6). Qed.
Example C50_prune_case : gq_same Bool.eqb (prune_unused_indices Bool.eqb fexample) [([(0, true); (1, false)], gq 4 2); ([(1, true); (2, true); (0, false)], gq 0 3)] = true.
Proof. vm_compute. reflexivity. Qed.
Example C49_case : gq_same Bool.eqb (fermion_conjugated fexample) [([(3, true); (0, false)], gq 4 (-2)); ([(0, true); (5, false); (3, false)], gq 0 (-3))] = true /\
  gq_same pauli_eqb (qubit_conjugated qexample) [([(0, Px); (2, Py)], gq 4 (-2)); ([(1, Pz)], gq 0 (-3))] = true.
Proof. split; vm_compute; reflexivity. Qed.
(** The hypotheses of the theorems about is_hermitian are met: X_0 Y_2 with coefficient 2. *)
Example C49_hermitian_case (order : list (term pauli) -> list (term pauli)) tol : (forall l, Permutation (order l) l) -> (0 < tol)%R ->
  qubit_is_hermitian order tol [([(0, Px); (2, Py)], rc 2)] = true.
Proof.
  intros Ho Ht. set (a := [([(0, Px); (2, Py)], rc 2)] : qop CC).
  assert (Wa : wf_op a) by (repeat constructor; intros []).
  assert (Oa : on_qubits 3 a) by (intros t c [H|[]] f Hf; inversion H; subst; cbn in Hf; intuition; subst; cbn; lia).
  assert (Ca : forall t c, In (t, c) a -> canonical t).
  { intros t c [H|[]]. inversion H; subst. apply canonical_cons_intro; [discriminate|intros g [<-|[]]; cbn; lia|]. apply canonical_cons_intro; [discriminate|intros g []|constructor]. }
  apply (C49_hermitian_qubit tol Ht order Ho 3 a Wa Oa Ca). unfold self_adjoint. etransitivity; [symmetry; apply (qop_adjoint 3 (ci : CC) ci_conj); auto|].
  rewrite qubit_conjugated_map by auto. unfold a. cbn [map fst snd]. replace (kconj (rc 2 : CC)) with (rc 2 : CC); [reflexivity|]. apply c_eq; cbn; ring.
Qed.

Print Assumptions C49_involution.
Print Assumptions C49_product_fermion.
Print Assumptions C49_adjoint_fermion.
Print Assumptions C49_adjoint_qubit.
Print Assumptions C49_product_qubit.
Print Assumptions C49_hermitian_qubit.
Print Assumptions C49_hermitian_qubit_bound.
Print Assumptions C49_hermitian_fermion.
Print Assumptions C49_hermitian_fermion_bound.
Print Assumptions C50_reverse_total.
Print Assumptions C50_reverse_matrix.
Print Assumptions C50_bit_reversal_unitary.
Print Assumptions C50_reverse_involution.
Print Assumptions C50_reverse_default.
Print Assumptions C50_count_fermion.
Print Assumptions C50_count_qubit.
Print Assumptions C50_up_then_down_bijection.
Print Assumptions C50_up_then_down_order.
Print Assumptions C50_reorder.
Print Assumptions C50_reorder_undone.
Print Assumptions C50_reorder_missing.
Print Assumptions C50_reorder_qubit.
Print Assumptions C50_prune.
