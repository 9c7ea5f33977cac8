(** Sizes of the matrices of qubit operators. *)
From Coq Require Import Reals Lra Psatz Lia Ring.
From Verif Require Import Base BaseFacts MatModel MatFacts Cplx CmpModel CmpProofs LiftSpec LiftProofs OpModel OpSpec OpProofs PauliProofs OpProofs2 PauliBasis ConjProofs FermiProofs6 NormModel NormSpec NormProofs.
Local Open Scope R_scope.
Add Ring Cring_norm : C_ring.

Lemma total_0 {X} (l : list X) : total (fun _ => 0) l = 0.
Proof. induction l as [|x l IH]; [reflexivity|]. rewrite total_cons, IH. ring. Qed.
Lemma bigsum_rc (f : nat -> R) n : bigsum (K := CC) n (fun i => rc (f i)) = rc (total f (seq 0 n)).
Proof. induction n as [|n IH]; [reflexivity|]. cbn [bigsum]. rewrite IH, seq_S, total_app, total_cons. unfold total. cbn [map fold_right Nat.add]. apply c_eq; cbn; ring. Qed.
Lemma conj_mul_self (z : C) : cmul (cconj z) z = rc (cabs2 z).
Proof. apply c_eq; cbn; unfold cabs2; ring. Qed.
Lemma inner_self (v : vec CC) : inner v v = rc (sum_squares v).
Proof. unfold inner, sum_squares. rewrite <- bigsum_rc. apply bigsum_ext. intros i _. apply conj_mul_self. Qed.
Lemma sum_squares_nonneg v : 0 <= sum_squares v.
Proof. apply total_nonneg. intros. apply cabs2_nonneg. Qed.
Lemma cmod_pow2 z : cmod z ^ 2 = cabs2 z.
Proof. rewrite <- cmod_sq. ring. Qed.
Lemma vlength_pow2 v : vlength v ^ 2 = total (fun i => cmod (vent v i) ^ 2) (seq 0 (vlen v)).
Proof. unfold vlength. replace (sqrt (sum_squares v) ^ 2) with (sqrt (sum_squares v) * sqrt (sum_squares v)) by ring. rewrite sqrt_sqrt by apply sum_squares_nonneg. apply total_ext. intros i _. symmetry. apply cmod_pow2. Qed.
Lemma vlength_nonneg v : 0 <= vlength v.
Proof. apply sqrt_pos. Qed.
Lemma vlength_ext u v : veq u v -> vlength u = vlength v.
Proof. intros [L E]. unfold vlength, sum_squares. rewrite L. f_equal. apply total_ext. intros i Hi. apply in_seq in Hi. rewrite E by lia. reflexivity. Qed.
Lemma vlength_add (u v w : vec CC) : vlen u = vlen w -> vlen v = vlen w -> (forall i, (i < vlen w)%nat -> vent w i = cadd (vent u i) (vent v i)) -> vlength w <= vlength u + vlength v.
Proof.
  intros Lu Lv E. apply (pow_le_inv _ _ 1); [apply vlength_nonneg|pose proof (vlength_nonneg u); pose proof (vlength_nonneg v); lra|].
  rewrite vlength_pow2. eapply Rle_trans; [|apply (minkowski 1 (fun i => cmod (vent u i)) (fun i => cmod (vent v i)) (seq 0 (vlen w)) (vlength u) (vlength v))].
  - apply total_le. intros i Hi. apply in_seq in Hi. rewrite E by lia. apply pow_incr. split; [apply cmod_nonneg|apply cmod_add].
  - intros; apply cmod_nonneg.
  - intros; apply cmod_nonneg.
  - apply vlength_nonneg.
  - apply vlength_nonneg.
  - rewrite vlength_pow2, Lu. reflexivity.
  - rewrite vlength_pow2, Lv. reflexivity.
Qed.
Lemma vlength_scale (u w : vec CC) c : vlen u = vlen w -> (forall i, (i < vlen w)%nat -> vent w i = cmul c (vent u i)) -> vlength w = cmod c * vlength u.
Proof.
  intros Lu E. apply (pow_inj _ _ 1); [apply vlength_nonneg|apply Rmult_le_pos; [apply cmod_nonneg|apply vlength_nonneg]|].
  rewrite Rpow_mult_distr, !vlength_pow2, <- total_mul, Lu. apply total_ext. intros i Hi. apply in_seq in Hi. rewrite E, cmod_mul by lia. apply Rpow_mult_distr.
Qed.
Section Square.
  Context {K : cring} (im : K) (Him : kmul im im = kopp k1).
  Add Ring Kring_norm : (kth K).
  Open Scope K_scope.
  Lemma term_square n (t : term pauli) : NoDup (map fst t) -> (forall f, In f t -> (fst f < n)%nat) -> meq (mmul (term_matrix im n t) (term_matrix im n t)) (eye (2 ^ n)).
  Proof.
    intros Nt Hn. destruct (term_matrix_shape im n t) as [S1 S2]. split; [cbn; exact S1|]. split; [cbn; exact S2|]. cbn [nr nc mmul ent eye]. rewrite S1, S2. intros i j Hi Hj.
    set (F := fun c => bigprod n (fun q => pent im (at_q t q) (nth q (bits n i) false) (nth q c false) * pent im (at_q t q) (nth q c false) (nth q (bits n j) false))).
    rewrite (bigsum_ext _ _ (fun l => F (bits n l))).
    2:{ intros l Hl. unfold F. rewrite <- bigprod_mul. rewrite <- !term_ent by (assumption || apply bits_length). rewrite !bval_bits_small by assumption. reflexivity. }
    rewrite bitsum_bigsum. unfold F. rewrite (bitsum_prod n (fun q b => pent im (at_q t q) (nth q (bits n i) false) b * pent im (at_q t q) b (nth q (bits n j) false))).
    rewrite (bigprod_ext n _ (fun q => if Bool.eqb (nth q (bits n i) false) (nth q (bits n j) false) then 1 else 0)).
    2:{ intros q _. destruct (at_q t q), (nth q (bits n i) false), (nth q (bits n j) false); cbn; ring [Him]. }
    rewrite (bigprod_guard n (fun q => Bool.eqb (nth q (bits n i) false) (nth q (bits n j) false)) (fun _ => 1)), bigprod_1 by reflexivity.
    destruct (Nat.eqb_spec i j) as [->|Ne].
    - rewrite (proj2 (forallb_forall _ _)) by (intros q _; apply Bool.eqb_reflx). reflexivity.
    - destruct (forallb _ _) eqn:E; [|reflexivity]. exfalso. apply Ne. rewrite <- (bval_bits_small n i), <- (bval_bits_small n j) by assumption. f_equal. apply bits_ext; [rewrite !bits_length; reflexivity|].
      intros q Hq. rewrite bits_length in Hq. apply Bool.eqb_prop. rewrite forallb_forall in E. apply E, in_seq. lia.
  Qed.
End Square.
Lemma ci_sq : kmul (ci : CC) ci = kopp (k1 : CC).
Proof. apply c_eq; cbn; ring. Qed.
Lemma ci_conj : kconj (ci : CC) = kopp (ci : CC).
Proof. apply c_eq; cbn; ring. Qed.
Lemma term_unitary n t : canonical t -> (forall f, In f t -> (fst f < n)%nat) -> unitary (term_matrix (K := CC) ci n t).
Proof.
  intros Ht Hn. destruct (term_matrix_shape (K := CC) ci n t) as [S1 S2]. pose proof (term_hermitian (K := CC) n ci ci_conj t (canonical_NoDup _ Ht) Hn) as H. pose proof (term_square (K := CC) ci ci_sq n t (canonical_NoDup _ Ht) Hn) as Q.
  split; [rewrite S1, S2; reflexivity|]. rewrite S1, S2. split.
  - etransitivity; [|exact Q]. apply (mmul_sq (2 ^ n)); [split; cbn; assumption|split; assumption|exact H|reflexivity].
  - etransitivity; [|exact Q]. apply (mmul_sq (2 ^ n)); [split; assumption|split; cbn; assumption|reflexivity|exact H].
Qed.
Lemma term_keeps_length n t v : canonical t -> (forall f, In f t -> (fst f < n)%nat) -> vlen v = (2 ^ n)%nat -> vlength (mvmul (term_matrix (K := CC) ci n t) v) = vlength v.
Proof.
  intros Ht Hn Lv. destruct (term_matrix_shape (K := CC) ci n t) as [S1 S2]. pose proof (unitary_inner _ v v (term_unitary n t Ht Hn) ltac:(rewrite S2; auto) ltac:(rewrite S2; auto)) as E.
  rewrite !inner_self in E. apply (f_equal fst) in E. cbn [fst rc] in E. unfold vlength. rewrite E. reflexivity.
Qed.
Lemma qop_bound n (a : qop CC) v : canonical_op a -> on_qubits n a -> vlen v = (2 ^ n)%nat -> vlength (mvmul (qop_matrix (K := CC) ci n a) v) <= total (fun tc => cmod (snd tc)) a * vlength v.
Proof.
  intros Hc Ho Lv. induction a as [|[t c] a IH].
  - unfold vlength at 1, sum_squares. cbn [mvmul vlen vent qop_matrix fold_right nr nc zeros ent].
    rewrite (total_ext _ (fun _ => 0)).
    + rewrite total_0, sqrt_0. unfold total. cbn. lra.
    + intros i _. rewrite (bigsum_ext (K := CC) _ _ (fun _ => rc 0)) by (intros; apply c_eq; cbn; ring). rewrite bigsum_rc, total_0. unfold cabs2. cbn [fst snd rc]. ring.
  - assert (Hc' : canonical_op a) by (intros u d H; eapply Hc; right; eauto). assert (Ho' : on_qubits n a) by (intros u d H; eapply Ho; right; eauto). specialize (IH Hc' Ho').
    destruct (term_matrix_shape (K := CC) ci n t) as [S1 S2].
    set (w := mvmul (qop_matrix (K := CC) ci n ((t, c) :: a)) v). set (w2 := mvmul (qop_matrix (K := CC) ci n a) v) in *. set (w0 := mvmul (term_matrix (K := CC) ci n t) v).
    set (w1 := Build_vec (K := CC) (2 ^ n) (fun i => cmul c (vent w0 i))).
    assert (Sa : nr (qop_matrix (K := CC) ci n a) = (2 ^ n)%nat /\ nc (qop_matrix (K := CC) ci n a) = (2 ^ n)%nat).
    { clear. induction a as [|tc a IH]; [split; reflexivity|]. cbn [qop_matrix fold_right madd mscale nr nc]. apply term_matrix_shape. }
    assert (L : vlength w <= vlength w1 + vlength w2).
    { apply vlength_add; cbn [w w1 w2 vlen mvmul qop_matrix fold_right madd mscale nr fst snd].
      - symmetry. exact S1.
      - fold (qop_matrix (K := CC) ci n a). rewrite S1. exact (proj1 Sa).
      - intros i Hi. rewrite S1 in Hi. unfold w, w1, w2, w0. cbn [vent mvmul qop_matrix fold_right madd mscale nr nc ent fst snd]. fold (qop_matrix (K := CC) ci n a). rewrite S2, (proj2 Sa).
        change cmul with (kmul (c := CC)). change cadd with (kadd (c := CC)). rewrite bigsum_mul_l, <- bigsum_add. apply bigsum_ext. intros j Hj. apply c_eq; cbn; ring. }
    assert (L1 : vlength w1 = cmod c * vlength v).
    { rewrite (vlength_scale w0 w1 c); [|cbn; exact S1|reflexivity]. f_equal. unfold w0. apply term_keeps_length; [eapply Hc; left; reflexivity|eapply Ho; left; reflexivity|exact Lv]. }
    rewrite total_cons. cbn [snd]. nra.
Qed.
(** ** The sum of all squared entries *)
Lemma npow_two n : npow (K := CC) n (kadd (k1 : CC) k1) = rc (2 ^ n).
Proof. unfold npow. induction n as [|n IH]; [reflexivity|]. cbn [bigprod]. rewrite IH. apply c_eq; cbn; ring. Qed.
Lemma bitsum_swap_c n : forall m (F : list bool -> list bool -> CC), bitsum (K := CC) n (fun b => bitsum (K := CC) m (fun c => F b c)) = bitsum (K := CC) m (fun c => bitsum (K := CC) n (fun b => F b c)).
Proof.
  induction n as [|n IH]; intros m F; [reflexivity|]. cbn [bitsum]. rewrite !IH. rewrite <- bitsum_add. reflexivity.
Qed.
Lemma frobenius_coefs n (a : qop CC) : wf_op a -> canonical_op a -> on_qubits n a ->
  frobenius2 (qop_matrix (K := CC) ci n a) = 2 ^ n * total (fun tc => cabs2 (snd tc)) a.
Proof.
  intros W Hc Ho. assert (Sa : forall a : qop CC, nr (qop_matrix (K := CC) ci n a) = (2 ^ n)%nat /\ nc (qop_matrix (K := CC) ci n a) = (2 ^ n)%nat).
  { clear. induction a as [|tc a IH]; [split; reflexivity|]. cbn [qop_matrix fold_right madd mscale nr nc]. apply term_matrix_shape. }
  set (M := qop_matrix (K := CC) ci n a).
  assert (E : bitsum (K := CC) n (fun b => bitsum (K := CC) n (fun c => kmul (kconj (ent M (bval b) (bval c))) (ent M (bval b) (bval c)))) = rc (frobenius2 M)).
  { unfold frobenius2. rewrite <- bigsum_rc. unfold M. rewrite (proj1 (Sa a)), (proj2 (Sa a)). fold M. rewrite <- bitsum_bigsum. apply bigsum_ext. intros i Hi. rewrite <- bigsum_rc, <- bitsum_bigsum. apply bigsum_ext. intros j Hj.
    rewrite !bval_bits_small by assumption. apply conj_mul_self. }
  assert (G : forall b : qop CC, (forall t c, In (t, c) b -> canonical t) -> on_qubits n b ->
    bitsum (K := CC) n (fun x => bitsum (K := CC) n (fun y => kmul (kconj (ent (qop_matrix (K := CC) ci n b) (bval x) (bval y))) (ent M (bval x) (bval y)))) =
    kmul (rc (2 ^ n) : CC) (fold_right (fun tc s => kadd (kmul (kconj (snd tc : CC)) (coef (K := CC) pauli_eqb a (fst tc))) s) (k0 : CC) b)).
  { induction b as [|[t c] b IH]; intros Cb Ob.
    - cbn [fold_right]. rewrite (bitsum_ext (K := CC) n _ (fun _ => k0)); [rewrite bitsum_0; apply c_eq; cbn; ring|]. intros x _. rewrite (bitsum_ext (K := CC) n _ (fun _ => k0)); [apply bitsum_0|]. intros y _. apply c_eq; cbn; ring.
    - specialize (IH (fun u d H => Cb u d (or_intror H)) (fun u d H => Ob u d (or_intror H))). cbn [fold_right fst snd].
      pose proof (Cb t c (or_introl eq_refl)) as Ct. pose proof (Ob t c (or_introl eq_refl)) as Ot.
      pose proof (term_hermitian (K := CC) n ci ci_conj t (canonical_NoDup _ Ct) Ot) as (_ & _ & HH). destruct (term_matrix_shape (K := CC) ci n t) as [S1 S2]. cbn [adjoint nr nc ent] in HH. rewrite S1, S2 in HH.
      rewrite (bitsum_ext (K := CC) n _ (fun x => kadd (kmul (kconj (c : CC)) (bitsum (K := CC) n (fun y => kmul (ent (term_matrix (K := CC) ci n t) (bval y) (bval x)) (ent M (bval x) (bval y)))))
        (bitsum (K := CC) n (fun y => kmul (kconj (ent (qop_matrix (K := CC) ci n b) (bval x) (bval y))) (ent M (bval x) (bval y)))))).
      2:{ intros x Lx. rewrite bitsum_mul_l, <- bitsum_add. apply bitsum_ext. intros y Ly. cbn [qop_matrix fold_right madd mscale ent fst snd]. fold (qop_matrix (K := CC) ci n b).
          rewrite <- (HH (bval y) (bval x)) by (first [rewrite <- Lx; apply bval_lt | rewrite <- Ly; apply bval_lt]). apply c_eq; cbn; ring. }
      rewrite bitsum_add, IH, <- bitsum_mul_l, bitsum_swap_c. unfold M. rewrite (trace_coef (K := CC) ci ci_sq n a t W Ho Hc Ct Ot), npow_two. apply c_eq; cbn; ring. }
  specialize (G a Hc Ho). fold M in G. rewrite E in G.
  assert (Q : forall b : qop CC, incl b a -> fold_right (fun tc s => kadd (kmul (kconj (snd tc : CC)) (coef (K := CC) pauli_eqb a (fst tc))) s) (k0 : CC) b = rc (total (fun tc => cabs2 (snd tc)) b)).
  { induction b as [|[t c] b IH]; intros I; [reflexivity|]. cbn [fold_right fst snd]. rewrite IH by (intros x Hx; apply I; now right).
    assert (D : coef (K := CC) pauli_eqb a t = c).
    { unfold coef. rewrite (In_dget _ (term_eqb_spec _ pauli_eqb_spec) t c a W) by (apply I; now left). reflexivity. }
    rewrite D, total_cons. apply c_eq; cbn; unfold cabs2; cbn; ring. }
  rewrite Q in G by apply incl_refl. apply (f_equal fst) in G. cbn in G. rewrite G. ring.
Qed.
