(** Renaming the qubits or modes of an operator. *)
From Coq Require Import Permutation Sorted Ring.
From Verif Require Import Base BaseFacts MatModel MatFacts LiftSpec LiftProofs OpModel OpSpec OpProofs PauliProofs OpProofs2 ConjProofs
  FermiModel FermiSpec FermiProofs FermiProofs2 FermiProofs4 PauliBasis FermiProofs6 ReindexModel.
Open Scope list_scope.
Local Open Scope nat_scope.

Definition rename {A} (s : nat -> nat) (t : term A) : term A := map (fun f : factor A => (s (fst f), snd f)) t.
(** The wires of n qubits are moved: wire q becomes wire (s q). *)
Definition moves (n : nat) (s : nat -> nat) : Prop := (forall q, q < n -> s q < n) /\ (forall q r, q < n -> r < n -> s q = s r -> q = r).
Definition wires {K : cring} (n : nat) (s : nat -> nat) : mat K :=
  Build_mat (2 ^ n) (2 ^ n) (fun i j => if forallb (fun q => Bool.eqb (nth (s q) (bits n i) false) (nth q (bits n j) false)) (seq 0 n) then k1 else k0).

Section Inv.
  Context (n : nat) (s : nat -> nat) (Hs : moves n s).
  Definition inv (r : nat) : nat := index_of r (map s (seq 0 n)).
  Lemma s_NoDup : NoDup (map s (seq 0 n)).
  Proof. apply NoDup_map_inj'; [|apply seq_NoDup]. intros x y Hx Hy. apply in_seq in Hx, Hy. apply Hs; lia. Qed.
  Lemma s_onto r : r < n -> In r (map s (seq 0 n)).
  Proof.
    intros H. assert (J : incl (seq 0 n) (map s (seq 0 n))).
    { apply NoDup_length_incl; [apply s_NoDup|rewrite map_length; auto|]. intros x Hx. apply in_map_iff in Hx as (q & <- & Hq). apply in_seq in Hq. apply in_seq. split; [lia|]. apply Hs. lia. }
    apply J, in_seq. lia.
  Qed.
  Lemma nth_map_s q : q < n -> nth q (map s (seq 0 n)) 0 = s q.
  Proof. intros H. rewrite (nth_indep _ 0 (s 0)) by (rewrite map_length, seq_length; auto). rewrite (map_nth s), seq_nth by auto. reflexivity. Qed.
  Lemma inv_lt r : r < n -> inv r < n.
  Proof. intros H. destruct (index_of_nth r _ (s_onto r H)) as [L _]. rewrite map_length, seq_length in L. exact L. Qed.
  Lemma s_inv r : r < n -> s (inv r) = r.
  Proof. intros H. rewrite <- nth_map_s by (apply inv_lt; auto). apply index_of_nth, s_onto, H. Qed.
  Lemma inv_s q : q < n -> inv (s q) = q.
  Proof. intros H. apply Hs; auto; [apply inv_lt, Hs; auto|]. apply s_inv, Hs, H. Qed.
  Definition wbits (c : list bool) : list bool := map (fun r => nth (inv r) c false) (seq 0 n).
  Lemma wbits_length c : length (wbits c) = n.
  Proof. unfold wbits. rewrite map_length, seq_length. reflexivity. Qed.
  Lemma nth_wbits c r : r < n -> nth r (wbits c) false = nth (inv r) c false.
  Proof. intros H. unfold wbits. set (g := fun r => nth (inv r) c false). rewrite (nth_indep _ false (g 0)) by (rewrite map_length, seq_length; auto). rewrite (map_nth g), seq_nth by auto. reflexivity. Qed.
  Lemma wbits_inj c d : length c = n -> length d = n -> wbits c = wbits d -> c = d.
  Proof.
    intros Hc Hd E. apply bits_ext; [congruence|]. intros q Hq. assert (L : q < n) by lia. apply (f_equal (fun l => nth (s q) l false)) in E.
    rewrite !nth_wbits, !inv_s in E by (auto; apply Hs; auto). exact E.
  Qed.
  Context {K : cring}.
  Add Ring Kring_ri : (kth K).
  Open Scope K_scope.
  Lemma wires_mono : meq (wires (K := K) n s) (mono n (fun c => (1, wbits c))).
  Proof.
    apply (meq_bits n); auto. intros b c Hb Hc. rewrite mono_ent by (auto; apply wbits_length). cbn [ent wires fst snd]. rewrite !bits_bval_n by auto.
    replace (list_eqb Bool.eqb b (wbits c)) with (forallb (fun q => Bool.eqb (nth (s q) b false) (nth q c false)) (seq 0 n)); [reflexivity|].
    rewrite (list_eqb_nth n) by (auto using wbits_length). apply Bool.eq_iff_eq_true. rewrite !forallb_forall. split; intros H r Hr; apply in_seq in Hr.
    - rewrite nth_wbits by lia. rewrite <- (s_inv r) at 1 by lia. apply H, in_seq. split; [lia|]. apply inv_lt. lia.
    - rewrite <- (inv_s r) at 2 by lia. rewrite <- nth_wbits by (apply Hs; lia). apply H, in_seq. split; [lia|]. apply Hs. lia.
  Qed.
  Lemma wires_unitary : unitary (wires (K := K) n s).
  Proof. apply (unitary_ext (mono n (fun c => (1, wbits c)))); [symmetry; apply wires_mono|]. apply perm_unitary; [intros; apply wbits_length|apply wbits_inj]. Qed.
  Context (im : K) (Him : im * im = - (1)).
  Lemma wbits_setb q v c : (q < n)%nat -> length c = n -> setb (s q) v (wbits c) = wbits (setb q v c).
  Proof.
    intros Hq Hc. apply bits_ext; [rewrite setb_length, !wbits_length; auto|]. intros r Hr. rewrite setb_length, wbits_length in Hr.
    rewrite nth_setb by (rewrite wbits_length; apply Hs; auto). rewrite !nth_wbits by auto. rewrite nth_setb by lia.
    destruct (Nat.eqb_spec r (s q)) as [->|N1].
    - rewrite inv_s, Nat.eqb_refl by auto. reflexivity.
    - destruct (Nat.eqb_spec (inv r) q) as [E|N2]; [|reflexivity]. exfalso. apply N1. rewrite <- E. symmetry. apply s_inv. auto.
  Qed.
  Lemma rename_act (t : term pauli) : (forall f, In f t -> (fst f < n)%nat) -> forall c, length c = n ->
    term_act im (rename s t) (wbits c) = (fst (term_act im t c), wbits (snd (term_act im t c))).
  Proof.
    induction t as [|[q p] t IH]; intros Hq c Hc; [reflexivity|]. cbn [rename map fst snd]. fold (rename s t). rewrite !term_act_cons. unfold mcomp.
    rewrite IH by (auto; intros; apply Hq; right; auto). cbn [fst snd factor_act]. set (r := term_act im t c).
    assert (Hr : length (snd r) = n) by (apply term_keeps; auto). assert (Hqn : (q < n)%nat) by (apply (Hq (q, p)); left; auto).
    rewrite nth_wbits, inv_s by (auto; apply Hs; auto). rewrite wbits_setb by auto. reflexivity.
  Qed.
  Lemma rename_matrix (t : term pauli) : (forall f, In f t -> (fst f < n)%nat) ->
    meq (mmul (term_matrix im n (rename s t)) (wires n s)) (mmul (wires n s) (term_matrix im n t)).
  Proof.
    intros Hq. set (w := fun c => (1 : K, wbits c)).
    assert (Kw : keeps n w) by (intros c _; apply wbits_length).
    assert (Hr : forall f, In f (rename s t) -> (fst f < n)%nat) by (intros f Hf; apply in_map_iff in Hf as (g & <- & Hg); cbn; apply Hs, Hq, Hg).
    transitivity (mmul (mono n (term_act im (rename s t))) (mono n w)).
    { apply (mmul_sq (2 ^ n)); [apply term_matrix_shape|split; reflexivity|apply term_matrix_mono; auto|apply wires_mono]. }
    symmetry. transitivity (mmul (mono n w) (mono n (term_act im t))).
    { apply (mmul_sq (2 ^ n)); [split; reflexivity|apply term_matrix_shape|apply wires_mono|apply term_matrix_mono; auto]. }
    rewrite !mono_mmul by (auto using term_keeps). apply mono_ext. intros c Hc. unfold mcomp, w. cbn [fst snd]. rewrite rename_act by auto. cbn [fst snd].
    apply pair_equal_spec; split; [ring|reflexivity].
  Qed.
  (** the operator built by adding the renamed terms one by one *)
  Context (small : K -> bool).
  Definition renamed (a : qop K) : qop K :=
    fold_left (fun o (tc : term pauli * K) => op_add pauli_eqb small o (mk_op (qubit_simplify im) (rename s (fst tc)) (snd tc))) a [].
  Lemma renamed_matrix (a : qop K) : on_qubits n a ->
    exists r : qop K, Forall (fun tc => small (snd tc) = true) r /\ (length r <= length a)%nat /\
      meq (mmul (madd (qop_matrix im n (renamed a)) (qop_matrix im n r)) (wires n s)) (mmul (wires n s) (qop_matrix im n a)).
  Proof.
    intros Ha. set (E := wires (K := K) n s). assert (HE : sq (2 ^ n) E) by (split; reflexivity). unfold renamed.
    assert (G : forall (a : qop K) (o : qop K), on_qubits n a ->
      let o' := fold_left (fun o (tc : term pauli * K) => op_add pauli_eqb small o (mk_op (qubit_simplify im) (rename s (fst tc)) (snd tc))) a o in
      exists r : qop K, Forall (fun tc => small (snd tc) = true) r /\ (length r <= length a)%nat /\
        forall i j, (i < 2 ^ n)%nat -> (j < 2 ^ n)%nat -> lval (psi im n E i j) o' + lval (psi im n E i j) r = lval (psi im n E i j) o + lval (fun t => ent (mmul E (term_matrix im n t)) i j) a).
    { clear a Ha. induction a as [|[t c] a IH]; intros o Ha; cbn zeta; cbn [fold_left fst snd].
      - exists []. split; [constructor|]. split; [cbn; lia|]. intros i j _ _. cbn. ring.
      - set (b := mk_op (qubit_simplify im) (rename s t) c : qop K). destruct (add_count pauli_eqb pauli_eqb_spec small b o) as (r1 & R1 & _ & L1 & V1).
        destruct (IH (op_add pauli_eqb small o b)) as (r2 & R2 & L2 & V2). { intros u d Hu. eapply Ha. right; eauto. }
        exists (r1 ++ r2). split; [apply Forall_app; auto|]. split; [rewrite app_length; unfold b, mk_op in L1; destruct (qubit_simplify im (rename s t) c); cbn [length] in *; lia|]. intros i j Hi Hj. rewrite lval_app. cbn zeta in V2. cbn [lval fst snd].
        match goal with |- ?X + _ = _ => transitivity (X + lval (psi im n E i j) r2 + lval (psi im n E i j) r1); [ring|] end.
        rewrite V2 by auto. transitivity (lval (psi im n E i j) (op_add pauli_eqb small o b) + lval (psi im n E i j) r1 + lval (fun t => ent (mmul E (term_matrix im n t)) i j) a); [ring|].
        rewrite V1. assert (Ht : forall f, In f t -> (fst f < n)%nat) by (intros f Hf; eapply Ha; [left; reflexivity|auto]).
        assert (Hr : forall f, In f (rename s t) -> (fst f < n)%nat) by (intros f Hf; apply in_map_iff in Hf as (g & <- & Hg); cbn; apply Hs, Ht, Hg).
        assert (Eb : lval (psi im n E i j) b = c * ent (mmul E (term_matrix im n t)) i j).
        { rewrite lval_psi. destruct (rename_matrix t Ht) as (_ & _ & X). fold E in X. rewrite <- X; [|cbn; rewrite (proj1 (term_matrix_shape im n _)); auto|auto].
          cbn [ent mmul]. rewrite (proj2 (qop_matrix_shape im n b)), (proj2 (term_matrix_shape im n _)), bigsum_mul_l. apply bigsum_ext. intros k Hk.
          destruct (mk_op_matrix im Him n (rename s t) c Hr) as (S1 & S2 & Y). fold b in Y. rewrite Y; [cbn [ent mscale]; ring| |].
          - rewrite (proj1 (qop_matrix_shape im n b)). auto.
          - rewrite (proj2 (qop_matrix_shape im n b)). auto. }
        rewrite Eb. ring. }
    destruct (G a [] Ha) as (r & R & Rl & V). cbn zeta in V. exists r. split; [auto|]. split; [auto|].
    apply (meq_qop n); try (cbn; apply qop_matrix_shape); try reflexivity. intros i j Hi Hj. specialize (V i j Hi Hj). cbn [lval] in V.
    transitivity (lval (fun t => ent (mmul E (term_matrix im n t)) i j) a).
    - transitivity (0 + lval (fun t => ent (mmul E (term_matrix im n t)) i j) a); [|ring]. rewrite <- V, !lval_psi. cbn [ent mmul madd nc].
      rewrite (proj2 (qop_matrix_shape im n _)), (proj2 (qop_matrix_shape im n _)), <- bigsum_add. apply bigsum_ext. intros k _. ring.
    - cbn [ent mmul nc E wires]. clear V G Ha Rl. induction a as [|[t c] a IH]; cbn [lval fst snd].
      + symmetry. apply bigsum_0. intros k _. cbn. ring.
      + rewrite IH, bigsum_mul_l, <- bigsum_add. apply bigsum_ext. intros k _. cbn [qop_matrix fold_right ent madd mscale fst snd]. fold (qop_matrix im n a). ring.
  Qed.
End Inv.
