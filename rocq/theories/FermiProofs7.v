(** Transforms to qubit operators: what holds for every encoding. *)
From Coq Require Import Permutation Sorted Ring.
From Verif Require Import Base BaseFacts MatModel MatFacts LiftSpec LiftProofs OpModel OpSpec OpProofs PauliProofs OpProofs2 ConjProofs
  FermiModel FermiSpec FermiProofs FermiProofs2 FermiProofs4 PauliBasis FermiProofs6.
Open Scope list_scope.
Local Open Scope nat_scope.

Section Residue.
  Context {K : cring} (small : K -> bool) (n : nat).
  Add Ring Kring_f7 : (kth K).
  Open Scope K_scope.
  Lemma lval_small {A} (phi : term A -> K) (r : sop A K) : all_small small r -> only_zero small -> lval phi r = 0.
  Proof. intros H Hz. induction H as [|[t c] r E H IH]; cbn [lval fst snd]; [reflexivity|]. cbn in E. apply Hz in E. rewrite IH, E. ring. Qed.
  Lemma fop_exact (A B : mat K) (r : fop K) : all_small small r -> only_zero small -> nr A = (2 ^ n)%nat -> nc A = (2 ^ n)%nat -> meq (madd A (fop_matrix n r)) B -> meq A B.
  Proof.
    intros H Hz R C (E1 & E2 & E). split; [exact E1|]. split; [exact E2|]. intros i j Hi Hj. rewrite <- E by auto. cbn [madd ent].
    pose proof (fop_ent n r i j) as X. rewrite X, (lval_small _ r H Hz). ring.
  Qed.
  Lemma qop_exact im (A B : mat K) (r : qop K) : all_small small r -> only_zero small -> nr A = (2 ^ n)%nat -> nc A = (2 ^ n)%nat -> meq (madd A (qop_matrix im n r)) B -> meq A B.
  Proof.
    intros H Hz R C (E1 & E2 & E). split; [exact E1|]. split; [exact E2|]. intros i j Hi Hj. rewrite <- E by auto. cbn [madd ent].
    rewrite (qop_matrix_ent im n r i j), (lval_small _ r H Hz). ring.
  Qed.
End Residue.


Section Canon.
  Context {K : cring} (im : K) (small : K -> bool).
  Definition canonical_op (a : qop K) : Prop := forall t c, In (t, c) a -> canonical t.
  Lemma canonical_keys (a : qop K) : canonical_op a <-> forall t, In t (dkeys a) -> canonical t.
  Proof.
    split.
    - intros H t Ht. apply in_map_iff in Ht as ([u c] & <- & Hin). eapply H; eauto.
    - intros H t c Hin. apply H. apply in_map_iff. exists (t, c). auto.
  Qed.
  Lemma merge_canonical f (b a : qop K) : canonical_op a -> canonical_op b -> canonical_op (fold_left (merge_term pauli_eqb small f) b a).
  Proof.
    rewrite !canonical_keys. revert a. induction b as [|[t c] b IH]; intros a Ha Hb; cbn [fold_left]; [auto|]. apply IH; [|intros u Hu; apply Hb; right; auto].
    intros u Hu. unfold merge_term in Hu. cbn [fst snd] in Hu. cbn zeta in Hu. destruct (small _).
    - apply In_dkeys_ddel, (In_dkeys_dset _ (term_eqb_spec _ pauli_eqb_spec)) in Hu as [->|Hu]; [apply Hb; left; auto|apply Ha; auto].
    - apply (In_dkeys_dset _ (term_eqb_spec _ pauli_eqb_spec)) in Hu as [->|Hu]; [apply Hb; left; auto|apply Ha; auto].
  Qed.
  Lemma mul_canonical (a b : qop K) : canonical_op (op_mul pauli_eqb (qubit_simplify im) a b).
  Proof.
    unfold op_mul.
    assert (G2 : forall lt (b d : qop K), canonical_op d -> canonical_op (fold_left (fun d rt => let '(c', t') := qubit_simplify im (fst lt ++ fst rt) (kmul (snd lt) (snd rt)) in accumulate_term pauli_eqb t' c' d) b d)).
    { intros lt. clear. induction b as [|rt b IH]; intros d Hd; cbn [fold_left]; [auto|]. apply IH.
      pose proof (simplify_canonical im (fst lt ++ fst rt) (kmul (snd lt) (snd rt))) as C. destruct (qubit_simplify im _ _) as [c' t']. cbn [snd] in C.
      rewrite canonical_keys in Hd |- *. intros u Hu. unfold accumulate_term in Hu. destruct (dget _ t' d); apply (In_dkeys_dset _ (term_eqb_spec _ pauli_eqb_spec)) in Hu as [->|Hu]; auto. }
    assert (G1 : forall (a d : qop K), canonical_op d -> canonical_op (fold_left (fun d lt => fold_left (fun d rt => let '(c', t') := qubit_simplify im (fst lt ++ fst rt) (kmul (snd lt) (snd rt)) in accumulate_term pauli_eqb t' c' d) b d) a d)).
    { induction a0 as [|lt a0 IH]; intros d Hd; cbn [fold_left]; [auto|]. apply IH, G2, Hd. }
    apply G1. intros t c [].
  Qed.
End Canon.

Section FOn.
  Context {K : cring} (small : K -> bool) (n : nat).
  Lemma on_keys {A} (a : sop A K) : on_qubits n a <-> forall t, In t (dkeys a) -> forall f, In f t -> fst f < n.
  Proof.
    split.
    - intros H t Ht. apply in_map_iff in Ht as ([u c] & <- & Hin). eapply H; eauto.
    - intros H t c Hin. apply H. apply in_map_iff. exists (t, c). auto.
  Qed.
  Lemma fadd_on (a b : fop K) : on_qubits n a -> on_qubits n b -> on_qubits n (fermion_add small a b).
  Proof.
    unfold fermion_add, op_add. rewrite !on_keys. revert a. induction b as [|[t c] b IH]; intros a Ha Hb; cbn [fold_left]; [auto|]. apply IH; [|intros u Hu; apply Hb; right; auto].
    intros u Hu. unfold merge_term in Hu. cbn [fst snd] in Hu. cbn zeta in Hu. destruct (small _).
    - apply In_dkeys_ddel, (In_dkeys_dset _ (term_eqb_spec _ bool_eqb_spec)) in Hu as [->|Hu]; [apply Hb; left; auto|apply Ha; auto].
    - apply (In_dkeys_dset _ (term_eqb_spec _ bool_eqb_spec)) in Hu as [->|Hu]; [apply Hb; left; auto|apply Ha; auto].
  Qed.
  Lemma fmul_on (a b : fop K) : on_qubits n a -> on_qubits n b -> on_qubits n (fermion_mul a b).
  Proof.
    intros Ha Hb. unfold fermion_mul, op_mul. rewrite on_keys in *.
    assert (G2 : forall lt, (forall f, In f (fst lt) -> fst f < n) -> forall (b d : fop K), (forall t, In t (dkeys b) -> forall f, In f t -> fst f < n) -> (forall t, In t (dkeys d) -> forall f, In f t -> fst f < n) ->
      forall t, In t (dkeys (fold_left (fun d rt => let '(c', t') := fermion_simplify (fst lt ++ fst rt) (kmul (snd lt) (snd rt)) in accumulate_term Bool.eqb t' c' d) b d)) -> forall f, In f t -> fst f < n).
    { intros lt Hl. clear -Hl. induction b as [|rt b IH]; intros d Hb Hd; cbn [fold_left]; [auto|]. apply IH; [intros u Hu; apply Hb; right; auto|].
      unfold fermion_simplify. intros u Hu f Hf. unfold accumulate_term in Hu. assert (X : u = fst lt ++ fst rt \/ In u (dkeys d)) by (destruct (dget _ _ d); apply (In_dkeys_dset _ (term_eqb_spec _ bool_eqb_spec)) in Hu; tauto).
      destruct X as [->|X]; [|eapply Hd; eauto]. apply in_app_or in Hf as [Hf|Hf]; [auto|]. eapply Hb; [left; reflexivity|auto]. }
    assert (G1 : forall (a d : fop K), (forall t, In t (dkeys a) -> forall f, In f t -> fst f < n) -> (forall t, In t (dkeys d) -> forall f, In f t -> fst f < n) ->
      forall t, In t (dkeys (fold_left (fun d lt => fold_left (fun d rt => let '(c', t') := fermion_simplify (fst lt ++ fst rt) (kmul (snd lt) (snd rt)) in accumulate_term Bool.eqb t' c' d) b d) a d)) -> forall f, In f t -> fst f < n).
    { clear -G2 Hb. induction a as [|lt a IH]; intros d Ha Hd; cbn [fold_left]; [auto|]. apply IH; [intros u Hu; apply Ha; right; auto|]. apply G2; auto. apply Ha. left; auto. }
    apply G1; auto. intros t [].
  Qed.
End FOn.

Section Common.
  Context {K : cring} (im : K) (Him : kmul im im = kopp k1) (small : K -> bool) (n : nat) (E : mat K) (HE : sq (2 ^ n) E) (UE : unitary E).
  Add Ring Kring_f72 : (kth K).
  Open Scope K_scope.
  Notation M := (qop_matrix im n).
  Notation FM := (fop_matrix (K := K) n).
  Notation qadd := (op_add pauli_eqb small).
  Notation qmul := (op_mul pauli_eqb (qubit_simplify im)).
  Lemma sq_qop (a : qop K) : sq (2 ^ n) (M a). Proof. apply qop_matrix_shape. Qed.
  Lemma sq_fop (a : fop K) : sq (2 ^ n) (FM a). Proof. apply fop_shape. Qed.
  Lemma sq_madd (A B : mat K) N : sq N A -> sq N B -> sq N (madd A B). Proof. intros H _. exact H. Qed.
  Hint Resolve sq_qop sq_fop sq_madd sq_mmul HE : sqc.
  Lemma untwist (A B : mat K) : sq (2 ^ n) A -> sq (2 ^ n) B -> meq (mmul A E) (mmul B E) -> meq A B.
  Proof.
    intros HA HB H. assert (HE' : sq (2 ^ n) (adjoint E)) by (apply sq_adjoint; auto).
    assert (X : forall C, sq (2 ^ n) C -> meq (mmul (mmul C E) (adjoint E)) C).
    { intros C HC. etransitivity; [apply (assoc_sq (2 ^ n)); auto|]. etransitivity; [apply (mmul_sq (2 ^ n)); [auto|apply sq_mmul; auto|reflexivity|apply (unitary_r (2 ^ n)); auto]|].
      apply eye_r_sq; auto. }
    etransitivity; [symmetry; apply X; auto|]. etransitivity; [|apply X; auto]. apply (mmul_sq (2 ^ n)); auto using sq_mmul. reflexivity.
  Qed.
  Lemma madd_mmul_r (A B C : mat K) N : sq N A -> sq N B -> sq N C -> meq (mmul (madd A B) C) (madd (mmul A C) (mmul B C)).
  Proof.
    intros [A1 A2] [B1 B2] [C1 C2]. split; [reflexivity|]. split; [reflexivity|]. intros i j _ _. cbn [ent mmul madd nc]. rewrite A2, B2. rewrite <- bigsum_add.
    apply bigsum_ext. intros. ring.
  Qed.
  Lemma madd_mmul_l (A B C : mat K) N : sq N A -> sq N B -> sq N C -> meq (mmul C (madd A B)) (madd (mmul C A) (mmul C B)).
  Proof.
    intros [A1 A2] [B1 B2] [C1 C2]. split; [reflexivity|]. split; [reflexivity|]. intros i j _ _. cbn [ent mmul madd nc]. rewrite <- bigsum_add.
    apply bigsum_ext. intros. ring.
  Qed.
  Lemma mul_transfer (A B a b : mat K) : sq (2 ^ n) A -> sq (2 ^ n) B -> sq (2 ^ n) a -> sq (2 ^ n) b -> meq (mmul A E) (mmul E a) -> meq (mmul B E) (mmul E b) ->
    meq (mmul (mmul A B) E) (mmul E (mmul a b)).
  Proof.
    intros HA HB Ha Hb EA EB. etransitivity; [apply (assoc_sq (2 ^ n)); auto|]. etransitivity; [apply (mmul_sq (2 ^ n)); [auto|apply sq_mmul; auto|reflexivity|exact EB]|].
    etransitivity; [symmetry; apply (assoc_sq (2 ^ n)); auto|]. etransitivity; [apply (mmul_sq (2 ^ n)); [apply sq_mmul; auto|auto|exact EA|reflexivity]|].
    apply (assoc_sq (2 ^ n)); auto.
  Qed.
  Lemma add_transfer (A B a b : mat K) : sq (2 ^ n) A -> sq (2 ^ n) B -> sq (2 ^ n) a -> sq (2 ^ n) b -> meq (mmul A E) (mmul E a) -> meq (mmul B E) (mmul E b) ->
    meq (mmul (madd A B) E) (mmul E (madd a b)).
  Proof.
    intros HA HB Ha Hb EA EB. etransitivity; [apply (madd_mmul_r _ _ _ (2 ^ n)); auto|].
    etransitivity; [|symmetry; apply (madd_mmul_l _ _ _ (2 ^ n)); auto]. apply madd_ext; [cbn; rewrite (proj1 HA), (proj1 HB); auto|reflexivity|auto|auto].
  Qed.
  Lemma car_transfer (A B a b : mat K) k : sq (2 ^ n) A -> sq (2 ^ n) B -> sq (2 ^ n) a -> sq (2 ^ n) b -> meq (mmul A E) (mmul E a) -> meq (mmul B E) (mmul E b) ->
    meq (madd (mmul a b) (mmul b a)) (mscale k (eye (2 ^ n))) -> meq (madd (mmul A B) (mmul B A)) (mscale k (eye (2 ^ n))).
  Proof.
    intros HA HB Ha Hb EA EB C. apply untwist; [auto with sqc|split; reflexivity|].
    etransitivity; [apply (add_transfer _ _ (mmul a b) (mmul b a)); [auto with sqc|auto with sqc|auto with sqc|auto with sqc|apply mul_transfer; auto|apply mul_transfer; auto]|].
    etransitivity; [apply (mmul_sq (2 ^ n)); [auto|auto with sqc|reflexivity|exact C]|].
    assert (X1 : meq (mmul E (mscale k (eye (2 ^ n)))) (mscale k E)).
    { etransitivity; [|apply mscale_ext, eye_r_sq, HE]. split; [reflexivity|]. split; [reflexivity|]. intros i j _ _. cbn [ent mmul mscale nc]. rewrite bigsum_mul_l. apply bigsum_ext. intros. ring. }
    assert (X2 : meq (mmul (mscale k (eye (2 ^ n))) E) (mscale k E)).
    { etransitivity; [|apply mscale_ext, eye_l_sq, HE]. split; [reflexivity|]. split; [reflexivity|]. intros i j _ _. cbn [ent mmul mscale nc]. rewrite bigsum_mul_l. apply bigsum_ext. intros. ring. }
    etransitivity; [exact X1|]. symmetry. exact X2.
  Qed.
  Context (L : factor bool -> qop K).
  Context (HL : forall f, fst f < n -> on_qubits n (L f) /\ meq (mmul (M (L f)) E) (mmul E (ladder_matrix n f))).
  Notation T := (image im small L).
  Lemma ladder_images_car f g : fst f < n -> fst g < n ->
    meq (madd (mmul (M (L f)) (M (L g))) (mmul (M (L g)) (M (L f)))) (mscale (car f g) (eye (2 ^ n))).
  Proof.
    intros Hf Hg. apply (car_transfer _ _ (ladder_matrix n f) (ladder_matrix n g)); auto with sqc; try (split; reflexivity); [apply HL; auto|apply HL; auto|apply ladder_car; auto].
  Qed.
  Lemma image_exact (a : fop K) : on_qubits n a -> only_zero small -> meq (mmul (M (T a)) E) (mmul E (FM a)).
  Proof.
    intros Ha Hz. destruct (image_matrix im Him small n L E HE HL a Ha) as (r & R & _ & X). etransitivity; [|exact X].
    split; [reflexivity|]. split; [reflexivity|]. intros i j _ _. cbn [ent mmul madd nc]. apply bigsum_ext. intros l _. rewrite (qop_matrix_ent im n r), (lval_small small _ r R Hz). ring.
  Qed.
  Lemma image_wf (a : fop K) : wf_op (T a).
  Proof.
    unfold image. assert (G : forall (a : fop K) (o : qop K), wf_op o -> wf_op (fold_left (fun o (tc : fterm * K) => qadd o (term_image im L (fst tc) (snd tc))) a o)).
    { clear. induction a as [|tc a IH]; intros o W; cbn [fold_left]; [auto|]. apply IH. apply (merge_wf pauli_eqb pauli_eqb_spec), W. }
    apply G. constructor.
  Qed.
  Lemma image_canonical (a : fop K) : canonical_op (T a).
  Proof.
    unfold image. assert (G : forall (a : fop K) (o : qop K), canonical_op o -> canonical_op (fold_left (fun o (tc : fterm * K) => qadd o (term_image im L (fst tc) (snd tc))) a o)).
    { clear. induction a as [|tc a IH]; intros o W; cbn [fold_left]; [auto|]. apply IH. apply merge_canonical; [auto|]. unfold term_image.
      assert (X : forall t q, canonical_op q -> canonical_op (fold_left (fun q f => qmul q (L f)) t q)) by (induction t as [|f t IHt]; intros q Hq; cbn [fold_left]; [auto|apply IHt, mul_canonical]).
      apply X. intros t c [H|[]]. inversion H; subst. constructor. }
    apply G. intros t c [].
  Qed.
  Lemma image_mul (a b : fop K) : on_qubits n a -> on_qubits n b -> only_zero small -> meq (M (T (fermion_mul a b))) (mmul (M (T a)) (M (T b))).
  Proof.
    intros Ha Hb Hz. apply untwist; auto with sqc. etransitivity; [apply image_exact; auto; apply fmul_on; auto|].
    etransitivity; [|symmetry; apply (mul_transfer _ _ (FM a) (FM b)); auto using image_exact with sqc]. apply (mmul_sq (2 ^ n)); auto with sqc; [reflexivity|apply fop_mul_matrix].
  Qed.
  Lemma image_add (a b : fop K) : on_qubits n a -> on_qubits n b -> only_zero small -> meq (M (T (fermion_add small a b))) (madd (M (T a)) (M (T b))).
  Proof.
    intros Ha Hb Hz. apply untwist; auto with sqc. etransitivity; [apply image_exact; auto; apply fadd_on; auto|].
    etransitivity; [|symmetry; apply (add_transfer _ _ (FM a) (FM b)); auto using image_exact with sqc]. apply (mmul_sq (2 ^ n)); auto with sqc; [reflexivity|].
    destruct (fop_add_matrix n small a b) as (r & R & _ & X). apply (fop_exact small n _ _ r); auto; apply sq_fop.
  Qed.
  Context (half : K) (Hhalf : half + half = 1).
  Lemma image_mul_coef (a b : fop K) t : on_qubits n a -> on_qubits n b -> only_zero small -> coef pauli_eqb (T (fermion_mul a b)) t = coef pauli_eqb (qmul (T a) (T b)) t.
  Proof.
    intros Ha Hb Hz. assert (Oa : on_qubits n (T a)) by (apply (image_on im small n L E); auto). assert (Ob : on_qubits n (T b)) by (apply (image_on im small n L E); auto).
    apply (pauli_independent im Him half Hhalf n); auto using image_wf, image_canonical, mul_canonical; [apply (mul_wf pauli_eqb pauli_eqb_spec)|apply (image_on im small n L E); auto; apply fmul_on; auto|apply mul_on_qubits; auto| | |].
    - apply image_canonical.
    - apply mul_canonical.
    - etransitivity; [apply image_mul; auto|]. symmetry. apply qop_mul_matrix; auto.
  Qed.
  Lemma qadd_on (a b : qop K) : on_qubits n a -> on_qubits n b -> on_qubits n (qadd a b).
  Proof.
    unfold op_add. rewrite !on_keys. revert a. induction b as [|[t c] b IH]; intros a Ha Hb; cbn [fold_left]; [auto|]. apply IH; [|intros u Hu; apply Hb; right; auto].
    intros u Hu. unfold merge_term in Hu. cbn [fst snd] in Hu. cbn zeta in Hu. destruct (small _).
    - apply In_dkeys_ddel, (In_dkeys_dset _ (term_eqb_spec _ pauli_eqb_spec)) in Hu as [->|Hu]; [apply Hb; left; auto|apply Ha; auto].
    - apply (In_dkeys_dset _ (term_eqb_spec _ pauli_eqb_spec)) in Hu as [->|Hu]; [apply Hb; left; auto|apply Ha; auto].
  Qed.
  Lemma qadd_exact (a b : qop K) : only_zero small -> meq (M (qadd a b)) (madd (M a) (M b)).
  Proof.
    intros Hz. destruct (qop_merge_matrix im n kadd small 1 a b) as (r & R & _ & _ & X); [intros; ring|]. apply (qop_exact small n im _ _ r); auto; try apply sq_qop.
    etransitivity; [exact X|]. split; [reflexivity|]. split; [reflexivity|]. intros i j _ _. cbn [ent madd mscale]. ring.
  Qed.
  Lemma image_add_coef (a b : fop K) t : on_qubits n a -> on_qubits n b -> only_zero small -> coef pauli_eqb (T (fermion_add small a b)) t = coef pauli_eqb (qadd (T a) (T b)) t.
  Proof.
    intros Ha Hb Hz. assert (Oa : on_qubits n (T a)) by (apply (image_on im small n L E); auto). assert (Ob : on_qubits n (T b)) by (apply (image_on im small n L E); auto).
    apply (pauli_independent im Him half Hhalf n); [apply image_wf|apply (merge_wf pauli_eqb pauli_eqb_spec), image_wf|apply (image_on im small n L E); auto; apply fadd_on; auto|apply qadd_on; auto| | |].
    - apply image_canonical.
    - apply merge_canonical; apply image_canonical.
    - etransitivity; [apply image_add; auto|]. symmetry. apply qadd_exact; auto.
  Qed.
  Lemma image_conj_coef (a : fop K) t : kconj im = - im -> wf_op a -> on_qubits n a -> only_zero small -> coef pauli_eqb (T (fermion_conjugated a)) t = coef pauli_eqb (qubit_conjugated (T a)) t.
  Proof.
    intros Hc W Ha Hz. assert (Oa : on_qubits n (T a)) by (apply (image_on im small n L E); auto). assert (Of : on_qubits n (fermion_conjugated a)) by (apply fermion_conjugated_on; auto).
    apply (pauli_independent im Him half Hhalf n); [apply image_wf|apply qubit_conjugated_wf, image_wf|apply (image_on im small n L E); auto|apply qubit_conjugated_on; auto; apply image_wf| | |].
    - apply image_canonical.
    - apply qubit_conjugated_canonical; [apply image_wf|apply image_canonical].
    - assert (HE' : sq (2 ^ n) (adjoint E)) by (apply sq_adjoint; auto).
      assert (X : forall b, on_qubits n b -> meq (M (T b)) (mmul E (mmul (FM b) (adjoint E)))).
      { intros b Hb. etransitivity; [|apply (assoc_sq (2 ^ n)); auto with sqc].
        apply untwist; auto with sqc. etransitivity; [apply image_exact; auto|]. symmetry.
        etransitivity; [apply (assoc_sq (2 ^ n)); auto with sqc|]. etransitivity; [apply (mmul_sq (2 ^ n)); [auto with sqc|auto with sqc|reflexivity|apply (unitary_l (2 ^ n)); auto]|].
        apply eye_r_sq; auto with sqc. }
      etransitivity; [apply X; auto|]. symmetry. etransitivity; [apply (qop_adjoint n im Hc); auto; [apply image_wf|apply image_canonical]|].
      etransitivity; [apply adjoint_ext, X; auto|]. etransitivity; [apply adjoint_mmul; cbn; rewrite (proj2 HE), (proj1 (sq_fop a)); auto|].
      etransitivity; [apply (mmul_sq (2 ^ n)); [apply sq_adjoint; auto with sqc|auto|apply adjoint_mmul; cbn; rewrite (proj2 (sq_fop a)), (proj2 HE); auto|reflexivity]|].
      etransitivity; [apply (mmul_sq (2 ^ n)); [apply sq_mmul; [apply sq_adjoint; auto|apply sq_adjoint; auto with sqc]|auto|apply (mmul_sq (2 ^ n)); [apply sq_adjoint; auto|apply sq_adjoint; auto with sqc|apply adjoint_invol|symmetry; apply fop_adjoint; auto]|reflexivity]|].
      apply (assoc_sq (2 ^ n)); auto with sqc.
  Qed.
End Common.
