(** Pauli terms as monomial matrices: a term maps each basis state to a multiple of a basis state. *)
From Coq Require Import Permutation Sorted Ring.
From Verif Require Import Base BaseFacts MatModel MatFacts LiftSpec LiftProofs OpModel OpSpec OpProofs.
Open Scope list_scope.
Local Open Scope nat_scope.

(** ** Setting one bit *)
Fixpoint setb (q : nat) (v : bool) (b : list bool) : list bool :=
  match b with [] => [] | x :: b' => match q with O => v :: b' | S q' => x :: setb q' v b' end end.
Lemma setb_length q v b : length (setb q v b) = length b.
Proof. revert q; induction b as [|x b IH]; intros [|q]; cbn; auto. Qed.
Lemma nth_setb_same q v b : q < length b -> nth q (setb q v b) false = v.
Proof. revert q; induction b as [|x b IH]; intros [|q]; cbn; intros H; try lia; auto. apply IH; lia. Qed.
Lemma nth_setb_other q r v b : q <> r -> nth q (setb r v b) false = nth q b false.
Proof. revert q r; induction b as [|x b IH]; intros [|q] [|r]; cbn; intros H; try lia; auto. Qed.
Lemma nth_setb q r v b : q < length b -> nth r (setb q v b) false = if Nat.eqb r q then v else nth r b false.
Proof. intros H. destruct (Nat.eqb_spec r q) as [->|N]; [apply nth_setb_same|apply nth_setb_other]; auto. Qed.
Lemma setb_setb q v w b : setb q v (setb q w b) = setb q v b.
Proof. revert q; induction b as [|x b IH]; intros [|q]; cbn; auto. rewrite IH; auto. Qed.
Lemma setb_comm q r v w b : q <> r -> setb q v (setb r w b) = setb r w (setb q v b).
Proof. revert q r; induction b as [|x b IH]; intros [|q] [|r]; cbn; intros H; try lia; auto. rewrite IH; auto. Qed.
Lemma setb_nth q b : setb q (nth q b false) b = b.
Proof. revert q; induction b as [|x b IH]; intros [|q]; cbn; auto. rewrite IH; auto. Qed.
Lemma bits_ext (b c : list bool) : length b = length c -> (forall i, i < length b -> nth i b false = nth i c false) -> b = c.
Proof. intros HL H. apply (nth_ext _ _ false false); auto. Qed.
Lemma agree_setb n q b c : length b = n -> length c = n -> q < n ->
  agree_outside n [q] b c = true <-> b = setb q (nth q b false) c.
Proof.
  intros Hb Hc Hq. rewrite agree_spec. split.
  - intros H. apply bits_ext; [rewrite setb_length; lia|]. intros i Hi. rewrite nth_setb by lia.
    destruct (Nat.eqb_spec i q) as [->|N]; auto. apply H; [lia|]. intros [E|[]]; congruence.
  - intros E i Hi Hn. rewrite E, nth_setb_other; auto. intros ->. apply Hn; left; auto.
Qed.

Section Mono.
  Context {K : cring}.
  Add Ring Kring_pauli : (kth K).
  Open Scope K_scope.

  (** The matrix that sends basis state c to (fst (act c)) times basis state (snd (act c)). *)
  Definition mono (n : nat) (act : list bool -> K * list bool) : mat K :=
    Build_mat (2 ^ n) (2 ^ n) (fun i j => let '(c, b) := act (bits n j) in if Nat.eqb i (bval b) then c else 0).
  Lemma mono_ent n act b c : length b = n -> length c = n -> length (snd (act c)) = n ->
    ent (mono n act) (bval b) (bval c) = if list_eqb Bool.eqb b (snd (act c)) then fst (act c) else 0.
  Proof.
    intros Hb Hc Ha. cbn [ent mono]. rewrite bits_bval_n by auto. destruct (act c) as [x d]; cbn in *. rewrite eqb_bval by congruence. reflexivity.
  Qed.
  Lemma mmul_mono_r n (M : mat K) act i c : nc M = (2 ^ n)%nat -> length c = n -> length (snd (act c)) = n ->
    ent (mmul M (mono n act)) i (bval c) = ent M i (bval (snd (act c))) * fst (act c).
  Proof.
    intros HM Hc Ha. cbn [ent mmul mono]. rewrite HM, bits_bval_n by auto. destruct (act c) as [x d]; cbn [fst snd] in *.
    rewrite (bigsum_single _ (bval d)).
    - rewrite Nat.eqb_refl. reflexivity.
    - rewrite <- Ha. apply bval_lt.
    - intros l Hl N. apply Nat.eqb_neq in N. rewrite N. ring.
  Qed.
  Definition mcomp (f g : list bool -> K * list bool) (c : list bool) : K * list bool :=
    (fst (f (snd (g c))) * fst (g c), snd (f (snd (g c)))).
  Definition keeps (n : nat) (f : list bool -> K * list bool) : Prop := forall c, length c = n -> length (snd (f c)) = n.
  Lemma mono_mmul n f g : keeps n f -> keeps n g -> meq (mmul (mono n f) (mono n g)) (mono n (mcomp f g)).
  Proof.
    intros Hf Hg. apply (meq_bits n); auto. intros b c Hb Hc. rewrite mmul_mono_r by (auto; apply Hg; auto).
    rewrite !mono_ent; auto; [|apply Hf, Hg; auto]. unfold mcomp; cbn [fst snd]. destruct (list_eqb _ _ _); ring.
  Qed.
  Lemma mono_ext n f g : (forall c, length c = n -> f c = g c) -> meq (mono n f) (mono n g).
  Proof.
    intros H. split; [auto|]. split; [auto|]. intros i j Hi Hj. cbn [ent mono]. rewrite H by apply bits_length. reflexivity.
  Qed.
  Lemma mono_eye n : meq (mono n (fun c => (1, c))) (eye (2 ^ n)).
  Proof.
    split; [auto|]. split; [auto|]. intros i j Hi Hj. cbn [ent mono eye]. rewrite bval_bits_small by auto. reflexivity.
  Qed.

  Context (im : K) (Him : im * im = - (1)).
  (** action of a Pauli matrix on a basis state of one qubit *)
  Definition pauli_bit (p : pauli) (x : bool) : K * bool :=
    match p with
    | Pid => (1, x) | Px => (1, negb x) | Py => (if x then - im else im, negb x) | Pz => (if x then - (1) else 1, x)
    end.
  Lemma pauli_matrix_ent p x y :
    ent (pauli_matrix im p) (bval [x]) (bval [y]) = if Bool.eqb x (snd (pauli_bit p y)) then fst (pauli_bit p y) else 0.
  Proof. destruct p, x, y; reflexivity. Qed.
  Definition factor_act (f : factor pauli) (b : list bool) : K * list bool :=
    let r := pauli_bit (snd f) (nth (fst f) b false) in (fst r, setb (fst f) (snd r) b).
  Fixpoint term_act (t : term pauli) : list bool -> K * list bool :=
    match t with [] => fun b => (1, b) | f :: t' => mcomp (factor_act f) (term_act t') end.
  Lemma factor_keeps n f : keeps n (factor_act f).
  Proof. intros c Hc. cbn. rewrite setb_length. auto. Qed.
  Lemma term_keeps n t : keeps n (term_act t).
  Proof. induction t as [|f t IH]; intros c Hc; cbn; [auto|]. rewrite setb_length. apply IH; auto. Qed.
  Lemma embed_mono n f : fst f < n -> meq (embed n [fst f] (pauli_matrix im (snd f))) (mono n (factor_act f)).
  Proof.
    destruct f as [q p]; cbn [fst snd]. intros Hq. apply (meq_bits n); auto. intros b c Hb Hc.
    rewrite embed_ent, mono_ent by (auto; cbn; rewrite setb_length; auto). cbn [select map]. rewrite pauli_matrix_ent.
    cbn [factor_act fst snd].
    destruct (list_eqb Bool.eqb b (setb q (snd (pauli_bit p (nth q c false))) c)) eqn:E.
    - apply (list_eqb_spec _ bool_eqb_spec) in E.
      assert (N : nth q b false = snd (pauli_bit p (nth q c false))) by (rewrite E, nth_setb_same; auto; lia).
      rewrite (proj2 (agree_setb n q b c Hb Hc Hq)) by (rewrite N; auto). rewrite N, Bool.eqb_reflx. reflexivity.
    - destruct (agree_outside n [q] b c) eqn:G; [|reflexivity]. apply agree_setb in G; auto.
      destruct (Bool.eqb (nth q b false) (snd (pauli_bit p (nth q c false)))) eqn:B; [|reflexivity].
      apply Bool.eqb_prop in B. rewrite B in G. rewrite <- G in E.
      rewrite (eqb_spec_refl _ (list_eqb_spec _ bool_eqb_spec)) in E. discriminate.
  Qed.
  Lemma term_matrix_shape n t : nr (term_matrix im n t) = (2 ^ n)%nat /\ nc (term_matrix im n t) = (2 ^ n)%nat.
  Proof. induction t as [|f t [IH1 IH2]]; cbn; auto. Qed.
  Lemma term_matrix_mono n t : (forall f, In f t -> fst f < n) -> meq (term_matrix im n t) (mono n (term_act t)).
  Proof.
    induction t as [|f t IH]; intros H; cbn [term_matrix fold_right].
    - symmetry. apply mono_eye.
    - fold (term_matrix im n t). transitivity (mmul (mono n (factor_act f)) (mono n (term_act t))).
      + apply mmul_ext; [cbn; symmetry; apply term_matrix_shape|apply embed_mono, H; left; auto|apply IH; intros; apply H; right; auto].
      + apply mono_mmul; auto using factor_keeps, term_keeps.
  Qed.

  (** ** Algebra of factors *)
  Lemma mcomp_assoc f g h c : mcomp (mcomp f g) h c = mcomp f (mcomp g h) c.
  Proof. unfold mcomp; cbn [fst snd]. f_equal. ring. Qed.
  Lemma term_act_app t1 t2 c : term_act (t1 ++ t2) c = mcomp (term_act t1) (term_act t2) c.
  Proof.
    revert c. induction t1 as [|f t1 IH]; intros c; cbn [app term_act].
    - unfold mcomp; cbn. destruct (term_act t2 c); cbn. f_equal; ring.
    - rewrite mcomp_assoc. unfold mcomp at 1 2. rewrite IH. reflexivity.
  Qed.
  Lemma factor_comm f g c : fst f <> fst g -> mcomp (factor_act f) (factor_act g) c = mcomp (factor_act g) (factor_act f) c.
  Proof.
    intros N. unfold mcomp, factor_act; cbn [fst snd]. rewrite !nth_setb_other by auto. f_equal; [ring|]. apply setb_comm; auto.
  Qed.
  Lemma factor_same q p1 p2 c : q < length c ->
    let '(d, p) := pauli_product im p1 p2 in
    mcomp (factor_act (q, p1)) (factor_act (q, p2)) c = (d * fst (factor_act (q, p) c), snd (factor_act (q, p) c)).
  Proof.
    intros Hq. destruct (pauli_product im p1 p2) as [d p] eqn:E. unfold mcomp, factor_act; cbn [fst snd]. rewrite nth_setb_same, setb_setb by auto.
    assert (G : fst (pauli_bit p1 (snd (pauli_bit p2 (nth q c false)))) * fst (pauli_bit p2 (nth q c false)) = d * fst (pauli_bit p (nth q c false)) /\
                snd (pauli_bit p1 (snd (pauli_bit p2 (nth q c false)))) = snd (pauli_bit p (nth q c false))).
    { destruct p1, p2; cbn in E; injection E as <- <-; destruct (nth q c false); cbn [pauli_bit fst snd negb]; split; auto; first [ring | ring [Him]]. }
    destruct G as [-> ->]. reflexivity.
  Qed.
  Lemma factor_id q c : factor_act (q, Pid) c = (1, c).
  Proof. unfold factor_act; cbn. rewrite setb_nth. reflexivity. Qed.

  Lemma term_act_cons f t c : term_act (f :: t) c = mcomp (factor_act f) (term_act t) c.
  Proof. reflexivity. Qed.
  Lemma term_act_cons_ext f t1 t2 c : term_act t1 c = term_act t2 c -> term_act (f :: t1) c = term_act (f :: t2) c.
  Proof. intros E. rewrite !term_act_cons. unfold mcomp. rewrite E. reflexivity. Qed.
  Lemma term_act_swap f g t c : fst f <> fst g -> term_act (f :: g :: t) c = term_act (g :: f :: t) c.
  Proof. intros N. cbn [term_act]. rewrite <- !mcomp_assoc. unfold mcomp at 1 3. rewrite factor_comm by auto. reflexivity. Qed.
  Lemma term_act_insert f t c : term_act (insert_by index_leb f t) c = term_act (f :: t) c.
  Proof.
    induction t as [|g t IH]; cbn [insert_by]; [reflexivity|]. destruct (index_leb f g) eqn:E; [reflexivity|].
    rewrite (term_act_cons_ext g _ (f :: t)) by auto. apply term_act_swap. apply Nat.leb_gt in E. lia.
  Qed.
  Lemma term_act_sort t c : term_act (sort_by index_leb t) c = term_act t c.
  Proof. induction t as [|f t IH]; cbn [sort_by]; [reflexivity|]. rewrite term_act_insert. apply term_act_cons_ext; auto. Qed.
  Definition scaled (c : K) (r : K * list bool) : K * list bool := (c * fst r, snd r).
  Lemma mcomp_scaled_r f g c d b r : g b = scaled d r -> c * fst (mcomp f g b) = c * d * (fst (f (snd r)) * fst r) /\ snd (mcomp f g b) = snd (f (snd r)).
  Proof. intros E. unfold mcomp. rewrite E. cbn. split; [ring|auto]. Qed.
  Lemma merge_factors_act l : forall lf c b, (forall f, In f (lf :: l) -> fst f < length b) ->
    let '(c', t) := merge_factors im lf l c in scaled c' (term_act t b) = scaled c (term_act (lf :: l) b).
  Proof.
    induction l as [|rf l IH]; intros lf c b H; cbn [merge_factors].
    - destruct (pauli_eqb (snd lf) Pid) eqn:E; [|reflexivity]. apply pauli_eqb_spec in E. destruct lf as [q p]; cbn in E; subst p.
      rewrite term_act_cons. unfold mcomp. cbn [term_act fst snd]. rewrite factor_id. unfold scaled; cbn [fst snd]. f_equal; ring.
    - destruct (Nat.eqb_spec (fst lf) (fst rf)) as [Q|N].
      + destruct lf as [q p1], rf as [q2 p2]; cbn [fst snd] in *. subst q2. destruct (pauli_product im p1 p2) as [d p] eqn:E.
        specialize (IH (q, p) (c * d) b). destruct (merge_factors im (q, p) l (c * d)) as [c' t].
        rewrite IH by (intros f [<-|Hf]; [apply (H (q, p1)); left|apply H; right; right]; auto). cbn [term_act]. rewrite <- mcomp_assoc. unfold mcomp at 2.
        pose proof (factor_same q p1 p2 (snd (term_act l b))) as F. rewrite (term_keeps (length b) l) in F by auto.
        specialize (F (H (q, p1) (or_introl eq_refl))). rewrite E in F. rewrite F. unfold mcomp, scaled; cbn [fst snd]. f_equal. ring.
      + specialize (IH rf c b). destruct (merge_factors im rf l c) as [c' t]. specialize (IH ltac:(intros; apply H; right; auto)).
        assert (G : scaled c' (term_act (lf :: t) b) = scaled c (term_act (lf :: rf :: l) b)).
        { rewrite !(term_act_cons lf). unfold scaled in *. apply pair_equal_spec in IH as [E1 E2]. unfold mcomp. rewrite E2. cbn [fst snd]. f_equal.
          transitivity (fst (factor_act lf (snd (term_act (rf :: l) b))) * (c' * fst (term_act t b))); [ring|]. rewrite E1. ring. }
        destruct (pauli_eqb (snd lf) Pid) eqn:E; [|exact G]. apply pauli_eqb_spec in E. destruct lf as [q p]; cbn in E; subst p.
        rewrite <- G, (term_act_cons (q, Pid) t). unfold mcomp. rewrite factor_id. unfold scaled; cbn [fst snd]. f_equal; ring.
  Qed.
  Lemma simplify_act t c b : (forall f, In f t -> fst f < length b) ->
    let '(c', t') := qubit_simplify im t c in scaled c' (term_act t' b) = scaled c (term_act t b).
  Proof.
    intros H. unfold qubit_simplify. rewrite <- (term_act_sort t b).
    assert (H' : forall f, In f (sort_by index_leb t) -> fst f < length b).
    { intros f Hf. apply H. eapply Permutation_in; [apply sort_by_perm|]. exact Hf. }
    destruct (sort_by index_leb t) as [|f l]; [reflexivity|]. apply merge_factors_act. auto.
  Qed.

  (** ** Canonical forms *)
  Lemma index_sort_sorted (t : term pauli) : StronglySorted (fun f g => index_leb f g = true) (sort_by index_leb t).
  Proof.
    apply sort_by_sorted.
    - intros f g. unfold index_leb. rewrite !Nat.leb_le. lia.
    - intros f g h. unfold index_leb. rewrite !Nat.leb_le. lia.
  Qed.
  Definition above (q : nat) (t : term pauli) : Prop := forall f, In f t -> q <= fst f.
  Lemma canonical_cons_intro f t : snd f <> Pid -> (forall g, In g t -> fst f < fst g) -> canonical t -> canonical (f :: t).
  Proof. intros H1 H2 H3. cbn. split; [auto|]. split; [|auto]. destruct t; auto. apply H2; left; auto. Qed.
  Lemma merge_factors_canonical l : forall lf c, StronglySorted (fun f g => index_leb f g = true) (lf :: l) ->
    canonical (snd (merge_factors im lf l c)) /\ above (fst lf) (snd (merge_factors im lf l c)).
  Proof.
    induction l as [|rf l IH]; intros lf c Hs; cbn [merge_factors].
    - destruct (pauli_eqb (snd lf) Pid) eqn:E; cbn [snd]; [split; [exact I|intros ? []]|]. split.
      + apply canonical_cons_intro; [|intros ? []|exact I]. apply (eqb_spec_false _ pauli_eqb_spec) in E. auto.
      + intros f [<-|[]]; lia.
    - inversion Hs as [|x y Hs' Hf]; subst. inversion Hs' as [|x y Hs'' Hf']; subst. inversion Hf as [|x y Hlr Hf'']; subst.
      destruct (Nat.eqb_spec (fst lf) (fst rf)) as [Q|N].
      + destruct (pauli_product im (snd lf) (snd rf)) as [d p]. apply (IH (fst lf, p)). constructor; auto.
      + specialize (IH rf c Hs'). destruct (merge_factors im rf l c) as [c' t]. cbn [snd] in *. destruct IH as [IH1 IH2].
        apply Nat.leb_le in Hlr. destruct (pauli_eqb (snd lf) Pid) eqn:E.
        * split; [auto|]. intros f Hin. apply IH2 in Hin. lia.
        * split.
          -- apply canonical_cons_intro; auto; [apply (eqb_spec_false _ pauli_eqb_spec) in E; auto|]. intros g Hg. apply IH2 in Hg. lia.
          -- intros f [<-|Hin]; [lia|]. apply IH2 in Hin. lia.
  Qed.
  Lemma simplify_canonical t c : canonical (snd (qubit_simplify im t c)).
  Proof.
    unfold qubit_simplify. pose proof (index_sort_sorted t) as H. destruct (sort_by index_leb t); [exact I|]. apply merge_factors_canonical; auto.
  Qed.
  Lemma canonical_head f t : canonical (f :: t) -> forall g, In g t -> fst f < fst g.
  Proof.
    revert f; induction t as [|h t IH]; intros f H g; [intros []|]. destruct H as (H1 & H2 & H3). intros [<-|Hg]; [auto|].
    specialize (IH h H3 g Hg). lia.
  Qed.
  Lemma canonical_sorted t : canonical t -> sort_by index_leb t = t.
  Proof.
    induction t as [|f t IH]; intros H; cbn [sort_by]; [auto|]. rewrite IH by apply H. destruct t as [|g t]; [auto|]. cbn [insert_by].
    assert (E : index_leb f g = true) by (apply Nat.leb_le; destruct H as (_ & H & _); lia). rewrite E. auto.
  Qed.
  Lemma canonical_simplify t c : canonical t -> qubit_simplify im t c = (c, t).
  Proof.
    intros H. unfold qubit_simplify. rewrite canonical_sorted by auto. destruct t as [|f t]; [auto|].
    revert f H; induction t as [|g t IH]; intros f H; cbn [merge_factors].
    - destruct (pauli_eqb (snd f) Pid) eqn:E; [|auto]. apply pauli_eqb_spec in E. destruct H; congruence.
    - destruct H as (H1 & H2 & H3). destruct (Nat.eqb_spec (fst f) (fst g)) as [Q|N]; [lia|]. rewrite IH by auto.
      destruct (pauli_eqb (snd f) Pid) eqn:E; [|auto]. apply pauli_eqb_spec in E. congruence.
  Qed.
  Lemma simplify_qubits t c q : (forall f, In f t -> fst f < q) -> forall f, In f (snd (qubit_simplify im t c)) -> fst f < q.
  Proof.
    intros H. unfold qubit_simplify.
    assert (H' : forall f, In f (sort_by index_leb t) -> fst f < q).
    { intros f Hf. apply H. eapply Permutation_in; [apply sort_by_perm|]. exact Hf. }
    destruct (sort_by index_leb t) as [|f0 l]; [intros f []|]. clear H. revert f0 c H'. induction l as [|rf l IH]; intros lf c H; cbn [merge_factors].
    - destruct (pauli_eqb _ _); cbn; [intros f []|]. intros f [<-|[]]. apply H; left; auto.
    - destruct (Nat.eqb _ _).
      + destruct (pauli_product _ _ _). apply IH. intros f [<-|Hf]; [apply (H lf); left; auto|apply H; right; right; auto].
      + specialize (IH rf c). destruct (merge_factors im rf l c) as [c' t']. cbn [snd] in *.
        specialize (IH ltac:(intros; apply H; right; auto)).
        destruct (pauli_eqb _ _); [auto|]. intros f [<-|Hf]; [apply H; left; auto|auto].
  Qed.
End Mono.
