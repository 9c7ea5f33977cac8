(** The encoding is unitary; products of fermion operators; Hermitian conjugation. *)
From Coq Require Import NArith Permutation Sorted Ring.
From Verif Require Import Base BaseFacts MatModel MatFacts LiftSpec LiftProofs OpModel OpSpec OpProofs PauliProofs OpProofs2 ConjProofs
  FermiModel FermiSpec FermiProofs FermiProofs2 FermiProofs3 BKProofs FermiProofs4 FermiProofs5 PauliBasis.
Open Scope list_scope.
Local Open Scope nat_scope.

Lemma NoDup_map_inj' {X Y} (f : X -> Y) l : (forall x y, In x l -> In y l -> f x = f y -> x = y) -> NoDup l -> NoDup (map f l).
Proof.
  intros H N. induction N as [|x l Hx Hl IH]; cbn [map]; constructor; [|apply IH; intros; apply H; auto; right; auto].
  intros G. apply in_map_iff in G as (y & E & Hy). apply H in E; [subst; auto|right; auto|left; auto].
Qed.
Lemma nth_firstn_lt {X} (d : X) l : forall p q, q < p -> nth q (firstn p l) d = nth q l d.
Proof. induction l as [|x l IH]; intros [|p] [|q] H; cbn; auto; try lia. apply IH. lia. Qed.
Section U.
  Context {K : cring}.
  Add Ring Kring_u : (kth K).
  Open Scope K_scope.
  (** a matrix that sends basis states to distinct basis states *)
  Lemma onto n (g : list bool -> list bool) : (forall c, length c = n -> length (g c) = n) -> (forall c d, length c = n -> length d = n -> g c = g d -> c = d) ->
    forall b, length b = n -> exists c, length c = n /\ g c = b.
  Proof.
    intros Hl Hi b Hb. set (L := map (fun i => bval (g (bits n i))) (seq 0 (2 ^ n))).
    assert (N : NoDup L).
    { unfold L. apply NoDup_map_inj'; [|apply seq_NoDup]. intros i j Hi' Hj' Hij. apply in_seq in Hi', Hj'. apply (f_equal (bits n)) in Hij. rewrite !bits_bval_n in Hij by (apply Hl, bits_length).
      apply Hi in Hij; try apply bits_length. apply (f_equal bval) in Hij. rewrite !bval_bits_small in Hij by lia. auto. }
    assert (I : incl L (seq 0 (2 ^ n))).
    { intros x Hx. apply in_map_iff in Hx as (i & <- & _). apply in_seq. split; [lia|]. cbn. rewrite <- (Hl (bits n i) (bits_length n i)) at 2. apply bval_lt. }
    assert (J : incl (seq 0 (2 ^ n)) L) by (apply NoDup_length_incl; auto; unfold L; rewrite map_length; auto).
    destruct (proj1 (in_map_iff _ _ _) (J (bval b) ltac:(apply in_seq; split; [lia|rewrite <- Hb; apply bval_lt]))) as (i & E & _).
    exists (bits n i). split; [apply bits_length|]. apply bval_inj; [rewrite Hl, Hb by apply bits_length; auto|exact E].
  Qed.
  Lemma perm_unitary n (g : list bool -> list bool) : (forall c, length c = n -> length (g c) = n) -> (forall c d, length c = n -> length d = n -> g c = g d -> c = d) ->
    unitary (K := K) (mono n (fun c => (1, g c))).
  Proof.
    intros Hl Hi. split; [reflexivity|]. split.
    - apply (meq_bits n); try reflexivity. intros b c Hb Hc. rewrite mmul_mono_r by (auto; cbn [snd]; auto). cbn [snd fst ent adjoint]. rewrite mono_ent by (cbn [snd]; auto). cbn [fst snd].
      match goal with |- _ = ?R => change R with (delta (Nat.eqb (bval b) (bval c)) : K) end. unfold delta. rewrite eqb_bval by congruence. destruct (list_eqb Bool.eqb (g c) (g b)) eqn:E.
      + apply (list_eqb_spec _ bool_eqb_spec) in E. apply Hi in E; auto. subst. rewrite (eqb_spec_refl _ (list_eqb_spec _ bool_eqb_spec)), kconj_1. cbn. ring.
      + destruct (list_eqb Bool.eqb b c) eqn:F; [apply (list_eqb_spec _ bool_eqb_spec) in F; subst; rewrite (eqb_spec_refl _ (list_eqb_spec _ bool_eqb_spec)) in E; discriminate|].
        rewrite kconj_0. cbn. ring.
    - apply (meq_bits n); try reflexivity. intros b c Hb Hc. destruct (onto n g Hl Hi b Hb) as (d & Hd & Ed). subst b. cbn [ent mmul nc mono].
      rewrite (bigsum_single _ (bval d)).
      + rewrite bits_bval_n by auto. cbn [ent adjoint mono]. rewrite bits_bval_n by auto. rewrite Nat.eqb_refl. cbn [eye ent]. unfold delta. rewrite (Nat.eqb_sym (bval c)).
        destruct (Nat.eqb _ _); rewrite ?kconj_1, ?kconj_0; ring.
      + rewrite <- Hd. apply bval_lt.
      + intros i Hin Ne. destruct (Nat.eqb_spec (bval (g d)) (bval (g (bits n i)))) as [E|E]; [|ring]. exfalso. apply Ne.
        apply bval_inj in E; [|rewrite !Hl by (auto using bits_length); auto]. apply Hi in E; auto using bits_length. subst d. rewrite bval_bits_small; auto.
  Qed.
  Lemma bk_encoding_unitary n : unitary (bk_encoding (K := K) n).
  Proof.
    apply (unitary_ext (mono n (fun c => (k1, bk_code n c)))); [symmetry; apply encoding_mono|]. apply perm_unitary; [intros; apply bk_code_length|]. intros c d Hc Hd. apply bk_code_injective; auto.
  Qed.
End U.

(** ** Products and sums of fermion operators *)
Section FM.
  Context {K : cring} (n : nat).
  Add Ring Kring_fm : (kth K).
  Open Scope K_scope.
  Notation F := (fterm_matrix (K := K) n).
  Notation FM := (fop_matrix (K := K) n).
  Lemma fprod_bigsum (a b : fop K) i j : (i < 2 ^ n)%nat -> (j < 2 ^ n)%nat ->
    lprod (fun t => ent (F t) i j) a b = bigsum (2 ^ n) (fun l => lval (fun t => ent (F t) i l) a * lval (fun t => ent (F t) l j) b).
  Proof.
    intros Hi Hj. induction a as [|[t c] a IH]; cbn [lprod fold_right lval fst snd].
    - symmetry. apply bigsum_0. intros; ring.
    - fold (lprod (fun t => ent (F t) i j) a b). rewrite IH.
      rewrite (bigsum_ext _ (fun l => (c * ent (F t) i l + lval (fun t0 => ent (F t0) i l) a) * lval (fun t0 => ent (F t0) l j) b)
        (fun l => c * (ent (F t) i l * lval (fun t0 => ent (F t0) l j) b) + lval (fun t0 => ent (F t0) i l) a * lval (fun t0 => ent (F t0) l j) b)) by (intros; ring).
      rewrite bigsum_add. f_equal. rewrite <- bigsum_mul_l. clear IH a. induction b as [|[u d] b IH]; cbn [fold_right lval fst snd].
      + rewrite bigsum_0; [ring|]. intros; ring.
      + rewrite IH.
        rewrite (bigsum_ext _ (fun l => ent (F t) i l * (d * ent (F u) l j + lval (fun t0 => ent (F t0) l j) b))
          (fun l => d * (ent (F t) i l * ent (F u) l j) + ent (F t) i l * lval (fun t0 => ent (F t0) l j) b)) by (intros; ring).
        rewrite bigsum_add, <- bigsum_mul_l.
        pose proof (fterm_app (K := K) n t u) as (S1 & S2 & E). pose proof (fterm_shape (K := K) n (t ++ u)) as [R C].
        rewrite E by (rewrite ?R, ?C; auto). cbn [ent mmul]. rewrite (proj2 (fterm_shape n t)). ring.
  Qed.
  Lemma fop_mul_matrix (a b : fop K) : meq (FM (fermion_mul a b)) (mmul (FM a) (FM b)).
  Proof.
    apply (meq_qop n); try apply fop_shape; try (cbn; apply fop_shape). intros i j Hi Hj. rewrite fop_ent. unfold fermion_mul.
    rewrite (lval_mul Bool.eqb bool_eqb_spec _ fermion_simplify (fun _ => True)); auto; [|intros t c _; reflexivity].
    rewrite fprod_bigsum by auto. cbn [ent mmul]. rewrite (proj2 (fop_shape n a)). apply bigsum_ext. intros l Hl. rewrite !fop_ent. reflexivity.
  Qed.
  Lemma fop_add_matrix small (a b : fop K) : exists r : fop K, Forall (fun tc => small (snd tc) = true) r /\ (length r <= length b)%nat /\ meq (madd (FM (fermion_add small a b)) (FM r)) (madd (FM a) (FM b)).
  Proof.
    destruct (add_count Bool.eqb bool_eqb_spec small b a) as (r & R & _ & Rl & V). exists r. split; [auto|]. split; [auto|].
    apply (meq_qop n); try (cbn; apply fop_shape). intros i j Hi Hj. cbn [ent madd]. rewrite !fop_ent. apply V.
  Qed.
  Lemma fop_sub_matrix small (a b : fop K) : exists r : fop K, Forall (fun tc => small (snd tc) = true) r /\ (length r <= length b)%nat /\ meq (madd (FM (fermion_sub small a b)) (FM r)) (msub (FM a) (FM b)).
  Proof.
    destruct (merge_count Bool.eqb bool_eqb_spec ksub small (kopp 1) b a) as (r & R & _ & Rl & V); [intros; ring|]. exists r. split; [auto|]. split; [auto|].
    apply (meq_qop n); try (cbn; apply fop_shape). intros i j Hi Hj. cbn [ent madd msub]. rewrite !fop_ent. unfold fermion_sub, op_sub. rewrite V. ring.
  Qed.
End FM.

(** ** Hermitian conjugation *)
Section H.
  Context {K : cring}.
  Add Ring Kring_h : (kth K).
  Open Scope K_scope.
  Lemma dset_map {A} (aeqb : A -> A -> bool) (Ha : eqb_spec_of aeqb) (g : term A -> term A) (h : K -> K) (a : sop A K) : (forall t u, g t = g u -> t = u) -> wf_op a ->
    fold_left (fun o (tc : term A * K) => dset (term_eqb aeqb) (g (fst tc)) (h (snd tc)) o) a [] = map (fun tc => (g (fst tc), h (snd tc))) a.
  Proof.
    intros Hg. assert (G : forall a o : sop A K, NoDup (dkeys o ++ map g (dkeys a)) ->
      fold_left (fun o (tc : term A * K) => dset (term_eqb aeqb) (g (fst tc)) (h (snd tc)) o) a o = o ++ map (fun tc => (g (fst tc), h (snd tc))) a).
    { clear a. induction a as [|[t c] a IH]; intros o N; cbn [fold_left map fst snd]; [rewrite app_nil_r; reflexivity|]. cbn [dkeys map] in N. fold (dkeys a) in N.
      rewrite (dset_app_new _ (term_eqb_spec _ Ha)). 2:{ apply NoDup_remove_2 in N. rewrite in_app_iff in N. tauto. }
      rewrite IH; [rewrite <- app_assoc; reflexivity|]. unfold dkeys at 1. rewrite map_app. cbn [map fst]. rewrite <- app_assoc. exact N. }
    intros W. apply G. cbn. clear G. unfold wf_op in W. induction W as [|t l H1 H2 IH]; cbn; constructor; auto.
    intros H. apply in_map_iff in H as (u & E & Hu). apply Hg in E. subst. auto.
  Qed.
  Definition flip (f : factor bool) : factor bool := (fst f, negb (snd f)).
  Definition dagger (t : fterm) : fterm := map flip (rev t).
  Lemma dagger_app t u : dagger (t ++ u) = dagger u ++ dagger t.
  Proof. unfold dagger. rewrite rev_app_distr, map_app. reflexivity. Qed.
  Lemma dagger_invol t : dagger (dagger t) = t.
  Proof. unfold dagger. rewrite <- map_rev, rev_involutive, map_map. etransitivity; [|apply map_id]. apply map_ext. intros [q d]. unfold flip. cbn [fst snd]. rewrite Bool.negb_involutive. reflexivity. Qed.
  Lemma dagger_inj t u : dagger t = dagger u -> t = u.
  Proof. intros E. rewrite <- (dagger_invol t), E. apply dagger_invol. Qed.
  Lemma fermion_conjugated_map (a : fop K) : wf_op a -> fermion_conjugated a = map (fun tc => (dagger (fst tc), kconj (snd tc))) a.
  Proof. intros W. apply (dset_map Bool.eqb bool_eqb_spec dagger kconj a dagger_inj W). Qed.
  Lemma qubit_conjugated_map (a : qop K) : wf_op a -> qubit_conjugated a = map (fun tc => (fst tc, kconj (snd tc))) a.
  Proof. intros W. apply (dset_map pauli_eqb pauli_eqb_spec (fun t => t) kconj a); auto. Qed.
  Lemma map_keys_wf {A} (g : term A -> term A) (h : K -> K) (a : sop A K) : (forall t u, g t = g u -> t = u) -> wf_op a -> wf_op (map (fun tc => (g (fst tc), h (snd tc))) a : sop A K).
  Proof.
    intros Hg W. unfold wf_op, dkeys in *. rewrite map_map. cbn [fst]. induction a as [|[t c] a IH]; cbn [map fst] in *; constructor; inversion W; subst; auto.
    intros H. apply in_map_iff in H as ([u d] & E & Hu). apply Hg in E. cbn [fst] in E. subst. apply H1. apply in_map_iff. exists (t, d). auto.
  Qed.
  Lemma fermion_conjugated_wf (a : fop K) : wf_op a -> wf_op (fermion_conjugated a).
  Proof. intros W. rewrite fermion_conjugated_map by auto. apply map_keys_wf; auto using dagger_inj. Qed.
  Lemma qubit_conjugated_wf (a : qop K) : wf_op a -> wf_op (qubit_conjugated a).
  Proof. intros W. rewrite qubit_conjugated_map by auto. apply (map_keys_wf (fun t => t)); auto. Qed.
  Lemma fermion_conjugated_invol (a : fop K) : wf_op a -> fermion_conjugated (fermion_conjugated a) = a.
  Proof.
    intros W. rewrite fermion_conjugated_map by (apply fermion_conjugated_wf; auto). rewrite fermion_conjugated_map by auto. rewrite map_map. etransitivity; [|apply map_id].
    apply map_ext. intros [t c]. cbn [fst snd]. rewrite dagger_invol, kconj_invol. reflexivity.
  Qed.
  Lemma qubit_conjugated_invol (a : qop K) : wf_op a -> qubit_conjugated (qubit_conjugated a) = a.
  Proof.
    intros W. rewrite qubit_conjugated_map by (apply qubit_conjugated_wf; auto). rewrite qubit_conjugated_map by auto. rewrite map_map. etransitivity; [|apply map_id].
    apply map_ext. intros [t c]. cbn [fst snd]. rewrite kconj_invol. reflexivity.
  Qed.
  (** linear functionals of the conjugate *)
  Lemma lval_conj {A} (g : term A -> term A) (phi : term A -> K) (a : sop A K) :
    lval phi (map (fun tc => (g (fst tc), kconj (snd tc))) a : sop A K) = kconj (lval (fun t => kconj (phi (g t))) a).
  Proof.
    induction a as [|[t c] a IH]; cbn [map lval fst snd]; [symmetry; apply kconj_0|]. rewrite IH, kconj_add, kconj_mul, kconj_invol. reflexivity.
  Qed.
  (** coefficients as a linear functional *)
  Definition isterm (t u : fterm) : K := if term_eqb Bool.eqb u t then 1 else 0.
  Lemma lval_coef (a : fop K) t : wf_op a -> lval (isterm t) a = coef Bool.eqb a t.
  Proof.
    intros W. unfold coef. induction a as [|[u c] a IH]; cbn [lval dget fst snd]; [reflexivity|]. inversion W; subst. rewrite IH by auto. unfold isterm.
    replace (term_eqb Bool.eqb u t) with (term_eqb Bool.eqb t u).
    2:{ apply Bool.eq_iff_eq_true. pose proof (term_eqb_spec _ bool_eqb_spec t u) as L1. pose proof (term_eqb_spec _ bool_eqb_spec u t) as L2. rewrite L1, L2. split; auto. }
    destruct (term_eqb Bool.eqb t u) eqn:E; [|ring]. apply (term_eqb_spec _ bool_eqb_spec) in E. subst.
    rewrite (proj2 (dget_None _ (term_eqb_spec _ bool_eqb_spec) u a)) by auto. ring.
  Qed.
  Lemma lprod_eq (phi : fterm -> K) (a b : fop K) : lprod phi a b = lval (fun t => lval (fun u => phi (t ++ u)) b) a.
  Proof.
    unfold lprod. induction a as [|[t c] a IH]; cbn [fold_right lval fst snd]; [reflexivity|]. rewrite IH. f_equal.
    clear IH a. induction b as [|[u d] b IH]; cbn [fold_right lval fst snd]; [ring|]. rewrite IH. ring.
  Qed.
  Lemma lval_swap (psi : fterm -> fterm -> K) (a b : fop K) : lval (fun t => lval (psi t) b) a = lval (fun u => lval (fun t => psi t u) a) b.
  Proof.
    induction a as [|[t c] a IH]; cbn [lval fst snd].
    - induction b as [|[u d] b IHb]; cbn [lval fst snd]; [reflexivity|]. rewrite <- IHb. ring.
    - rewrite IH. clear IH. induction b as [|[u d] b IHb]; cbn [lval fst snd]; [ring|]. rewrite <- IHb. ring.
  Qed.
  Lemma lval_ext {A} (f g : term A -> K) (a : sop A K) : (forall t, f t = g t) -> lval f a = lval g a.
  Proof. intros E. induction a as [|[t c] a IH]; cbn [lval fst snd]; [auto|]. rewrite E, IH. reflexivity. Qed.
  Lemma lval_kconj {A} (f : term A -> K) (a : sop A K) : kconj (lval f a) = lval (fun t => kconj (f t)) (map (fun tc => (fst tc, kconj (snd tc))) a : sop A K).
  Proof. induction a as [|[t c] a IH]; cbn [map lval fst snd]; [apply kconj_0|]. rewrite kconj_add, kconj_mul, IH. reflexivity. Qed.
  Lemma lval_fconj phi (a : fop K) : wf_op a -> lval phi (fermion_conjugated a) = kconj (lval (fun t => kconj (phi (dagger t))) a).
  Proof. intros W. rewrite fermion_conjugated_map by auto. apply (lval_conj dagger). Qed.
  Lemma conjugate_product_coef (a b : fop K) t : wf_op a -> wf_op b ->
    coef Bool.eqb (fermion_conjugated (fermion_mul a b)) t = coef Bool.eqb (fermion_mul (fermion_conjugated b) (fermion_conjugated a)) t.
  Proof.
    intros Wa Wb. assert (Wm : wf_op (fermion_mul a b)) by (apply (mul_wf Bool.eqb bool_eqb_spec)).
    assert (Wn : wf_op (fermion_mul (fermion_conjugated b) (fermion_conjugated a))) by (apply (mul_wf Bool.eqb bool_eqb_spec)).
    rewrite <- !lval_coef by (auto using fermion_conjugated_wf). rewrite lval_fconj by auto. unfold fermion_mul.
    rewrite !(lval_mul Bool.eqb bool_eqb_spec _ fermion_simplify (fun _ => True)); auto; try (intros u c _; reflexivity). rewrite !lprod_eq.
    rewrite lval_fconj by auto. f_equal. rewrite lval_swap. apply lval_ext. intros u. rewrite lval_fconj by auto. rewrite kconj_invol.
    apply lval_ext. intros v. rewrite dagger_app. reflexivity.
  Qed.

  Context (n : nat).
  Lemma ladder_adjoint (f : factor bool) : meq (adjoint (ladder_matrix n f)) (ladder_matrix (K := K) n (flip f)).
  Proof.
    split; [reflexivity|]. split; [reflexivity|]. intros i j Hi Hj. cbn [ent adjoint ladder_matrix flip fst snd].
    rewrite (agree_sym n [fst f] (bits n j)). rewrite Bool.negb_involutive.
    destruct (agree_outside n [fst f] (bits n i) (bits n j)) eqn:A; cbn [andb]; [|apply kconj_0].
    rewrite (andb_comm (Bool.eqb (nth (fst f) (bits n j) false) (snd f))). destruct (Bool.eqb _ (negb (snd f)) && _); [|apply kconj_0].
    replace (odd_count (firstn (fst f) (bits n j))) with (odd_count (firstn (fst f) (bits n i))).
    - destruct (odd_count _); cbn; rewrite ?kconj_opp, kconj_1; reflexivity.
    - f_equal. rewrite agree_spec in A. apply bits_ext; [rewrite !firstn_length, !bits_length; auto|]. intros q Hq. rewrite firstn_length, bits_length in Hq.
      rewrite !nth_firstn_lt by lia. apply A; [lia|]. intros [E|[]]. lia.
  Qed.
  Lemma fterm_adjoint t : meq (fterm_matrix (K := K) n (dagger t)) (adjoint (fterm_matrix n t)).
  Proof.
    induction t as [|f t IH]; [symmetry; apply adjoint_eye|]. change (dagger (f :: t)) with (map flip (rev t ++ [f])). rewrite map_app. fold (dagger t). cbn [map].
    rewrite fterm_app. cbn [fterm_matrix fold_right]. fold (fterm_matrix (K := K) n t). symmetry. rewrite adjoint_mmul by (cbn; symmetry; apply fterm_shape).
    apply (mmul_sq (2 ^ n)).
    - split; cbn; apply fterm_shape.
    - split; reflexivity.
    - symmetry. exact IH.
    - rewrite ladder_adjoint. symmetry. apply eye_r_sq. split; reflexivity.
  Qed.
  Lemma fop_adjoint (a : fop K) : wf_op a -> meq (fop_matrix n (fermion_conjugated a)) (adjoint (fop_matrix n a)).
  Proof.
    intros W. apply (meq_qop n); try (cbn; apply fop_shape). intros i j Hi Hj. cbn [ent adjoint]. rewrite !fop_ent, lval_fconj by auto. f_equal. apply lval_ext. intros t.
    destruct (fterm_adjoint t) as (_ & _ & E). destruct (fterm_shape (K := K) n (dagger t)) as [S1 S2]. rewrite E by (rewrite ?S1, ?S2; auto). cbn [ent adjoint]. apply kconj_invol.
  Qed.
  (** qubit operators *)
  Context (im : K) (Hc : kconj im = kopp im).
  Lemma pent_conj p x y : kconj (pent im p x y) = pent im p y x.
  Proof. destruct p, x, y; cbn; rewrite ?kconj_opp, ?Hc, ?kconj_1, ?kconj_0; try reflexivity; ring. Qed.
  Lemma bigprod_conj m : forall f, kconj (bigprod m f) = bigprod (K := K) m (fun q => kconj (f q)).
  Proof. induction m as [|m IH]; intros f; cbn [bigprod]; [apply kconj_1|]. rewrite kconj_mul, IH. reflexivity. Qed.
  Lemma term_hermitian (t : term pauli) : NoDup (map fst t) -> (forall f, In f t -> (fst f < n)%nat) -> meq (adjoint (term_matrix im n t)) (term_matrix im n t).
  Proof.
    intros Hn Hq. apply (meq_bits n); try (cbn; apply term_matrix_shape). intros b c Hb Hc'. cbn [ent adjoint]. rewrite !(term_ent im) by auto.
    rewrite bigprod_conj. apply bigprod_ext. intros q _. apply pent_conj.
  Qed.
  Lemma qop_adjoint (a : qop K) : wf_op a -> on_qubits n a -> (forall t c, In (t, c) a -> canonical t) -> meq (qop_matrix im n (qubit_conjugated a)) (adjoint (qop_matrix im n a)).
  Proof.
    intros W Hon Hcan. apply (meq_qop n); try (cbn; apply qop_matrix_shape). intros i j Hi Hj. cbn [ent adjoint]. rewrite qubit_conjugated_map by auto. rewrite !qop_matrix_ent.
    clear W. induction a as [|[t c] a IH]; cbn [map lval fst snd]; [symmetry; apply kconj_0|]. rewrite IH; [|intros u d H; eapply Hon; right; eauto|intros u d H; eapply Hcan; right; eauto].
    rewrite kconj_add, kconj_mul. f_equal. f_equal. destruct (term_hermitian t) as (_ & _ & E).
    - apply canonical_NoDup. eapply Hcan. left; reflexivity.
    - eapply Hon. left; reflexivity.
    - destruct (term_matrix_shape im n t) as [S1 S2]. symmetry. apply (E i j); cbn; [rewrite S2|rewrite S1]; auto.
  Qed.
  Lemma qubit_conjugated_canonical (a : qop K) : wf_op a -> (forall t c, In (t, c) a -> canonical t) -> forall t c, In (t, c) (qubit_conjugated a) -> canonical t.
  Proof. intros W H t c Hin. rewrite qubit_conjugated_map in Hin by auto. apply in_map_iff in Hin as ([u d] & E & Hu). inversion E; subst. eapply H; eauto. Qed.
  Lemma qubit_conjugated_on (a : qop K) : wf_op a -> on_qubits n a -> on_qubits n (qubit_conjugated a).
  Proof. intros W H t c Hin. rewrite qubit_conjugated_map in Hin by auto. apply in_map_iff in Hin as ([u d] & E & Hu). inversion E; subst. eapply H; eauto. Qed.
  Lemma fermion_conjugated_on (a : fop K) : wf_op a -> on_qubits n a -> on_qubits n (fermion_conjugated a).
  Proof.
    intros W H t c Hin. rewrite fermion_conjugated_map in Hin by auto. apply in_map_iff in Hin as ([u d] & E & Hu). inversion E; subst. intros f Hf.
    unfold dagger in Hf. cbn [fst] in Hf. apply in_map_iff in Hf as (g & <- & Hg). apply in_rev in Hg. cbn. eapply H; eauto.
  Qed.
End H.
