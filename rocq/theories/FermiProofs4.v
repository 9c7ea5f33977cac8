(** Fermion-to-qubit transforms. *)
From Coq Require Import Permutation Sorted Ring.
From Verif Require Import Base BaseFacts MatModel MatFacts LiftSpec LiftProofs OpModel OpSpec OpProofs PauliProofs OpProofs2 ConjProofs
  FermiModel FermiSpec FermiProofs FermiProofs2 FermiProofs3 BKProofs.
Open Scope list_scope.
Local Open Scope nat_scope.

(** ** A transform given by the images of the ladder operators *)
Section Transform.
  Context {K : cring} (im : K) (Him : kmul im im = kopp k1) (small : K -> bool) (n : nat).
  Add Ring Kring_t : (kth K).
  Open Scope K_scope.
  Notation M := (qop_matrix (K := K) im n).
  Notation F := (fterm_matrix (K := K) n).
  Notation FM := (fop_matrix (K := K) n).
  Notation qmul := (op_mul pauli_eqb (qubit_simplify im)).
  Notation qmk := (mk_op (qubit_simplify im)).
  Notation qadd := (op_add pauli_eqb small).
  Context (L : factor bool -> qop K) (E : mat K) (HE : sq (2 ^ n) E).
  Context (HL : forall f, fst f < n -> on_qubits n (L f) /\ meq (mmul (M (L f)) E) (mmul E (ladder_matrix n f))).
  Definition term_image (t : fterm) (c : K) : qop K := fold_left (fun q f => qmul q (L f)) t (qmk [] c).
  Definition image (a : fop K) : qop K := fold_left (fun o (tc : fterm * K) => qadd o (term_image (fst tc) (snd tc))) a [].
  Lemma sq_M a : sq (2 ^ n) (M a). Proof. apply qop_matrix_shape. Qed.
  Lemma sq_F t : sq (2 ^ n) (F t). Proof. apply fterm_shape. Qed.
  Lemma sq_ladder f : sq (2 ^ n) (ladder_matrix (K := K) n f). Proof. split; reflexivity. Qed.
  Hint Resolve sq_M sq_F sq_ladder HE sq_mmul : sq.
  Lemma qmk_nil_on c : on_qubits n (qmk [] c : qop K).
  Proof. intros t d [G|[]] f Hf. inversion G; subst. destruct Hf. Qed.
  Lemma product_on t : on_modes n t -> forall q : qop K, on_qubits n q -> on_qubits n (fold_left (fun q f => qmul q (L f)) t q).
  Proof.
    induction t as [|f t IH]; intros Hn q Hq; cbn [fold_left]; [auto|]. apply IH; [intros g Hg; apply Hn; right; auto|].
    apply mul_on_qubits; auto. apply HL. apply Hn. left; auto.
  Qed.
  Lemma product_matrix t : on_modes n t -> forall q : qop K, on_qubits n q ->
    meq (mmul (M (fold_left (fun q f => qmul q (L f)) t q)) E) (mmul (M q) (mmul E (F t))).
  Proof.
    induction t as [|f t IH]; intros Hn q Hq; cbn [fold_left].
    - apply (mmul_sq (2 ^ n)); auto with sq; [reflexivity|]. symmetry. apply eye_r_sq. auto.
    - assert (Hf : fst f < n) by (apply Hn; left; auto). destruct (HL f Hf) as [H1 H2].
      assert (Ht : on_modes n t) by (intros g Hg; apply Hn; right; auto).
      rewrite IH; auto; [|apply mul_on_qubits; auto].
      transitivity (mmul (mmul (M q) (M (L f))) (mmul E (F t))). { apply (mmul_sq (2 ^ n)); auto with sq; [apply qop_mul_matrix; auto|reflexivity]. }
      rewrite (assoc_sq (2 ^ n)) by auto with sq. apply (mmul_sq (2 ^ n)); auto with sq; [reflexivity|].
      rewrite <- (assoc_sq (2 ^ n)) by auto with sq. transitivity (mmul (mmul E (ladder_matrix n f)) (F t)). { apply (mmul_sq (2 ^ n)); auto with sq. reflexivity. }
      apply (assoc_sq (2 ^ n)); auto with sq.
  Qed.
  Lemma term_image_matrix t c : on_modes n t -> meq (mmul (M (term_image t c)) E) (mscale c (mmul E (F t))).
  Proof.
    intros Hn. unfold term_image. rewrite product_matrix by (auto using qmk_nil_on).
    transitivity (mmul (mscale c (eye (2 ^ n))) (mmul E (F t))).
    { apply (mmul_sq (2 ^ n)); auto with sq; [|reflexivity]. apply (mk_op_matrix im Him n [] c). intros f []. }
    split; [cbn; symmetry; apply HE|]. split; [cbn; reflexivity|]. intros i j Hi Hj. cbn [nr nc mmul mscale eye] in Hi, Hj.
    destruct (eye_l_sq (2 ^ n) (mmul E (F t))) as (_ & _ & G); [auto with sq|]. cbn [ent mscale]. rewrite <- G by auto. cbn [ent mmul mscale nc eye].
    rewrite bigsum_mul_l. apply bigsum_ext. intros k _. ring.
  Qed.
  (** linear functionals: entry (i,j) of the matrix times E *)
  Definition psi (i j : nat) (t : term pauli) : K := bigsum (2 ^ n) (fun k => ent (term_matrix im n t) i k * ent E k j).
  Lemma lval_psi (a : qop K) i j : lval (psi i j) a = ent (mmul (M a) E) i j.
  Proof.
    cbn [ent mmul]. rewrite (proj2 (sq_M a)). induction a as [|[t c] a IH].
    - cbn [lval]. symmetry. apply bigsum_0. intros k _. cbn. ring.
    - cbn [lval fst snd]. rewrite IH. unfold psi. rewrite bigsum_mul_l, <- bigsum_add. apply bigsum_ext. intros k _. cbn [qop_matrix fold_right ent madd mscale fst snd]. 
      fold (M a). ring.
  Qed.
  Lemma lval_fpsi (a : fop K) i j : lval (fun t => ent (mmul E (F t)) i j) a = ent (mmul E (FM a)) i j.
  Proof.
    cbn [ent mmul]. induction a as [|[t c] a IH].
    - cbn [lval]. symmetry. apply bigsum_0. intros k _. cbn. ring.
    - cbn [lval fst snd]. rewrite IH. rewrite bigsum_mul_l, <- bigsum_add. apply bigsum_ext. intros k _. cbn [fop_matrix fold_right ent madd mscale fst snd].
      fold (FM a). ring.
  Qed.
  Lemma image_on (a : fop K) : on_qubits n a -> on_qubits n (image a).
  Proof.
    unfold image. assert (G : forall (a : fop K) (o : qop K), on_qubits n a -> on_qubits n o -> on_qubits n (fold_left (fun o (tc : fterm * K) => qadd o (term_image (fst tc) (snd tc))) a o)).
    { clear a. induction a as [|[t c] a IH]; intros o Ha Ho; cbn [fold_left fst snd]; [auto|]. apply IH; [intros u d Hu; eapply Ha; right; eauto|].
      assert (Ht : on_qubits n (term_image t c)) by (apply product_on; [intros f Hf; eapply Ha; [left; reflexivity|auto]|apply qmk_nil_on]).
      revert Ht. generalize (term_image t c) as b. intros b. revert o Ho. induction b as [|[u d] b IHb]; intros o Ho Hb; cbn [op_add fold_left]; [auto|].
      apply IHb; [|intros v e Hv; eapply Hb; right; eauto]. intros v e Hv. unfold merge_term in Hv. cbn [fst snd] in Hv. cbn zeta in Hv.
      assert (Hk : In v (dkeys (dset (term_eqb pauli_eqb) u (match dget (term_eqb pauli_eqb) u o with Some c0 => c0 | None => 0 end + d) o))).
      { destruct (small _) in Hv; [eapply In_dkeys_ddel|]; apply in_map_iff; exists (v, e); (split; [reflexivity|exact Hv]). }
      apply (In_dkeys_dset _ (term_eqb_spec _ pauli_eqb_spec)) in Hk as [->|Hk]; [intros f Hf; eapply Hb; [left; reflexivity|auto]|].
      apply in_map_iff in Hk as ([v' e'] & <- & Hin). eapply Ho; eauto. }
    intros Ha. apply G; auto. intros t c [].
  Qed.
  Lemma term_image_length t c : (forall f, length (L f) <= 2)%nat -> (length (term_image t c) <= 2 ^ length t)%nat.
  Proof.
    intros H. unfold term_image. assert (G : forall (t : fterm) (q : qop K), (length (fold_left (fun q f => qmul q (L f)) t q) <= length q * 2 ^ length t)%nat).
    { induction t0 as [|f u IH]; intros q; cbn [fold_left length]; [cbn; lia|]. etransitivity; [apply IH|]. rewrite Nat.pow_succ_r', Nat.mul_assoc. apply Nat.mul_le_mono_r.
      etransitivity; [apply mul_length|]. apply Nat.mul_le_mono_l, H. }
    etransitivity; [apply G|]. assert (Q : (length (qmk [] c) <= 1)%nat) by (unfold mk_op; destruct (qubit_simplify im [] c); cbn; lia). apply (Nat.mul_le_mono_r _ _ (2 ^ length t)) in Q. lia.
  Qed.
  Definition image_size (a : fop K) : nat := fold_right (fun tc s => (length (term_image (fst tc) (snd tc)) + s)%nat) 0%nat a.
  Lemma image_matrix (a : fop K) : on_qubits n a ->
    exists r : qop K, Forall (fun tc => small (snd tc) = true) r /\ (length r <= image_size a)%nat /\ meq (mmul (madd (M (image a)) (M r)) E) (mmul E (FM a)).
  Proof.
    intros Ha. unfold image.
    assert (G : forall (a : fop K) (o : qop K), on_qubits n a ->
      let o' := fold_left (fun o (tc : fterm * K) => qadd o (term_image (fst tc) (snd tc))) a o in
      exists r : qop K, Forall (fun tc => small (snd tc) = true) r /\ (length r <= image_size a)%nat /\
        forall i j, (i < 2 ^ n)%nat -> (j < 2 ^ n)%nat -> lval (psi i j) o' + lval (psi i j) r = lval (psi i j) o + lval (fun t => ent (mmul E (F t)) i j) a).
    { clear a Ha. induction a as [|[t c] a IH]; intros o Ha; cbn zeta; cbn [fold_left fst snd].
      - exists []. split; [constructor|]. split; [cbn; lia|]. intros i j _ _. cbn. ring.
      - destruct (add_count pauli_eqb pauli_eqb_spec small (term_image t c) o) as (r1 & R1 & _ & L1 & V1).
        destruct (IH (qadd o (term_image t c))) as (r2 & R2 & L2 & V2). { intros u d Hu. eapply Ha. right; eauto. }
        exists (r1 ++ r2). split; [apply Forall_app; auto|]. split; [rewrite app_length; unfold image_size in *; cbn [fold_right fst snd]; lia|]. intros i j Hi Hj. rewrite lval_app. cbn zeta in V2. cbn [lval fst snd].
        match goal with |- ?X + _ = _ => transitivity (X + lval (psi i j) r2 + lval (psi i j) r1); [ring|] end.
        rewrite V2 by auto. transitivity (lval (psi i j) (qadd o (term_image t c)) + lval (psi i j) r1 + lval (fun t => ent (mmul E (F t)) i j) a); [ring|].
        rewrite V1. rewrite (lval_psi (term_image t c)). destruct (term_image_matrix t c) as (_ & _ & G). { intros f Hf. eapply Ha; [left; reflexivity|auto]. }
        rewrite G; [|cbn; rewrite (proj1 (sq_M _)); auto|cbn; rewrite (proj2 HE); auto]. cbn [ent mscale]. ring. }
    destruct (G a [] Ha) as (r & R & Rl & V). cbn zeta in V. exists r. split; [auto|]. split; [auto|].
    split; [cbn; rewrite (proj1 (sq_M _)), (proj1 HE); auto|]. split; [cbn; rewrite (proj2 (fop_shape n a)), (proj2 HE); auto|].
    intros i j Hi Hj. cbn [nr nc mmul madd] in Hi, Hj. rewrite (proj1 (sq_M _)) in Hi. rewrite (proj2 HE) in Hj.
    rewrite <- lval_fpsi. specialize (V i j Hi Hj). cbn [lval] in V. transitivity (0 + lval (fun t => ent (mmul E (F t)) i j) a); [|ring]. rewrite <- V, !lval_psi.
    cbn [ent mmul madd nc]. rewrite (proj2 (sq_M _)), (proj2 (sq_M _)), <- bigsum_add. apply bigsum_ext. intros k _. ring.
  Qed.
  Lemma image_size_bound (a : fop K) : (forall f, length (L f) <= 2)%nat -> (image_size a <= image_bound a)%nat.
  Proof.
    intros H. induction a as [|[t c] a IH]; [cbn; lia|]. unfold image_size, image_bound in *. cbn [fold_right fst snd]. pose proof (term_image_length t c H). lia.
  Qed.
End Transform.

(** ** Terms of X and of Z *)
Section XZ.
  Context {K : cring} (im half : K) (Him : kmul im im = kopp k1) (Hhalf : kadd half half = k1) (small : K -> bool).
  Context (Hs1 : small half = false) (Hs2 : small (kmul half im) = false) (Hs3 : small (kopp (kmul half im)) = false).
  Add Ring Kring_xz : (kth K).
  Open Scope K_scope.
  Notation act := (term_act (K := K) im).
  Definition flips (l : list nat) (c : list bool) : list bool := map (fun q => xorb (nth q c false) (memb Nat.eqb q l)) (seq 0 (length c)).
  Lemma flips_length l c : length (flips l c) = length c.
  Proof. unfold flips. rewrite map_length, seq_length. reflexivity. Qed.
  Lemma flips_nth l c q : q < length c -> nth q (flips l c) false = xorb (nth q c false) (memb Nat.eqb q l).
  Proof.
    intros H. unfold flips. rewrite (nth_indep _ false (xorb (nth O c false) (memb Nat.eqb O l))) by (rewrite map_length, seq_length; auto).
    rewrite (map_nth (fun q => xorb (nth q c false) (memb Nat.eqb q l))), seq_nth by auto. reflexivity.
  Qed.
  Lemma x_act l : NoDup l -> forall c, (forall q, In q l -> q < length c) -> act (map (fun q => (q, Px)) l) c = (1, flips l c).
  Proof.
    induction 1 as [|q l Hq Hn IH]; intros c Hl; cbn [map term_act].
    - apply pair_equal_spec; split; [reflexivity|]. apply bits_ext; [rewrite flips_length; auto|]. intros i Hi. rewrite flips_nth by auto. cbn. destruct (nth i c false); auto.
    - unfold mcomp. rewrite IH by (intros r Hr; apply Hl; right; auto). cbn [fst snd factor_act pauli_bit]. apply pair_equal_spec; split; [ring|].
      assert (Hqc : q < length c) by (apply Hl; left; auto).
      apply bits_ext; [rewrite setb_length, !flips_length; auto|]. intros i Hi. rewrite setb_length, flips_length in Hi.
      rewrite nth_setb by (rewrite flips_length; auto). rewrite !flips_nth by auto. unfold memb. cbn [existsb].
      destruct (Nat.eqb_spec i q) as [->|N]; [|reflexivity].
      assert (E : existsb (Nat.eqb q) l = false) by (apply not_true_iff_false; intros E; apply Hq; apply (memb_In _ nat_eqb_spec); exact E).
      rewrite E. destruct (nth q c false); reflexivity.
  Qed.
  Lemma z_act l c : act (map (fun q => (q, Pz)) l) c = (sgn (odd_count (map (fun q => nth q c false) l)), c).
  Proof.
    induction l as [|q l IH]; cbn [map term_act]; [reflexivity|]. unfold mcomp. rewrite IH. cbn [fst snd factor_act pauli_bit]. rewrite setb_nth.
    apply pair_equal_spec; split; [|reflexivity]. change (odd_count (nth q c false :: map (fun q => nth q c false) l)) with (xorb (nth q c false) (odd_count (map (fun q => nth q c false) l))).
    rewrite sgn_xorb. reflexivity.
  Qed.
  Lemma map_nth_seq p (c : list bool) : p <= length c -> map (fun q => nth q c false) (seq 0 p) = firstn p c.
  Proof.
    revert c. induction p as [|p IH]; intros c Hp; [reflexivity|]. destruct c as [|x c]; [cbn in Hp; lia|]. cbn [seq map firstn nth]. f_equal.
    rewrite <- seq_shift, map_map. cbn [nth]. apply IH. cbn in Hp. lia.
  Qed.
  Lemma two_terms (t1 t2 : term pauli) (c1 c2 : K) : t1 <> t2 -> small c2 = false -> op_add pauli_eqb small [(t1, c1)] [(t2, c2)] = [(t1, c1); (t2, c2)].
  Proof.
    intros N S. unfold op_add. cbn [fold_left]. unfold merge_term. cbn [fst snd dget dset].
    assert (E : term_eqb pauli_eqb t2 t1 = false) by (apply (eqb_spec_false _ (term_eqb_spec _ pauli_eqb_spec)); auto). rewrite E.
    assert (Z : 0 + c2 = c2) by ring. rewrite Z, S. reflexivity.
  Qed.
  Lemma two_terms_sub (t1 t2 : term pauli) (c1 c2 : K) : t1 <> t2 -> small (kopp c2) = false -> op_sub pauli_eqb small [(t1, c1)] [(t2, c2)] = [(t1, c1); (t2, kopp c2)].
  Proof.
    intros N S. unfold op_sub. cbn [fold_left]. unfold merge_term. cbn [fst snd dget dset].
    assert (E : term_eqb pauli_eqb t2 t1 = false) by (apply (eqb_spec_false _ (term_eqb_spec _ pauli_eqb_spec)); auto). rewrite E.
    assert (Z : 0 - c2 = kopp c2) by ring. rewrite Z, S. reflexivity.
  Qed.
  (** a term with different qubits is only sorted *)
  Lemma sorted_canonical (t : term pauli) : NoDup (map fst t) -> (forall f, In f t -> snd f <> Pid) -> StronglySorted (fun f g => index_leb f g = true) t -> canonical t.
  Proof.
    intros Hn Hp Hs. induction Hs as [|f t Hs IH Hf]; [exact I|]. inversion Hn as [|? ? H1 H2]; subst. rewrite Forall_forall in Hf.
    apply canonical_cons_intro; [apply Hp; left; auto| |apply IH; auto; intros g Hg; apply Hp; right; auto].
    intros g Hg. specialize (Hf _ Hg). unfold index_leb in Hf. apply Nat.leb_le in Hf. assert (fst f <> fst g) by (intros E; apply H1; rewrite E; apply in_map; auto). lia.
  Qed.
  Lemma simplify_distinct (t : term pauli) c : NoDup (map fst t) -> (forall f, In f t -> snd f <> Pid) ->
    qubit_simplify im t c = (c, sort_by index_leb t).
  Proof.
    intros Hn Hp. set (u := sort_by index_leb t). assert (Pu : Permutation u t) by apply sort_by_perm.
    assert (Cu : canonical u).
    { apply sorted_canonical; [eapply Permutation_NoDup; [apply Permutation_map; symmetry; exact Pu|auto]|intros f Hf; apply Hp; eapply Permutation_in; eauto|apply index_sort_sorted]. }
    transitivity (qubit_simplify im u c); [|apply (canonical_simplify im u c Cu)]. unfold qubit_simplify. fold u. rewrite (canonical_sorted u Cu). reflexivity.
  Qed.

  (** ** Jordan-Wigner *)
  Definition zs (p : nat) : term pauli := map (fun i => (i, Pz)) (seq 0 p).
  Lemma zs_app_distinct p a : NoDup (map fst (zs p ++ [(p, a)])).
  Proof.
    rewrite map_app. unfold zs. rewrite map_map. cbn [map fst]. rewrite map_id. change (seq 0 p ++ [p]) with (seq 0 p ++ seq (0 + p) 1). rewrite <- seq_app. apply seq_NoDup.
  Qed.
  Lemma jw_terms (f : factor bool) : exists c2, (c2 = if snd f then kopp (kmul half im) else kmul half im) /\
    jw_ladder im half small f = [(sort_by index_leb (zs (fst f) ++ [(fst f, Px)]), half); (sort_by index_leb (zs (fst f) ++ [(fst f, Py)]), c2)].
  Proof.
    eexists. split; [reflexivity|]. destruct f as [p d]. cbn [fst snd]. unfold jw_ladder. cbn [fst snd]. unfold mk_op. fold (zs p).
    assert (Hz : forall a, a <> Pid -> forall g, In g (zs p ++ [(p, a)]) -> snd g <> Pid).
    { intros a Ha g Hg. apply in_app_or in Hg as [Hg|[<-|[]]]; [|exact Ha]. apply in_map_iff in Hg as (i & <- & _). discriminate. }
    rewrite !simplify_distinct by (auto using zs_app_distinct; apply Hz; discriminate).
    apply two_terms; [|destruct d; auto].
    intros E. assert (In (p, Px) (zs p ++ [(p, Py)])).
    { eapply Permutation_in; [apply (sort_by_perm index_leb)|]. rewrite <- E. eapply Permutation_in; [symmetry; apply (sort_by_perm index_leb)|]. apply in_or_app. right. left. auto. }
    apply in_app_or in H as [H|[H|[]]]; [|discriminate]. apply in_map_iff in H as (i & H & _). discriminate.
  Qed.
  Lemma ent_two n (t1 t2 : term pauli) c1 c2 b c : length b = n -> length c = n ->
    (forall f, In f t1 -> fst f < n) -> (forall f, In f t2 -> fst f < n) ->
    ent (qop_matrix im n [(sort_by index_leb t1, c1); (sort_by index_leb t2, c2)]) (bval b) (bval c) =
      c1 * (if list_eqb Bool.eqb b (snd (act t1 c)) then fst (act t1 c) else 0) + c2 * (if list_eqb Bool.eqb b (snd (act t2 c)) then fst (act t2 c) else 0).
  Proof.
    intros Hb Hc H1 H2.
    assert (G : forall t, (forall f, In f t -> fst f < n) -> ent (term_matrix im n (sort_by index_leb t)) (bval b) (bval c) = if list_eqb Bool.eqb b (snd (act t c)) then fst (act t c) else 0).
    { intros t Ht. assert (Ht' : forall f, In f (sort_by index_leb t) -> fst f < n) by (intros f Hf; apply Ht; eapply Permutation_in; [apply (sort_by_perm index_leb)|auto]).
      destruct (term_matrix_mono im n _ Ht') as (_ & _ & E). rewrite E.
      - rewrite mono_ent by (auto; apply term_keeps; auto). rewrite term_act_sort. reflexivity.
      - rewrite (proj1 (term_matrix_shape im n _)), <- Hb. apply bval_lt.
      - rewrite (proj2 (term_matrix_shape im n _)), <- Hc. apply bval_lt. }
    rewrite qop_matrix_ent. cbn [lval fst snd]. rewrite !G by auto. ring.
  Qed.
  Lemma half_cases (s : K) (x : bool) : (half * s + kopp (half * im) * (im * (if x then kopp 1 else 1) * s) = if x then 0 else s) /\
    (half * s + half * im * (im * (if x then kopp 1 else 1) * s) = if x then s else 0).
  Proof.
    assert (Hh : half * s + half * s = s) by (transitivity ((half + half) * s); [ring|rewrite Hhalf; ring]).
    destruct x; split.
    - transitivity (half * s + half * s * (im * im)); [ring|rewrite Him; ring].
    - transitivity (half * s - half * s * (im * im)); [ring|rewrite Him]. transitivity (half * s + half * s); [ring|exact Hh].
    - transitivity (half * s - half * s * (im * im)); [ring|rewrite Him]. transitivity (half * s + half * s); [ring|exact Hh].
    - transitivity (half * s + half * s * (im * im)); [ring|rewrite Him; ring].
  Qed.
  Lemma jw_ladder_matrix n f : fst f < n -> on_qubits n (jw_ladder im half small f) /\ meq (qop_matrix im n (jw_ladder im half small f)) (ladder_matrix n f).
  Proof.
    intros Hf. destruct (jw_terms f) as (c2 & E2 & ->).
    assert (Hz : forall a g, In g (zs (fst f) ++ [(fst f, a)]) -> fst g < n).
    { intros a g Hg. apply in_app_or in Hg as [Hg|[<-|[]]]; [|exact Hf]. apply in_map_iff in Hg as (i & <- & Hi). apply in_seq in Hi. cbn. lia. }
    split.
    - intros t c [G|[G|[]]] g Hg; inversion G; subst; eapply Hz; (eapply Permutation_in; [apply (sort_by_perm index_leb)|exact Hg]).
    - apply (meq_bits n); [apply qop_matrix_shape|apply qop_matrix_shape|reflexivity|reflexivity|]. intros b c Hb Hc.
      rewrite ent_two by (auto; apply Hz). destruct (ladder_mono (K := K) n f Hf) as (_ & _ & El).
      rewrite El; [|cbn; rewrite <- Hb; apply bval_lt|cbn; rewrite <- Hc; apply bval_lt]. rewrite mono_ent by (auto; apply ladder_keeps; auto).
      destruct f as [p d]. cbn [fst snd] in *.
      assert (A : forall a, act (zs p ++ [(p, a)]) c = (sgn (odd_count (firstn p c)) * fst (pauli_bit im a (nth p c false)), setb p (snd (pauli_bit im a (nth p c false))) c)).
      { intros a. rewrite term_act_app. cbn [term_act]. unfold mcomp. cbn [fst snd factor_act]. unfold zs. rewrite z_act. cbn [fst snd].
        rewrite map_nth_seq by (rewrite setb_length; lia). rewrite odd_count_setb by lia. rewrite Nat.ltb_irrefl. apply pair_equal_spec; split; [ring|reflexivity]. }
      rewrite !A. cbn [fst snd pauli_bit ladder_act]. set (s := sgn (odd_count (firstn p c)) : K).
      destruct (half_cases s (nth p c false)) as [C1 C2]. rewrite E2.
      destruct (nth p c false) eqn:Bp; cbn [negb].
      + destruct d; cbn [negb Bool.eqb].
        * destruct (list_eqb Bool.eqb b (setb p false c)), (list_eqb Bool.eqb b (setb p true c)); try ring; (etransitivity; [|exact C1]; ring).
        * destruct (list_eqb Bool.eqb b (setb p false c)); [etransitivity; [|exact C2]; ring|ring].
      + destruct d; cbn [negb Bool.eqb].
        * destruct (list_eqb Bool.eqb b (setb p true c)); [etransitivity; [|exact C1]; ring|ring].
        * destruct (list_eqb Bool.eqb b (setb p false c)), (list_eqb Bool.eqb b (setb p true c)); try ring; (etransitivity; [|exact C2]; ring).
  Qed.
End XZ.
