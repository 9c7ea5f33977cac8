(** Qubit operators as matrices; in-place updates; groups of operators; comparison with tolerance. *)
From Coq Require Import Reals Permutation Sorted Ring Lra ZifyNat.
From Verif Require Import Base BaseFacts MatModel MatFacts LiftSpec LiftProofs Cplx CmpModel CmpProofs OpModel OpSpec OpProofs PauliProofs.
Open Scope list_scope.
Local Open Scope nat_scope.

Section QMat.
  Context {K : cring} (im : K) (Him : kmul im im = kopp k1) (n : nat).
  Add Ring Kring_qmat : (kth K).
  Open Scope K_scope.
  Notation T := (term_matrix im n).
  Notation M := (qop_matrix im n).

  Lemma qop_matrix_shape (a : qop K) : nr (M a) = (2 ^ n)%nat /\ nc (M a) = (2 ^ n)%nat.
  Proof. destruct a as [|[t c] a]; cbn; [auto|]. apply term_matrix_shape. Qed.
  Lemma qop_matrix_ent (a : qop K) i j : ent (M a) i j = lval (fun t => ent (T t) i j) a.
  Proof. induction a as [|tc a IH]; cbn; [reflexivity|]. f_equal. exact IH. Qed.
  Lemma term_matrix_app t u : meq (T (t ++ u)) (mmul (T t) (T u)).
  Proof.
    induction t as [|f t IH]; cbn [app term_matrix fold_right].
    - symmetry. apply mmul_eye_l. symmetry. apply term_matrix_shape.
    - fold (T (t ++ u)). fold (T t). symmetry. etransitivity.
      + apply mmul_assoc; cbn; [symmetry|rewrite (proj2 (term_matrix_shape im n t)); symmetry]; apply term_matrix_shape.
      + apply mmul_ext; [cbn; symmetry; apply term_matrix_shape|reflexivity|symmetry; exact IH].
  Qed.
  Lemma meq_qop (A B : mat K) : nr A = (2 ^ n)%nat -> nc A = (2 ^ n)%nat -> nr B = (2 ^ n)%nat -> nc B = (2 ^ n)%nat ->
    (forall i j, i < 2 ^ n -> j < 2 ^ n -> ent A i j = ent B i j) -> meq A B.
  Proof. intros H1 H2 H3 H4 H. split; [congruence|]. split; [congruence|]. rewrite H1, H2. auto. Qed.

  Lemma lprod_bigsum (a b : qop K) i j : i < 2 ^ n -> j < 2 ^ n ->
    lprod (fun t => ent (T t) i j) a b =
    bigsum (2 ^ n) (fun l => lval (fun t => ent (T t) i l) a * lval (fun t => ent (T t) l j) b).
  Proof.
    intros Hi Hj. induction a as [|[t c] a IH]; cbn [lprod fold_right lval fst snd].
    - symmetry. apply bigsum_0. intros; ring.
    - fold (lprod (fun t => ent (T t) i j) a b). rewrite IH.
      rewrite (bigsum_ext _ (fun l => (c * ent (T t) i l + lval (fun t0 => ent (T t0) i l) a) * lval (fun t0 => ent (T t0) l j) b)
        (fun l => c * (ent (T t) i l * lval (fun t0 => ent (T t0) l j) b) + lval (fun t0 => ent (T t0) i l) a * lval (fun t0 => ent (T t0) l j) b)) by (intros; ring).
      rewrite bigsum_add. f_equal. rewrite <- bigsum_mul_l. clear IH a. induction b as [|[u d] b IH]; cbn [fold_right lval fst snd].
      + rewrite bigsum_0; [ring|]. intros; ring.
      + rewrite IH.
        rewrite (bigsum_ext _ (fun l => ent (T t) i l * (d * ent (T u) l j + lval (fun t0 => ent (T t0) l j) b))
          (fun l => d * (ent (T t) i l * ent (T u) l j) + ent (T t) i l * lval (fun t0 => ent (T t0) l j) b)) by (intros; ring).
        rewrite bigsum_add, <- bigsum_mul_l.
        pose proof (term_matrix_app t u) as (S1 & S2 & E). pose proof (term_matrix_shape im n (t ++ u)) as [R C].
        rewrite E by (rewrite ?R, ?C; auto). cbn [ent mmul]. rewrite (proj2 (term_matrix_shape im n t)). ring.
  Qed.

  Lemma act_phi t t' (c c' : K) i j : (forall f, In f t -> fst f < n) -> (forall f, In f t' -> fst f < n) -> i < 2 ^ n -> j < 2 ^ n ->
    scaled c' (term_act im t' (bits n j)) = scaled c (term_act im t (bits n j)) -> c' * ent (T t') i j = c * ent (T t) i j.
  Proof.
    intros H H' Hi Hj E. pose proof (term_matrix_shape im n t) as [R C]. pose proof (term_matrix_shape im n t') as [R' C'].
    destruct (term_matrix_mono im n t H) as (_ & _ & E1). destruct (term_matrix_mono im n t' H') as (_ & _ & E2).
    rewrite E1, E2 by (rewrite ?R, ?C, ?R', ?C'; auto). cbn [ent mono]. unfold scaled in E. apply pair_equal_spec in E as [Ec Es].
    destruct (term_act im t' (bits n j)) as [x b], (term_act im t (bits n j)) as [y d]. cbn [fst snd] in *. subst d.
    destruct (Nat.eqb i (bval b)); [exact Ec|ring].
  Qed.
  Lemma simplify_phi t (c : K) i j : i < 2 ^ n -> j < 2 ^ n -> (forall f, In f t -> fst f < n) ->
    let '(c', t') := qubit_simplify im t c in c' * ent (T t') i j = c * ent (T t) i j.
  Proof.
    intros Hi Hj H. pose proof (simplify_act im Him t c (bits n j)) as E. pose proof (simplify_qubits im t c n H) as Q.
    destruct (qubit_simplify im t c) as [c' t']. cbn [snd] in Q. rewrite bits_length in E. apply act_phi; auto.
  Qed.
  Lemma qop_mul_matrix (a b : qop K) : on_qubits n a -> on_qubits n b ->
    meq (M (op_mul pauli_eqb (qubit_simplify im) a b)) (mmul (M a) (M b)).
  Proof.
    intros Ha Hb. apply meq_qop; try apply qop_matrix_shape; try (cbn; apply qop_matrix_shape). intros i j Hi Hj.
    rewrite qop_matrix_ent. rewrite (lval_mul pauli_eqb pauli_eqb_spec _ (qubit_simplify im) (fun t => forall f, In f t -> fst f < n)).
    - rewrite lprod_bigsum by auto. cbn [ent mmul]. rewrite (proj2 (qop_matrix_shape a)). apply bigsum_ext. intros l Hl.
      rewrite !qop_matrix_ent. reflexivity.
    - intros t c Hf. apply simplify_phi; auto.
    - intros [t c] [u d] H1 H2 f Hf. cbn in Hf. apply in_app_or in Hf as [Hf|Hf]; [eapply Ha|eapply Hb]; eauto.
  Qed.
  Lemma qop_merge_matrix f small sg (a b : qop K) : (forall x y, f x y = x + sg * y) ->
    exists r : qop K, Forall (fun tc => small (snd tc) = true) r /\ incl (map fst r) (dkeys b) /\ (length r <= length b)%nat /\
      meq (madd (M (fold_left (merge_term pauli_eqb small f) b a)) (M r)) (madd (M a) (mscale sg (M b))).
  Proof.
    intros Hf.
    (* the pruned entries do not depend on the functional *)
    assert (G : forall (b a : qop K), exists r : qop K, Forall (fun tc => small (snd tc) = true) r /\ incl (map fst r) (dkeys b) /\ (length r <= length b)%nat /\
      forall phi, lval phi (fold_left (merge_term pauli_eqb small f) b a) + lval phi r = lval phi a + sg * lval phi b).
    { clear a b. induction b as [|[t c] b IH]; intros a; cbn [fold_left].
      - exists []. split; [constructor|]. split; [intros ? []|]. split; [cbn; lia|]. intros phi. cbn. ring.
      - destruct (IH (merge_term pauli_eqb small f a (t, c))) as (r & Hr & Hi & Hl & E).
        pose proof (fun phi => lval_merge_term pauli_eqb pauli_eqb_spec phi f small sg a t c Hf) as Mt. cbn zeta in Mt. set (v := f _ c) in *.
        destruct (small v) eqn:S.
        + exists ((t, v) :: r). split; [constructor; auto|]. split; [|split; [cbn [length]; lia|]].
          * intros x [<-|Hx]; [left; auto|right; auto].
          * intros phi. cbn [lval fst snd].
            transitivity (lval phi (fold_left (merge_term pauli_eqb small f) b (merge_term pauli_eqb small f a (t, c))) + lval phi r + v * phi t); [ring|].
            rewrite E. transitivity (lval phi (merge_term pauli_eqb small f a (t, c)) + v * phi t + sg * lval phi b); [ring|]. rewrite Mt. ring.
        + exists r. split; [auto|]. split; [intros x Hx; right; auto|]. split; [cbn [length]; lia|]. intros phi. rewrite E. cbn [lval fst snd].
          transitivity (lval phi (merge_term pauli_eqb small f a (t, c)) + 0 + sg * lval phi b); [ring|]. rewrite Mt. ring. }
    destruct (G b a) as (r & Hr & Hi & Hl & E). exists r. split; [auto|]. split; [auto|]. split; [auto|].
    apply meq_qop; try (cbn; apply qop_matrix_shape). intros i j _ _. cbn [ent madd mscale]. rewrite !qop_matrix_ent. apply E.
  Qed.
  Lemma qop_scale_matrix (a : qop K) c : meq (M (op_scale a c)) (mscale c (M a)).
  Proof. apply meq_qop; try (cbn; apply qop_matrix_shape); try apply qop_matrix_shape. intros i j _ _. cbn [ent mscale]. rewrite !qop_matrix_ent, lval_scale. ring. Qed.
  Lemma mk_op_matrix t c : (forall f, In f t -> fst f < n) -> meq (M (mk_op (qubit_simplify im) t c)) (mscale c (T t)).
  Proof.
    intros H. apply meq_qop; try (cbn; apply qop_matrix_shape); try apply qop_matrix_shape; try (cbn; apply term_matrix_shape).
    intros i j Hi Hj. rewrite qop_matrix_ent. unfold mk_op. pose proof (simplify_phi t c i j Hi Hj H) as E. destruct (qubit_simplify im t c) as [c' t'].
    cbn [lval fst snd ent mscale]. rewrite E. ring.
  Qed.
  Lemma mpow_shape (A : mat K) k : nr A = (2 ^ n)%nat -> nc A = (2 ^ n)%nat -> nr (mpow A k) = (2 ^ n)%nat /\ nc (mpow A k) = (2 ^ n)%nat.
  Proof. intros H1 H2. induction k as [|k [IH1 IH2]]; cbn; auto. Qed.
  Lemma mul_on_qubits (a b : qop K) : on_qubits n a -> on_qubits n b -> on_qubits n (op_mul pauli_eqb (qubit_simplify im) a b).
  Proof.
    intros Ha Hb. unfold op_mul.
    assert (G : forall l d, on_qubits n l -> on_qubits n d -> on_qubits n (fold_left (fun d lt => fold_left (fun d rt =>
        let '(c, t) := qubit_simplify im (fst lt ++ fst rt) (snd lt * snd rt) in accumulate_term pauli_eqb t c d) b d) l d)).
    { induction l as [|lt l IH]; intros d Hl Hd; cbn [fold_left]; [auto|]. apply IH; [intros t c H; apply (Hl t c); right; auto|].
      assert (Hlt : forall f, In f (fst lt) -> fst f < n) by (destruct lt as [t c]; apply (Hl t c); left; auto). clear IH Hl l.
      revert d Hd Hb. generalize b as m. induction m as [|rt m IH]; intros d Hd Hm; cbn [fold_left]; [auto|].
      apply IH; [|intros t c H; apply (Hm t c); right; auto].
      assert (Hrt : forall f, In f (fst rt) -> fst f < n) by (destruct rt as [t c]; apply (Hm t c); left; auto).
      pose proof (simplify_qubits im (fst lt ++ fst rt) (snd lt * snd rt) n) as Q. destruct (qubit_simplify _ _ _) as [c t]. cbn [snd] in Q.
      specialize (Q ltac:(intros f Hf; apply in_app_or in Hf as [Hf|Hf]; auto)).
      assert (Gset : forall v (e : qop K), on_qubits n e -> on_qubits n (dset (term_eqb pauli_eqb) t v e)).
      { clear -Q. intros v e. induction e as [|[t' c'] e IH]; intros He; cbn.
        - intros t0 c0 [E|[]]. injection E as <- <-. auto.
        - destruct (term_eqb pauli_eqb t t'); intros t0 c0 [E|H].
          + injection E as <- <-. apply (He t' c'). left; auto.
          + apply (He t0 c0). right; auto.
          + injection E as <- <-. apply (He t' c'). left; auto.
          + apply (IH ltac:(intros a1 a2 Ha; apply (He a1 a2); right; auto) t0 c0 H). }
      unfold accumulate_term. destruct (dget _ _ _); apply Gset; auto. }
    apply G; auto. intros t c [].
  Qed.
  Lemma identity_matrix : meq (M (identity_op (qubit_simplify im))) (eye (2 ^ n)).
  Proof.
    unfold identity_op. etransitivity; [apply mk_op_matrix; intros f []|]. split; [auto|]. split; [auto|]. intros i j _ _. cbn. ring.
  Qed.
  Lemma pow_matrix (a : qop K) k : on_qubits n a ->
    on_qubits n (Nat.iter k (fun e => op_mul pauli_eqb (qubit_simplify im) e a) (identity_op (qubit_simplify im))) /\
    meq (M (Nat.iter k (fun e => op_mul pauli_eqb (qubit_simplify im) e a) (identity_op (qubit_simplify im)))) (mpow (M a) k).
  Proof.
    intros Ha. induction k as [|k [IH1 IH2]]; cbn [Nat.iter nat_rect mpow].
    - split; [intros t c [E|[]] f Hf; cbn in E; injection E as <- <-; destruct Hf|]. rewrite (proj1 (qop_matrix_shape a)). apply identity_matrix.
    - split; [apply mul_on_qubits; auto|]. etransitivity; [apply qop_mul_matrix; auto|].
      apply mmul_ext; [rewrite (proj2 (qop_matrix_shape _)); symmetry; apply qop_matrix_shape|exact IH2|reflexivity].
  Qed.
End QMat.

(** ** Ising operators *)
Section IVal.
  Context {K : cring}.
  Add Ring Kring_ival : (kth K).
  Open Scope K_scope.
  Context (s : nat -> bool).
  Notation zv := (zterm_value (K := K) s).
  Lemma isop_value_lval (a : isop K) : isop_value s a = lval zv a.
  Proof. induction a as [|tc a IH]; cbn; [reflexivity|]. rewrite <- IH. reflexivity. Qed.
  Lemma zv_nil : zv [] = 1.
  Proof. reflexivity. Qed.
  Lemma zv_cons f t : zv (f :: t) = zsign (s (fst f)) * zv t.
  Proof. reflexivity. Qed.
  Lemma zv_app t u : zv (t ++ u) = zv t * zv u.
  Proof. induction t as [|f t IH]; cbn [app]; rewrite ?zv_nil, ?zv_cons; [ring|]. rewrite IH. ring. Qed.
  Lemma zsign_sq b : zsign b * zsign b = (1 : K).
  Proof. destruct b; cbn; ring. Qed.
  Fixpoint zpow (x : K) (k : nat) : K := match k with O => 1 | S k' => x * zpow x k' end.
  Lemma zpow_parity b k : zpow (zsign b) k = if Nat.odd k then zsign b else 1.
  Proof.
    induction k as [|k IH]; cbn [zpow]; [reflexivity|]. rewrite IH, Nat.odd_succ, <- Nat.negb_odd. destruct (Nat.odd k); cbn [negb]; [apply zsign_sq|ring].
  Qed.
  Lemma zv_perm t u : Permutation t u -> zv t = zv u.
  Proof.
    assert (C : forall f t', zv (f :: t') = zsign (s (fst f)) * zv t') by reflexivity.
    induction 1 as [|f t u H IH|f g t|t u v H1 IH1 H2 IH2]; rewrite ?C; try congruence. ring.
  Qed.
  (** splitting off one index *)
  Lemma zv_split i t : zv t = zpow (zsign (s i)) (power_of i t) * zv (filter (fun f : factor zact => negb (Nat.eqb (fst f) i)) t).
  Proof.
    unfold power_of. induction t as [|f t IH]; cbn [filter]; [cbn; ring|]. rewrite zv_cons, IH.
    destruct (Nat.eqb_spec (fst f) i) as [<-|N]; cbn [negb length zpow]; [ring|]. change (@cons (prod nat zact)) with (@cons (factor zact)); rewrite zv_cons. ring.
  Qed.
  Lemma power_filter i j t : i <> j -> power_of i (filter (fun f : factor zact => negb (Nat.eqb (fst f) j)) t) = power_of i t.
  Proof.
    intros N. unfold power_of. induction t as [|f t IH]; [reflexivity|]. cbn [filter].
    destruct (Nat.eqb_spec (fst f) j) as [E|E]; cbn [negb filter]; destruct (Nat.eqb_spec (fst f) i); cbn [length]; try congruence.
  Qed.
  Lemma zv_indices l : NoDup l -> forall t, (forall f, In f t -> In (fst f) l) ->
    zv t = zv (map (fun i => (i, ZZ)) (filter (fun i => Nat.odd (power_of i t)) l)).
  Proof.
    induction l as [|i l IH]; intros ND t Ht.
    - destruct t as [|f t]; [reflexivity|]. destruct (Ht f (or_introl eq_refl)).
    - inversion ND as [|x y Hn ND']; subst. rewrite (zv_split i t), zpow_parity.
      rewrite (IH ND' (filter (fun f : factor zact => negb (Nat.eqb (fst f) i)) t)).
      + rewrite (filter_ext_in (fun i0 => Nat.odd (power_of i0 (filter (fun f : factor zact => negb (Nat.eqb (fst f) i)) t))) (fun i0 => Nat.odd (power_of i0 t)) l).
        * cbn [filter]. destruct (Nat.odd (power_of i t)); cbn [map]; rewrite ?zv_cons; cbn [fst]; [reflexivity|]. ring.
        * intros j Hj. rewrite power_filter; auto. intros ->. contradiction.
      + intros f Hf. apply filter_In in Hf as [Hf E]. destruct (Ht f Hf) as [Q|H]; [|auto]. rewrite <- Q, Nat.eqb_refl in E. discriminate.
  Qed.
  Lemma ising_simplify_phi t (c : K) : let '(c', t') := ising_simplify t c in c' * zv t' = c * zv t.
  Proof.
    unfold ising_simplify. f_equal. rewrite (zv_indices (uniq Nat.eqb (map fst t)) (uniq_NoDup _ nat_eqb_spec _) t).
    - apply zv_perm, Permutation_map, sort_by_perm.
    - intros f Hf. apply (uniq_In _ nat_eqb_spec). apply in_map; auto.
  Qed.
  Lemma lprod_zv (a b : isop K) : lprod zv a b = lval zv a * lval zv b.
  Proof.
    induction a as [|[t c] a IH]; cbn [lprod fold_right lval fst snd]; [ring|]. fold (lprod zv a b). rewrite IH.
    assert (G : fold_right (fun rt w => c * snd rt * zv (t ++ fst rt) + w) 0 b = c * zv t * lval zv b).
    { clear IH. induction b as [|[u d] b IHb]; cbn [fold_right lval fst snd]; [ring|]. rewrite IHb, zv_app. ring. }
    rewrite G. ring.
  Qed.
  Lemma isop_mul_value (a b : isop K) : isop_value s (op_mul zact_eqb ising_simplify a b) = isop_value s a * isop_value s b.
  Proof.
    rewrite !isop_value_lval. rewrite (lval_mul zact_eqb zact_eqb_spec _ ising_simplify (fun _ => True)); auto using lprod_zv.
    intros t c _. apply ising_simplify_phi.
  Qed.
End IVal.

Lemma sort_nat_sorted l : NoDup l -> StronglySorted lt (sort_by Nat.leb l).
Proof.
  intros ND. assert (H : StronglySorted (fun a b => Nat.leb a b = true) (sort_by Nat.leb l)).
  { apply sort_by_sorted; [intros a b|intros a b c]; rewrite !Nat.leb_le; lia. }
  assert (ND' : NoDup (sort_by Nat.leb l)) by (eapply Permutation_NoDup; [symmetry; apply sort_by_perm|auto]).
  revert H ND'. generalize (sort_by Nat.leb l). clear. induction 1 as [|a l Hs IH Hf]; intros ND; constructor; inversion ND; subst; auto.
  rewrite Forall_forall in *. intros b Hb. specialize (Hf b Hb). apply Nat.leb_le in Hf. assert (a <> b) by (intros ->; contradiction). lia.
Qed.

Lemma NoDup_app_l' {X} (l m : list X) : NoDup (l ++ m) -> NoDup l.
Proof. induction l as [|a l IH]; cbn; intros H; [constructor|]. inversion H; subst. constructor; auto. intros Hin. apply H2. apply in_or_app; auto. Qed.
Lemma NoDup_app_r' {X} (l m : list X) : NoDup (l ++ m) -> NoDup m.
Proof. induction l as [|a l IH]; cbn; intros H; [auto|]. inversion H; auto. Qed.

(** ** get_operators, accumulate, groups *)
Section Groups.
  Context {K : cring} {A : Type} (aeqb : A -> A -> bool) (Ha : eqb_spec_of aeqb) (simplify : term A -> K -> K * term A) (small : K -> bool).
  Add Ring Kring_grp : (kth K).
  Notation op := (sop A K).
  Notation teqb := (term_eqb aeqb).
  Let Ht : eqb_spec_of teqb := term_eqb_spec aeqb Ha.
  (** terms in canonical form with coefficients that are not small *)
  Definition clean (a : op) : Prop := wf_op a /\ forall t c, In (t, c) a -> simplify t c = (c, t) /\ small c = false.
  Lemma accumulate_from (a acc : op) : clean (acc ++ a) -> fold_left (op_add aeqb small) (get_operators simplify a) acc = acc ++ a.
  Proof.
    revert acc; induction a as [|[t c] a IH]; intros acc [W H]; cbn [get_operators map fold_left]; [now rewrite app_nil_r|].
    destruct (H t c ltac:(apply in_or_app; right; left; reflexivity)) as [S1 S2]. cbn [fst snd].
    assert (N : ~ In t (dkeys acc)).
    { unfold wf_op, dkeys in W. rewrite map_app in W. cbn in W. apply NoDup_remove_2 in W. intros Hin. apply W. apply in_or_app; left; exact Hin. }
    assert (E : op_add aeqb small acc (mk_op simplify t c) = acc ++ [(t, c)]).
    { unfold mk_op. rewrite S1. unfold op_add; cbn [fold_left]. unfold merge_term; cbn [fst snd]. rewrite (proj2 (dget_None teqb Ht t acc) N).
      replace (kadd k0 c) with c by ring. rewrite S2. apply (dset_app_new teqb Ht); auto. }
    rewrite E. unfold get_operators in IH. rewrite IH; rewrite <- app_assoc; [reflexivity|]. split; auto.
  Qed.
  Lemma accumulate_clean (a : op) : clean a -> accumulate aeqb small (get_operators simplify a) = a.
  Proof. intros H. unfold accumulate, zero_op. apply (accumulate_from a []). exact H. Qed.
  Lemma clean_part (a b c : op) : clean (a ++ b ++ c) -> clean b.
  Proof.
    intros [W H]. split.
    - unfold wf_op, dkeys in *. rewrite !map_app in W. apply NoDup_app_r', NoDup_app_l' in W. exact W.
    - intros t x Hin. apply H. apply in_or_app; right. apply in_or_app; left; auto.
  Qed.
  Lemma take_groups_concat sizes (a : op) : clean a -> sum_nat sizes = length a ->
    concat (take_groups aeqb small sizes (get_operators simplify a)) = a /\
    map (@length _) (take_groups aeqb small sizes (get_operators simplify a)) = sizes.
  Proof.
    revert a; induction sizes as [|m sizes IH]; intros a H E; cbn [take_groups concat map sum_nat] in *.
    - destruct a; [auto|discriminate].
    - unfold get_operators. rewrite firstn_map, skipn_map. fold (get_operators simplify (firstn m a)). fold (get_operators simplify (skipn m a)).
      assert (C1 : clean (firstn m a)) by (apply (clean_part [] _ (skipn m a)); cbn; now rewrite firstn_skipn).
      assert (C2 : clean (skipn m a)) by (apply (clean_part (firstn m a) _ []); rewrite app_nil_r; now rewrite firstn_skipn).
      rewrite accumulate_clean by auto. destruct (IH (skipn m a) C2) as [I1 I2]; [rewrite skipn_length; lia|].
      rewrite I1, I2, firstn_skipn, firstn_length. split; [auto|]. f_equal. lia.
  Qed.
  Lemma range_len_closed i n g : 0 < g -> i < g -> range_len i n g = n / g + (if i <? n mod g then 1 else 0).
  Proof.
    intros Hg Hi. unfold range_len. pose proof (Nat.div_mod n g ltac:(lia)) as D. pose proof (Nat.mod_upper_bound n g ltac:(lia)) as B.
    set (k := n / g) in *. set (r := n mod g) in *. destruct (Nat.ltb_spec i n) as [L|L].
    - destruct (Nat.ltb_spec i r) as [L'|L'].
      + symmetry. apply (Nat.div_unique _ g _ (r - i - 1)); lia.
      + symmetry. apply (Nat.div_unique _ g _ (r + g - i - 1)); lia.
    - assert (k = 0) by (destruct k; [auto|nia]). destruct (Nat.ltb_spec i r); lia.
  Qed.
  Lemma sum_range n g : 0 < g -> sum_nat (map (fun i => range_len i n g) (seq 0 g)) = n.
  Proof.
    intros Hg. rewrite (map_ext_in _ (fun i => n / g + (if i <? n mod g then 1 else 0))) by (intros i Hi; apply in_seq in Hi; apply range_len_closed; lia).
    pose proof (Nat.div_mod n g ltac:(lia)) as D. pose proof (Nat.mod_upper_bound n g ltac:(lia)) as B. set (k := n / g) in *. set (r := n mod g) in *.
    assert (G : forall m, sum_nat (map (fun i => k + (if i <? r then 1 else 0)) (seq 0 m)) = m * k + Nat.min m r).
    { induction m as [|m IHm]; [reflexivity|]. rewrite seq_S, map_app, sum_nat_app, IHm. cbn [map sum_nat plus]. destruct (Nat.ltb_spec m r); lia. }
    rewrite G. lia.
  Qed.
End Groups.
