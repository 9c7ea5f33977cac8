(** Pauli strings as products over qubits, orthogonality and independence. *)
From Coq Require Import Permutation Sorted Ring.
From Verif Require Import Base BaseFacts MatModel MatFacts LiftSpec LiftProofs OpModel OpSpec OpProofs PauliProofs OpProofs2 ConjProofs.
Open Scope list_scope.
Local Open Scope nat_scope.

Section PB.
  Context {K : cring} (im : K) (Him : kmul im im = kopp k1).
  Add Ring Kring_pb : (kth K).
  Open Scope K_scope.
  (** product over qubits *)
  Fixpoint bigprod (n : nat) (f : nat -> K) : K := match n with O => 1 | S m => f O * bigprod m (fun q => f (S q)) end.
  Lemma bigprod_ext n : forall f g, (forall q, (q < n)%nat -> f q = g q) -> bigprod n f = bigprod n g.
  Proof. induction n as [|n IH]; intros f g H; cbn [bigprod]; [auto|]. rewrite (H O) by lia. f_equal. apply IH. intros q Hq. apply H. lia. Qed.
  Lemma bigprod_mul n : forall f g, bigprod n f * bigprod n g = bigprod n (fun q => f q * g q).
  Proof. induction n as [|n IH]; intros f g; cbn [bigprod]; [ring|]. rewrite <- IH. ring. Qed.
  Lemma bigprod_0 n : forall f q, (q < n)%nat -> f q = 0 -> bigprod n f = 0.
  Proof. induction n as [|n IH]; intros f q Hq E; [lia|]. cbn [bigprod]. destruct q as [|q]; [rewrite E; ring|]. rewrite (IH _ q) by (auto; lia). ring. Qed.
  Lemma bigprod_1 n : forall f, (forall q, (q < n)%nat -> f q = 1) -> bigprod n f = 1.
  Proof. induction n as [|n IH]; intros f H; cbn [bigprod]; [auto|]. rewrite H, IH by (auto with arith; intros; apply H; lia). ring. Qed.
  (** sum over all bit lists *)
  Fixpoint bitsum (n : nat) (F : list bool -> K) : K := match n with O => F [] | S m => bitsum m (fun b => F (false :: b)) + bitsum m (fun b => F (true :: b)) end.
  Lemma bitsum_ext n : forall F G, (forall b, length b = n -> F b = G b) -> bitsum n F = bitsum n G.
  Proof. induction n as [|n IH]; intros F G H; cbn [bitsum]; [apply H; auto|]. f_equal; apply IH; intros b Hb; apply H; cbn; auto. Qed.
  Lemma bits_S_low n i : (i < 2 ^ n)%nat -> bits (S n) i = false :: bits n i.
  Proof. intros H. cbn [bits]. rewrite Nat.div_small by auto. reflexivity. Qed.
  Lemma bits_S_high n i : (i < 2 ^ n)%nat -> bits (S n) (2 ^ n + i) = true :: bits n i.
  Proof.
    intros H. rewrite <- (bits_bval_n (S n) (true :: bits n i)) by (cbn; rewrite bits_length; auto). f_equal.
    cbn [bval]. rewrite bits_length, bval_bits_small by auto. reflexivity.
  Qed.
  Lemma bitsum_bigsum n : forall F, bigsum (2 ^ n) (fun i => F (bits n i)) = bitsum n F.
  Proof.
    induction n as [|n IH]; intros F; [cbn; ring|]. replace (2 ^ S n)%nat with (2 ^ n + 2 ^ n)%nat by (cbn; lia). rewrite bigsum_split. cbn [bitsum].
    rewrite <- !IH. f_equal; apply bigsum_ext; intros i Hi; [rewrite bits_S_low by auto|rewrite bits_S_high by auto]; reflexivity.
  Qed.
  Lemma bitsum_mul_l n : forall a F, a * bitsum n F = bitsum n (fun b => a * F b).
  Proof. induction n as [|n IH]; intros a F; cbn [bitsum]; [auto|]. rewrite <- !IH. ring. Qed.
  Lemma bitsum_prod n : forall (f : nat -> bool -> K), bitsum n (fun b => bigprod n (fun q => f q (nth q b false))) = bigprod n (fun q => f q false + f q true).
  Proof.
    induction n as [|n IH]; intros f; [reflexivity|]. cbn [bitsum bigprod nth]. rewrite <- !bitsum_mul_l, !(IH (fun q x => f (S q) x)). ring.
  Qed.
  Lemma bitsum_prod2 n (f : nat -> bool -> bool -> K) :
    bitsum n (fun b => bitsum n (fun c => bigprod n (fun q => f q (nth q b false) (nth q c false)))) = bigprod n (fun q => f q false false + f q false true + (f q true false + f q true true)).
  Proof.
    rewrite (bitsum_ext n _ (fun b => bigprod n (fun q => f q (nth q b false) false + f q (nth q b false) true))) by (intros b _; apply (bitsum_prod n (fun q => f q (nth q b false)))).
    rewrite (bitsum_prod n (fun q x => f q x false + f q x true)). reflexivity.
  Qed.
  (** a Pauli entry, row x column y *)
  Definition pent (p : pauli) (x y : bool) : K :=
    match p with
    | Pid => if Bool.eqb x y then 1 else 0
    | Px => if Bool.eqb x y then 0 else 1
    | Py => if Bool.eqb x y then 0 else if x then im else - im
    | Pz => if Bool.eqb x y then (if x then - (1) else 1) else 0
    end.
  Definition at_q (t : term pauli) (q : nat) : pauli := match find (fun f : factor pauli => Nat.eqb (fst f) q) t with Some f => snd f | None => Pid end.
  Lemma bigprod_split q n : forall (f : nat -> K), (q < n)%nat -> bigprod n f = f q * bigprod n (fun r => if Nat.eqb r q then 1 else f r).
  Proof.
    revert q. induction n as [|n IH]; intros q f Hq; [lia|]. cbn [bigprod]. destruct q as [|q].
    - cbn [Nat.eqb]. ring.
    - cbn [Nat.eqb]. rewrite (IH q (fun r => f (S r))) by lia. ring.
  Qed.
  Lemma ent_eq n (b c : list bool) : length b = n -> length c = n -> bigprod n (fun q => if Bool.eqb (nth q b false) (nth q c false) then 1 else 0) = if list_eqb Bool.eqb b c then 1 else 0.
  Proof.
    revert b c. induction n as [|n IH]; intros [|x b] [|y c] Hb Hc; try discriminate; [reflexivity|]. cbn [bigprod nth list_eqb].
    rewrite IH by (cbn in *; lia). destruct (Bool.eqb x y), (list_eqb Bool.eqb b c); cbn; ring.
  Qed.
  Lemma pent_bit p x y : pent p x y = if Bool.eqb x (snd (pauli_bit im p y)) then fst (pauli_bit im p y) else 0.
  Proof. destruct p, x, y; reflexivity. Qed.
  Lemma at_q_absent (t : term pauli) q : ~ In q (map fst t) -> at_q t q = Pid.
  Proof.
    intros H. unfold at_q. destruct (find _ t) as [g|] eqn:F; [|auto]. apply find_some in F as [F1 F2]. apply Nat.eqb_eq in F2. exfalso. apply H. rewrite <- F2. apply in_map. auto.
  Qed.
  Lemma at_q_same q p t : at_q ((q, p) :: t) q = p.
  Proof. unfold at_q. cbn [find fst]. rewrite Nat.eqb_refl. reflexivity. Qed.
  Lemma at_q_other q p t r : r <> q -> at_q ((q, p) :: t) r = at_q t r.
  Proof. intros Ne. unfold at_q. cbn [find fst]. destruct (Nat.eqb_spec q r); [congruence|reflexivity]. Qed.
  Lemma act_product n (t : term pauli) : NoDup (map fst t) -> (forall f, In f t -> (fst f < n)%nat) -> forall c, length c = n ->
    fst (term_act im t c) = bigprod n (fun q => fst (pauli_bit im (at_q t q) (nth q c false))) /\
    forall q, (q < n)%nat -> nth q (snd (term_act im t c)) false = snd (pauli_bit im (at_q t q) (nth q c false)).
  Proof.
    intros Hn Hq c Hc. induction t as [|[q p] t IH].
    - cbn [term_act fst snd]. split; [symmetry; apply bigprod_1; reflexivity|reflexivity].
    - inversion Hn as [|? ? N1 N2]; subst. destruct (IH N2 (fun f Hf => Hq f (or_intror Hf))) as [I1 I2]. rewrite term_act_cons. unfold mcomp. set (r := term_act im t c) in *.
      assert (Hr : length (snd r) = length c) by (apply (term_keeps im (length c) t); auto).
      assert (Hqn : (q < length c)%nat) by (apply (Hq (q, p)); left; auto).
      assert (Hat := at_q_absent t q N1). cbn [factor_act fst snd]. rewrite (I2 q Hqn), Hat. cbn [pauli_bit snd]. split.
      + rewrite (bigprod_split q) by auto. rewrite at_q_same. f_equal. rewrite I1, (bigprod_split q) by auto. rewrite Hat. cbn [pauli_bit fst].
        transitivity (bigprod (length c) (fun r0 => if Nat.eqb r0 q then 1 else fst (pauli_bit im (at_q t r0) (nth r0 c false)))); [ring|].
        apply bigprod_ext. intros s _. destruct (Nat.eqb_spec s q) as [->|Ne]; [auto|]. rewrite at_q_other by auto. reflexivity.
      + intros s Hs. rewrite nth_setb by lia. destruct (Nat.eqb_spec s q) as [->|Ne]; [rewrite at_q_same; reflexivity|]. rewrite at_q_other, I2 by auto. reflexivity.
  Qed.
  Lemma bigprod_guard n : forall (b : nat -> bool) (f : nat -> K), bigprod n (fun q => if b q then f q else 0) = if forallb b (seq 0 n) then bigprod n f else 0.
  Proof.
    intros b f. destruct (forallb b (seq 0 n)) eqn:E.
    - apply bigprod_ext. intros q Hq. rewrite forallb_forall in E. rewrite E by (apply in_seq; lia). reflexivity.
    - assert (H : exists q, (q < n)%nat /\ b q = false).
      { destruct (existsb (fun q => negb (b q)) (seq 0 n)) eqn:X.
        - apply existsb_exists in X as (q & Hq & Hb). exists q. apply in_seq in Hq. apply negb_true_iff in Hb. split; [lia|auto].
        - exfalso. apply not_true_iff_false in E. apply E. apply forallb_forall. intros q Hq. apply not_true_iff_false in X. destruct (b q) eqn:B; auto. exfalso. apply X.
          apply existsb_exists. exists q. rewrite B. auto. }
      destruct H as (q & Hq & Hb). apply (bigprod_0 n _ q Hq). rewrite Hb. reflexivity.
  Qed.
  Lemma list_eqb_nth n : forall (b c : list bool), length b = n -> length c = n -> list_eqb Bool.eqb b c = forallb (fun q => Bool.eqb (nth q b false) (nth q c false)) (seq 0 n).
  Proof.
    intros b c Hb Hc. apply Bool.eq_iff_eq_true. pose proof (list_eqb_spec _ bool_eqb_spec b c) as L. rewrite L, forallb_forall. split.
    - intros -> q _. apply Bool.eqb_reflx.
    - intros H. apply bits_ext; [congruence|]. intros i Hi. apply Bool.eqb_prop, H, in_seq. lia.
  Qed.
  Lemma term_ent n (t : term pauli) : NoDup (map fst t) -> (forall f, In f t -> (fst f < n)%nat) -> forall b c, length b = n -> length c = n ->
    ent (term_matrix im n t) (bval b) (bval c) = bigprod n (fun q => pent (at_q t q) (nth q b false) (nth q c false)).
  Proof.
    intros Hn Hq b c Hb Hc. destruct (term_matrix_mono im n t Hq) as (_ & _ & E).
    destruct (term_matrix_shape im n t) as [S1 S2]. rewrite E; [|rewrite S1, <- Hb; apply bval_lt|rewrite S2, <- Hc; apply bval_lt].
    assert (Ha : length (snd (term_act im t c)) = n) by (apply term_keeps; auto). rewrite mono_ent by auto. destruct (act_product n t Hn Hq c Hc) as [A1 A2].
    rewrite (bigprod_ext n _ (fun q => if Bool.eqb (nth q b false) (nth q (snd (term_act im t c)) false) then fst (pauli_bit im (at_q t q) (nth q c false)) else 0)).
    2:{ intros q Hqn. rewrite A2 by auto. apply pent_bit. }
    rewrite bigprod_guard, (list_eqb_nth n), A1 by auto. reflexivity.
  Qed.
  Lemma canonical_NoDup (t : term pauli) : canonical t -> NoDup (map fst t).
  Proof.
    induction t as [|f t IH]; intros H; cbn [map]; constructor.
    - intros G. apply in_map_iff in G as (g & E & Hg). pose proof (canonical_head f t H g Hg). lia.
    - apply IH. apply H.
  Qed.
  Lemma canonical_at (t : term pauli) q p : canonical t -> (In (q, p) t <-> at_q t q = p /\ p <> Pid).
  Proof.
    induction t as [|[r s] t IH]; intros Hc.
    - cbn. split; [tauto|]. intros [<- H]. apply H. reflexivity.
    - assert (Hh := canonical_head _ _ Hc). destruct Hc as (H1 & _ & Hc). cbn [snd] in H1. specialize (IH Hc). destruct (Nat.eq_dec q r) as [->|Ne].
      + rewrite at_q_same. split.
        * intros [E|H]; [inversion E; subst; auto|]. apply Hh in H. cbn in H. lia.
        * intros [-> _]. left. auto.
      + rewrite at_q_other by auto. rewrite <- IH. split; [intros [E|H]; [inversion E; congruence|auto]|intros H; right; auto].
  Qed.
  Lemma canonical_ext (t u : term pauli) : canonical t -> canonical u -> (forall q, at_q t q = at_q u q) -> t = u.
  Proof.
    intros Ht Hu E. assert (M : forall f, In f t <-> In f u) by (intros [q p]; rewrite !canonical_at, E by auto; reflexivity).
    clear E. revert u Hu M. induction t as [|f t IH]; intros u Hu M.
    - destruct u as [|g u]; [auto|]. exfalso. apply (M g). left. auto.
    - destruct u as [|g u]; [exfalso; apply (M f); left; auto|]. assert (Hf := canonical_head _ _ Ht). assert (Hg := canonical_head _ _ Hu).
      assert (E : f = g). { destruct (proj1 (M f)) as [|A]; [left; auto|congruence|]. destruct (proj2 (M g)) as [|B]; [left; auto|congruence|]. apply Hf in B. apply Hg in A. lia. }
      subst g. f_equal. apply IH; [apply Ht|apply Hu|]. intros h. split; intros H.
      + destruct (proj1 (M h)) as [<-|]; [right; auto|apply Hf in H; lia|auto].
      + destruct (proj2 (M h)) as [<-|]; [right; auto|apply Hg in H; lia|auto].
  Qed.
  Lemma pauli_trace p q : pent p false false * pent q false false + pent p false true * pent q true false + (pent p true false * pent q false true + pent p true true * pent q true true)
    = if pauli_eqb p q then 1 + 1 else 0.
  Proof. destruct p, q; cbn; ring [Him]. Qed.
  Definition trace (A : mat K) : K := bigsum (nr A) (fun i => ent A i i).
  Definition npow (n : nat) (x : K) : K := bigprod n (fun _ => x).
  Lemma trace_terms n (s t : term pauli) : canonical s -> canonical t -> (forall f, In f s -> (fst f < n)%nat) -> (forall f, In f t -> (fst f < n)%nat) ->
    bitsum n (fun b => bitsum n (fun c => ent (term_matrix im n s) (bval b) (bval c) * ent (term_matrix im n t) (bval c) (bval b))) = if term_eqb pauli_eqb s t then npow n (1 + 1) else 0.
  Proof.
    intros Hs Ht Ns Nt.
    rewrite (bitsum_ext n _ (fun b => bitsum n (fun c => bigprod n (fun q => pent (at_q s q) (nth q b false) (nth q c false) * pent (at_q t q) (nth q c false) (nth q b false))))).
    2:{ intros b Hb. apply bitsum_ext. intros c Hc. rewrite !term_ent by (auto using canonical_NoDup). apply bigprod_mul. }
    rewrite (bitsum_prod2 n (fun q x y => pent (at_q s q) x y * pent (at_q t q) y x)).
    rewrite (bigprod_ext n _ (fun q => if pauli_eqb (at_q s q) (at_q t q) then 1 + 1 else 0)) by (intros q _; apply pauli_trace).
    rewrite (bigprod_guard n (fun q => pauli_eqb (at_q s q) (at_q t q)) (fun _ => 1 + 1)).
    assert (E : forallb (fun q => pauli_eqb (at_q s q) (at_q t q)) (seq 0 n) = term_eqb pauli_eqb s t).
    { apply Bool.eq_iff_eq_true. pose proof (term_eqb_spec _ pauli_eqb_spec s t) as L. rewrite L, forallb_forall. split.
      - intros H. apply canonical_ext; auto. intros q. destruct (Nat.lt_ge_cases q n) as [Lq|Lq]; [apply pauli_eqb_spec, H, in_seq; lia|].
        rewrite !at_q_absent; auto; intros G; apply in_map_iff in G as (f & E & Hf); [apply Nt in Hf|apply Ns in Hf]; lia.
      - intros -> q _. apply pauli_eqb_spec. auto. }
    rewrite E. reflexivity.
  Qed.
  (** ** Coefficients from the matrix *)
  Lemma bitsum_0 n : bitsum n (fun _ => 0) = 0.
  Proof. induction n as [|n IH]; cbn [bitsum]; [auto|]. rewrite IH. ring. Qed.
  Lemma bitsum_add n : forall F G, bitsum n (fun b => F b + G b) = bitsum n F + bitsum n G.
  Proof. induction n as [|n IH]; intros F G; cbn [bitsum]; [auto|]. rewrite !IH. ring. Qed.
  Lemma coef_nil (t : term pauli) : coef pauli_eqb (K := K) [] t = 0.
  Proof. reflexivity. Qed.
  Lemma trace_coef n (a : qop K) (s : term pauli) : wf_op a -> on_qubits n a -> (forall t c, In (t, c) a -> canonical t) -> canonical s -> (forall f, In f s -> (fst f < n)%nat) ->
    bitsum n (fun b => bitsum n (fun c => ent (term_matrix im n s) (bval b) (bval c) * ent (qop_matrix im n a) (bval c) (bval b))) = npow n (1 + 1) * coef pauli_eqb a s.
  Proof.
    intros Hw Hon Hcan Hs Ns. induction a as [|[t x] a IH].
    - rewrite coef_nil. transitivity (0 : K); [|ring]. rewrite <- (bitsum_0 n). apply bitsum_ext. intros b _. rewrite <- (bitsum_0 n). apply bitsum_ext. intros c _. cbn. ring.
    - inversion Hw as [|? ? N1 N2]; subst. specialize (IH N2). 
      assert (Hon' : on_qubits n a) by (intros u d H; eapply Hon; right; eauto). assert (Hcan' : forall u d, In (u, d) a -> canonical u) by (intros u d H; eapply Hcan; right; eauto).
      specialize (IH Hon' Hcan'). 
      transitivity (x * bitsum n (fun b => bitsum n (fun c => ent (term_matrix im n s) (bval b) (bval c) * ent (term_matrix im n t) (bval c) (bval b)))
        + bitsum n (fun b => bitsum n (fun c => ent (term_matrix im n s) (bval b) (bval c) * ent (qop_matrix im n a) (bval c) (bval b)))).
      { rewrite bitsum_mul_l, <- bitsum_add. apply bitsum_ext. intros b _. rewrite bitsum_mul_l, <- bitsum_add. apply bitsum_ext. intros c _.
        cbn [qop_matrix fold_right ent madd mscale fst snd]. fold (qop_matrix im n a). ring. }
      rewrite IH, trace_terms; auto; [|eapply Hcan; left; reflexivity|eapply Hon; left; reflexivity].
      unfold coef. cbn [dget]. destruct (term_eqb pauli_eqb s t) eqn:E; [|ring]. apply (term_eqb_spec _ pauli_eqb_spec) in E. subst t.
      rewrite (proj2 (dget_None _ (term_eqb_spec _ pauli_eqb_spec) s a)) by exact N1. ring.
  Qed.
  (** Pauli terms are linearly independent when two is invertible *)
  Context (half : K) (Hhalf : half + half = 1).
  Lemma npow_half n : npow n half * npow n (1 + 1) = 1.
  Proof. unfold npow. rewrite bigprod_mul. apply bigprod_1. intros q _. transitivity (half + half); [ring|exact Hhalf]. Qed.
  Theorem pauli_independent n (a b : qop K) : wf_op a -> wf_op b -> on_qubits n a -> on_qubits n b -> (forall t c, In (t, c) a -> canonical t) -> (forall t c, In (t, c) b -> canonical t) ->
    meq (qop_matrix im n a) (qop_matrix im n b) -> forall t, coef pauli_eqb a t = coef pauli_eqb b t.
  Proof.
    intros Wa Wb Oa Ob Ca Cb (_ & _ & E) t.
    assert (D : (canonical t /\ (forall f, In f t -> (fst f < n)%nat)) \/ (coef pauli_eqb a t = 0 /\ coef pauli_eqb b t = 0)).
    { unfold coef. destruct (dget _ t a) as [x|] eqn:Da.
      - left. apply (dget_In _ (term_eqb_spec _ pauli_eqb_spec)) in Da. split; [eapply Ca|eapply Oa]; eauto.
      - destruct (dget _ t b) as [y|] eqn:Db; [left|right; auto]. apply (dget_In _ (term_eqb_spec _ pauli_eqb_spec)) in Db. split; [eapply Cb|eapply Ob]; eauto. }
    destruct D as [[Ct Ot]|[-> ->]]; [|auto].
    assert (G : npow n (1 + 1) * coef pauli_eqb a t = npow n (1 + 1) * coef pauli_eqb b t).
    { rewrite <- (trace_coef n a t), <- (trace_coef n b t) by auto. apply bitsum_ext. intros x Hx. apply bitsum_ext. intros y Hy. f_equal.
      destruct (qop_matrix_shape im n a) as [S1 S2]. apply E; [rewrite S1, <- Hy|rewrite S2, <- Hx]; apply bval_lt. }
    transitivity (npow n half * npow n (1 + 1) * coef pauli_eqb a t); [rewrite npow_half; ring|].
    transitivity (npow n half * (npow n (1 + 1) * coef pauli_eqb a t)); [ring|]. rewrite G.
    transitivity (npow n half * npow n (1 + 1) * coef pauli_eqb b t); [ring|rewrite npow_half; ring].
  Qed.
End PB.
