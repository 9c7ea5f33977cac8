(** Proofs about lifting (C06). *)
From Coq Require Import Ring Sorting.Permutation Sorting.Sorted ListDec.
From Verif Require Import Base BaseFacts MatModel MatFacts LiftModel LiftSpec.

(** ** Digits *)
Lemma pos_digits_spec p : forall acc, bval (pos_digits p acc) = Pos.to_nat p * 2 ^ length acc + bval acc /\
  (exists l, pos_digits p acc = l ++ acc /\ 2 ^ (length l - 1) <= Pos.to_nat p /\ 1 <= length l).
Proof.
  induction p as [p IH|p IH|]; intros acc; cbn [pos_digits].
  - destruct (IH (true :: acc)) as [H (l & E & Hl & H1)]. split.
    + rewrite H. cbn [length bval Nat.pow]. rewrite Pos2Nat.inj_xI. lia.
    + exists (l ++ [true]). rewrite <- app_assoc. split; [exact E|]. rewrite app_length. cbn [length].
      replace (length l + 1 - 1) with (S (length l - 1)) by lia. cbn [Nat.pow]. rewrite Pos2Nat.inj_xI. lia.
  - destruct (IH (false :: acc)) as [H (l & E & Hl & H1)]. split.
    + rewrite H. cbn [length bval Nat.pow]. rewrite Pos2Nat.inj_xO. lia.
    + exists (l ++ [false]). rewrite <- app_assoc. split; [exact E|]. rewrite app_length. cbn [length].
      replace (length l + 1 - 1) with (S (length l - 1)) by lia. cbn [Nat.pow]. rewrite Pos2Nat.inj_xO. lia.
  - split.
    + cbn. lia.
    + exists [true]. cbn. split; [auto|]. lia.
Qed.
Lemma bval_repeat_false n l : bval (repeat false n ++ l) = bval l.
Proof. induction n; cbn; auto. Qed.
Lemma bin_digits_spec i n : N.to_nat i < 2 ^ n -> 1 <= n -> bval (bin_digits i) = N.to_nat i /\ length (bin_digits i) <= n.
Proof.
  destruct i as [|p]; cbn [bin_digits]; intros H Hn; [cbn; lia|].
  destruct (pos_digits_spec p []) as [Hv (l & E & Hl & H1)]. rewrite app_nil_r in E. rewrite Hv. cbn [length Nat.pow bval].
  split; [cbn; lia|]. rewrite E. cbn in H. destruct (Nat.le_gt_cases (length l) n); [auto|].
  assert (2 ^ n <= 2 ^ (length l - 1)) by (apply Nat.pow_le_mono_r; lia). lia.
Qed.
Lemma basis_bitstring_bits i n : i < 2 ^ n -> 1 <= n -> basis_bitstring i n = bits n i.
Proof.
  intros H Hn. unfold basis_bitstring, zfill. destruct (bin_digits_spec (N.of_nat i) n) as [Hv Hl]; [lia|auto|].
  apply bval_inj.
  - rewrite app_length, repeat_length, bits_length. lia.
  - rewrite bval_repeat_false, Hv, bval_bits_small by auto. lia.
Qed.

Section P.
  Context {K : cring}.
  Add Ring Kring2 : (kth K).
  Open Scope K_scope.

  (** ** Basis vectors *)
  Lemma basis_vec_spec b : vlen (basis_vec (K:=K) b) = 2%nat /\ forall i, i < 2 -> vent (basis_vec (K:=K) b) i = delta (Nat.eqb i (bval [b])).
  Proof. destruct b; (split; [reflexivity|]); intros [|[|i]] H; try lia; reflexivity. Qed.

  Lemma dense_vector_spec state : state <> [] -> exists v, bitstring_to_dense_vector (K:=K) state = Ok v /\
    vlen v = (2 ^ length state)%nat /\ forall i, i < 2 ^ length state -> vent v i = delta (Nat.eqb i (bval state)).
  Proof.
    destruct state as [|b rest]; [congruence|]. intros _. eexists; split; [reflexivity|].
    assert (G : forall rest pre (v : vec K), vlen v = (2 ^ length pre)%nat ->
      (forall i, i < 2 ^ length pre -> vent v i = delta (Nat.eqb i (bval pre))) ->
      let w := fold_left (fun v b => vkron v (basis_vec b)) rest v in
      vlen w = (2 ^ length (pre ++ rest))%nat /\ forall i, i < 2 ^ length (pre ++ rest) -> vent w i = delta (Nat.eqb i (bval (pre ++ rest)))).
    { clear. induction rest as [|b rest IH]; intros pre v Hl Hv; cbn.
      - rewrite app_nil_r. auto.
      - specialize (IH (pre ++ [b]) (vkron v (basis_vec b))). rewrite <- app_assoc in IH. apply IH.
        + cbn [vlen vkron]. destruct (basis_vec_spec b) as [-> _]. rewrite Hl, app_length. cbn [length].
          rewrite Nat.add_1_r. cbn. lia.
        + intros i Hi. cbn [vent vkron]. destruct (basis_vec_spec b) as [Eb Hb]. rewrite Eb.
          rewrite app_length in Hi. cbn [length] in Hi. rewrite Nat.add_1_r in Hi. cbn [Nat.pow] in Hi.
          destruct (divmod_lt i (2 ^ length pre) 2) as [H1 H2]; [lia|]. rewrite Hv, Hb, <- delta_andb by auto. f_equal.
          rewrite bval_app. cbn [length]. change (2 ^ 1)%nat with 2%nat.
          rewrite (eqb_divmod i (bval pre * 2 + bval [b]) 2) by lia.
          pose proof (bval_lt [b]). cbn [length] in H. change (2 ^ 1)%nat with 2%nat in H.
          rewrite div_mul_add, mod_mul_add by auto. reflexivity. }
    apply (G rest [b]).
    - apply basis_vec_spec.
    - apply basis_vec_spec.
  Qed.

  (** ** Permutation matrices *)
  Lemma permute_ok {A} (d : A) v perm : (forall i, In i perm -> i < length v) ->
    permute v perm = Ok (map (fun i => nth i v d) perm).
  Proof.
    intros H. unfold permute. apply mapM_Ok_map. intros i Hi. apply H in Hi.
    rewrite (nth_error_nth' v d Hi). reflexivity.
  Qed.
  Lemma nat_leb_total a b : Nat.leb a b = true \/ Nat.leb b a = true.
  Proof. rewrite !Nat.leb_le. lia. Qed.
  Lemma nat_leb_trans a b c : Nat.leb a b = true -> Nat.leb b c = true -> Nat.leb a c = true.
  Proof. rewrite !Nat.leb_le. lia. Qed.
  Lemma nat_leb_antisym a b : Nat.leb a b = true -> Nat.leb b a = true -> a = b.
  Proof. rewrite !Nat.leb_le. lia. Qed.
  Lemma seq_sorted n : forall s, StronglySorted (leP Nat.leb) (seq s n).
  Proof.
    induction n as [|n IH]; intros s; cbn; constructor; auto. apply Forall_forall. intros x Hx. apply in_seq in Hx.
    apply Nat.leb_le. lia.
  Qed.
  Lemma sorted_range_iff order n : list_eqb Nat.eqb (sort_by Nat.leb order) (seq 0 n) = true <-> Permutation order (seq 0 n).
  Proof.
    pose proof (list_eqb_spec _ nat_eqb_spec (sort_by Nat.leb order) (seq 0 n)) as Hspec. rewrite Hspec. split.
    - intros E. rewrite <- E. symmetry. apply sort_by_perm.
    - intros HP. apply (sorted_unique Nat.leb nat_leb_antisym).
      + apply sort_by_sorted; [apply nat_leb_total|apply nat_leb_trans].
      + apply seq_sorted.
      + rewrite sort_by_perm. auto.
  Qed.

  Definition perm_bits (order : list nat) (b : list bool) : list bool := map (fun i => nth i b false) order.
  Lemma perm_bits_length order b : length (perm_bits order b) = length order.
  Proof. apply map_length. Qed.

  Lemma permutation_matrix_spec order n : Permutation order (seq 0 n) -> 1 <= n ->
    exists P, permutation_matrix (K:=K) order = Ok P /\ nr P = (2 ^ n)%nat /\ nc P = (2 ^ n)%nat /\
      forall i j, i < 2 ^ n -> j < 2 ^ n -> ent P i j = delta (Nat.eqb i (bval (perm_bits order (bits n j)))).
  Proof.
    intros HP Hn. assert (Hlen : length order = n) by (rewrite (Permutation_length HP), seq_length; auto).
    unfold permutation_matrix. rewrite Hlen.
    assert (E : list_eqb Nat.eqb (sort_by Nat.leb order) (seq 0 n) = true) by (apply sorted_range_iff; auto).
    rewrite E. cbn [negb].
    set (step := fun (m : mat K) i => _).
    assert (Hstep : forall m i, i < 2 ^ n -> nr m = (2 ^ n)%nat -> nc m = (2 ^ n)%nat -> exists m', step m i = Ok m' /\ nr m' = (2 ^ n)%nat /\ nc m' = (2 ^ n)%nat /\
       forall a c, a < 2 ^ n -> ent m' a c = if Nat.eqb c i then delta (Nat.eqb a (bval (perm_bits order (bits n i)))) else ent m a c).
    { intros m i Hi Hr Hc. unfold step. rewrite basis_bitstring_bits by auto.
      rewrite (permute_ok false).
      2:{ intros k Hk. rewrite bits_length. apply (Permutation_in _ HP) in Hk. apply in_seq in Hk. lia. }
      cbn [rbind]. destruct (dense_vector_spec (map (fun k => nth k (bits n i) false) order)) as (v & Ev & Hvl & Hv).
      { destruct order; [cbn in Hlen; lia|discriminate]. }
      rewrite Ev. cbn [rbind]. eexists; split; [reflexivity|]. cbn [nr nc set_column ent]. split; [auto|]. split; [auto|].
      intros a c Ha. destruct (Nat.eqb c i); [|auto]. rewrite Hv by (rewrite map_length, Hlen; auto). reflexivity. }
    clearbody step.
    assert (G : forall k, k <= 2 ^ n -> exists m', foldM step (seq 0 k) (zeros (2 ^ n) (2 ^ n)) = Ok m' /\ nr m' = (2 ^ n)%nat /\ nc m' = (2 ^ n)%nat /\
      forall a c, a < 2 ^ n -> c < k -> ent m' a c = delta (Nat.eqb a (bval (perm_bits order (bits n c))))).
    { assert (Hfold : forall l1 l2 m, foldM step (l1 ++ l2) m = (let! m1 := foldM step l1 m in foldM step l2 m1)).
      { clear. induction l1 as [|a l1 IH]; intros l2 m; cbn; [auto|]. destruct (step m a); cbn; auto. }
      induction k as [|k IH]; intros Hk.
      - exists (zeros (2 ^ n) (2 ^ n)). repeat split. intros; lia.
      - destruct IH as (m & Em & Hr & Hc & Hm); [lia|]. rewrite seq_S, Hfold, Em. cbn [rbind foldM Nat.add].
        destruct (Hstep m k) as (m' & Em' & Hr' & Hc' & Hm'); [lia|auto|auto|]. rewrite Em'. cbn [rbind]. exists m'. split; [auto|].
        split; [auto|]. split; [auto|]. intros a c Ha Hlt. rewrite Hm' by auto. destruct (Nat.eqb_spec c k) as [->|]; [auto|].
        apply Hm; auto; lia. }
    destruct (G (2 ^ n)%nat) as (P & EP & Hr & Hc & Hent); [lia|]. exists P. rewrite EP. auto.
  Qed.

  Lemma permutation_matrix_reject order : ~ Permutation order (seq 0 (length order)) -> permutation_matrix (K:=K) order = Err ValueError.
  Proof.
    intros H. unfold permutation_matrix. destruct (list_eqb _ _ _) eqn:E; cbn [negb]; [|auto].
    apply sorted_range_iff in E. contradiction.
  Qed.

  (** P^T G P has the entries of G at permuted bits *)
  Lemma conj_by_perm order n (P G : mat K) : Permutation order (seq 0 n) ->
    nr P = (2 ^ n)%nat -> nc P = (2 ^ n)%nat ->
    (forall i j, i < 2 ^ n -> j < 2 ^ n -> ent P i j = delta (Nat.eqb i (bval (perm_bits order (bits n j))))) ->
    nr G = (2 ^ n)%nat -> nc G = (2 ^ n)%nat ->
    forall b c, length b = n -> length c = n ->
      ent (mmul (mmul (transpose P) G) P) (bval b) (bval c) = ent G (bval (perm_bits order b)) (bval (perm_bits order c)).
  Proof.
    intros HP Hr Hc HPent Gr Gc b c Hb Hc'. cbn [ent mmul nc transpose].
    assert (Hlen : length order = n) by (rewrite (Permutation_length HP), seq_length; auto).
    assert (Hlt : forall d, bval (perm_bits order d) < 2 ^ n) by (intros d; rewrite <- Hlen, <- (perm_bits_length order d); apply bval_lt).
    assert (Hbl : bval b < 2 ^ n) by (rewrite <- Hb; apply bval_lt). assert (Hcl : bval c < 2 ^ n) by (rewrite <- Hc'; apply bval_lt).
    rewrite Gc, Hr.
    rewrite (bigsum_single _ (bval (perm_bits order c))); auto.
    - rewrite HPent, (bits_bval_n n c), Nat.eqb_refl by auto.
      rewrite (bigsum_single _ (bval (perm_bits order b))); auto.
      + rewrite HPent, (bits_bval_n n b), Nat.eqb_refl by auto. cbn [delta]. ring.
      + intros i Hi Hn. rewrite HPent, (bits_bval_n n b) by auto. destruct (Nat.eqb_spec i (bval (perm_bits order b))); [congruence|]. cbn; ring.
    - intros i Hi Hn. rewrite HPent, (bits_bval_n n c) by auto. destruct (Nat.eqb_spec i (bval (perm_bits order c))); [congruence|]. cbn; ring.
  Qed.

  (** ** Kronecker product on bit lists *)
  Lemma kron_bits (A B : mat K) k m x y x' y' : nr B = (2 ^ m)%nat -> nc B = (2 ^ m)%nat ->
    length x = k -> length x' = k -> length y = m -> length y' = m ->
    ent (kron A B) (bval (x ++ y)) (bval (x' ++ y')) = ent A (bval x) (bval x') * ent B (bval y) (bval y').
  Proof.
    intros Hr Hc Hx Hx' Hy Hy'. cbn [ent kron]. rewrite Hr, Hc. rewrite <- Hy at 1 3. rewrite <- Hy' at 1 2.
    rewrite !bval_app_div, !bval_app_mod. reflexivity.
  Qed.
  Lemma eqb_bval b c : length b = length c -> Nat.eqb (bval b) (bval c) = list_eqb Bool.eqb b c.
  Proof.
    intros H. destruct (list_eqb Bool.eqb b c) eqn:E.
    - apply (list_eqb_spec _ bool_eqb_spec) in E. subst. apply Nat.eqb_refl.
    - apply Nat.eqb_neq. intros Hv. apply bval_inj in Hv; auto. subst. rewrite (proj2 (list_eqb_spec _ bool_eqb_spec c c)) in E; [discriminate|auto].
  Qed.

  (** ** min / max *)
  Lemma min_nat_spec l : forall x, (In (min_nat x l) (x :: l)) /\ forall y, In y (x :: l) -> min_nat x l <= y.
  Proof.
    induction l as [|y l IH]; intros x; cbn [min_nat].
    - split; [left; auto|]. intros z [->|[]]; lia.
    - destruct (IH (Nat.min x y)) as [H1 H2]. split.
      + destruct H1 as [H1|H1]; [|right; right; auto]. destruct (Nat.min_spec x y) as [[? E]|[? E]]; rewrite <- H1, E; cbn; auto.
      + intros z [->|[->|Hz]].
        * specialize (H2 (Nat.min z y) (or_introl eq_refl)). lia.
        * specialize (H2 (Nat.min x z) (or_introl eq_refl)). lia.
        * apply H2. right; auto.
  Qed.

  Lemma adjacent_perm qs n : NoDup qs -> (forall q, In q qs -> q < n) ->
    Permutation (permutation_making_qubits_adjacent qs n) (seq 0 n).
  Proof.
    intros Hnd Hlt. apply NoDup_Permutation; [|apply seq_NoDup|].
    - unfold permutation_making_qubits_adjacent. apply NoDup_app; auto.
      + apply NoDup_filter, seq_NoDup.
      + intros q Hq. rewrite filter_In. intros [_ H]. apply (memb_In _ nat_eqb_spec) in Hq. rewrite Hq in H. discriminate.
    - intros q. unfold permutation_making_qubits_adjacent. rewrite in_app_iff, filter_In, in_seq. split.
      + intros [H|[H _]]; [apply Hlt in H; lia|lia].
      + intros H. destruct (memb Nat.eqb q qs) eqn:E; [left; apply (memb_In _ nat_eqb_spec); auto|right; split; [lia|reflexivity]].
  Qed.
  Lemma adjacent_not_perm qs n : ~ NoDup qs -> ~ Permutation (permutation_making_qubits_adjacent qs n) (seq 0 (length (permutation_making_qubits_adjacent qs n))).
  Proof.
    intros Hnd HP. apply Hnd. symmetry in HP. apply Permutation_NoDup in HP; [|apply seq_NoDup].
    unfold permutation_making_qubits_adjacent in HP. revert HP. generalize (filter (fun i => negb (memb Nat.eqb i qs)) (seq 0 n)). clear. induction qs as [|q qs IH]; intros l H; [constructor|]. cbn in H. inversion H as [|? ? H1 H2]; subst. constructor; [rewrite in_app_iff in H1; auto|eauto].
  Qed.

  (** ** The lifted matrix *)
  Lemma list_eqb_forallb {A} (f g : A -> bool) l : list_eqb Bool.eqb (map f l) (map g l) = forallb (fun i => Bool.eqb (f i) (g i)) l.
  Proof. induction l; cbn; congruence. Qed.
  Lemma forallb_filter {A} (p f : A -> bool) l : forallb f (filter p l) = forallb (fun i => negb (p i) || f i) l.
  Proof. induction l as [|a l IH]; cbn; [auto|]. destruct (p a); cbn; rewrite IH; auto. Qed.
  Lemma forallb_app' {A} (f : A -> bool) l1 l2 : forallb f (l1 ++ l2) = forallb f l1 && forallb f l2.
  Proof. induction l1; cbn; [auto|]. rewrite IHl1, andb_assoc. auto. Qed.

  Lemma nth_app3 {A} (d : A) p m s i : length p <= i -> i < length p + length m -> nth i (p ++ m ++ s) d = nth (i - length p) m d.
  Proof. intros H1 H2. rewrite app_nth2 by lia. apply app_nth1. lia. Qed.

  Lemma lift_spec (A : mat K) qs n : qs <> [] -> NoDup qs -> (forall q, In q qs -> q < n) ->
    nr A = (2 ^ length qs)%nat -> nc A = (2 ^ length qs)%nat ->
    exists M, lift_matrix A qs n = Ok M /\ nr M = (2 ^ n)%nat /\ nc M = (2 ^ n)%nat /\
      forall b c, length b = n -> length c = n ->
        ent M (bval b) (bval c) = if agree_outside n qs b c then ent A (bval (select qs b)) (bval (select qs c)) else 0.
  Proof.
    intros Hne Hnd Hlt Hr Hc. unfold lift_matrix. destruct qs as [|q0 qs']; [congruence|].
    set (qs := q0 :: qs') in *. set (s := min_nat q0 qs'). set (L := max_nat qs).
    destruct (min_nat_spec qs' q0) as [Hs1 Hs2]. fold s in Hs1, Hs2. fold qs in Hs1, Hs2.
    assert (HL1 : In L qs) by (apply max_nat_In; discriminate).
    assert (HL2 : forall y, In y qs -> y <= L) by (intros y Hy; apply max_nat_ge; auto).
    assert (Hsl : s <= L) by (apply Hs2; auto). assert (HLn : L < n) by auto.
    set (sh := map (fun i => i - s)%nat qs). set (w := (L - s + 1)%nat).
    assert (Hsh_nd : NoDup sh).
    { unfold sh. apply NoDup_map_in; auto. intros x y Hx Hy E. apply Hs2 in Hx. apply Hs2 in Hy. lia. }
    assert (Hsh_lt : forall x, In x sh -> x < w).
    { intros x Hx. apply in_map_iff in Hx as (y & <- & Hy). apply HL2 in Hy. unfold w; lia. }
    pose proof (adjacent_perm sh w Hsh_nd Hsh_lt) as HP. set (order := permutation_making_qubits_adjacent sh w) in *.
    assert (Hshl : length sh = length qs) by apply map_length.
    assert (Hkw : length qs <= w).
    { rewrite <- Hshl. rewrite <- (seq_length w 0). apply NoDup_incl_length; auto. intros x Hx. apply in_seq. apply Hsh_lt in Hx. lia. }
    destruct (permutation_matrix_spec order w HP) as (P & EP & Pr & Pc & Pent); [unfold w; lia|]. rewrite EP. cbn [rbind].
    set (r := (w - length qs)%nat).
    assert (E1 : eye_pow2 (K:=K) (Z.of_nat L - Z.of_nat s - Z.of_nat (length qs) + 1) = Ok (eye (2 ^ r))).
    { unfold eye_pow2. destruct (Z.ltb_spec (Z.of_nat L - Z.of_nat s - Z.of_nat (length qs) + 1) 0); [unfold w in *; lia|].
      f_equal. f_equal. f_equal. unfold r, w. lia. }
    rewrite E1. cbn [rbind].
    assert (Hw : (2 ^ length qs * 2 ^ r = 2 ^ w)%nat) by (rewrite <- Nat.pow_add_r; f_equal; unfold r; lia).
    set (G := kron A (eye (2 ^ r))).
    assert (Gr : nr G = (2 ^ w)%nat) by (unfold G; cbn [nr kron eye]; rewrite Hr; auto).
    assert (Gc : nc G = (2 ^ w)%nat) by (unfold G; cbn [nc kron eye]; rewrite Hc; auto).
    unfold matmul at 1. cbn [nc transpose]. rewrite Pr, Gr, Nat.eqb_refl. cbn [rbind].
    unfold matmul at 1. cbn [nc mmul]. rewrite Gc, Pr, Nat.eqb_refl. cbn [rbind].
    unfold eye_pow2. destruct (Z.ltb_spec (Z.of_nat s) 0); [lia|]. cbn [rbind].
    destruct (Z.ltb_spec (Z.of_nat n - Z.of_nat L - 1) 0); [lia|]. cbn [rbind].
    rewrite Nat2Z.id. replace (Z.to_nat (Z.of_nat n - Z.of_nat L - 1)) with (n - L - 1)%nat by lia.
    set (t := (n - L - 1)%nat). set (inner := mmul (mmul (transpose P) G) P).
    eexists; split; [reflexivity|].
    assert (Hn : (s + w + t = n)%nat) by (unfold w, t; lia).
    assert (Hn2 : (2 ^ s * 2 ^ w * 2 ^ t = 2 ^ n)%nat) by (rewrite <- !Nat.pow_add_r; f_equal; lia).
    assert (Hir : nr inner = (2 ^ w)%nat) by exact Pc. assert (Hic : nc inner = (2 ^ w)%nat) by exact Pc.
    split; [cbn [nr kron eye]; rewrite Hir; auto|]. split; [cbn [nc kron eye]; rewrite Hic; auto|].
    intros b c Hb Hc'.
    assert (Split : forall d : list bool, length d = n -> exists p m u, d = p ++ m ++ u /\ length p = s /\ length m = w /\ length u = t).
    { intros d Hd. exists (firstn s d), (firstn w (skipn s d)), (skipn w (skipn s d)).
      rewrite (firstn_skipn w), (firstn_skipn s). split; [auto|]. rewrite !firstn_length, !skipn_length. lia. }
    destruct (Split b Hb) as (p & m & u & -> & Hp & Hm & Hu). destruct (Split c Hc') as (p' & m' & u' & -> & Hp' & Hm' & Hu').
    rewrite !app_assoc.
    rewrite (kron_bits _ _ (s + w) t); [|auto|auto|rewrite app_length; lia|rewrite app_length; lia|auto|auto].
    rewrite (kron_bits _ _ s w) by auto.
    unfold inner. rewrite (conj_by_perm order w P G) by auto.
    assert (Hord : forall d, perm_bits order d = perm_bits sh d ++ perm_bits (filter (fun i => negb (memb Nat.eqb i sh)) (seq 0 w)) d).
    { intros d. unfold perm_bits, order, permutation_making_qubits_adjacent. apply map_app. }
    rewrite !Hord. unfold G.
    assert (Hrest : length (filter (fun i => negb (memb Nat.eqb i sh)) (seq 0 w)) = r).
    { pose proof (Permutation_length HP) as HPl. unfold order, permutation_making_qubits_adjacent in HPl. rewrite app_length, seq_length in HPl. unfold r. lia. }
    rewrite (kron_bits _ _ (length qs) r); [|auto|auto|rewrite perm_bits_length; auto|rewrite perm_bits_length; auto|rewrite perm_bits_length; auto|rewrite perm_bits_length; auto].
    cbn [ent eye].
    rewrite !eqb_bval by (rewrite ?perm_bits_length; congruence).
    (* select *)
    assert (Hsel : forall p m u, length p = s -> length m = w -> perm_bits sh m = select qs (p ++ m ++ u)).
    { intros p0 m0 u0 H1 H2. unfold perm_bits, sh, select. rewrite map_map. apply map_ext_in. intros q Hq.
      pose proof (Hs2 _ Hq). pose proof (HL2 _ Hq). rewrite nth_app3 by (unfold w in *; lia). rewrite H1. auto. }
    rewrite (Hsel p m u), (Hsel p' m' u') by auto. rewrite <- !app_assoc.
    (* agree *)
    assert (Hag : agree_outside n qs (p ++ m ++ u) (p' ++ m' ++ u') =
        (list_eqb Bool.eqb p p' && list_eqb Bool.eqb (perm_bits (filter (fun i => negb (memb Nat.eqb i sh)) (seq 0 w)) m) (perm_bits (filter (fun i => negb (memb Nat.eqb i sh)) (seq 0 w)) m')) && list_eqb Bool.eqb u u').
    { unfold agree_outside. replace (seq 0 n) with (seq 0 s ++ seq s w ++ seq (s + w) t) by (rewrite <- !seq_app; f_equal; lia).
      rewrite !forallb_app', andb_assoc. f_equal; [f_equal|].
      - transitivity (list_eqb Bool.eqb (map (fun i => nth i p false) (seq 0 s)) (map (fun i => nth i p' false) (seq 0 s))).
        + rewrite list_eqb_forallb. apply forallb_ext_in'. intros i Hi. apply in_seq in Hi.
          rewrite !(app_nth1 _ _) by lia. destruct (memb Nat.eqb i qs) eqn:E; [|auto].
          apply (memb_In _ nat_eqb_spec) in E. apply Hs2 in E. lia.
        + rewrite <- Hp at 1. rewrite <- Hp'. rewrite !map_nth_seq. reflexivity.
      - unfold perm_bits. rewrite list_eqb_forallb, forallb_filter. rewrite <- (map_seq_shift s w), forallb_map'.
        apply forallb_ext_in'. intros i Hi. apply in_seq in Hi. rewrite !nth_app3 by lia. rewrite Hp, Hp'. replace (s + i - s)%nat with i by lia.
        rewrite negb_involutive. f_equal.
        destruct (memb Nat.eqb i sh) eqn:F1; destruct (memb Nat.eqb (s + i)%nat qs) eqn:F2; auto; exfalso.
        + apply (memb_In _ nat_eqb_spec) in F1. apply in_map_iff in F1 as (q & Eq & Hq). pose proof (Hs2 _ Hq).
          assert (In (s + i)%nat qs) by (replace (s + i)%nat with q by lia; auto). apply (memb_In _ nat_eqb_spec) in H2. congruence.
        + apply (memb_In _ nat_eqb_spec) in F2. assert (In i sh) by (apply in_map_iff; exists (s + i)%nat; split; [lia|auto]).
          apply (memb_In _ nat_eqb_spec) in H1. congruence.
      - transitivity (list_eqb Bool.eqb (map (fun i => nth i u false) (seq 0 t)) (map (fun i => nth i u' false) (seq 0 t))).
        + rewrite list_eqb_forallb. rewrite <- (map_seq_shift (s + w) t), forallb_map'. apply forallb_ext_in'. intros i Hi. apply in_seq in Hi.
          rewrite !app_assoc. rewrite !(app_nth2 (_ ++ _)) by (rewrite app_length; lia). rewrite !app_length, Hp, Hp', Hm, Hm'.
          replace (s + w + i - (s + w))%nat with i by lia.
          destruct (memb Nat.eqb (s + w + i)%nat qs) eqn:E; [|auto]. apply (memb_In _ nat_eqb_spec) in E. apply HL2 in E. unfold w in E. lia.
        + rewrite <- Hu at 1. rewrite <- Hu'. rewrite !map_nth_seq. reflexivity. }
    rewrite Hag. destruct (list_eqb Bool.eqb p p'), (list_eqb Bool.eqb u u'), (list_eqb Bool.eqb (perm_bits _ m) _); cbn; ring.
  Qed.

  (** ** Success is exactly well-formedness *)
  Lemma lift_shape (A : mat K) qs n M : lift_matrix A qs n = Ok M ->
    qs <> [] /\ NoDup qs /\ (forall q, In q qs -> q < n) /\ nr A = (2 ^ length qs)%nat /\ nc A = (2 ^ length qs)%nat.
  Proof.
    unfold lift_matrix. destruct qs as [|q0 qs']; [discriminate|].
    set (qs := q0 :: qs') in *. set (s := min_nat q0 qs'). set (L := max_nat qs).
    destruct (min_nat_spec qs' q0) as [Hs1 Hs2]. fold s in Hs1, Hs2. fold qs in Hs1, Hs2.
    assert (HL1 : In L qs) by (apply max_nat_In; discriminate).
    assert (HL2 : forall y, In y qs -> y <= L) by (intros y Hy; apply max_nat_ge; auto).
    assert (Hsl : s <= L) by (apply Hs2; auto).
    set (sh := map (fun i => i - s)%nat qs). set (w := (L - s + 1)%nat).
    destruct (permutation_matrix _) as [P|e] eqn:EP; cbn [rbind]; [|discriminate].
    assert (Hnd : NoDup qs).
    { destruct (ListDec.NoDup_dec Nat.eq_dec qs) as [H|H]; [auto|]. exfalso.
      rewrite permutation_matrix_reject in EP; [discriminate|]. apply adjacent_not_perm. intros Hsh. apply H.
      unfold sh in Hsh. apply NoDup_map_inv in Hsh. auto. }
    assert (Hsh_nd : NoDup sh).
    { unfold sh. apply NoDup_map_in; auto. intros x y Hx Hy E. apply Hs2 in Hx. apply Hs2 in Hy. lia. }
    assert (Hsh_lt : forall x, In x sh -> x < w).
    { intros x Hx. apply in_map_iff in Hx as (y & <- & Hy). apply HL2 in Hy. unfold w; lia. }
    pose proof (adjacent_perm sh w Hsh_nd Hsh_lt) as HP.
    destruct (permutation_matrix_spec _ w HP) as (P' & EP' & Pr & Pc & _); [unfold w; lia|].
    rewrite EP in EP'. injection EP' as <-.
    assert (Hshl : length sh = length qs) by apply map_length.
    assert (Hkw : length qs <= w).
    { rewrite <- Hshl. rewrite <- (seq_length w 0). apply NoDup_incl_length; auto. intros x Hx. apply in_seq. apply Hsh_lt in Hx. lia. }
    unfold eye_pow2 at 1. destruct (Z.ltb_spec (Z.of_nat L - Z.of_nat s - Z.of_nat (length qs) + 1) 0); [discriminate|]. cbn [rbind].
    set (r := Z.to_nat _). unfold matmul at 1. cbn [nc transpose]. rewrite Pr.
    destruct (Nat.eqb_spec (2 ^ w) (nr (kron A (eye (2 ^ r))))) as [Er|]; [|discriminate]. cbn [rbind].
    unfold matmul at 1. cbn [nc mmul]. rewrite Pr.
    destruct (Nat.eqb_spec (nc (kron A (eye (2 ^ r)))) (2 ^ w)) as [Ec|]; [|discriminate]. cbn [rbind].
    unfold eye_pow2. destruct (Z.ltb_spec (Z.of_nat s) 0); [discriminate|]. cbn [rbind].
    destruct (Z.ltb_spec (Z.of_nat n - Z.of_nat L - 1) 0); [discriminate|]. intros _.
    cbn [nr nc kron eye] in Er, Ec.
    assert (Hw : (2 ^ length qs * 2 ^ r = 2 ^ w)%nat) by (rewrite <- Nat.pow_add_r; f_equal; unfold r, w; lia).
    pose proof (pow2_pos r). split; [discriminate|]. split; [auto|]. split; [intros q Hq; apply HL2 in Hq; lia|]. split; nia.
  Qed.

  Lemma agree_spec n qs b c : agree_outside n qs b c = true <-> forall i, i < n -> ~ In i qs -> nth i b false = nth i c false.
  Proof.
    unfold agree_outside. rewrite forallb_forall. split.
    - intros H i Hi Hn. specialize (H i). rewrite in_seq in H. specialize (H ltac:(lia)). apply orb_true_iff in H as [H|H].
      + apply (memb_In _ nat_eqb_spec) in H. contradiction.
      + apply Bool.eqb_prop in H. auto.
    - intros H i Hi. apply in_seq in Hi. destruct (memb Nat.eqb i qs) eqn:E; [auto|]. cbn. rewrite H; [apply Bool.eqb_reflx|lia|].
      intros Hin. apply (memb_In _ nat_eqb_spec) in Hin. congruence.
  Qed.
  Lemma agree_sym n qs b c : agree_outside n qs b c = agree_outside n qs c b.
  Proof. apply eq_true_iff_eq. rewrite !agree_spec. split; intros H i Hi Hn; symmetry; auto. Qed.

  Lemma embed_ent n qs (A : mat K) b c : length b = n -> length c = n ->
    ent (embed n qs A) (bval b) (bval c) = if agree_outside n qs b c then ent A (bval (select qs b)) (bval (select qs c)) else 0.
  Proof. intros Hb Hc. cbn [ent embed]. rewrite !bits_bval_n by auto. reflexivity. Qed.

  Lemma meq_bits n (A B : mat K) : nr A = (2 ^ n)%nat -> nc A = (2 ^ n)%nat -> nr B = (2 ^ n)%nat -> nc B = (2 ^ n)%nat ->
    (forall b c, length b = n -> length c = n -> ent A (bval b) (bval c) = ent B (bval b) (bval c)) -> meq A B.
  Proof.
    intros Hr Hc Hr' Hc' H. split; [congruence|]. split; [congruence|]. intros i j Hi Hj. rewrite Hr in Hi. rewrite Hc in Hj.
    rewrite <- (bval_bits_small n i), <- (bval_bits_small n j) by auto. apply H; apply bits_length.
  Qed.

  Definition wf_lift (A : mat K) (qs : list nat) (n : nat) : Prop :=
    qs <> [] /\ NoDup qs /\ (forall q, In q qs -> q < n) /\ nr A = (2 ^ length qs)%nat /\ nc A = (2 ^ length qs)%nat.

  Lemma lift_embed (A : mat K) qs n : wf_lift A qs n -> exists M, lift_matrix A qs n = Ok M /\ meq M (embed n qs A).
  Proof.
    intros (H1 & H2 & H3 & H4 & H5). destruct (lift_spec A qs n) as (M & E & Hr & Hc & He); auto.
    exists M; split; [auto|]. apply (meq_bits n); auto. intros b c Hb Hc'. rewrite He, embed_ent; auto.
  Qed.
  Lemma lift_ok (A : mat K) qs n M : lift_matrix A qs n = Ok M -> wf_lift A qs n /\ meq M (embed n qs A).
  Proof.
    intros E. pose proof (lift_shape _ _ _ _ E) as H. split; [exact H|]. destruct (lift_embed A qs n H) as (M' & E' & HM).
    rewrite E in E'. injection E' as ->. exact HM.
  Qed.

  (** ** Replacing the bits at the listed qubits *)
  Fixpoint index_of (q : nat) (l : list nat) : nat :=
    match l with [] => O | x :: l' => if Nat.eqb q x then O else S (index_of q l') end.
  Definition update (n : nat) (qs : list nat) (b x : list bool) : list bool :=
    map (fun i => if memb Nat.eqb i qs then nth (index_of i qs) x false else nth i b false) (seq 0 n).
  Lemma update_length n qs b x : length (update n qs b x) = n.
  Proof. unfold update. rewrite map_length, seq_length. auto. Qed.
  Lemma nth_update n qs b x i : i < n -> nth i (update n qs b x) false = if memb Nat.eqb i qs then nth (index_of i qs) x false else nth i b false.
  Proof.
    intros Hi. unfold update.
    assert (L : length (map (fun i => if memb Nat.eqb i qs then nth (index_of i qs) x false else nth i b false) (seq 0 n)) = n) by (rewrite map_length, seq_length; auto).
    rewrite (nth_indep _ false (if memb Nat.eqb O qs then nth (index_of O qs) x false else nth O b false)) by lia.
    rewrite (map_nth (fun i => if memb Nat.eqb i qs then nth (index_of i qs) x false else nth i b false)), seq_nth by auto. reflexivity.
  Qed.
  Lemma index_of_nth q l : In q l -> index_of q l < length l /\ nth (index_of q l) l O = q.
  Proof.
    induction l as [|x l IH]; cbn; [contradiction|]. intros H. destruct (Nat.eqb_spec q x) as [->|N].
    - split; [lia|auto].
    - destruct H as [->|H]; [congruence|]. destruct (IH H). split; [lia|auto].
  Qed.
  Lemma index_of_nth_nodup l : NoDup l -> forall k, k < length l -> index_of (nth k l O) l = k.
  Proof.
    induction 1 as [|x l Hx H IH]; cbn; intros k Hk; [lia|]. destruct k as [|k].
    - rewrite Nat.eqb_refl. auto.
    - destruct (Nat.eqb_spec (nth k l O) x) as [E|N].
      + exfalso. apply Hx. rewrite <- E. apply nth_In. lia.
      + rewrite IH; auto. lia.
  Qed.
  Lemma list_ext {A} (d : A) l1 l2 : length l1 = length l2 -> (forall i, i < length l1 -> nth i l1 d = nth i l2 d) -> l1 = l2.
  Proof. intros H1 H2. apply (nth_ext _ _ d d); auto. Qed.
  Lemma select_length qs b : length (select qs b) = length qs.
  Proof. apply map_length. Qed.
  Lemma nth_select qs b k : k < length qs -> nth k (select qs b) false = nth (nth k qs O) b false.
  Proof.
    intros Hk. unfold select. rewrite (nth_indep _ false (nth O b false)) by (rewrite map_length; auto).
    apply (map_nth (fun q => nth q b false)).
  Qed.
  Lemma select_update n qs b x : NoDup qs -> (forall q, In q qs -> q < n) -> length x = length qs -> select qs (update n qs b x) = x.
  Proof.
    intros Hnd Hlt Hx. apply (list_ext false); [rewrite select_length; auto|]. rewrite select_length. intros k Hk.
    rewrite nth_select by auto. assert (Hin : In (nth k qs O) qs) by (apply nth_In; auto).
    rewrite nth_update by auto. rewrite (proj2 (memb_In _ nat_eqb_spec _ _) Hin). rewrite index_of_nth_nodup by auto. auto.
  Qed.
  Lemma update_agree n qs b x : agree_outside n qs b (update n qs b x) = true.
  Proof.
    apply agree_spec. intros i Hi Hn. rewrite nth_update by auto. destruct (memb Nat.eqb i qs) eqn:E; [|auto].
    apply (memb_In _ nat_eqb_spec) in E. contradiction.
  Qed.
  Lemma agree_update n qs b c : length c = n -> agree_outside n qs b c = true -> update n qs b (select qs c) = c.
  Proof.
    intros Hc Ha. apply (list_ext false); [rewrite update_length; auto|]. rewrite update_length. intros i Hi.
    rewrite nth_update by auto. destruct (memb Nat.eqb i qs) eqn:E.
    - apply (memb_In _ nat_eqb_spec) in E. destruct (index_of_nth i qs E). rewrite nth_select, H0 by auto. auto.
    - pose proof (proj1 (agree_spec n qs b c) Ha i Hi) as H. apply H. intros Hin. apply (memb_In _ nat_eqb_spec) in Hin. congruence.
  Qed.
  Lemma agree_update_l n qs b x c : agree_outside n qs (update n qs b x) c = agree_outside n qs b c.
  Proof.
    pose proof (proj1 (agree_spec n qs _ _) (update_agree n qs b x)) as Hu.
    apply eq_true_iff_eq. rewrite !agree_spec. split; intros H i Hi Hn.
    - rewrite Hu by auto. apply H; auto.
    - rewrite <- Hu by auto. apply H; auto.
  Qed.
  Lemma agree_select_eq n qs b c : length b = n -> length c = n -> agree_outside n qs b c = true -> select qs b = select qs c -> b = c.
  Proof.
    intros Hb Hc Ha E. rewrite <- (agree_update n qs b c Hc Ha), <- E. symmetry. apply agree_update; auto. apply agree_spec; auto.
  Qed.

  (** ** The action of a lifted matrix on amplitudes *)
  Lemma bigsum_delta_l n k (F : nat -> K) : k < n -> bigsum n (fun j => delta (Nat.eqb j k) * F j) = F k.
  Proof.
    intros Hk. rewrite (bigsum_single _ k); auto.
    - rewrite Nat.eqb_refl. cbn; ring.
    - intros i Hi Hne. destruct (Nat.eqb_spec i k); [congruence|]. cbn; ring.
  Qed.
  Lemma reindex n qs b (F : list bool -> K) : NoDup qs -> (forall q, In q qs -> q < n) -> length b = n ->
    bigsum (2 ^ n) (fun j => if agree_outside n qs b (bits n j) then F (bits n j) else 0) =
    bigsum (2 ^ length qs) (fun x => F (update n qs b (bits (length qs) x))).
  Proof.
    intros Hnd Hlt Hb. set (k := length qs).
    transitivity (bigsum (2 ^ n) (fun j => bigsum (2 ^ k) (fun x => delta (Nat.eqb j (bval (update n qs b (bits k x)))) * F (bits n j)))).
    - apply bigsum_ext. intros j Hj. destruct (agree_outside n qs b (bits n j)) eqn:Ea.
      + assert (Hx : bval (select qs (bits n j)) < 2 ^ k) by (unfold k; rewrite <- (select_length qs (bits n j)); apply bval_lt).
        rewrite (bigsum_single _ (bval (select qs (bits n j)))); auto.
        * rewrite bits_bval_n by apply select_length. rewrite agree_update by (auto using bits_length).
          rewrite bval_bits_small, Nat.eqb_refl by auto. cbn; ring.
        * intros x Hx' Hne. destruct (Nat.eqb_spec j (bval (update n qs b (bits k x)))) as [E|]; [|cbn; ring]. exfalso. apply Hne.
          rewrite E. rewrite bits_bval_n by apply update_length. rewrite select_update; auto.
          -- rewrite bval_bits_small; auto.
          -- apply bits_length.
      + symmetry. transitivity (bigsum (2 ^ k) (fun _ => 0 : K)); [|apply bigsum_0; auto]. apply bigsum_ext. intros x Hx.
        destruct (Nat.eqb_spec j (bval (update n qs b (bits k x)))) as [E|]; [|cbn; ring]. exfalso.
        rewrite E, bits_bval_n, update_agree in Ea by apply update_length. discriminate.
    - rewrite bigsum_swap. apply bigsum_ext. intros x Hx.
      assert (Hu : bval (update n qs b (bits k x)) < 2 ^ n) by (rewrite <- (update_length n qs b (bits k x)) at 2; apply bval_lt).
      rewrite (bigsum_delta_l (2 ^ n) _ (fun j => F (bits n j)) Hu). rewrite bits_bval_n by apply update_length. auto.
  Qed.

  Lemma embed_mvmul n qs (A : mat K) v b : NoDup qs -> (forall q, In q qs -> q < n) -> nc A = (2 ^ length qs)%nat -> length b = n ->
    vent (mvmul (embed n qs A) v) (bval b) =
    bigsum (nc A) (fun x => ent A (bval (select qs b)) x * vent v (bval (update n qs b (bits (length qs) x)))).
  Proof.
    intros Hnd Hlt Hc Hb. cbn [vent mvmul nc embed ent]. rewrite bits_bval_n by auto. rewrite Hc.
    transitivity (bigsum (2 ^ n) (fun j => if agree_outside n qs b (bits n j) then
       ent A (bval (select qs b)) (bval (select qs (bits n j))) * vent v (bval (bits n j)) else 0)).
    - apply bigsum_ext. intros j Hj. rewrite bval_bits_small by auto. destruct (agree_outside _ _ _ _); ring.
    - rewrite (reindex n qs b (fun c => ent A (bval (select qs b)) (bval (select qs c)) * vent v (bval c))) by auto.
      apply bigsum_ext. intros x Hx. rewrite select_update; auto using bits_length. rewrite bval_bits_small; auto.
  Qed.

  Lemma embed_mmul n qs (A B : mat K) : NoDup qs -> (forall q, In q qs -> q < n) ->
    nr A = (2 ^ length qs)%nat -> nc A = (2 ^ length qs)%nat -> nr B = (2 ^ length qs)%nat -> nc B = (2 ^ length qs)%nat ->
    meq (mmul (embed n qs A) (embed n qs B)) (embed n qs (mmul A B)).
  Proof.
    intros Hnd Hlt Ar Ac Br Bc. apply (meq_bits n); try reflexivity. intros b c Hb Hc.
    transitivity (vent (mvmul (embed n qs A) (Build_vec (2 ^ n) (fun j => ent (embed n qs B) j (bval c)))) (bval b)); [reflexivity|].
    rewrite embed_mvmul by auto. rewrite (embed_ent n qs (mmul A B)) by auto. cbn [vent].
    transitivity (bigsum (nc A) (fun x => ent A (bval (select qs b)) x *
       (if agree_outside n qs b c then ent B x (bval (select qs c)) else 0))).
    - apply bigsum_ext. intros x Hx. rewrite embed_ent by (auto using update_length).
      rewrite agree_update_l, select_update by (auto using bits_length). rewrite bval_bits_small by congruence. auto.
    - destruct (agree_outside n qs b c); [reflexivity|]. apply bigsum_0. intros; ring.
  Qed.
  Lemma embed_adjoint n qs (A : mat K) : meq (adjoint (embed n qs A)) (embed n qs (adjoint A)).
  Proof.
    apply (meq_bits n); try reflexivity. intros b c Hb Hc. cbn [ent adjoint]. rewrite !embed_ent by auto. rewrite (agree_sym n qs c b).
    destruct (agree_outside n qs b c); [reflexivity|]. apply kconj_0.
  Qed.
  Lemma embed_eye n qs : NoDup qs -> (forall q, In q qs -> q < n) -> meq (embed n qs (eye (2 ^ length qs))) (eye (K:=K) (2 ^ n)).
  Proof.
    intros Hnd Hlt. apply (meq_bits n); try reflexivity. intros b c Hb Hc. rewrite embed_ent by auto. cbn [ent eye].
    rewrite !eqb_bval by (rewrite ?select_length; congruence).
    destruct (agree_outside n qs b c) eqn:Ea.
    - f_equal. apply eq_true_iff_eq. rewrite !(list_eqb_spec _ bool_eqb_spec _ _ : _ <-> _). split; [apply agree_select_eq with n; auto|congruence].
    - destruct (list_eqb Bool.eqb b c) eqn:E; [|reflexivity]. apply (list_eqb_spec _ bool_eqb_spec) in E. subst c.
      exfalso. assert (agree_outside n qs b b = true) by (apply agree_spec; auto). congruence.
  Qed.
  Lemma embed_ext n qs (A B : mat K) : nr A = (2 ^ length qs)%nat -> nc A = (2 ^ length qs)%nat -> meq A B -> meq (embed n qs A) (embed n qs B).
  Proof.
    intros Ar Ac (E1 & E2 & H). split; [reflexivity|]. split; [reflexivity|]. intros i j Hi Hj. cbn [ent embed].
    destruct (agree_outside _ _ _ _); [|auto].
    apply H; [rewrite Ar, <- (select_length qs (bits n i))|rewrite Ac, <- (select_length qs (bits n j))]; apply bval_lt.
  Qed.
  Lemma embed_unitary n qs (A : mat K) : NoDup qs -> (forall q, In q qs -> q < n) ->
    nr A = (2 ^ length qs)%nat -> nc A = (2 ^ length qs)%nat -> unitary A -> unitary (embed n qs A).
  Proof.
    intros Hnd Hlt Ar Ac (E & H1 & H2). split; [reflexivity|]. cbn [nr nc embed]. split.
    - transitivity (mmul (embed n qs (adjoint A)) (embed n qs A)).
      { apply mmul_ext; [reflexivity|apply embed_adjoint|reflexivity]. }
      rewrite embed_mmul by (cbn [nr nc adjoint]; auto). rewrite <- (embed_eye n qs) by auto. apply embed_ext; cbn [nr nc mmul adjoint]; auto. rewrite <- Ac. auto.
    - transitivity (mmul (embed n qs A) (embed n qs (adjoint A))).
      { apply mmul_ext; [reflexivity|reflexivity|apply embed_adjoint]. }
      rewrite embed_mmul by (cbn [nr nc adjoint]; auto). rewrite <- (embed_eye n qs) by auto. apply embed_ext; cbn [nr nc mmul adjoint]; auto. rewrite <- Ar. auto.
  Qed.
End P.
