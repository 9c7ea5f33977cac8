(** Proofs about the expansion of a matrix in the Pauli basis. *)
From Coq Require Import ZArith Permutation Ring.
From Verif Require Import Base BaseFacts MatModel MatFacts LiftSpec LiftProofs UtilsModel UtilsSpec UtilsProofs OpModel OpSpec OpProofs PauliProofs OpProofs2 ConjProofs PauliBasis PauliExpModel.
Open Scope list_scope.
Local Open Scope nat_scope.

(** *** powers of two *)
Lemma power_of_two_spec m : is_power_of_two m = true <-> exists n, m = 2 ^ n.
Proof.
  unfold is_power_of_two. rewrite andb_true_iff, Nat.eqb_eq, Nat.ltb_lt. split.
  - intros [H Hm]. exists (Nat.log2 m). pose proof (Nat.log2_spec m Hm) as [L U].
    destruct (Nat.eq_dec m (2 ^ Nat.log2 m)) as [|Ne]; [auto|exfalso].
    assert (E1 : Nat.testbit m (Nat.log2 m) = true) by (apply Nat.bit_log2; lia).
    assert (E2 : Nat.log2 (m - 1) = Nat.log2 m) by (apply Nat.log2_unique; lia).
    assert (E3 : Nat.testbit (m - 1) (Nat.log2 m) = true) by (rewrite <- E2; apply Nat.bit_log2; lia).
    assert (X : Nat.testbit (Nat.land m (m - 1)) (Nat.log2 m) = true) by (rewrite Nat.land_spec, E1, E3; reflexivity).
    rewrite H, Nat.bits_0 in X. discriminate.
  - intros (n & ->). pose proof (Nat.pow_nonzero 2 n). split; [|lia]. pose proof (Nat.land_ones (2 ^ n) n) as L. rewrite Nat.ones_equiv in L.
    replace (2 ^ n - 1) with (Nat.pred (2 ^ n)) by lia. rewrite L. apply Nat.mod_same. lia.
Qed.

(** *** labels *)
Definition pz (p : pauli) : Z := match p with Pid => 0 | Px => 1 | Py => 2 | Pz => 3 end.
Definition pcode (a b : bool) : pauli := match a, b with false, false => Pid | false, true => Px | true, false => Py | true, true => Pz end.
Fixpoint pairs (bs : list bool) : list pauli := match bs with a :: b :: r => pcode a b :: pairs r | _ => [] end.
Lemma pairs_length n : forall bs, length bs = 2 * n -> length (pairs bs) = n.
Proof. induction n as [|n IH]; intros [|a [|b r]] H; cbn in H; try lia; [reflexivity|]. cbn [pairs length]. rewrite IH; lia. Qed.
Lemma decode_pairs n : forall bs, length bs = 2 * n -> decode n (map b2z bs) = Ok (map pz (pairs bs)).
Proof.
  intros bs H. unfold decode. rewrite map_length, H, Nat.eqb_refl. cbn [negb]. f_equal. revert bs H.
  induction n as [|n IH]; intros bs H.
  - destruct bs; [reflexivity|discriminate].
  - destruct bs as [|a [|b r]]; cbn in H; try lia. cbn [seq map]. rewrite <- seq_shift, map_map. cbn [pairs map]. f_equal.
    + destruct a, b; reflexivity.
    + rewrite <- IH by lia. apply map_ext. intros i. replace (2 * S i) with (S (S (2 * i))) by lia. reflexivity.
Qed.
Lemma pairs_inj n : forall a b, length a = 2 * n -> length b = 2 * n -> pairs a = pairs b -> a = b.
Proof.
  induction n as [|n IH]; intros [|x [|y a]] [|x' [|y' b]] Ha Hb E; cbn in Ha, Hb; try lia; [reflexivity|].
  cbn [pairs] in E. injection E as E1 E2. apply IH in E2; [|lia|lia]. subst. destruct x, y, x', y'; try discriminate; reflexivity.
Qed.
(** terms of labels *)
Fixpoint lp_term (q : nat) (lp : list pauli) : term pauli :=
  match lp with [] => [] | p :: r => match p with Pid => lp_term (S q) r | _ => (q, p) :: lp_term (S q) r end end.
Lemma label_term_lp lp : forall q, label_term q (map pz lp) = lp_term q lp.
Proof. induction lp as [|p r IH]; intros q; [reflexivity|]. cbn [map label_term lp_term]. rewrite IH. destruct p; reflexivity. Qed.
Lemma lp_term_bound lp : forall q f, In f (lp_term q lp) -> q <= fst f < q + length lp /\ snd f <> Pid.
Proof.
  induction lp as [|p r IH]; intros q f H; [destruct H|]. cbn [lp_term length] in *.
  destruct p; try (destruct H as [<-|H]; [cbn; split; [lia|discriminate]|]); apply IH in H as [H1 H2]; split; auto; lia.
Qed.
Lemma lp_term_canonical lp : forall q, canonical (lp_term q lp).
Proof.
  induction lp as [|p r IH]; intros q; [exact I|]. cbn [lp_term].
  assert (G : forall p', p' <> Pid -> canonical ((q, p') :: lp_term (S q) r)).
  { intros p' Hp. cbn [canonical fst snd]. split; [auto|]. split; [|apply IH]. destruct (lp_term (S q) r) as [|g t] eqn:E; [auto|].
    pose proof (lp_term_bound r (S q) g) as B. rewrite E in B. destruct B as [B _]; [left; auto|]. lia. }
  destruct p; [apply IH| | |]; apply G; discriminate.
Qed.
Lemma lp_term_at lp : forall q i, at_q (lp_term q lp) (q + i) = nth i lp Pid.
Proof.
  induction lp as [|p r IH]; intros q i; [destruct i; reflexivity|]. cbn [lp_term]. destruct i as [|i]; cbn [nth].
  - rewrite Nat.add_0_r. destruct p; [|rewrite at_q_same; reflexivity..].
    apply at_q_absent. intros H. apply in_map_iff in H as (f & E & Hf). apply lp_term_bound in Hf. lia.
  - specialize (IH (S q) i). replace (q + S i) with (S q + i) by lia. rewrite <- IH.
    destruct p; [reflexivity|..]; apply at_q_other; lia.
Qed.
Lemma lp_term_inj lp lp' : length lp = length lp' -> lp_term 0 lp = lp_term 0 lp' -> lp = lp'.
Proof.
  intros L E. apply (nth_ext _ _ Pid Pid L). intros i _. pose proof (lp_term_at lp 0 i) as A. pose proof (lp_term_at lp' 0 i) as B. cbn [Nat.add] in A, B. rewrite <- A, <- B, E. reflexivity.
Qed.

Section PE.
  Context {K : cring} (im half : K) (small : K -> bool) (Him : kmul im im = kopp k1).
  Add Ring Kring_pe : (kth K).
  Open Scope K_scope.
  Notation bitsum := (bitsum (K := K)).
  Notation bigprod := (bigprod (K := K)).

  (** *** the non-zero entry of a column *)
  Definition flip1 (p : pauli) (b : bool) : bool := match p with Px | Py => negb b | _ => b end.
  Fixpoint flips (lp : list pauli) (c : list bool) : list bool := match lp, c with p :: lp', b :: c' => flip1 p b :: flips lp' c' | _, _ => [] end.
  Lemma flips_length lp : forall c, length c = length lp -> length (flips lp c) = length c.
  Proof. induction lp as [|p lp IH]; intros [|b c] H; cbn in *; try discriminate; [auto|]. rewrite IH; auto. Qed.
  Lemma flip_digits_spec lp : forall c, length c = length lp -> flip_digits (map pz lp) (map b2z c) = map b2z (flips lp c).
  Proof.
    unfold flip_digits. induction lp as [|p lp IH]; intros [|b c] H; cbn in H; try discriminate; [reflexivity|]. cbn [map combine flips]. rewrite IH by lia. f_equal.
    destruct p, b; reflexivity.
  Qed.
  Lemma row_spec n lp j : length lp = n -> (1 <= n)%nat -> (j < 2 ^ n)%nat -> row_of_column n (map pz lp) j = Ok (bval (flips lp (bits n j))).
  Proof.
    intros L Hn Hj. unfold row_of_column. rewrite dec2bin_fits; [|rewrite pow2_Z; lia|auto]. cbn [rbind]. rewrite Nat2Z.id, flip_digits_spec by (rewrite bits_length; auto).
    rewrite bin2dec_spec, number_of_bits, Nat2Z.id. reflexivity.
  Qed.
  Lemma nz_fold lp : forall c v, length c = length lp -> fold_left (nz_step im) (combine (map pz lp) (map b2z c)) v =
    v * bigprod (length lp) (fun q => pent im (nth q lp Pid) (nth q (flips lp c) false) (nth q c false)).
  Proof.
    induction lp as [|p lp IH]; intros [|b c] v H; cbn in H; try discriminate; [cbn; ring|].
    cbn [map combine fold_left length PauliBasis.bigprod nth flips]. rewrite IH by lia. 
    assert (E : nz_step im v (pz p, b2z b) = v * pent im p (flip1 p b) b) by (destruct p, b; cbn; ring). rewrite E. ring.
  Qed.
  Lemma nz_spec n lp j : length lp = n -> (1 <= n)%nat -> (j < 2 ^ n)%nat ->
    nonzero_value im n (map pz lp) j = Ok (bigprod n (fun q => pent im (nth q lp Pid) (nth q (flips lp (bits n j)) false) (nth q (bits n j) false))).
  Proof.
    intros L Hn Hj. unfold nonzero_value. rewrite dec2bin_fits; [|rewrite pow2_Z; lia|auto]. cbn [rbind]. rewrite Nat2Z.id, nz_fold by (rewrite bits_length; auto). rewrite L. f_equal. ring.
  Qed.
  (** *** sums over bit lists *)
  Lemma bitsum_swap n m : forall F : list bool -> list bool -> K, bitsum n (fun a => bitsum m (fun b => F a b)) = bitsum m (fun b => bitsum n (fun a => F a b)).
  Proof. induction n as [|n IH]; intros F; cbn [PauliBasis.bitsum]; [reflexivity|]. rewrite (IH (fun a b => F (false :: a) b)), (IH (fun a b => F (true :: a) b)), <- bitsum_add. reflexivity. Qed.
  Lemma bitsum_pick n : forall (F : list bool -> K) c, length c = n -> bitsum n (fun b => F b * (if list_eqb Bool.eqb b c then 1 else 0)) = F c.
  Proof.
    induction n as [|n IH]; intros F [|x c] H; cbn in H; try discriminate; [cbn; ring|]. cbn [PauliBasis.bitsum list_eqb].
    assert (Z0 : forall G, bitsum n (fun b => G b * 0) = 0) by (intros G; etransitivity; [|apply (bitsum_0 n)]; apply bitsum_ext; intros; ring).
    destruct x; cbn [Bool.eqb andb]; rewrite Z0, IH by lia; ring.
  Qed.
  Lemma pent_other p x y : x <> flip1 p y -> pent im p x y = 0.
  Proof. destruct p, x, y; cbn; congruence. Qed.
  Lemma column_sum lp : forall (g : list bool -> K) c, length c = length lp ->
    bitsum (length lp) (fun b => g b * bigprod (length lp) (fun q => pent im (nth q lp Pid) (nth q b false) (nth q c false))) =
    g (flips lp c) * bigprod (length lp) (fun q => pent im (nth q lp Pid) (nth q (flips lp c) false) (nth q c false)).
  Proof.
    induction lp as [|p lp IH]; intros g [|y c] H; cbn in H; try discriminate; [reflexivity|].
    cbn [length PauliBasis.bitsum PauliBasis.bigprod nth flips].
    assert (E : forall x, bitsum (length lp) (fun b => g (x :: b) * (pent im p x y * bigprod (length lp) (fun q => pent im (nth q lp Pid) (nth q b false) (nth q c false)))) =
      pent im p x y * (g (x :: flips lp c) * bigprod (length lp) (fun q => pent im (nth q lp Pid) (nth q (flips lp c) false) (nth q c false)))).
    { intros x. rewrite <- (IH (fun b => g (x :: b)) c) by lia. rewrite bitsum_mul_l. apply bitsum_ext. intros b _. ring. }
    rewrite !E. destruct p, y; cbn [pent flip1 negb Bool.eqb]; ring.
  Qed.
  Lemma bitsum_pairs n : forall g : nat -> pauli -> K,
    bitsum (2 * n) (fun s => bigprod n (fun q => g q (nth q (pairs s) Pid))) = bigprod n (fun q => g q Pid + g q Px + (g q Py + g q Pz)).
  Proof.
    induction n as [|n IH]; intros g; [reflexivity|]. replace (2 * S n)%nat with (S (S (2 * n))) by lia. cbn [PauliBasis.bitsum PauliBasis.bigprod pairs pcode nth].
    rewrite <- !bitsum_mul_l, !(IH (fun q p => g (S q) p)). ring.
  Qed.
  Lemma complete1 x y u v : pent im Pid x y * pent im Pid u v + pent im Px x y * pent im Px u v + (pent im Py x y * pent im Py u v + pent im Pz x y * pent im Pz u v)
    = (1 + 1) * ((if Bool.eqb x v then 1 else 0) * (if Bool.eqb y u then 1 else 0)).
  Proof. destruct x, y, u, v; cbn; ring [Him]. Qed.
  Lemma complete n (b c r k : list bool) : length b = n -> length c = n -> length r = n -> length k = n ->
    bitsum (2 * n) (fun s => bigprod n (fun q => pent im (nth q (pairs s) Pid) (nth q b false) (nth q c false)) * bigprod n (fun q => pent im (nth q (pairs s) Pid) (nth q r false) (nth q k false)))
    = npow n (1 + 1) * ((if list_eqb Bool.eqb b k then 1 else 0) * (if list_eqb Bool.eqb c r then 1 else 0)).
  Proof.
    intros Hb Hc Hr Hk.
    rewrite (bitsum_ext (2 * n) _ (fun s => bigprod n (fun q => pent im (nth q (pairs s) Pid) (nth q b false) (nth q c false) * pent im (nth q (pairs s) Pid) (nth q r false) (nth q k false))))
      by (intros s _; apply bigprod_mul).
    rewrite (bitsum_pairs n (fun q p => pent im p (nth q b false) (nth q c false) * pent im p (nth q r false) (nth q k false))).
    rewrite (bigprod_ext n _ (fun q => (1 + 1) * ((if Bool.eqb (nth q b false) (nth q k false) then 1 else 0) * (if Bool.eqb (nth q c false) (nth q r false) then 1 else 0))))
      by (intros q _; apply complete1).
    rewrite <- (ent_eq n b k Hb Hk), <- (ent_eq n c r Hc Hr). unfold npow. rewrite !bigprod_mul. reflexivity.
  Qed.
  (** *** the coefficient *)
  Definition weight n (O : nat -> nat -> K) (lp : list pauli) : K :=
    npow n half * bitsum n (fun c => bitsum n (fun b => O (bval c) (bval b) * bigprod n (fun q => pent im (nth q lp Pid) (nth q b false) (nth q c false)))).
  Lemma halve_npow n : forall x, halve half n x = npow n half * x.
  Proof. unfold npow. induction n as [|n IH]; intros x; cbn [halve PauliBasis.bigprod]; [ring|]. rewrite IH. ring. Qed.
  Lemma foldM_sum (f : nat -> result K) (g : nat -> K) n : forall s acc, (forall j, (s <= j < s + n)%nat -> f j = Ok (g j)) ->
    foldM (fun tr j => let! v := f j in Ok (tr + v)) (seq s n) acc = Ok (acc + bigsum n (fun j => g (s + j)%nat)).
  Proof.
    induction n as [|n IH]; intros s acc H; [cbn; f_equal; ring|]. cbn [seq foldM]. rewrite H by lia. cbn [rbind]. rewrite IH by (intros j Hj; apply H; lia).
    f_equal. change (S n) with (1 + n)%nat. rewrite bigsum_split. cbn [bigsum]. replace (s + 0)%nat with s by lia.
    rewrite (bigsum_ext n (fun i => g (s + (1 + i))%nat) (fun j => g (S s + j)%nat)) by (intros; f_equal; lia). ring.
  Qed.
  Lemma trace_spec n (operator : list (list K)) lp : length operator = (2 ^ n)%nat -> (forall row, In row operator -> length row = 2 ^ n)%nat -> length lp = n -> (1 <= n)%nat ->
    trace_product im half n operator (map pz lp) = Ok (weight n (fun i j => nth j (nth i operator []) 0) lp).
  Proof.
    intros Hl Hr L Hn. unfold trace_product.
    set (B := fun c => nth (bval (flips lp c)) (nth (bval c) operator []) 0 * bigprod n (fun q => pent im (nth q lp Pid) (nth q (flips lp c) false) (nth q c false))).
    assert (E : forall j, (0 <= j < 0 + 2 ^ n)%nat -> (let! fj := row_of_column n (map pz lp) j in let! e := matrix_item operator j fj in let! v := nonzero_value im n (map pz lp) j in Ok (e * v)) = Ok (B (bits n j))).
    { intros j [_ Hj]. rewrite Nat.add_0_l in Hj. rewrite row_spec, nz_spec by auto. cbn [rbind]. unfold matrix_item.
      assert (Hf : (bval (flips lp (bits n j)) < 2 ^ n)%nat).
      { pose proof (bval_lt (flips lp (bits n j))) as X. rewrite flips_length, bits_length in X by (rewrite bits_length; auto). exact X. }
      rewrite (nth_error_nth' operator []) by lia. rewrite (nth_error_nth' _ 0) by (rewrite Hr; [auto|apply nth_In; lia]).
      cbn [rbind]. unfold B. rewrite bval_bits_small by auto. reflexivity. }
    transitivity (let! tr := foldM (fun tr j => let! v := (let! fj := row_of_column n (map pz lp) j in let! e := matrix_item operator j fj in let! v := nonzero_value im n (map pz lp) j in Ok (e * v)) in Ok (tr + v)) (seq 0 (2 ^ n)) 0 in Ok (halve half n tr)).
    { f_equal. clear. generalize (0 : K), (seq 0 (2 ^ n)). intros a l. revert a. induction l as [|j l IH]; intros a; cbn [foldM]; [auto|].
      destruct (row_of_column n (map pz lp) j) as [fj|]; cbn [rbind]; [|auto]. destruct (matrix_item operator j fj) as [e|]; cbn [rbind]; [|auto].
      destruct (nonzero_value im n (map pz lp) j) as [v|]; cbn [rbind]; [apply IH|auto]. }
    rewrite (foldM_sum _ (fun j => B (bits n j)) (2 ^ n) 0 0 E). cbn [rbind]. f_equal. rewrite halve_npow. unfold weight.
    rewrite (bigsum_ext (2 ^ n) (fun j => B (bits n (0 + j))) (fun j => B (bits n j))) by reflexivity. rewrite bitsum_bigsum.
    transitivity (npow n half * bitsum n B); [ring|]. f_equal. apply bitsum_ext. intros c Hc. unfold B. subst n. symmetry.
    apply (column_sum lp (fun b => nth (bval b) (nth (bval c) operator []) 0) c Hc).
  Qed.
  (** *** all the coefficients *)
  Context (Hhalf : (half + half : K) = 1).
  Lemma weight_sum n (O : nat -> nat -> K) (r k : list bool) : length r = n -> length k = n ->
    bitsum (2 * n) (fun s => weight n O (pairs s) * bigprod n (fun q => pent im (nth q (pairs s) Pid) (nth q r false) (nth q k false))) = O (bval r) (bval k).
  Proof.
    intros Hr Hk. set (P := fun s (b c : list bool) => bigprod n (fun q => pent im (nth q (pairs s) Pid) (nth q b false) (nth q c false))).
    transitivity (bitsum n (fun c => bitsum n (fun b => npow n half * O (bval c) (bval b) * bitsum (2 * n) (fun s => P s b c * P s r k)))).
    { rewrite (bitsum_ext (2 * n) _ (fun s => bitsum n (fun c => bitsum n (fun b => npow n half * O (bval c) (bval b) * (P s b c * P s r k))))).
      - rewrite bitsum_swap. apply bitsum_ext. intros c _. rewrite bitsum_swap. apply bitsum_ext. intros b _. rewrite bitsum_mul_l. reflexivity.
      - intros s _. unfold weight. fold (P s r k). 
        transitivity ((npow n half * P s r k) * bitsum n (fun c => bitsum n (fun b => O (bval c) (bval b) * P s b c))); [unfold P; ring|].
        rewrite bitsum_mul_l. apply bitsum_ext. intros c _. rewrite bitsum_mul_l. apply bitsum_ext. intros b _. ring. }
    transitivity (bitsum n (fun c => bitsum n (fun b => (O (bval c) (bval b) * (if list_eqb Bool.eqb c r then 1 else 0)) * (if list_eqb Bool.eqb b k then 1 else 0)))).
    { apply bitsum_ext. intros c Hc. apply bitsum_ext. intros b Hb. unfold P. rewrite complete by auto.
      transitivity ((npow n half * npow n (1 + 1)) * (O (bval c) (bval b) * (if list_eqb Bool.eqb c r then 1 else 0) * (if list_eqb Bool.eqb b k then 1 else 0))); [ring|].
      rewrite (npow_half half Hhalf). ring. }
    rewrite (bitsum_ext n _ (fun c => O (bval c) (bval k) * (if list_eqb Bool.eqb c r then 1 else 0))).
    - apply (bitsum_pick n (fun c => O (bval c) (bval k)) r Hr).
    - intros c _. apply (bitsum_pick n (fun b => O (bval c) (bval b) * _) k Hk).
  Qed.
  (** *** collecting distinct terms *)
  Definition entry (cl : K * list pauli) : term pauli * K := (lp_term 0 (snd cl), fst cl).
  Lemma collect (cls : list (K * list pauli)) : NoDup (map fst (map entry cls)) ->
    get_qubitop_from_coeffs_and_labels im small (map (fun cl => (fst cl, map pz (snd cl))) cls) = filter (fun tc => negb (small (snd tc))) (map entry cls).
  Proof.
    intros N. unfold get_qubitop_from_coeffs_and_labels.
    assert (G : forall cls (o : qop K), NoDup (dkeys o ++ map fst (map entry cls)) ->
      fold_left (fun output (cl : K * list Z) => op_add pauli_eqb small output (op_scale (mk_op (qubit_simplify im) (label_term 0 (snd cl)) 1) (fst cl))) (map (fun cl => (fst cl, map pz (snd cl))) cls) o
      = o ++ filter (fun tc => negb (small (snd tc))) (map entry cls)).
    { clear cls N. induction cls as [|[c lp] cls IH]; intros o N; cbn [map fold_left filter fst snd]; [rewrite app_nil_r; reflexivity|].
      rewrite label_term_lp. unfold mk_op. rewrite (canonical_simplify im) by apply lp_term_canonical.
      cbn [op_scale map fst snd]. unfold op_add at 2. cbn [fold_left]. unfold merge_term. cbn [fst snd]. cbn zeta.
      assert (Nt : ~ In (lp_term 0 lp) (dkeys o)) by (intros H; cbn [map] in N; apply NoDup_remove_2 in N; apply N, in_or_app; left; exact H).
      unfold entry at 1. cbn [fst snd].
      rewrite (proj2 (dget_None _ (term_eqb_spec _ pauli_eqb_spec) (lp_term 0 lp) o) Nt).
      assert (E : 0 + 1 * c = c) by ring. rewrite E. rewrite (dset_app_new _ (term_eqb_spec _ pauli_eqb_spec)) by exact Nt.
      destruct (small c); cbn [negb].
      - assert (D : ddel (term_eqb pauli_eqb) (lp_term 0 lp) (o ++ [(lp_term 0 lp, c)]) = o).
        { clear -Nt. induction o as [|[t x] o IHo]; cbn [ddel app dkeys map fst] in *.
          - rewrite (proj2 (term_eqb_spec _ pauli_eqb_spec _ _) eq_refl). reflexivity.
          - destruct (term_eqb pauli_eqb (lp_term 0 lp) t) eqn:E; [apply (term_eqb_spec _ pauli_eqb_spec) in E; exfalso; apply Nt; left; auto|].
            f_equal. apply IHo. intros H. apply Nt. right. exact H. }
        rewrite D. apply IH. cbn [map fst entry] in N. apply NoDup_remove_1 in N. exact N.
      - rewrite IH; [rewrite <- app_assoc; reflexivity|]. unfold dkeys. rewrite map_app, <- app_assoc. exact N. }
    apply (G cls []). exact N.
  Qed.
End PE.

Section Whole.
  Context {K : cring} (im half : K) (small : K -> bool) (Him : kmul im im = kopp k1) (Hhalf : kadd half half = (k1 : K)).
  Add Ring Kring_pe2 : (kth K).
  Open Scope K_scope.
  (** the full expansion, before anything is dropped *)
  Definition expansion n (O : nat -> nat -> K) : qop K := map (fun i => (lp_term 0 (pairs (bits (2 * n) i)), weight im half n O (pairs (bits (2 * n) i)))) (seq 0 (4 ^ n)).
  Lemma pow4 n : (4 ^ n = 2 ^ (2 * n))%nat.
  Proof. rewrite Nat.pow_mul_r. reflexivity. Qed.
  Lemma expansion_wf n O : wf_op (expansion n O).
  Proof.
    unfold wf_op, dkeys, expansion. rewrite map_map. cbn [fst]. rewrite pow4.
    assert (G : forall l, NoDup l -> (forall i, In i l -> (i < 2 ^ (2 * n))%nat) -> NoDup (map (fun i => lp_term 0 (pairs (bits (2 * n) i))) l)).
    { induction l as [|i l IH]; intros N B; cbn [map]; constructor.
      - intros H. apply in_map_iff in H as (j & E & Hj). inversion N as [|? ? N1 N2]; subst. apply N1.
        apply lp_term_inj in E; [|rewrite !(pairs_length n) by apply bits_length; reflexivity].
        apply (pairs_inj n) in E; [|apply bits_length..]. replace i with j; [exact Hj|].
        rewrite <- (bval_bits_small (2 * n) j), <- (bval_bits_small (2 * n) i) by (apply B; cbn; auto). rewrite E. reflexivity.
      - apply IH; [inversion N; auto|intros j Hj; apply B; right; auto]. }
    apply G; [apply seq_NoDup|]. intros i Hi. apply in_seq in Hi. lia.
  Qed.
  Lemma expansion_term n O t c : In (t, c) (expansion n O) -> canonical t /\ forall f, In f t -> (fst f < n)%nat.
  Proof.
    intros H. apply in_map_iff in H as (i & E & _). injection E as <- _. split; [apply lp_term_canonical|]. intros f Hf. apply lp_term_bound in Hf.
    rewrite (pairs_length n) in Hf by apply bits_length. lia.
  Qed.
  Lemma lval_seq (phi : term pauli -> K) (g : nat -> term pauli * K) m : forall s, lval phi (map g (seq s m)) = bigsum m (fun i => snd (g (s + i)%nat) * phi (fst (g (s + i)%nat))).
  Proof.
    induction m as [|m IH]; intros s; [reflexivity|]. cbn [seq map]. unfold lval in *. cbn [fold_right]. rewrite IH.
    change (S m) with (1 + m)%nat. rewrite bigsum_split. cbn [bigsum]. replace (s + 0)%nat with s by lia.
    rewrite (bigsum_ext m (fun i => snd (g (S s + i)%nat) * phi (fst (g (S s + i)%nat))) (fun i => snd (g (s + (1 + i))%nat) * phi (fst (g (s + (1 + i))%nat))))
      by (intros i _; replace (S s + i)%nat with (s + (1 + i))%nat by lia; reflexivity). ring.
  Qed.
  Lemma expansion_matrix n (O : mat K) : nr O = (2 ^ n)%nat -> nc O = (2 ^ n)%nat -> meq (qop_matrix im n (expansion n (ent O))) O.
  Proof.
    intros R C. destruct (qop_matrix_shape im n (expansion n (ent O))) as [S1 S2]. split; [congruence|]. split; [congruence|]. intros i j Hi Hj.
    rewrite S1 in Hi. rewrite S2 in Hj. rewrite qop_matrix_ent. unfold expansion. rewrite lval_seq. cbn [fst snd]. rewrite pow4.
    rewrite <- (bval_bits_small n i), <- (bval_bits_small n j) by auto. rewrite <- (weight_sum im half small Him Hhalf n (ent O) (bits n i) (bits n j)) by apply bits_length.
    rewrite <- bitsum_bigsum. apply bigsum_ext. intros k Hk. cbn [Nat.add]. f_equal. 
    rewrite (term_ent im n); [|apply canonical_NoDup, lp_term_canonical| |apply bits_length|apply bits_length].
    - apply bigprod_ext. intros q Hq. f_equal. apply (lp_term_at _ 0 q).
    - intros f Hf. apply lp_term_bound in Hf. rewrite (pairs_length n) in Hf by apply bits_length. lia.
  Qed.
  Lemma of_matrix_ok n (operator : list (list K)) : length operator = (2 ^ n)%nat -> (forall row, In row operator -> length row = 2 ^ n)%nat -> (1 <= n)%nat ->
    get_qubitop_from_matrix im half small operator = Ok (filter (fun tc => negb (small (snd tc))) (expansion n (ent (of_rows operator)))).
  Proof.
    intros Hl Hr Hn. unfold get_qubitop_from_matrix. destruct operator as [|row0 rows] eqn:Eo; [pose proof (Nat.pow_nonzero 2 n); cbn in Hl; lia|]. rewrite <- Eo in *.
    assert (H0 : length row0 = (2 ^ n)%nat) by (apply Hr; rewrite Eo; left; reflexivity). rewrite H0, Hl, Nat.eqb_refl. cbn [negb].
    rewrite (proj2 (power_of_two_spec (2 ^ n)) (ex_intro _ n eq_refl)). cbn [negb]. rewrite Nat.log2_pow2 by lia.
    rewrite (mapM_ok_ext _ (fun i => (weight im half n (ent (of_rows operator)) (pairs (bits (2 * n) i)), map pz (pairs (bits (2 * n) i))))).
    - cbn [rbind]. f_equal.
      pose proof (collect im small (map (fun i => (weight im half n (ent (of_rows operator)) (pairs (bits (2 * n) i)), pairs (bits (2 * n) i))) (seq 0 (4 ^ n)))) as X.
      rewrite !map_map in X. cbn [fst snd entry] in X. rewrite X.
      + unfold expansion. f_equal.
      + pose proof (expansion_wf n (ent (of_rows operator))) as W. unfold wf_op, dkeys, expansion in W. rewrite map_map in W. exact W.
    - intros i Hi. apply in_seq in Hi. rewrite pow4 in Hi. rewrite dec2bin_fits; [|rewrite pow2_Z; lia|lia]. cbn [rbind]. rewrite Nat2Z.id, decode_pairs by apply bits_length. cbn [rbind].
      rewrite (trace_spec im half small n operator); auto. apply (pairs_length n), bits_length.
  Qed.
End Whole.
