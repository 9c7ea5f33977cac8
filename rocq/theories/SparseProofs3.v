(** qubit_operator_sparse builds the matrix of a qubit operator, although it swaps rows and columns: Pauli strings are symmetric up to signs. *)
From Coq Require Import Ring.
From Verif Require Import Base BaseFacts MatModel MatFacts LiftSpec LiftProofs OpModel OpSpec OpProofs PauliProofs OpProofs2 ConjProofs FermiModel FermiSpec ReindexProofs2 SparseModel SparseProofs.
Open Scope list_scope.
Local Open Scope nat_scope.

Lemma flat_single {X} (f : nat -> list X) n k : k < n -> (forall i, i < n -> i <> k -> f i = []) -> flat_map f (seq 0 n) = f k.
Proof.
  induction n as [|n IH]; intros Hk H; [lia|]. rewrite seq_S, flat_map_app. cbn [flat_map Nat.add]. rewrite app_nil_r. destruct (Nat.eq_dec k n) as [->|N].
  - assert (E : flat_map f (seq 0 n) = []). { clear IH Hk. assert (G : forall l, (forall i, In i l -> f i = []) -> flat_map f l = []) by (induction l as [|a l IHl]; intros Hl; cbn; [reflexivity|]; rewrite (Hl a (or_introl eq_refl)); apply IHl; intros; apply Hl; right; auto). apply G. intros i Hi. apply in_seq in Hi. apply H; lia. }
    rewrite E. reflexivity.
  - rewrite IH by (auto; lia). rewrite (H n) by lia. apply app_nil_r.
Qed.
Lemma flat_map_ext_in {X Y} (f g : X -> list Y) l : (forall x, In x l -> f x = g x) -> flat_map f l = flat_map g l.
Proof. induction l as [|a l IH]; intros H; cbn; [reflexivity|]. rewrite (H a (or_introl eq_refl)), IH; auto. intros; apply H; right; auto. Qed.
Lemma flat_map_one {X Y} (f : X -> Y) l : flat_map (fun x => [f x]) l = map f l.
Proof. induction l as [|a l IH]; cbn; [reflexivity|]. rewrite IH. reflexivity. Qed.

Section Pauli.
  Context {K : cring} (im : K) (Him : kmul im im = kopp k1).
  Add Ring Kring_spp : (kth K).
  Open Scope K_scope.
  Notation act := (term_act im).
  Definition flips (t : term pauli) (q : nat) : bool := fold_right (fun f b => xorb (Nat.eqb (fst f) q && match snd f with Px | Py => true | _ => false end) b) false t.
  Lemma act_length t b : length (snd (act t b)) = length b.
  Proof. apply (term_keeps im). reflexivity. Qed.
  Lemma act_flips t b q : (forall f, In f t -> fst f < length b)%nat -> nth q (snd (act t b)) false = xorb (nth q b false) (flips t q).
  Proof.
    induction t as [|[p P] t IH]; intros Ht; cbn [term_act flips fold_right fst snd]; [now rewrite xorb_false_r|]. unfold mcomp. cbn [fst snd factor_act]. fold (flips t q).
    rewrite nth_setb by (rewrite act_length; apply (Ht (p, P)); left; auto). rewrite Nat.eqb_sym. destruct (Nat.eqb_spec p q) as [->|N].
    - rewrite IH by (intros; apply Ht; right; auto). destruct P, (nth q b false), (flips t q); reflexivity.
    - rewrite IH by (intros; apply Ht; right; auto). destruct (flips t q); reflexivity.
  Qed.
  Lemma act_invol t b : (forall f, In f t -> fst f < length b)%nat -> snd (act t (snd (act t b))) = b.
  Proof.
    intros Ht. apply (nth_ext _ _ false false); [rewrite !act_length; reflexivity|]. intros q _. rewrite !act_flips; auto; [|rewrite act_length; auto]. destruct (nth q b false), (flips t q); reflexivity.
  Qed.
  Lemma act_unit t b : exists u, fst (act t b) * u = 1.
  Proof.
    induction t as [|[p P] t [u IH]]; cbn [term_act]; [exists 1; cbn; ring|]. unfold mcomp. cbn [fst snd factor_act].
    assert (U : exists v, fst (pauli_bit im P (nth p (snd (act t b)) false)) * v = 1).
    { destruct P, (nth p (snd (act t b)) false); cbn [pauli_bit fst]; [exists 1|exists 1|exists 1|exists 1|exists im|exists (- im)|exists (- (1))|exists 1]; first [ring|ring [Him]]. }
    destruct U as [v U]. exists (v * u). transitivity ((fst (pauli_bit im P (nth p (snd (act t b)) false)) * v) * (fst (act t b) * u)); [ring|]. rewrite U, IH. ring.
  Qed.
  Lemma act_pad t x z : (forall f, In f t -> fst f < length x)%nat -> act t (x ++ z) = (fst (act t x), snd (act t x) ++ z).
  Proof.
    induction t as [|[p P] t IH]; intros Ht; [reflexivity|]. cbn [term_act]. unfold mcomp. rewrite IH by (intros; apply Ht; right; auto). cbn [fst snd factor_act].
    assert (Hp : (p < length (snd (act t x)))%nat) by (rewrite act_length; apply (Ht (p, P)); left; auto). rewrite app_nth1, setb_app_l by auto. reflexivity.
  Qed.
  Definition wide (n : nat) (c : K) (t : term pauli) : mat K := mscale c (mono n (act t)).
  Lemma wide_ent n c t x y : length x = n -> length y = n -> ent (wide n c t) (bval x) (bval y) = c * (if list_eqb Bool.eqb x (snd (act t y)) then fst (act t y) else 0).
  Proof. intros Hx Hy. unfold wide. cbn [ent mscale]. rewrite mono_ent by (auto; rewrite act_length; auto). reflexivity. Qed.
  Lemma kron_shape (A B : mat K) a b : sq (2 ^ a) A -> sq (2 ^ b) B -> sq (2 ^ (a + b)) (kron A B).
  Proof. intros [A1 A2] [B1 B2]. split; cbn [nr nc kron]; rewrite ?A1, ?A2, ?B1, ?B2, Nat.pow_add_r; reflexivity. Qed.
  Lemma cut {X} (x : list X) a b : length x = (a + b)%nat -> exists y z, x = y ++ z /\ length y = a /\ length z = b.
  Proof. intros H. exists (firstn a x), (skipn a x). rewrite firstn_skipn, firstn_length, skipn_length. repeat split; lia. Qed.
  Lemma wide_identity n k c t : (forall f, In f t -> fst f < n)%nat -> meq (kron (wide n c t) (eye (2 ^ k))) (wide (n + k) c t).
  Proof.
    intros Ht. destruct (kron_shape (wide n c t) (eye (2 ^ k)) n k) as [S1 S2]; [split; reflexivity|split; reflexivity|]. apply (meq_bits (n + k)); auto.
    intros x y Hx Hy. rewrite wide_ent by auto. apply cut in Hx as (x1 & x2 & -> & X1 & X2). apply cut in Hy as (y1 & y2 & -> & Y1 & Y2).
    rewrite (kron_bits _ _ n k) by auto. rewrite wide_ent by auto. rewrite act_pad by (rewrite Y1; auto). cbn [fst snd ent eye]. rewrite list_eqb_app by (rewrite act_length; congruence). rewrite eqb_bval by congruence.
    destruct (list_eqb Bool.eqb x1 (snd (act t y1))), (list_eqb Bool.eqb x2 y2); cbn [andb delta]; ring.
  Qed.
  Lemma map_ent P a b : ent (pauli_matrix_map im P) (bval [a]) (bval [b]) = if Bool.eqb a (snd (pauli_bit im P b)) then fst (pauli_bit im P b) else 0.
  Proof. destruct P, a, b; reflexivity. Qed.
  Lemma wide_pauli n P c t : (forall f, In f t -> fst f < n)%nat -> meq (kron (wide n c t) (pauli_matrix_map im P)) (wide (n + 1) c (t ++ [(n, P)])).
  Proof.
    intros Ht. destruct (kron_shape (wide n c t) (pauli_matrix_map im P) n 1) as [S1 S2]; [split; reflexivity|destruct P; split; reflexivity|]. apply (meq_bits (n + 1)); auto.
    intros x y Hx Hy. rewrite wide_ent by auto. apply cut in Hx as (x1 & x2 & -> & X1 & X2). apply cut in Hy as (y1 & y2 & -> & Y1 & Y2).
    destruct x2 as [|a [|]]; try discriminate. destruct y2 as [|b [|]]; try discriminate.
    rewrite (kron_bits _ _ n 1); auto; try (destruct P; reflexivity). rewrite wide_ent, map_ent by auto. rewrite term_act_app. unfold mcomp at 1 2.
    assert (F : act [(n, P)] (y1 ++ [b]) = (fst (pauli_bit im P b), y1 ++ [snd (pauli_bit im P b)])).
    { cbn [term_act]. unfold mcomp. cbn [fst snd factor_act]. rewrite <- Y1, nth_middle, setb_app_r. f_equal. ring. }
    rewrite F. cbn [fst snd]. rewrite act_pad by (rewrite Y1; auto). cbn [fst snd]. rewrite list_eqb_app by (rewrite act_length; congruence). cbn [list_eqb]. rewrite andb_true_r.
    destruct (list_eqb Bool.eqb x1 (snd (act t y1))), (Bool.eqb a (snd (pauli_bit im P b))); cbn [andb]; ring.
  Qed.
  Lemma kronecker_snoc l (A M : mat K) : kronecker_operators l = Ok A -> kronecker_operators (l ++ [M]) = Ok (kron A M).
  Proof. destruct l as [|B l]; [discriminate|]. intros E. inversion E; subst A. cbn [app kronecker_operators]. rewrite fold_left_app. reflexivity. Qed.
  (** strictly increasing qubits from [m] on *)
  Fixpoint above (m : nat) (t : term pauli) : Prop := match t with [] => True | f :: t' => (m <= fst f)%nat /\ above (fst f + 1) t' end.
  Lemma canonical_above t : canonical t -> forall m, (match t with [] => True | f :: _ => m <= fst f end)%nat -> above m t.
  Proof. induction t as [|f t IH]; intros H m Hm; cbn [above]; [auto|]. destruct H as (_ & H1 & H2). split; [exact Hm|]. apply IH; [exact H2|]. destruct t; [auto|]. lia. Qed.
  Notation step := (fun '(tensor_factor, ops) (f : nat * pauli) =>
      let ops := if Nat.ltb tensor_factor (fst f) then ops ++ [eye (2 ^ (fst f - tensor_factor))] else ops in
      ((fst f + 1)%nat, ops ++ [pauli_matrix_map im (snd f)])).
  Lemma factors_ok c t : forall pre m ops A, above m t -> (forall f, In f pre -> fst f < m)%nat -> kronecker_operators ops = Ok A -> meq A (wide m c pre) ->
    exists m' ops' A', fold_left step t (m, ops) = (m', ops') /\ kronecker_operators ops' = Ok A' /\ meq A' (wide m' c (pre ++ t)) /\ (forall f, In f (pre ++ t) -> fst f < m')%nat /\
      (forall n, m <= n -> (forall f, In f t -> fst f < n) -> m' <= n)%nat.
  Proof.
    induction t as [|[q P] t IH]; intros pre m ops A Hm Hpre EA HA.
    - exists m, ops, A. rewrite app_nil_r. repeat split; auto; try apply HA.
    - cbn [fold_left fst snd]. destruct Hm as [Hm1 Hm2]. cbn [fst] in Hm1, Hm2.
      assert (G : exists ops1 A1, (if Nat.ltb m q then ops ++ [eye (2 ^ (q - m))] else ops) = ops1 /\ kronecker_operators ops1 = Ok A1 /\ meq A1 (wide q c pre)).
      { destruct (Nat.ltb_spec m q) as [L|L].
        - exists (ops ++ [eye (2 ^ (q - m))]), (kron A (eye (2 ^ (q - m)))). split; [reflexivity|]. split; [apply kronecker_snoc; auto|]. etransitivity; [apply kron_ext; [exact HA|reflexivity]|].
          replace q with (m + (q - m))%nat at 2 by lia. apply wide_identity. exact Hpre.
        - exists ops, A. split; [reflexivity|]. split; [exact EA|]. replace q with m by lia. exact HA. }
      destruct G as (ops1 & A1 & -> & E1 & H1). assert (Hpre' : forall f, In f pre -> (fst f < q)%nat) by (intros f Hf; specialize (Hpre f Hf); lia).
      destruct (IH (pre ++ [(q, P)]) (q + 1)%nat (ops1 ++ [pauli_matrix_map im P]) (kron A1 (pauli_matrix_map im P))) as (m' & ops' & A' & E & EA' & HA' & HP & HL).
      + exact Hm2.
      + intros f Hf. apply in_app_or in Hf as [Hf|[<-|[]]]; [specialize (Hpre' f Hf); lia|cbn; lia].
      + apply kronecker_snoc. exact E1.
      + etransitivity; [apply kron_ext; [exact H1|reflexivity]|]. apply wide_pauli. exact Hpre'.
      + exists m', ops', A'. rewrite <- app_assoc in HA', HP. split; [exact E|]. split; [exact EA'|]. split; [exact HA'|]. split; [exact HP|]. intros n Hn Hq. apply HL; [specialize (Hq (q, P) (or_introl eq_refl)); cbn in Hq; lia|]. intros f Hf. apply Hq. right. auto.
  Qed.

  Context (is_zero : K -> bool) (Hz : forall c, is_zero c = true <-> c = k0).
  (** The lists of a Pauli string: both orders list the same places. *)
  Lemma string_lists n c t (B : mat K) : (forall f, In f t -> fst f < n)%nat -> meq B (wide n c t) ->
    csc_nonzero is_zero B = map (fun e => (snd (fst e), fst (fst e))) (csc_entries is_zero B).
  Proof.
    intros Ht HB. assert (N : nr B = (2 ^ n)%nat /\ nc B = (2 ^ n)%nat) by (destruct HB as (X & Y & _); cbn in X, Y; auto). destruct N as [Nr Nc].
    set (pi := fun j => bval (snd (act t (bits n j)))).
    assert (Pl : forall j, (pi j < 2 ^ n)%nat). { intros j. unfold pi. pose proof (bval_lt (snd (act t (bits n j)))) as L. rewrite act_length, bits_length in L. exact L. }
    assert (Pi : forall j, (j < 2 ^ n)%nat -> pi (pi j) = j).
    { intros j Hj. unfold pi. rewrite (bits_bval_n n) by (rewrite act_length, bits_length; auto). rewrite act_invol by (rewrite bits_length; auto). apply bval_bits_small. auto. }
    assert (V : forall i j, (i < 2 ^ n)%nat -> (j < 2 ^ n)%nat -> ent B i j = if Nat.eqb i (pi j) then c * fst (act t (bits n j)) else 0).
    { intros i j Hi Hj. destruct HB as (_ & _ & HB). rewrite HB by (rewrite ?Nr, ?Nc; auto). unfold wide, pi. cbn [ent mscale mono]. destruct (act t (bits n j)) as [u b]. cbn [fst snd]. destruct (Nat.eqb i (bval b)); [reflexivity|ring]. }
    destruct (is_zero c) eqn:Ec.
    - apply Hz in Ec. subst c. assert (Z : forall i j, (i < 2 ^ n)%nat -> (j < 2 ^ n)%nat -> is_zero (ent B i j) = true). { intros i j Hi Hj. apply Hz. rewrite V by auto. destruct (Nat.eqb i (pi j)); [ring|reflexivity]. }
      unfold csc_nonzero, csc_entries. rewrite Nr, Nc.
      assert (G : forall X (f : nat -> list X) l, (forall i, In i l -> f i = []) -> flat_map f l = []) by (intros X f; induction l as [|a l IHl]; intros Hl; cbn; [reflexivity|]; rewrite (Hl a (or_introl eq_refl)); apply IHl; intros; apply Hl; right; auto).
      rewrite !G; [reflexivity| |]; intros i Hi; apply G; intros j Hj; apply in_seq in Hi, Hj; rewrite Z by lia; reflexivity.
    - assert (Z : forall j, (j < 2 ^ n)%nat -> is_zero (ent B (pi j) j) = false).
      { intros j Hj. rewrite V by auto. rewrite Nat.eqb_refl. destruct (is_zero (c * _)) eqn:E; [|reflexivity]. apply Hz in E. destruct (act_unit t (bits n j)) as [u Hu].
        assert (c = 0). { transitivity (c * (fst (act t (bits n j)) * u)); [rewrite Hu; ring|]. transitivity ((c * fst (act t (bits n j))) * u); [ring|rewrite E; ring]. } apply Hz in H. congruence. }
      assert (E1 : csc_entries is_zero B = map (fun j => (pi j, j, ent B (pi j) j)) (seq 0 (2 ^ n))).
      { unfold csc_entries. rewrite Nr, Nc. rewrite <- (flat_map_one (fun j => (pi j, j, ent B (pi j) j))). apply flat_map_ext_in. intros j Hj. apply in_seq in Hj. rewrite (flat_single _ _ (pi j)); [|auto|].
        - rewrite Z by lia. reflexivity.
        - intros i Hi Ni. rewrite V by lia. rewrite (proj2 (Nat.eqb_neq _ _) Ni). rewrite (proj2 (Hz 0) eq_refl). reflexivity. }
      assert (E2 : csc_nonzero is_zero B = map (fun i => (i, pi i)) (seq 0 (2 ^ n))).
      { unfold csc_nonzero. rewrite Nr, Nc. rewrite <- (flat_map_one (fun i => (i, pi i))). apply flat_map_ext_in. intros i Hi. apply in_seq in Hi. rewrite (flat_single _ _ (pi i)); [|auto|].
        - assert (Q : is_zero (ent B i (pi i)) = false) by (rewrite <- (Pi i) at 1 by lia; apply Z; auto). rewrite Q. reflexivity.
        - intros j Hj Nj. rewrite V by lia. destruct (Nat.eqb_spec i (pi j)) as [Q|Q]; [exfalso; apply Nj; rewrite Q, Pi; auto|]. rewrite (proj2 (Hz 0) eq_refl). reflexivity. }
      rewrite E1, E2, map_map. apply map_ext. reflexivity.
  Qed.
  Lemma qubit_terms_ok n (a : qop K) : on_qubits n a -> (forall t c, In (t, c) a -> canonical t) -> forall e, in_shape (2 ^ n) (2 ^ n) e ->
    exists e', foldM (qubit_term im is_zero n) a (lists_of e) = Ok (lists_of e') /\ in_shape (2 ^ n) (2 ^ n) e' /\
      forall i j, (i < 2 ^ n)%nat -> (j < 2 ^ n)%nat -> tsum e' i j = tsum e i j + ent (qop_matrix im n a) i j.
  Proof.
    induction a as [|[t c] a IH]; intros Ha Hc e He; cbn [foldM].
    - exists e. split; [reflexivity|]. split; [exact He|]. intros i j _ _. cbn. ring.
    - unfold qubit_term at 1. unfold lists_of at 1. unfold qubit_factors.
      assert (Ht : forall f, In f t -> (fst f < n)%nat) by (exact (Ha t c (or_introl eq_refl))).
      destruct (factors_ok c t [] 0%nat [scalar c] (scalar c)) as (m & ops & A & E & EA & HA & HP & HL).
      { apply canonical_above; [apply (Hc t c); left; auto|]. destruct t; auto; lia. }
      { intros f []. } { reflexivity. }
      { split; [reflexivity|]. split; [reflexivity|]. cbn. intros [|i] [|j]; try lia. intros _ _. cbn. ring. }
      cbn [app] in HA, HP. match goal with |- context [fold_left ?g t ?z] => replace (fold_left g t z) with (m, ops) by (symmetry; exact E) end. assert (Hm : (m <= n)%nat) by (apply HL; [lia|exact Ht]).
      set (ops' := if (Nat.ltb m n || match t with [] => true | _ => false end)%bool then _ else ops).
      assert (G : exists B, kronecker_operators ops' = Ok B /\ meq B (wide n c t)).
      { unfold ops'. destruct (Nat.ltb m n || match t with [] => true | _ => false end)%bool eqn:Q.
        - exists (kron A (eye (2 ^ (n - m)))). split; [apply kronecker_snoc; auto|]. etransitivity; [apply kron_ext; [exact HA|reflexivity]|]. replace n with (m + (n - m))%nat at 2 by lia. apply wide_identity. exact HP.
        - exists A. split; [exact EA|]. apply orb_false_iff in Q as [Q _]. apply Nat.ltb_ge in Q. replace n with m by lia. exact HA. }
      destruct G as (B & -> & HB). cbn [rbind]. rewrite (string_lists n c t B Ht HB). rewrite !map_map. cbn [fst snd].
      assert (NB : nr B = (2 ^ n)%nat /\ nc B = (2 ^ n)%nat) by (destruct HB as (X & Y & _); cbn in X, Y; auto).
      rewrite <- lists_app. destruct (IH) with (e := e ++ csc_entries is_zero B) as (e' & E' & I & V).
      { intros t' c' H; apply (Ha t' c'); right; auto. } { intros t' c' H; apply (Hc t' c'); right; auto. }
      { intros x Hx. apply in_app_or in Hx as [Hx|Hx]; [apply He, Hx|]. apply csc_in_shape in Hx. rewrite (proj1 NB), (proj2 NB) in Hx. exact Hx. }
      exists e'. split; [exact E'|]. split; [exact I|]. intros i j Hi Hj. rewrite V by auto. rewrite tsum_app, (csc_tsum is_zero (fun c H => proj1 (Hz c) H)) by (rewrite ?(proj1 NB), ?(proj2 NB); auto).
      cbn [qop_matrix fold_right fst snd ent madd mscale]. fold (qop_matrix im n a). destruct HB as (_ & _ & HB). rewrite HB by (rewrite ?(proj1 NB), ?(proj2 NB); auto).
      destruct (term_matrix_mono im n t Ht) as (S1 & S2 & HT). unfold wide. cbn [ent mscale]. rewrite <- HT; [ring| |]; rewrite ?S1, ?S2; auto.
  Qed.
  Lemma qubit_sparse_ok (a : qop K) nq : let n := match nq with None => sorted_count_qubits a | Some n => n end in (forall t c, In (t, c) a -> canonical t) -> on_qubits n a ->
    exists A, qubit_operator_sparse im is_zero a nq = Ok A /\ meq A (qop_matrix im n a).
  Proof.
    intros n Hc Ha. unfold qubit_operator_sparse. fold n. rewrite (proj2 (Nat.ltb_ge _ _)) by (apply (sorted_count_spec a n Hc); exact Ha).
    destruct (qubit_terms_ok n a Ha Hc []) as (e & E & I & V); [intros x []|]. change (lists_of (K := K) []) with (([], ([], [])) : triplets (K := K)) in E. rewrite E. cbn [rbind].
    destruct (coo_lists e _ _ I) as (A & EA & R & C & X). exists A. split; [exact EA|]. apply (meq_qop n); auto; try apply qop_matrix_shape. intros i j Hi Hj. rewrite X, V by auto. cbn. ring.
  Qed.
End Pauli.
