(** Proofs for C72: diagonal terms and the split of a tensor. *)
From Coq Require Import Ring.
From Verif Require Import Base BaseFacts MatModel MatFacts LiftSpec LiftProofs OpModel OpSpec OpProofs PauliProofs OpProofs2 FermiModel FermiSpec FermiProofs FermiProofs2 FermiProofs3
  TensorModel TensorSpec TensorProofs TensorProps ConvModel ConvProofs DiagModel DiagSpec.
Open Scope list_scope.
Local Open Scope nat_scope.

(** ** The counts *)
Definition num (d : bool) (l : list (bool * nat)) (p : nat) : nat := length (filter (fun ki => Bool.eqb (fst ki) d && Nat.eqb (snd ki) p) l).
Lemma num_cons d ki l p : num d (ki :: l) p = (if Bool.eqb (fst ki) d && Nat.eqb (snd ki) p then 1 else 0) + num d l p.
Proof. unfold num. cbn [filter]. destruct (_ && _); reflexivity. Qed.
Definition counts_are (c : list (nat * nat)) (f : nat -> nat) : Prop := forall p, dget Nat.eqb p c = if Nat.eqb (f p) 0 then None else Some (f p).
Lemma bump_counts c f q : counts_are c f -> counts_are (bump q c) (fun p => (if Nat.eqb q p then 1 else 0) + f p).
Proof.
  intros H p. unfold bump. rewrite (H q). destruct (Nat.eqb_spec q p) as [<-|N].
  - destruct (Nat.eqb_spec (f q) 0) as [E|E]; rewrite (dget_dset_same _ nat_eqb_spec); cbn; [rewrite E; reflexivity|]. f_equal. lia.
  - cbn [Nat.add]. destruct (Nat.eqb (f q) 0); rewrite (dget_dset_other _ nat_eqb_spec) by auto; apply H.
Qed.
Lemma counts_ext c f g : (forall p, f p = g p) -> counts_are c f -> counts_are c g.
Proof. intros E H p. rewrite <- E. apply H. Qed.
Lemma count_fold l : forall c a f g, counts_are c f -> counts_are a g ->
  counts_are (fst (fold_left count_index l (c, a))) (fun p => num true l p + f p) /\ counts_are (snd (fold_left count_index l (c, a))) (fun p => num false l p + g p).
Proof.
  induction l as [|[b q] l IH]; intros c a f g Hc Ha; [cbn; auto|]. cbn [fold_left count_index fst snd]. destruct b.
  - destruct (IH _ _ _ _ (bump_counts _ _ q Hc) Ha) as [X Y]. split; [|exact Y]. eapply counts_ext; [|exact X]. intros p. rewrite num_cons. cbn [fst snd Bool.eqb andb]. lia.
  - destruct (IH _ _ _ _ Hc (bump_counts _ _ q Ha)) as [X Y]. split; [exact X|]. eapply counts_ext; [|exact Y]. intros p. rewrite num_cons. cbn [fst snd Bool.eqb andb]. lia.
Qed.
Lemma bump_keys q c : NoDup (dkeys c) -> NoDup (dkeys (bump q c)).
Proof.
  intros N. assert (G : forall v (c : list (nat * nat)), NoDup (dkeys c) -> NoDup (dkeys (dset Nat.eqb q v c)) /\ forall x, In x (dkeys (dset Nat.eqb q v c)) -> x = q \/ In x (dkeys c)).
  { intros v. clear. induction c as [|[k w] c IH]; intros N; [cbn; split; [repeat constructor; intros []|intros x [<-|[]]; auto]|]. cbn [dset]. inversion N as [|? ? Hk Hn]; subst. destruct (Nat.eqb_spec q k) as [->|Ne].
    - split; [exact N|]. intros x Hx. right. exact Hx.
    - destruct (IH Hn) as [A B]. cbn [dkeys map fst]. split.
      + constructor; [|exact A]. intros Hi. apply B in Hi as [E|Hi]; [congruence|auto].
      + intros x [<-|Hx]; [right; left; reflexivity|]. apply B in Hx as [->|Hx]; [left; auto|right; right; exact Hx]. }
  unfold bump. destruct (dget Nat.eqb q c); apply G; auto.
Qed.
Lemma count_keys l : forall c a, NoDup (dkeys c) -> NoDup (dkeys a) -> NoDup (dkeys (fst (fold_left count_index l (c, a)))) /\ NoDup (dkeys (snd (fold_left count_index l (c, a)))).
Proof.
  induction l as [|[b q] l IH]; intros c a Hc Ha; [cbn; auto|]. cbn [fold_left count_index fst snd]. destruct b; apply IH; auto; apply bump_keys; auto.
Qed.
Lemma In_dget (c : list (nat * nat)) p v : NoDup (dkeys c) -> In (p, v) c -> dget Nat.eqb p c = Some v.
Proof.
  induction c as [|[k w] c IH]; intros N Hin; [destruct Hin|]. destruct Hin as [E|H]; inversion N as [|? ? Hk Hn]; subst; cbn [dget].
  - inversion E; subst. rewrite Nat.eqb_refl. reflexivity.
  - destruct (Nat.eqb_spec p k) as [->|Ne]; [|auto]. exfalso. apply Hk. apply in_map_iff. exists (k, v). auto.
Qed.
Lemma same_counts c a f g : NoDup (dkeys c) -> counts_are c f -> counts_are a g -> (forallb (same_count a) c = true <-> forall p, f p <> 0 -> g p = f p).
Proof.
  intros N Hc Ha. rewrite forallb_forall. split.
  - intros H p Hp. pose proof (Hc p) as X. destruct (Nat.eqb_spec (f p) 0) as [E|_]; [contradiction|]. apply (dget_In _ nat_eqb_spec) in X. specialize (H _ X). unfold same_count in H. cbn [fst snd] in H.
    rewrite (Ha p) in H. destruct (Nat.eqb (g p) 0); [discriminate|]. apply Nat.eqb_eq in H. auto.
  - intros H [p v] Hin. apply (In_dget _ _ _ N) in Hin. rewrite (Hc p) in Hin. unfold same_count. cbn [fst snd]. rewrite (Ha p).
    destruct (Nat.eqb_spec (f p) 0) as [E|E]; [discriminate|]. inversion Hin; subst v. rewrite (H p E). destruct (Nat.eqb_spec (f p) 0); [contradiction|]. apply Nat.eqb_refl.
Qed.
Lemma diagonal_counts k i : term_is_diagonal k i = true <-> forall p, num true (combine k i) p = num false (combine k i) p.
Proof.
  unfold term_is_diagonal. destruct (count_fold (combine k i) [] [] (fun _ => 0) (fun _ => 0)) as [Hc Ha]; [intros p; reflexivity|intros p; reflexivity|].
  destruct (count_keys (combine k i) [] []) as [Nc Na]; [constructor|constructor|].
  destruct (fold_left count_index (combine k i) ([], [])) as [c a]. cbn [fst snd] in *.
  apply (counts_ext _ _ (num true (combine k i))) in Hc; [|intros; lia]. apply (counts_ext _ _ (num false (combine k i))) in Ha; [|intros; lia].
  pose proof (same_counts c a _ _ Nc Hc Ha) as X. pose proof (same_counts a c _ _ Na Ha Hc) as Y.
  destruct (forallb (same_count a) c).
  - rewrite Y. split.
    + intros H p. destruct (Nat.eq_dec (num true (combine k i) p) 0) as [E|E].
      * destruct (Nat.eq_dec (num false (combine k i) p) 0) as [E'|E']; [lia|auto].
      * symmetry. apply X; auto.
    + intros H p _. apply H.
  - split; [discriminate|]. intros H. apply X. intros p _. auto.
Qed.

(** ** What a product of ladder operators does to the occupations *)
Definition cnt (d : bool) (t : list (nat * bool)) (p : nat) : nat := length (filter (fun f => Bool.eqb (snd f) d && Nat.eqb (fst f) p) t).
Lemma cnt_cons d f t p : cnt d (f :: t) p = (if Bool.eqb (snd f) d && Nat.eqb (fst f) p then 1 else 0) + cnt d t p.
Proof. unfold cnt. cbn [filter]. destruct (_ && _); reflexivity. Qed.
Lemma cnt_num d k : forall i p, cnt d (combine i k) p = num d (combine k i) p.
Proof. induction k as [|b k IH]; intros [|q i] p; try reflexivity. cbn [combine]. rewrite cnt_cons, num_cons, IH. reflexivity. Qed.
Definition b2n (b : bool) : nat := if b then 1 else 0.

Section B.
  Context {K : cring}.
  Add Ring Kring_diag : (kth K).
  Open Scope K_scope.
  Lemma balance n t c : on_modes n t -> length c = n -> fst (fact (K := K) t c) = 0 \/
    forall p, (b2n (nth p (snd (fact (K := K) t c)) false) + cnt false t p = b2n (nth p c false) + cnt true t p)%nat.
  Proof.
    intros Ht Hc. induction t as [|f t IH]; [right; intros p; reflexivity|].
    destruct IH as [Z|IH]; [intros g Hg; apply Ht; right; auto| |]; cbn [fact]; unfold mcomp; cbn [fst snd].
    { left. rewrite Z. ring. }
    set (z := snd (fact (K := K) t c)) in *. assert (Lz : length z = n) by (unfold z; rewrite fact_length; auto). assert (Hf : (fst f < n)%nat) by (apply Ht; left; auto).
    cbn [ladder_act fst snd]. destruct (Bool.eqb (nth (fst f) z false) (negb (snd f))) eqn:E.
    - right. intros p. specialize (IH p). rewrite nth_setb by lia. rewrite !cnt_cons. apply Bool.eqb_prop in E. rewrite (Nat.eqb_sym p).
      destruct (Nat.eqb_spec (fst f) p) as [<-|N].
      + rewrite E in IH. destruct (snd f); cbn [Bool.eqb andb negb b2n] in *; lia.
      + rewrite !andb_false_r. cbn [Nat.add]. exact IH.
    - left. ring.
  Qed.
  Lemma entry_balance n t x y : on_modes n t -> length x = n -> length y = n -> ent (fterm_matrix (K := K) n t) (bval x) (bval y) = 0 \/
    forall p, (b2n (nth p x false) + cnt false t p = b2n (nth p y false) + cnt true t p)%nat.
  Proof.
    intros Ht Hx Hy. destruct (fterm_mono (K := K) n t Ht) as (_ & _ & E).
    assert (Bx : (bval x < 2 ^ n)%nat) by (rewrite <- Hx; apply bval_lt). assert (By : (bval y < 2 ^ n)%nat) by (rewrite <- Hy; apply bval_lt).
    rewrite E by (rewrite ?(proj1 (fterm_shape n t)), ?(proj2 (fterm_shape n t)); assumption).
    rewrite mono_ent by (rewrite ?fact_length; auto). destruct (list_eqb Bool.eqb x (snd (fact t y))) eqn:Q; [|left; reflexivity].
    apply (list_eqb_spec _ bool_eqb_spec) in Q. destruct (balance n t y Ht Hy) as [Z|B]; [left; exact Z|right]. rewrite Q. exact B.
  Qed.
  Lemma b2n_inj b c : b2n b = b2n c -> b = c.
  Proof. destruct b, c; cbn; congruence. Qed.
  Lemma addresses_on n k i : addresses n k i -> on_modes n (combine i k).
  Proof. intros [_ H] f Hf. destruct f as [p d]. apply in_combine_l in Hf. rewrite Forall_forall in H. apply H, Hf. Qed.
  Lemma diagonal_entry n k i x y : addresses n k i -> length x = n -> length y = n -> term_is_diagonal k i = true -> x <> y ->
    ent (fterm_matrix (K := K) n (combine i k)) (bval x) (bval y) = 0.
  Proof.
    intros A Hx Hy D N. destruct (entry_balance n _ x y (addresses_on _ _ _ A) Hx Hy) as [Z|B]; [exact Z|]. exfalso. apply N. apply (nth_ext x y false false); [congruence|].
    intros p _. apply b2n_inj. specialize (B p). rewrite !cnt_num in B. rewrite (proj1 (diagonal_counts k i) D p) in B. lia.
  Qed.
  Lemma other_entry n k i x : addresses n k i -> length x = n -> term_is_diagonal k i = false -> ent (fterm_matrix (K := K) n (combine i k)) (bval x) (bval x) = 0.
  Proof.
    intros A Hx D. destruct (entry_balance n _ x x (addresses_on _ _ _ A) Hx Hx) as [Z|B]; [exact Z|]. exfalso. rewrite (proj2 (diagonal_counts k i)) in D; [discriminate|].
    intros p. specialize (B p). rewrite !cnt_num in B. lia.
  Qed.

  (** ** Sums over index lists *)
  Lemma sum_over_ext n m : forall f g, (forall i, length i = m -> Forall (fun p => (p < n)%nat) i -> f i = g i) -> sum_over (K := K) n m f = sum_over n m g.
  Proof.
    induction m as [|m IH]; intros f g H; cbn [sum_over]; [apply H; auto|]. apply bigsum_ext. intros p Hp. apply IH. intros i Hi Fi. apply H; cbn; [lia|constructor; auto].
  Qed.
  Lemma sum_over_0 n m : forall f, (forall i, length i = m -> Forall (fun p => (p < n)%nat) i -> f i = 0) -> sum_over (K := K) n m f = 0.
  Proof.
    induction m as [|m IH]; intros f H; cbn [sum_over]; [apply H; auto|]. apply bigsum_0. intros p Hp. apply IH. intros i Hi Fi. apply H; cbn; [lia|constructor; auto].
  Qed.
  (** the part of a key *)
  Definition part (h : heap K) (n : nat) (x y : list bool) (kv : key * entry K) : K :=
    sum_over n (length (fst kv)) (fun i => element h (snd kv) i * ent (fterm_matrix n (combine i (fst kv))) (bval x) (bval y)).
  Definition psum (h : heap K) (n : nat) (x y : list bool) (d : list (key * entry K)) : K := fold_right (fun kv s => part h n x y kv + s) 0 d.
  Lemma tensor_entry_psum h a x y : tensor_entry h a x y = psum h (n_qubits a) x y (n_body_tensors a).
  Proof. reflexivity. Qed.
  Lemma part_diag n h h' k e e' x y : length x = n -> length y = n ->
    (forall i, addresses n k i -> element h' e' i = if term_is_diagonal k i then element h e i else 0) -> part h' n x y (k, e') = if list_eqb Bool.eqb x y then part h n x y (k, e) else 0.
  Proof.
    intros Hx Hy H. unfold part. cbn [fst snd]. destruct (list_eqb Bool.eqb x y) eqn:E.
    - apply (list_eqb_spec _ bool_eqb_spec) in E. subst y. apply sum_over_ext. intros i Li Fi. rewrite H by (split; auto). destruct (term_is_diagonal k i) eqn:D; [reflexivity|].
      rewrite other_entry by (auto; split; auto). ring.
    - assert (N : x <> y) by (intros ->; rewrite (proj2 (list_eqb_spec _ bool_eqb_spec y y) eq_refl) in E; discriminate). apply sum_over_0. intros i Li Fi. rewrite H by (split; auto).
      destruct (term_is_diagonal k i) eqn:D; [|ring]. rewrite diagonal_entry by (auto; split; auto). ring.
  Qed.
  Lemma part_rem n h h' k e e' x y : length x = n -> length y = n ->
    (forall i, addresses n k i -> element h' e' i = if term_is_diagonal k i then 0 else element h e i) -> part h' n x y (k, e') = if list_eqb Bool.eqb x y then 0 else part h n x y (k, e).
  Proof.
    intros Hx Hy H. unfold part. cbn [fst snd]. destruct (list_eqb Bool.eqb x y) eqn:E.
    - apply (list_eqb_spec _ bool_eqb_spec) in E. subst y. apply sum_over_0. intros i Li Fi. rewrite H by (split; auto). destruct (term_is_diagonal k i) eqn:D; [ring|].
      rewrite other_entry by (auto; split; auto). ring.
    - assert (N : x <> y) by (intros ->; rewrite (proj2 (list_eqb_spec _ bool_eqb_spec y y) eq_refl) in E; discriminate). apply sum_over_ext. intros i Li Fi. rewrite H by (split; auto).
      destruct (term_is_diagonal k i) eqn:D; [|reflexivity]. rewrite diagonal_entry by (auto; split; auto). ring.
  Qed.
End B.
