(** The matrix of C76: each term's entries are those of its matrix. *)
From Coq Require Import Permutation Sorted Ring.
From Verif Require Import Base BaseFacts MatModel MatFacts LiftSpec LiftProofs OpModel OpSpec OpProofs PauliProofs OpProofs2 FermiModel FermiSpec FermiProofs FermiProofs2 FermiProofs3 FermiProofs7 SparseModel SparseProofs SectorSpec SectorProofs SectorProofs2 SectorOpModel SectorOpSpec SectorOpProofs.
Open Scope list_scope.
Local Open Scope nat_scope.

(** ** Looking up an encoding *)
Lemma search_some values x : forall sorter i, StronglySorted (fun a b => nth a values 0 <= nth b values 0) sorter -> nth_error sorter (searchsorted values x sorter) = Some i ->
  In i sorter /\ forall j, In j sorter -> nth j values 0 = x -> nth i values 0 = x.
Proof.
  induction sorter as [|a l IH]; intros i Hs E; cbn [searchsorted] in E; [discriminate|]. inversion Hs as [|? ? Hl Hf]; subst. destruct (Nat.ltb_spec (nth a values 0) x) as [L|L].
  - cbn [nth_error] in E. destruct (IH i Hl E) as [I H]. split; [right; auto|]. intros j [->|Hj] Ej; [lia|eauto].
  - cbn in E. inversion E; subst i. split; [left; auto|]. rewrite Forall_forall in Hf. intros j [->|Hj] Ej; [auto|]. specialize (Hf j Hj). lia.
Qed.
Lemma search_none values x : forall sorter, nth_error sorter (searchsorted values x sorter) = None -> forall j, In j sorter -> nth j values 0 < x.
Proof.
  induction sorter as [|a l IH]; intros E j Hj; [destruct Hj|]. cbn [searchsorted] in E. destruct (Nat.ltb_spec (nth a values 0) x) as [L|L]; [|discriminate E]. destruct Hj as [->|Hj]; [auto|apply IH; auto].
Qed.
Lemma argsort_perm values : Permutation (argsort values) (seq 0 (length values)).
Proof. apply sort_by_perm. Qed.
Lemma argsort_sorted values : StronglySorted (fun a b => nth a values 0 <= nth b values 0) (argsort values).
Proof.
  unfold argsort. assert (G : forall l, StronglySorted (fun a b => nth a values 0 <= nth b values 0) (sort_by (fun i j => Nat.leb (nth i values 0) (nth j values 0)) l)).
  { induction l as [|a l IH]; [constructor|]. cbn [sort_by]. set (m := sort_by _ l) in *. clearbody m. clear l. induction m as [|b m IHm]; cbn [insert_by]; [constructor; constructor|]. inversion IH as [|? ? Hm Hf]; subst. destruct (Nat.leb_spec (nth a values 0) (nth b values 0)) as [L|L].
    - constructor; [auto|]. constructor; [auto|]. eapply Forall_impl; [|exact Hf]. cbn. intros c Hc. lia.
    - constructor; [auto|]. apply Forall_forall. intros c Hc. assert (P : In c (a :: m)). { clear - Hc. induction m as [|d m IH]; cbn [insert_by] in Hc; [auto|]. destruct (Nat.leb _ _); [auto|]. destruct Hc as [->|Hc]; [right; left; auto|]. destruct (IH Hc) as [->|Hc']; [left; auto|right; right; auto]. }
      destruct P as [<-|P]; [lia|]. rewrite Forall_forall in Hf. auto. }
  apply G.
Qed.
(** the position of an encoding, if it is there *)
Lemma lookup_some values x i : nth_error (argsort values) (searchsorted values x (argsort values)) = Some i -> i < length values /\ (In x values -> nth i values 0 = x).
Proof.
  intros E. destruct (search_some values x _ i (argsort_sorted values) E) as [I H]. split.
  - apply (Permutation_in _ (argsort_perm values)), in_seq in I. lia.
  - intros Hx. destruct (In_nth values x 0 Hx) as (j & Hj & Ej). apply (H j); auto. apply (Permutation_in _ (Permutation_sym (argsort_perm values))), in_seq. lia.
Qed.
Lemma lookup_none values x : nth_error (argsort values) (searchsorted values x (argsort values)) = None -> forall y, In y values -> y < x.
Proof.
  intros E y Hy. destruct (In_nth values y 0 Hy) as (j & Hj & <-). apply (search_none values x _ E). apply (Permutation_in _ (Permutation_sym (argsort_perm values))), in_seq. lia.
Qed.

(** ** The action of a term *)
Definition needs_ok (t : term bool) (s : list bool) : bool :=
  (forallb (fun i => nth i s false) (fst (fst (term_needs t))) && negb (existsb (fun i => nth i s false) (snd (fst (term_needs t)))))%bool.
Lemma needs_cons f t : term_needs (f :: t) = let '(occupied, unoccupied, change) := term_needs t in
  if snd f then (occupied, if memb Nat.eqb (fst f) occupied then unoccupied else unoccupied ++ [fst f], (change + 1)%Z) else (occupied ++ [fst f], unoccupied, (change - 1)%Z).
Proof. unfold term_needs. cbn [rev]. rewrite fold_left_app. cbn [fold_left]. destruct (fold_left _ (rev t) _) as [[a b] c]. reflexivity. Qed.
Lemma memb_in a l : memb Nat.eqb a l = true <-> In a l.
Proof. unfold memb. rewrite existsb_exists. split; [intros (x & H & E); apply Nat.eqb_eq in E; subst; auto|intros H; exists a; split; [auto|apply Nat.eqb_refl]]. Qed.
Lemma needs_spec t : (forall i, In i (fst (fst (term_needs t))) <-> In (i, false) t) /\ (forall i, In i (fst (fst (term_needs t)) ++ snd (fst (term_needs t))) <-> In i (map fst t)) /\
  snd (term_needs t) = (Z.of_nat (length (creators t)) - Z.of_nat (length (annihilators t)))%Z.
Proof.
  induction t as [|[p d] t (I1 & I2 & I3)]; [cbn; intuition|]. rewrite needs_cons. destruct (term_needs t) as [[o u] c]. cbn [fst snd] in *. destruct d; cbn [fst snd].
  - split; [|split].
    + intros i. rewrite I1. split; [right; auto|]. intros [E|H]; [inversion E|auto].
    + intros i. cbn [map fst In]. destruct (memb Nat.eqb p o) eqn:M.
      * apply memb_in in M. rewrite I2. split; [right; auto|]. intros [->|H]; [|auto]. apply I2, in_app_iff. left; auto.
      * rewrite app_assoc, in_app_iff, I2. cbn. tauto.
    + unfold creators, annihilators in *. cbn [filter snd negb map length]. lia.
  - split; [|split].
    + intros i. rewrite in_app_iff, I1. cbn. split; [intros [H|[->|[]]]; auto|intros [E|H]; [inversion E; auto|auto]].
    + intros i. cbn [map fst In]. rewrite <- I2, !in_app_iff. cbn. tauto.
    + unfold creators, annihilators in *. cbn [filter snd negb map length]. lia.
Qed.

Lemma mode_dec (a b : factor bool) : {a = b} + {a <> b}.
Proof. decide equality; [apply Bool.bool_dec|apply Nat.eq_dec]. Qed.

(** how many of the occupied modes, of the creation and of the annihilation operators are among the modes in P *)
Definition occupied_in (P : nat -> bool) (n : nat) (b : list bool) : nat := how_many (fun i => P i && occupied b i)%bool n.
Lemma occupied_setb P n p d b : p < n -> length b = n -> occupied_in P n (setb p d b) + b2n (P p && nth p b false) = occupied_in P n b + b2n (P p && d).
Proof.
  intros Hp Hb. unfold occupied_in, how_many, occupied. replace n with (p + (1 + (n - p - 1))) by lia. rewrite !seq_app, !filter_app, !app_length. cbn [seq filter plus].
  rewrite (filter_ext_in (fun i => P i && nth i (setb p d b) false)%bool (fun i => P i && nth i b false)%bool (seq 0 p)) by (intros i Hi; apply in_seq in Hi; rewrite nth_setb_other by lia; auto).
  rewrite (filter_ext_in (fun i => P i && nth i (setb p d b) false)%bool (fun i => P i && nth i b false)%bool (seq (p + 1) (n - p - 1))) by (intros i Hi; apply in_seq in Hi; rewrite nth_setb_other by lia; auto).
  rewrite nth_setb_same by lia. destruct (P p), d, (nth p b false); cbn; lia.
Qed.

Section S.
  Context {K : cring}.
  Add Ring Kring_so2 : (kth K).
  Open Scope K_scope.
  Lemma act_cons f t (s : list bool) : act_on (K := K) (f :: t) s = let '(parity, target) := act_on t s in
    (parity * minus_one_to (count_true (firstn (fst f) target)), set_at (fst f) (negb (nth (fst f) target false)) target).
  Proof. unfold act_on. cbn [rev]. rewrite fold_left_app. cbn [fold_left]. destruct (fold_left _ (rev t) _) as [a b]. reflexivity. Qed.
  Lemma sgn_minus b : minus_one_to (K := K) (count_true b) = sgn (odd_count b).
  Proof.
    assert (G : Nat.even (count_true b) = negb (odd_count b)). { unfold count_true. induction b as [|[] b IH]; [reflexivity| |]; cbn [filter length]; change (odd_count (true :: b)) with (xorb true (odd_count b)) || change (odd_count (false :: b)) with (xorb false (odd_count b)); [rewrite Nat.even_succ, <- Nat.negb_even, IH; destruct (odd_count b); reflexivity|rewrite IH; destruct (odd_count b); reflexivity]. }
    unfold minus_one_to. rewrite G. destruct (odd_count b); reflexivity.
  Qed.
  Lemma fact_nth_out t c q : ~ In q (map fst t) -> nth q (snd (fact (K := K) t c)) false = nth q c false.
  Proof. induction t as [|[p d] t IH]; cbn [fact map fst In]; intros H; [reflexivity|]. unfold mcomp, ladder_act. cbn [fst snd]. rewrite nth_setb_other by (intros ->; apply H; auto). apply IH. tauto. Qed.
  Lemma fact_nth_off t c q : ~ In (q, true) t -> In (q, false) t -> (q < length c)%nat -> nth q (snd (fact (K := K) t c)) false = false.
  Proof.
    induction t as [|[p d] t IH]; cbn [fact]; intros H1 H2 Hq; [destruct H2|]. unfold mcomp, ladder_act. cbn [fst snd]. destruct (Nat.eq_dec q p) as [->|N].
    - rewrite nth_setb_same by (rewrite fact_length; auto). destruct d; [exfalso; apply H1; left; auto|reflexivity].
    - rewrite nth_setb_other by auto. apply IH; auto; [intros H; apply H1; right; auto|]. destruct H2 as [E|H2]; [inversion E; congruence|auto].
  Qed.
  Lemma needs_ok_cons p d t s : needs_ok ((p, d) :: t) s = (needs_ok t s && if d then memb Nat.eqb p (fst (fst (term_needs t))) || negb (nth p s false) else nth p s false)%bool.
  Proof.
    unfold needs_ok. rewrite needs_cons. destruct (term_needs t) as [[o u] c]. cbn [fst snd]. destruct d; cbn [fst snd].
    - destruct (memb Nat.eqb p o); cbn [orb]; [rewrite andb_true_r; reflexivity|]. rewrite existsb_app. cbn [existsb]. rewrite orb_false_r, negb_orb, andb_assoc. reflexivity.
    - rewrite forallb_app. cbn [forallb]. rewrite andb_true_r. destruct (forallb _ o), (nth p s false), (existsb _ u); reflexivity.
  Qed.
  Lemma act_fact n t c : sorted_term t -> on_modes n t -> length c = n -> if needs_ok t c then fact (K := K) t c = act_on t c /\ forall P, (occupied_in P n (snd (fact (K := K) t c)) + length (filter P (annihilators t)) = occupied_in P n c + length (filter P (creators t)))%nat
    else fst (fact (K := K) t c) = 0.
  Proof.
    intros Hs. induction Hs as [|[p d] t Hs IH Hf]; intros Hn Hc; [split; [reflexivity|intros P; cbn; lia]|]. assert (Hp : (p < n)%nat) by (apply (Hn (p, d)); left; auto). specialize (IH (fun f H => Hn f (or_intror H)) Hc). rewrite Forall_forall in Hf.
    rewrite needs_ok_cons. cbn [fact]. destruct (needs_ok t c); cbn [andb].
    2: { unfold mcomp. cbn [fst]. rewrite IH. ring. }
    destruct IH as [IH W]. assert (Le : length (snd (fact (K := K) t c)) = n) by (rewrite fact_length; auto).
    assert (V : nth p (snd (fact (K := K) t c)) false = negb d <-> (if d then memb Nat.eqb p (fst (fst (term_needs t))) || negb (nth p c false) else nth p c false)%bool = true).
    { assert (N1 : ~ In (p, d) t). { intros H. specialize (Hf _ H). unfold before in Hf. destruct d; cbn in Hf; lia. } destruct d.
      - destruct (in_dec mode_dec (p, false) t) as [I|I].
        + rewrite (fact_nth_off t c p N1 I) by lia. rewrite (proj2 (memb_in p _) (proj2 (proj1 (needs_spec t) p) I)). cbn. tauto.
        + rewrite fact_nth_out by (intros H; apply in_map_iff in H as ([q e] & E & H); cbn in E; subst q; destruct e; auto).
          destruct (memb Nat.eqb p _) eqn:M; [apply memb_in, (proj1 (needs_spec t)) in M; contradiction|]. cbn [orb negb]. destruct (nth p c false); cbn; intuition discriminate.
      - rewrite fact_nth_out; [reflexivity|]. intros H; apply in_map_iff in H as ([q e] & E & H); cbn in E; subst q; destruct e; [|auto]. exact (Hf _ H). }
    rewrite act_cons, <- IH. unfold mcomp, ladder_act. cbn [fst snd]. destruct (fact (K := K) t c) as [x e]. cbn [fst snd] in *.
    destruct (if d then _ else _) eqn:B.
    - split; [rewrite (proj2 V eq_refl), Bool.eqb_reflx, Bool.negb_involutive, sgn_minus; apply f_equal2; [ring|reflexivity]|].
      intros P. specialize (W P). pose proof (occupied_setb P n p d e Hp Le) as O'. rewrite (proj2 V eq_refl) in O'. destruct d; unfold creators, annihilators in *; cbn [filter snd negb map fst] in *; destruct (P p); cbn [length b2n andb] in *; lia.
    - destruct (Bool.eqb (nth p e false) (negb d)) eqn:B'; [|cbn; ring]. apply Bool.eqb_prop, V in B'. discriminate.
  Qed.
  Lemma act_length t c : length (snd (act_on (K := K) t c)) = length c.
  Proof. induction t as [|f t IH]; [reflexivity|]. rewrite act_cons. destruct (act_on t c) as [x e]. cbn [snd] in *. rewrite set_at_setb, setb_length. exact IH. Qed.

  (** ** One term *)
  Context (n : nat) (states : list (list bool)) (Hn : NoDup states) (Hl : forall s, In s states -> length s = n).
  Notation ints := (map bval states).
  Notation size := (length states).
  Lemma state_length j : (j < size)%nat -> length (nth j states []) = n.
  Proof. intros H. apply Hl, nth_In, H. Qed.
  Lemma int_nth j : (j < size)%nat -> nth j ints 0%nat = bval (nth j states []).
  Proof. intros H. rewrite (nth_indep _ 0%nat (bval [])) by (rewrite map_length; auto). apply map_nth. Qed.
  Lemma int_inj i x : (i < size)%nat -> length x = n -> nth i ints 0%nat = bval x <-> nth i states [] = x.
  Proof. intros Hi Hx. rewrite int_nth by auto. split; [|congruence]. intros E. apply bval_inj in E; auto. rewrite state_length; auto. Qed.
  Notation sorter := (argsort ints).
  Definition found (x : list bool) : option nat := nth_error sorter (searchsorted ints (bval x) sorter).
  (** the entries of a column *)
  Definition column (t : term bool) (j : nat) : list (nat * nat * K) :=
    match found (snd (act_on (K := K) t (nth j states []))) with
    | None => []
    | Some i => if Nat.eqb (nth i ints 0%nat) (bval (snd (act_on (K := K) t (nth j states [])))) then [(i, j, fst (act_on t (nth j states [])))] else []
    end.
  Definition step t := (fun (lists : list K * (list nat * list nat)) state =>
        let '(data, (row_ind, col_ind)) := lists in
        let '(parity, target_determinant) := act_on t (nth state states []) in
        let int_encoding := bval target_determinant in
        match nth_error sorter (searchsorted ints int_encoding sorter) with
        | None => Err IndexError
        | Some target_state => Ok (if Nat.eqb (nth target_state ints 0%nat) int_encoding then (data ++ [parity], (row_ind ++ [target_state], col_ind ++ [state])) else lists)
        end).
  Lemma loop t cols : forall e, foldM (step t) cols (lists_of e) = if forallb (fun j => match found (snd (act_on (K := K) t (nth j states []))) with None => false | Some _ => true end) cols then Ok (lists_of (e ++ flat_map (column t) cols)) else Err IndexError.
  Proof.
    induction cols as [|j cols IH]; intros e; cbn [foldM forallb flat_map]; [rewrite app_nil_r; reflexivity|].
    assert (E : step t (lists_of e) j = match found (snd (act_on (K := K) t (nth j states []))) with None => Err IndexError | Some _ => Ok (lists_of (e ++ column t j)) end).
    { unfold step, lists_of at 1, column, found. destruct (act_on t (nth j states [])) as [x d]. cbn [fst snd]. destruct (nth_error _ _) as [i|]; [|reflexivity]. destruct (Nat.eqb _ _).
      - rewrite lists_app. reflexivity.
      - rewrite app_nil_r. reflexivity. }
    rewrite E. destruct (found _); cbn [rbind andb]; [|reflexivity]. rewrite IH. rewrite <- app_assoc. reflexivity.
  Qed.
  Lemma column_shape t j i k x : (j < size)%nat -> In (i, k, x) (column t j) -> (i < size)%nat /\ k = j.
  Proof.
    intros Hj H. unfold column, found in H. destruct (nth_error _ _) as [i'|] eqn:E; [|destruct H]. destruct (Nat.eqb _ _); [|destruct H]. destruct H as [H|[]]. inversion H; subst. apply lookup_some in E as [E _]. rewrite map_length in E. auto.
  Qed.
  Lemma column_sum t j i : (i < size)%nat -> (j < size)%nat -> tsum (column t j) i j = if list_eqb Bool.eqb (nth i states []) (snd (act_on (K := K) t (nth j states []))) then fst (act_on t (nth j states [])) else 0.
  Proof.
    intros Hi Hj. unfold column. set (d := snd (act_on (K := K) t (nth j states []))). set (x := fst (act_on (K := K) t (nth j states []))). assert (Ld : length d = n) by (unfold d; rewrite act_length; apply state_length; auto).
    destruct (list_eqb Bool.eqb (nth i states []) d) eqn:B.
    - apply (list_eqb_spec _ bool_eqb_spec) in B. assert (Id : In (bval d) ints) by (apply in_map; rewrite <- B; apply nth_In; auto).
      destruct (found d) as [k|] eqn:E; unfold found in E.
      + apply lookup_some in E as [Hk E]. specialize (E Id). rewrite E, Nat.eqb_refl. rewrite map_length in Hk. apply (int_inj k d Hk Ld) in E.
        assert (k = i) by (apply (proj1 (NoDup_nth states []) Hn); auto; congruence). subst k. cbn. rewrite !Nat.eqb_refl. cbn. ring.
      + pose proof (lookup_none _ _ E _ Id). lia.
    - destruct (found d) as [k|] eqn:E; [|reflexivity]. unfold found in E. apply lookup_some in E as [Hk _]. rewrite map_length in Hk. destruct (Nat.eqb_spec (nth k ints 0%nat) (bval d)) as [Ek|Ek]; [|reflexivity].
      apply (int_inj k d Hk Ld) in Ek. cbn. destruct (Nat.eqb_spec k i) as [->|]; [|reflexivity]. rewrite Ek, (eqb_spec_refl _ (list_eqb_spec _ bool_eqb_spec)) in B. discriminate.
  Qed.
  Lemma tsum_other t j i k : (j < size)%nat -> k <> j -> tsum (column t j) i k = 0.
  Proof.
    intros Hj N. assert (G : forall e : list (nat * nat * K), (forall x, In x e -> snd (fst x) <> k) -> tsum e i k = 0).
    { induction e as [|[[a b] x] e IH]; intros H; [reflexivity|]. unfold tsum. cbn [fold_right fst snd]. destruct (Nat.eqb_spec b k) as [->|]; [exfalso; exact (H (a, k, x) (or_introl eq_refl) eq_refl)|]. rewrite andb_false_r. apply IH. intros y Hy. apply H. right; auto. }
    apply G. intros [[a b] x] Hx. cbn. destruct (column_shape t j a b x Hj Hx). congruence.
  Qed.
  Definition valid t := filter (fun j => needs_ok t (nth j states [])) (seq 0 size).
  Lemma valid_sum t i j : sorted_term t -> on_modes n t -> (i < size)%nat -> (j < size)%nat -> tsum (flat_map (column t) (valid t)) i j = ent (fterm_matrix n t) (bval (nth i states [])) (bval (nth j states [])).
  Proof.
    intros Hs Ht Hi Hj. pose proof (state_length i Hi) as Li. pose proof (state_length j Hj) as Lj. destruct (fterm_mono (K := K) n t Ht) as (_ & _ & E). rewrite E.
    2,3: rewrite ?(proj1 (fterm_shape n t)), ?(proj2 (fterm_shape n t)); first [rewrite <- Li; apply bval_lt|rewrite <- Lj; apply bval_lt].
    rewrite mono_ent by (auto; rewrite fact_length; auto). rewrite tsum_flat.
    transitivity (fold_right (fun k s => (if needs_ok t (nth k states []) then tsum (column t k) i j else 0) + s) 0 (seq 0 size)).
    { unfold valid. induction (seq 0 size) as [|k l IH]; cbn [filter fold_right]; [reflexivity|]. destruct (needs_ok t (nth k states [])); cbn [fold_right]; rewrite IH; ring. }
    rewrite (single_sum _ size j); [rewrite (proj2 (Nat.ltb_lt _ _) Hj)|].
    - pose proof (act_fact n t (nth j states []) Hs Ht Lj) as A. destruct (needs_ok t (nth j states [])).
      + rewrite column_sum by auto. rewrite (proj1 A). reflexivity.
      + rewrite A. destruct (list_eqb _ _ _); reflexivity.
    - intros k Hk N. destruct (needs_ok _ _); [|reflexivity]. apply tsum_other; auto.
  Qed.
  Notation build t := (build_term_op (K := K) t states ints sorter n).
  Lemma build_form t : build t = if negb (Z.eqb (Z.of_nat (length (creators t)) - Z.of_nat (length (annihilators t))) 0) then Err ValueError
    else if negb (forallb (fun i => Nat.ltb i n) (fst (fst (term_needs t)) ++ snd (fst (term_needs t)))) then Err IndexError
    else let! lists := foldM (step t) (valid t) (lists_of []) in let '(data, (row_ind, col_ind)) := lists in coo_matrix data row_ind col_ind size size.
  Proof. unfold build_term_op, valid, needs_ok. rewrite <- (proj2 (proj2 (needs_spec t))). destruct (term_needs t) as [[o u] c]. reflexivity. Qed.
  Lemma in_range_modes t : forallb (fun i => Nat.ltb i n) (fst (fst (term_needs t)) ++ snd (fst (term_needs t))) = true <-> on_modes n t.
  Proof.
    rewrite forallb_forall. split.
    - intros H f Hf. apply Nat.ltb_lt. apply H. apply needs_spec. apply in_map. auto.
    - intros H i Hi. apply needs_spec in Hi. apply in_map_iff in Hi as (f & <- & Hf). apply Nat.ltb_lt. auto.
  Qed.
  Definition balanced (t : term bool) : Prop := length (creators t) = length (annihilators t).
  Lemma build_ok t R : sorted_term t -> build t = Ok R -> balanced t /\ on_modes n t /\ nr R = size /\ nc R = size /\
    forall i j, (i < size)%nat -> (j < size)%nat -> ent R i j = ent (fterm_matrix n t) (bval (nth i states [])) (bval (nth j states [])).
  Proof.
    intros Hs. rewrite build_form. destruct (Z.eqb_spec (Z.of_nat (length (creators t)) - Z.of_nat (length (annihilators t))) 0) as [B|B]; [|discriminate]. cbn [negb].
    destruct (forallb _ _) eqn:F; [|discriminate]. apply in_range_modes in F. cbn [negb]. rewrite loop. destruct (forallb _ (valid t)); [|discriminate]. cbn [rbind app].
    destruct (coo_lists (flat_map (column t) (valid t)) size size) as (A & E & R1 & R2 & R3).
    { intros [[a b] x] Hx. cbn. apply in_flat_map in Hx as (j & Hj & Hx). apply filter_In in Hj as [Hj _]. apply in_seq in Hj. destruct (column_shape t j a b x ltac:(lia) Hx) as [H1 ->]. split; [auto|lia]. }
    intros E'. rewrite E in E'. inversion E'; subst A. split; [unfold balanced; lia|]. split; [auto|]. split; [auto|]. split; [auto|]. intros i j Hi Hj. rewrite R3. apply valid_sum; auto.
  Qed.
  Lemma build_unbalanced t : ~ balanced t -> build t = Err ValueError.
  Proof. intros H. rewrite build_form. destruct (Z.eqb_spec (Z.of_nat (length (creators t)) - Z.of_nat (length (annihilators t))) 0) as [B|B]; [|reflexivity]. exfalso. apply H. unfold balanced. lia. Qed.
  Lemma build_total t : balanced t -> on_modes n t -> (forall s, In s states -> needs_ok t s = true -> exists y, In y states /\ (bval (snd (act_on (K := K) t s)) <= bval y)%nat) -> exists R, build t = Ok R.
  Proof.
    intros Hb Ht Hcl. rewrite build_form. unfold balanced in Hb. rewrite Hb, Z.sub_diag. cbn [Z.eqb negb]. rewrite (proj2 (in_range_modes t) Ht). cbn [negb]. rewrite loop.
    assert (F : forallb (fun j => match found (snd (act_on (K := K) t (nth j states []))) with None => false | Some _ => true end) (valid t) = true).
    { apply forallb_forall. intros j Hj. apply filter_In in Hj as [Hj Hk]. apply in_seq in Hj. assert (Ij : In (nth j states []) states) by (apply nth_In; lia). destruct (Hcl _ Ij Hk) as (y & Hy & Ly).
      destruct (found _) as [i|] eqn:E; [reflexivity|]. unfold found in E. pose proof (lookup_none _ _ E _ (in_map bval _ _ Hy)). lia. }
    rewrite F. cbn [rbind app]. destruct (coo_lists (flat_map (column t) (valid t)) size size) as (A & E & _).
    { intros [[a b] x] Hx. cbn. apply in_flat_map in Hx as (j & Hj & Hx). apply filter_In in Hj as [Hj _]. apply in_seq in Hj. destruct (column_shape t j a b x ltac:(lia) Hx) as [H1 ->]. split; [auto|lia]. }
    exists A. exact E.
  Qed.
End S.
