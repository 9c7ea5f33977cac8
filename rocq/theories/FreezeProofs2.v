(** Freezing orbitals: operators, and the renumbering of the modes that are kept. *)
From Coq Require Import Permutation Sorted Ring.
From Verif Require Import Base BaseFacts MatModel MatFacts LiftSpec LiftProofs OpModel OpSpec OpProofs PauliProofs OpProofs2 FermiModel FermiSpec FermiProofs FermiProofs2 FermiProofs3
  ReindexModel ReindexProofs ReindexProofs2 FreezeSpec FreezeProofs.
Open Scope list_scope.
Local Open Scope nat_scope.

Section Ops.
  Context {K : cring} (same : nat -> nat -> bool) (small nonzero : K -> bool) (n : nat).
  Add Ring Kring_fr2 : (kth K).
  Open Scope K_scope.
  Hypothesis Hnz : forall c : K, nonzero c = false -> c = 0.
  Notation F := (fterm_matrix (K := K) n).
  Definition entry (x y : list bool) (t : fterm) : K := ent (F t) (bval x) (bval y).
  Lemma add_one (P : fterm -> Prop) (a : fop K) t c : good Bool.eqb small P a -> P t ->
    good Bool.eqb small P (fermion_add small a (fermion_op t c)) /\
    exists r : fop K, all_small small r /\ (length r <= 1)%nat /\ (forall u e, In (u, e) r -> P u) /\ forall phi, lval phi (fermion_add small a (fermion_op t c)) + lval phi r = lval phi a + c * phi t.
  Proof.
    intros Ga Ht. split.
    - apply (merge_good _ bool_eqb_spec); auto. intros u [<-|[]]. exact Ht.
    - destruct (add_count Bool.eqb bool_eqb_spec small (fermion_op t c) a) as (r & H1 & H2 & Hl & H3). exists r. split; [exact H1|]. split; [exact Hl|]. split.
      + intros u e Hu. assert (Q : In u (dkeys (fermion_op t c))) by (apply H2; exact (in_map fst r (u, e) Hu)). destruct Q as [<-|[]]. exact Ht.
      + intros phi. etransitivity; [apply H3|]. cbn. ring.
  Qed.
  Definition without (a : fop K) (p : nat) (t : fterm) : Prop := forall f, In f t -> uses a (fst f) /\ fst f <> p.
  Lemma freeze_one_ok (a : fop K) p d : on_qubits n a -> (forall q, uses a q -> same q p = Nat.eqb q p) ->
    let b := freeze_one same small nonzero a (p, d) in
    good Bool.eqb small (without a p) b /\
    exists r : fop K, all_small small r /\ (length r <= length a)%nat /\ (forall t c, In (t, c) r -> without a p t) /\
      forall x y, length x = n -> length y = n -> nth p x false = d -> nth p y false = d -> lval (entry x y) b + lval (entry x y) r = lval (entry x y) a.
  Proof.
    intros Ha Hs. cbn zeta. unfold freeze_one.
    set (step := fun (tmp : fop K) (tc : fterm * K) => _).
    assert (G : forall (l tmp : fop K), incl l a -> good Bool.eqb small (without a p) tmp ->
      good Bool.eqb small (without a p) (fold_left step l tmp) /\
      exists r : fop K, all_small small r /\ (length r <= length l)%nat /\ (forall t c, In (t, c) r -> without a p t) /\
      forall x y, length x = n -> length y = n -> nth p x false = d -> nth p y false = d ->
        lval (entry x y) (fold_left step l tmp) + lval (entry x y) r = lval (entry x y) tmp + lval (entry x y) l).
    2:{ destruct (G a [] (incl_refl a) (good_nil _ _ _)) as [G1 (r & R1 & Rl & R2 & R3)]. split; [exact G1|]. exists r. split; [auto|]. split; [auto|]. split; [auto|].
        intros x y Hx Hy Dx Dy. rewrite R3 by auto. cbn [lval]. ring. }
    induction l as [|[t c] l IH]; intros tmp Hl Gt.
    - cbn [fold_left]. split; [auto|]. exists []. split; [constructor|]. split; [cbn; lia|]. split; [intros ? ? []|]. intros; cbn [lval]; ring.
    - cbn [fold_left]. assert (Hin : In (t, c) a) by (apply Hl; left; auto).
      assert (Hm : on_modes n t) by (intros f Hf; eapply Ha; eauto).
      assert (Ot : without a p (others p t)).
      { intros f Hf. apply filter_In in Hf as [Hf E]. apply negb_true_iff, Nat.eqb_neq in E. split; [|auto]. exists t, c, f. auto. }
      assert (St : step tmp (t, c) =
        let c' := (if legal d (pops p t) then c else 0) in let c'' := if Z.odd (counted p t) then c' * - (1) else c' in
        if nonzero c'' && Bool.eqb (xorb d (Nat.odd (length (pops p t)))) d then fermion_add small tmp (fermion_op (others p t) c'') else tmp).
      { unfold step. cbn [fst snd]. rewrite loop_state; [reflexivity|]. intros f Hf. apply Hs. exists t, c, f. auto. }
      set (c'' := if Z.odd (counted p t) then (if legal d (pops p t) then c else 0) * - (1) else (if legal d (pops p t) then c else 0)).
      assert (V : forall x y, length x = n -> length y = n -> nth p x false = d -> nth p y false = d ->
        c * entry x y t = if nonzero c'' && Bool.eqb (xorb d (Nat.odd (length (pops p t)))) d then c'' * entry x y (others p t) else 0).
      { intros x y Hx Hy Dx Dy. unfold entry. rewrite (freeze_term n p d t x y) by auto.
        assert (N : nonzero c'' = false -> c'' = 0) by apply Hnz.
        assert (W : forall e : K, (if legal d (pops p t) && negb (Nat.odd (length (pops p t))) then sgn (Z.odd (counted p t)) * e else 0) * c =
          if Bool.eqb (xorb d (Nat.odd (length (pops p t)))) d then c'' * e else 0).
        { intros e. unfold c''. destruct (legal d (pops p t)), (Nat.odd (length (pops p t))), (Z.odd (counted p t)), d; cbn; ring. }
        etransitivity; [|etransitivity; [apply (W (ent (F (others p t)) (bval x) (bval y)))|]]; [ring|].
        destruct (Bool.eqb _ d); [|rewrite andb_false_r; reflexivity]. rewrite andb_true_r. destruct (nonzero c''); [reflexivity|]. rewrite N by auto. ring. }
      cbn zeta in St. fold c'' in St. rewrite St. destruct (nonzero c'' && Bool.eqb (xorb d (Nat.odd (length (pops p t)))) d).
      + destruct (add_one (without a p) tmp (others p t) c'' Gt Ot) as [G1 (r1 & R1 & L1 & R2 & R3)].
        destruct (IH _ (fun u Hu => Hl u (or_intror Hu)) G1) as [G2 (r2 & Q1 & L2 & Q2 & Q3)]. split; [exact G2|]. exists (r1 ++ r2). split; [apply Forall_app; auto|]. split; [rewrite app_length; cbn [length]; lia|]. split.
        * intros u e Hu. apply in_app_iff in Hu as [Hu|Hu]; eauto.
        * intros x y Hx Hy Dx Dy. rewrite lval_app. cbn [lval fst snd]. rewrite (V x y Hx Hy Dx Dy).
          transitivity (lval (entry x y) (fold_left step l (fermion_add small tmp (fermion_op (others p t) c''))) + lval (entry x y) r2 + lval (entry x y) r1); [ring|].
          rewrite Q3 by auto. transitivity (lval (entry x y) (fermion_add small tmp (fermion_op (others p t) c'')) + lval (entry x y) r1 + lval (entry x y) l); [ring|]. rewrite R3. ring.
      + destruct (IH _ (fun u Hu => Hl u (or_intror Hu)) Gt) as [G2 (r2 & Q1 & L2 & Q2 & Q3)]. split; [exact G2|]. exists r2. split; [auto|]. split; [cbn [length]; lia|]. split; [auto|].
        intros x y Hx Hy Dx Dy. cbn [lval fst snd]. rewrite (V x y Hx Hy Dx Dy), Q3 by auto. ring.
  Qed.
  Lemma uses_lt (a : fop K) q : on_qubits n a -> uses a q -> q < n.
  Proof. intros Ha (t & c & f & H1 & H2 & <-). eapply Ha; eauto. Qed.
  Lemma freeze_one_length (a : fop K) p d : (length (freeze_one same small nonzero a (p, d)) <= length a)%nat.
  Proof.
    unfold freeze_one. set (step := fun (tmp : fop K) (tc : fterm * K) => _).
    assert (G : forall l tmp : fop K, (length (fold_left step l tmp) <= length tmp + length l)%nat); [|apply (G a [])].
    induction l as [|tc l IH]; intros tmp; cbn [fold_left length]; [lia|]. etransitivity; [apply IH|].
    assert (Q : (length (step tmp tc) <= S (length tmp))%nat); [|lia]. unfold step. cbn zeta.
    repeat match goal with |- context [match ?x with _ => _ end] => destruct x end; try lia; (etransitivity; [apply merge_length|]; cbn; lia).
  Qed.
  Lemma freeze_all (frozen : list (nat * bool)) : forall a : fop K, wf_op a -> on_qubits n a ->
    (forall q i, uses a q -> In i frozen -> same q (fst i) = Nat.eqb q (fst i)) ->
    let b := fold_left (freeze_one same small nonzero) frozen a in
    wf_op b /\ (forall q, uses b q -> uses a q /\ ~ In q (map fst frozen)) /\
    (length b <= length a)%nat /\ exists r : fop K, all_small small r /\ (length r <= length frozen * length a)%nat /\ (forall q, uses r q -> uses a q) /\
      forall x y, length x = n -> length y = n -> (forall p d, In (p, d) frozen -> nth p x false = d /\ nth p y false = d) ->
        lval (entry x y) b + lval (entry x y) r = lval (entry x y) a.
  Proof.
    induction frozen as [|[p d] fr IH]; intros a W Ha Hs; cbn zeta; cbn [fold_left].
    - split; [auto|]. split; [intros q Hq; split; [auto|intros []]|]. split; [lia|]. exists []. split; [constructor|]. split; [cbn; lia|]. split; [intros q (t & c & f & [] & _)|]. intros; cbn [lval]; ring.
    - destruct (freeze_one_ok a p d Ha) as [G1 (r1 & R1 & L1 & R2 & R3)]. { intros q Hq. apply (Hs q (p, d)); [auto|left; auto]. }
      pose proof (freeze_one_length a p d) as Lb1. set (b1 := freeze_one same small nonzero a (p, d)) in *.
      assert (U1 : forall q, uses b1 q -> uses a q /\ q <> p).
      { intros q (t & c & f & H1 & H2 & <-). destruct (good_In _ bool_eqb_spec small _ b1 G1 t c H1) as [Hw _]. apply Hw. auto. }
      destruct (IH b1) as (W2 & U2 & Lb & (r2 & Q1 & L2 & Q2 & Q3)).
      { apply G1. }
      { intros t c H f Hf. apply (uses_lt a); [auto|]. apply U1. exists t, c, f. auto. }
      { intros q i Hq Hi. apply Hs; [apply U1; auto|right; auto]. }
      split; [exact W2|]. split.
      + intros q Hq. apply U2 in Hq as [Hq Hn]. apply U1 in Hq as [Hq Hp]. split; [auto|]. cbn [map In fst]. intros [E|E]; [congruence|auto].
      + split; [lia|]. exists (r1 ++ r2). split; [apply Forall_app; auto|]. split; [rewrite app_length; cbn [length]; nia|]. split.
        * intros q (t & c & f & H1 & H2 & <-). apply in_app_iff in H1 as [H1|H1]; [apply (R2 t c H1 f H2)|]. apply U1, Q2. exists t, c, f. auto.
        * intros x y Hx Hy Hf. rewrite lval_app. destruct (Hf p d (or_introl eq_refl)) as [Dx Dy]. rewrite <- (R3 x y Hx Hy Dx Dy).
          rewrite <- (Q3 x y Hx Hy) by (intros; apply Hf; right; auto). ring.
  Qed.

  (** the signs of the frozen occupied orbitals *)
  Definition below (occupied : list nat) (q : nat) : bool := Nat.odd (length (filter (fun o => o <? q) occupied)).
  Definition parity (occupied : list nat) (t : fterm) : bool := fold_right xorb false (map (fun f : factor bool => below occupied (fst f)) t).
  Lemma adjusted (t : fterm) (occupied : list nat) : forall c : K,
    fold_left (fun c index => fold_left (fun c (op : factor bool) => if index <? fst op then c * - (1) else c) t c) occupied c = sgn (parity occupied t) * c.
  Proof.
    assert (I : forall i (u : fterm) (c : K), fold_left (fun c (op : factor bool) => if i <? fst op then c * - (1) else c) u c = sgn (fold_right xorb false (map (fun f : factor bool => i <? fst f) u)) * c).
    { intros i. induction u as [|f u IH]; intros c; cbn [fold_left map fold_right]; [cbn; ring|]. rewrite IH, sgn_xorb. destruct (i <? fst f); cbn [sgn]; ring. }
    induction occupied as [|o occ IH]; intros c; cbn [fold_left].
    - assert (E : parity [] t = false) by (clear; unfold parity; induction t as [|f u IH]; cbn [map fold_right]; [reflexivity|rewrite IH; reflexivity]). rewrite E. cbn. ring.
    - rewrite IH, I. assert (E : parity (o :: occ) t = xorb (fold_right xorb false (map (fun f : factor bool => o <? fst f) t)) (parity occ t)).
      { unfold parity. clear. induction t as [|f t IH]; [reflexivity|]. cbn [map fold_right]. rewrite IH. unfold below at 1. cbn [filter]. fold (below occ (fst f)).
        set (s := fold_right xorb false (map (fun f0 : factor bool => below occ (fst f0)) t)). set (s' := fold_right xorb false (map (fun f0 : factor bool => o <? fst f0) t)).
        destruct (o <? fst f); cbn [length]; rewrite ?nat_odd_S; change (Nat.odd (length (filter (fun o0 => o0 <? fst f) occ))) with (below occ (fst f)); destruct s, s', (below occ (fst f)); reflexivity. }
      rewrite E, sgn_xorb. ring.
  Qed.
End Ops.

Lemma count_S q (l : list nat) : NoDup l -> length (filter (fun o => o <? S q) l) = length (filter (fun o => o <? q) l) + if memb Nat.eqb q l then 1 else 0.
Proof.
  induction 1 as [|x l Hx N IH]; [reflexivity|]. cbn [filter].
  assert (Q : memb Nat.eqb q (x :: l) = Nat.eqb q x || memb Nat.eqb q l) by reflexivity. rewrite Q. clear Q. destruct (Nat.eqb_spec q x) as [->|E]; cbn [orb].
  - rewrite Nat.ltb_irrefl. replace (x <? S x) with true by (symmetry; apply Nat.ltb_lt; lia). cbn [length]. rewrite IH.
    destruct (memb Nat.eqb x l) eqn:M; [apply (memb_In _ nat_eqb_spec) in M; contradiction|]. lia.
  - destruct (Nat.ltb_spec x q), (Nat.ltb_spec x (S q)); try lia; cbn [length]; rewrite IH; lia.
Qed.
Lemma nth_skip (l : list nat) i j : nth j (skipn i l) 0 = nth (i + j) l 0.
Proof. revert i. induction l as [|x l IH]; intros [|i]; cbn; auto. destruct j; reflexivity. Qed.
Lemma count_rank (l : list nat) : (forall i j, i < j -> j < length l -> nth i l 0 < nth j l 0) -> forall i, i < length l -> length (filter (fun o => o <? nth i l 0) l) = i.
Proof.
  intros S i Hi. transitivity (length (filter (fun o => o <? nth i l 0) (firstn i l ++ skipn i l))); [rewrite firstn_skipn; reflexivity|]. rewrite filter_app, app_length.
  assert (A : forall m, (forall x, In x m -> x <? nth i l 0 = true) -> length (filter (fun o => o <? nth i l 0) m) = length m).
  { induction m as [|x m IH]; intros H; [reflexivity|]. cbn [filter]. rewrite H by (left; auto). cbn [length]. rewrite IH; [auto|]. intros y Hy. apply H. right; auto. }
  assert (B : forall m, (forall x, In x m -> x <? nth i l 0 = false) -> length (filter (fun o => o <? nth i l 0) m) = 0).
  { induction m as [|x m IH]; intros H; [reflexivity|]. cbn [filter]. rewrite H by (left; auto). apply IH. intros y Hy. apply H. right; auto. }
  rewrite A, B, firstn_length; [lia| |].
  - intros x Hx. apply (In_nth _ _ 0) in Hx as (j & Hj & <-). rewrite skipn_length in Hj. rewrite nth_skip. apply Nat.ltb_ge.
    destruct (Nat.eq_dec j 0) as [->|]; [rewrite Nat.add_0_r; lia|]. apply Nat.lt_le_incl, S; lia.
  - intros x Hx. apply (In_nth _ _ 0) in Hx as (j & Hj & <-). rewrite firstn_length in Hj. apply Nat.ltb_lt.
    replace (nth j (firstn i l) 0) with (nth j l 0); [apply S; lia|]. rewrite <- (firstn_skipn i l) at 1. apply app_nth1. rewrite firstn_length. lia.
Qed.
Lemma firstn_snoc q (x : list bool) : q < length x -> firstn (S q) x = firstn q x ++ [nth q x false].
Proof. revert q. induction x as [|b x IH]; intros q H; [cbn in H; lia|]. destruct q as [|q]; [reflexivity|]. cbn in H |- *. f_equal. apply IH. lia. Qed.

Section Kept.
  Context {K : cring} (n : nat) (occupied frozen modes : list nat).
  Add Ring Kring_fr3 : (kth K).
  Open Scope K_scope.
  Hypothesis HN : NoDup occupied.
  Hypothesis HI : incl occupied frozen.
  Hypothesis HK : kept n frozen modes.
  Notation fact := (fact (K := K)).
  Lemma modes_inj i j : i < length modes -> j < length modes -> nth i modes O = nth j modes O -> i = j.
  Proof. intros Hi Hj E. destruct HK as [S _]. destruct (Nat.lt_trichotomy i j) as [L|[L|L]]; auto; specialize (S _ _ L ltac:(auto)); lia. Qed.
  Lemma modes_NoDup : NoDup modes.
  Proof. apply (NoDup_nth modes O). intros i j Hi Hj. apply modes_inj; auto. Qed.
  Lemma count_prefix u x : completes n occupied modes u x -> forall q, q <= n ->
    odd_count (firstn q x) = xorb (below occupied q) (odd_count (firstn (length (filter (fun o => o <? q) modes)) u)).
  Proof.
    intros (Lu & Lx & C1 & C2 & C3). induction q as [|q IH]; intros Hq.
    - assert (E : forall l : list nat, filter (fun o => o <? 0)%nat l = []) by (induction l; cbn; auto). unfold below. rewrite !E. reflexivity.
    - rewrite firstn_snoc by lia. rewrite odd_count_app, IH by lia. unfold below. rewrite !count_S by (auto using modes_NoDup). cbn [odd_count fold_right]. rewrite xorb_false_r.
      destruct HK as [S D]. destruct (memb Nat.eqb q modes) eqn:M.
      + apply (memb_In _ nat_eqb_spec) in M. destruct (memb Nat.eqb q occupied) eqn:Oq; [apply (memb_In _ nat_eqb_spec) in Oq; exfalso; apply (D q M); auto|].
        pose proof (In_nth _ _ O M) as (i & Hi & Ei). rewrite Nat.add_0_r. rewrite <- Ei. rewrite (count_rank modes S i Hi). rewrite C2 by auto.
        rewrite Nat.add_1_r, firstn_snoc by lia. rewrite odd_count_app. cbn [odd_count fold_right]. rewrite xorb_false_r. apply xorb_assoc.
      + rewrite (Nat.add_0_r (length (filter (fun o => o <? q) modes))). assert (Mn : ~ In q modes) by (intros H; apply (memb_In _ nat_eqb_spec) in H; congruence).
        destruct (memb Nat.eqb q occupied) eqn:Oq.
        * apply (memb_In _ nat_eqb_spec) in Oq. rewrite C1 by auto. rewrite Nat.add_1_r, nat_odd_S.
          destruct (Nat.odd (length (filter (fun o => o <? q) occupied))), (odd_count (firstn (length (filter (fun o => o <? q) modes)) u)); reflexivity.
        * rewrite C3; [|intros H; apply (memb_In _ nat_eqb_spec) in H; congruence|auto]. rewrite Nat.add_0_r, xorb_false_r. reflexivity.
  Qed.
  Definition same_factor (f g : factor bool) : Prop := fst g < length modes /\ fst f = nth (fst g) modes 0%nat /\ snd f = snd g.
  Lemma fact_completes u x : completes n occupied modes u x -> forall t s : fterm, Forall2 same_factor t s ->
    completes n occupied modes (snd (fact s u)) (snd (fact t x)) /\ fst (fact t x) = sgn (parity occupied t) * fst (fact s u).
  Proof.
    intros C t s H. induction H as [|[q d] [i e] t s (Hi & Hq & Hd) H (IC & IV)]; [split; [exact C|cbn; ring]|]. cbn [fst snd] in Hi, Hq, Hd. subst q e.
    destruct HK as [S D]. pose proof IC as (Lu & Lx & C1 & C2 & C3). cbn [FermiProofs3.fact]. unfold mcomp. cbn [fst snd].
    set (u' := snd (fact s u)) in *. set (x' := snd (fact t x)) in *. set (m := nth i modes O) in *.
    assert (Im : In m modes) by (apply nth_In; auto). assert (Lm : m < n) by (apply D; auto).
    unfold ladder_act. cbn [fst snd]. split.
    - split; [rewrite setb_length; auto|]. split; [rewrite setb_length; auto|]. split; [|split].
      + intros r Hr. rewrite nth_setb_other; [auto|]. intros ->. apply (D m Im). auto.
      + intros j Hj. destruct (Nat.eq_dec j i) as [->|Ne]; [rewrite !nth_setb_same by lia; auto|].
        rewrite !nth_setb_other; auto. intros E. apply Ne. apply modes_inj; auto.
      + intros r H1 H2. rewrite nth_setb_other; [auto|]. intros ->. auto.
    - rewrite IV. unfold parity. cbn [map fold_right]. fold (parity occupied t). rewrite sgn_xorb. unfold m at 1. rewrite C2 by auto. cbn [fst].
      rewrite (count_prefix u' x' IC m) by lia. unfold m at 2. rewrite (count_rank modes S i Hi). rewrite sgn_xorb. fold m. destruct (Bool.eqb _ _); ring.
  Qed.
  Lemma completes_eq u v x y : completes n occupied modes u x -> completes n occupied modes v y -> list_eqb Bool.eqb x y = list_eqb Bool.eqb u v.
  Proof.
    intros (Lu & Lx & C1 & C2 & C3) (Lv & Ly & D1 & D2 & D3). assert (L : forall l m : list bool, list_eqb Bool.eqb l m = true <-> l = m) by (intros; apply (list_eqb_spec _ bool_eqb_spec)).
    apply eq_true_iff_eq. rewrite !L. split; intros E.
    - subst y. apply (nth_ext _ _ false false); [congruence|]. intros i Hi. rewrite <- C2, D2 by lia. reflexivity.
    - subst v. apply (nth_ext _ _ false false); [congruence|]. intros q Hq. destruct (in_dec Nat.eq_dec q occupied) as [Oq|Oq]; [rewrite C1, D1; auto|].
      destruct (in_dec Nat.eq_dec q modes) as [M|M]; [|rewrite C3, D3; auto]. apply (In_nth _ _ O) in M as (i & Hi & <-). rewrite C2, D2; auto.
  Qed.
  Lemma entry_completes u v x y (t s : fterm) : completes n occupied modes u x -> completes n occupied modes v y -> Forall2 same_factor t s ->
    ent (fterm_matrix (K := K) n t) (bval x) (bval y) = sgn (parity occupied t) * ent (fterm_matrix (K := K) (length modes) s) (bval u) (bval v).
  Proof.
    intros Cx Cy H. pose proof Cx as (Lu & Lx & _). pose proof Cy as (Lv & Ly & _).
    assert (Ht : on_modes n t). { intros f Hf. clear -H Hf HK. induction H as [|a b t s (H1 & H2 & H3) H IH]; [destruct Hf|]. destruct Hf as [<-|Hf]; [|auto]. rewrite H2. apply HK, nth_In, H1. }
    assert (Hs : on_modes (length modes) s). { intros f Hf. clear -H Hf. induction H as [|a b t s (H1 & H2 & H3) H IH]; [destruct Hf|]. destruct Hf as [<-|Hf]; auto. }
    rewrite !ent_fact by auto. destruct (fact_completes v y Cy t s H) as [Cz V]. rewrite (completes_eq _ _ _ _ Cx Cz), V. destruct (list_eqb Bool.eqb u _); ring.
  Qed.
  (** the whole operator *)
  Lemma renumbered_entry u v x y (a b : fop K) : completes n occupied modes u x -> completes n occupied modes v y ->
    renumbered modes (map (fun tc : fterm * K => (fst tc, sgn (parity occupied (fst tc)) * snd tc)) a) b ->
    ent (fop_matrix (length modes) b) (bval u) (bval v) = ent (fop_matrix n a) (bval x) (bval y).
  Proof.
    intros Cx Cy. rewrite !fop_ent. revert b. induction a as [|[t c] a IH]; intros b H; inversion H as [|? [s e] ? b' [H1 H2] H3]; subst; [reflexivity|].
    cbn [lval fst snd] in *. rewrite (IH b') by exact H3. rewrite (entry_completes u v x y t s Cx Cy H2), <- H1.
    ring.
  Qed.
End Kept.
