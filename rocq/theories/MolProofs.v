(** Proofs for C78: states of an active space. *)
From Coq Require Import Ring Setoid Morphisms Ncring Ncring_tac.
From Verif Require Import Base BaseFacts MatModel MatFacts LiftSpec LiftProofs OpModel OpSpec OpProofs OpProofs2 PauliProofs FermiModel FermiSpec FermiProofs FermiProofs2 FermiProofs6 UCCSpec MatRing UCCProofs MolSpec.
Open Scope list_scope.
Local Open Scope nat_scope.

Lemma increasing_cons a l : increasing (a :: l) <-> increasing l /\ forall x, In x l -> a < x.
Proof.
  revert a. induction l as [|b l IH]; intros a; [cbn; intuition|]. split.
  - intros [H1 H2]. split; [exact H2|]. intros x [<-|Hx]; [exact H1|]. apply IH in H2 as [_ H2]. specialize (H2 x Hx). lia.
  - intros [H1 H2]. split; [apply H2; left; reflexivity|exact H1].
Qed.
Lemma increasing_NoDup l : increasing l -> NoDup l.
Proof. induction l as [|a l IH]; intros H; constructor; apply increasing_cons in H as [H1 H2]; [intros I; specialize (H2 a I); lia|auto]. Qed.
Definition below (p : nat) (l : list nat) : nat := length (filter (fun a => a <? p) l).
Lemma below_nth l : forall k, increasing l -> k < length l -> below (nth k l 0) l = k.
Proof.
  unfold below. induction l as [|a l IH]; intros k H Hk; [cbn in Hk; lia|]. apply increasing_cons in H as [H1 H2]. destruct k as [|k].
  - cbn [nth filter]. rewrite Nat.ltb_irrefl. replace (filter (fun x => x <? a) l) with (@nil nat); [reflexivity|]. symmetry. clear - H2. induction l as [|b l IH]; [reflexivity|]. cbn [filter].
    replace (b <? a) with false; [apply IH; intros x Hx; apply H2; right; exact Hx|]. symmetry. apply Nat.ltb_ge. specialize (H2 b (or_introl eq_refl)). lia.
  - cbn [nth filter]. cbn [length] in Hk. replace (a <? nth k l 0) with true; [cbn [length]; rewrite IH; auto; lia|]. symmetry. apply Nat.ltb_lt, H2, nth_In. lia.
Qed.
Lemma below_S p l : NoDup l -> below (S p) l = below p l + (if memb Nat.eqb p l then 1 else 0).
Proof.
  unfold below. induction l as [|a l IH]; intros H; [reflexivity|]. inversion H; subst. cbn [filter memb]. specialize (IH H3).
  destruct (Nat.eqb_spec a p) as [->|N].
  - replace (p <? S p) with true by (symmetry; apply Nat.ltb_lt; lia). rewrite Nat.ltb_irrefl. cbn [length]. rewrite IH. unfold memb. cbn [existsb]. rewrite Nat.eqb_refl. fold (memb Nat.eqb p l). replace (memb Nat.eqb p l) with false; [cbn; lia|].
    symmetry. apply not_true_is_false. intros E. apply (memb_In _ nat_eqb_spec) in E. auto.
  - unfold memb. cbn [existsb]. fold (memb Nat.eqb p l). replace (p =? a) with false by (symmetry; apply Nat.eqb_neq; auto). destruct (Nat.ltb_spec a p); [replace (a <? S p) with true by (symmetry; apply Nat.ltb_lt; lia)|replace (a <? S p) with false by (symmetry; apply Nat.ltb_ge; lia)]; cbn [length]; rewrite IH; cbn; lia.
Qed.
Fixpoint pos (x : nat) (l : list nat) : option nat := match l with [] => None | a :: l => if a =? x then Some 0 else option_map S (pos x l) end.
Lemma pos_nth l : forall k, NoDup l -> k < length l -> pos (nth k l 0) l = Some k.
Proof.
  induction l as [|a l IH]; intros k H Hk; [cbn in Hk; lia|]. inversion H; subst. destruct k as [|k]; cbn [nth pos]; [rewrite Nat.eqb_refl; reflexivity|]. cbn [length] in Hk.
  destruct (Nat.eqb_spec a (nth k l 0)) as [E|_]; [exfalso; apply H2; rewrite E; apply nth_In; lia|]. rewrite IH by (auto; lia). reflexivity.
Qed.
Lemma pos_none l x : ~ In x l -> pos x l = None.
Proof. induction l as [|a l IH]; intros H; [reflexivity|]. cbn [pos]. destruct (Nat.eqb_spec a x) as [E|_]; [exfalso; apply H; left; exact E|]. rewrite IH by (intros I; apply H; right; exact I). reflexivity. Qed.
Lemma firstn_odd p (c : list bool) : odd_count (firstn (S p) c) = xorb (odd_count (firstn p c)) (nth p c false).
Proof.
  revert c. induction p as [|p IH]; intros [|x c]; [reflexivity|destruct x; reflexivity|reflexivity|].
  change (odd_count (firstn (S (S p)) (x :: c))) with (xorb x (odd_count (firstn (S p) c))). change (odd_count (firstn (S p) (x :: c))) with (xorb x (odd_count (firstn p c))).
  rewrite IH. cbn [nth]. destruct x, (odd_count (firstn p c)), (nth p c false); reflexivity.
Qed.

Section E.
  Context (n : nat) (occ act : list nat) (Hs : active_space n occ act).
  Definition ext (b : list bool) : list bool :=
    map (fun m => if memb Nat.eqb (m / 2) occ then true else match pos (m / 2) act with Some k => nth (2 * k + m mod 2) b false | None => false end) (seq 0 (2 * n)).
  Lemma ext_length b : length (ext b) = 2 * n.
  Proof. unfold ext. rewrite map_length, seq_length. reflexivity. Qed.
  Lemma ext_nth b p s : p < n -> s < 2 -> nth (2 * p + s) (ext b) false = if memb Nat.eqb p occ then true else match pos p act with Some k => nth (2 * k + s) b false | None => false end.
  Proof.
    intros Hp Hs2. unfold ext. set (f := fun m => _). rewrite (nth_indep _ false (f 0)) by (rewrite map_length, seq_length; lia). rewrite map_nth, seq_nth by lia. unfold f. cbn [Nat.add].
    replace ((2 * p + s) / 2) with p by (apply (Nat.div_unique _ 2 p s); lia). replace ((2 * p + s) mod 2) with s by (apply (Nat.mod_unique _ 2 p s); lia). reflexivity.
  Qed.
  Lemma ext_core b p s : In p occ -> s < 2 -> nth (2 * p + s) (ext b) false = true.
  Proof. intros H H2. destruct Hs as (_ & _ & _ & Hr). rewrite ext_nth by (auto). rewrite (proj2 (memb_In _ nat_eqb_spec _ _) H). reflexivity. Qed.
  Lemma ext_active b k s : k < length act -> s < 2 -> nth (2 * nth k act 0 + s) (ext b) false = nth (2 * k + s) b false.
  Proof.
    intros Hk H2. destruct Hs as (_ & Hi & Hd & Hr). assert (I : In (nth k act 0) act) by (apply nth_In; exact Hk). rewrite ext_nth by auto.
    replace (memb Nat.eqb (nth k act 0) occ) with false. 2:{ symmetry. apply not_true_is_false. intros E. apply (memb_In _ nat_eqb_spec) in E. apply (Hd _ E I). }
    rewrite pos_nth by (auto using increasing_NoDup). reflexivity.
  Qed.
  Lemma ext_other b p s : p < n -> ~ In p occ -> ~ In p act -> s < 2 -> nth (2 * p + s) (ext b) false = false.
  Proof.
    intros Hp H1 H2 H3. rewrite ext_nth by auto. replace (memb Nat.eqb p occ) with false. 2:{ symmetry. apply not_true_is_false. intros E. apply (memb_In _ nat_eqb_spec) in E. auto. }
    rewrite pos_none by auto. reflexivity.
  Qed.
  Lemma half_of m : m < 2 * n -> exists p s, m = 2 * p + s /\ p < n /\ s < 2.
  Proof. intros H. exists (m / 2), (m mod 2). pose proof (Nat.div_mod m 2). pose proof (Nat.mod_upper_bound m 2). split; [lia|]. split; [apply Nat.div_lt_upper_bound; lia|lia]. Qed.
  Lemma ext_extends b : length b = 2 * length act -> extends n occ act b (ext b).
  Proof.
    intros Hb. split; [exact Hb|]. split; [apply ext_length|]. split; [|split].
    - intros p Hp. rewrite <- (Nat.add_0_r (2 * p)) at 1. split; apply ext_core; auto.
    - intros k Hk. rewrite <- (Nat.add_0_r (2 * nth k act 0)) at 1. rewrite !ext_active by auto. rewrite Nat.add_0_r. split; reflexivity.
    - intros p Hp H1 H2. rewrite <- (Nat.add_0_r (2 * p)) at 1. split; apply ext_other; auto.
  Qed.
  Lemma extends_unique b x : extends n occ act b x -> x = ext b.
  Proof.
    intros (Hb & Hx & H1 & H2 & H3). apply bits_ext; [rewrite ext_length; exact Hx|]. rewrite Hx. intros m Hm. destruct (half_of m Hm) as (p & s & -> & Hp & Hs2).
    destruct (in_dec Nat.eq_dec p occ) as [I|I]; [rewrite ext_core by auto; destruct (H1 p I) as [A B]; destruct s as [|[|s]]; [rewrite Nat.add_0_r; exact A|exact B|lia]|].
    destruct (in_dec Nat.eq_dec p act) as [J|J]; [|rewrite ext_other by auto; destruct (H3 p Hp I J) as [A B]; destruct s as [|[|s]]; [rewrite Nat.add_0_r; exact A|exact B|lia]].
    apply (In_nth _ _ 0) in J as (k & Hk & <-). rewrite ext_active by auto. destruct (H2 k Hk) as [A B]. destruct s as [|[|s]]; [rewrite !Nat.add_0_r; exact A|exact B|lia].
  Qed.
  Lemma ext_set b k s d : k < length act -> s < 2 -> length b = 2 * length act -> setb (2 * nth k act 0 + s) d (ext b) = ext (setb (2 * k + s) d b).
  Proof.
    intros Hk Hs2 Hb. pose proof Hs as (_ & Hi & Hd & Hr). assert (Ha : nth k act 0 < n) by (apply Hr; right; apply nth_In; exact Hk).
    apply bits_ext; [rewrite setb_length, !ext_length; reflexivity|]. rewrite setb_length, ext_length. intros m Hm. destruct (half_of m Hm) as (p & t & -> & Hp & Ht).
    rewrite nth_setb by (rewrite ext_length; lia).
    destruct (in_dec Nat.eq_dec p occ) as [I|I].
    { rewrite !ext_core by auto. destruct (Nat.eqb_spec (2 * p + t) (2 * nth k act 0 + s)) as [E|_]; [|reflexivity]. exfalso. assert (p = nth k act 0) by lia. subst p. apply (Hd _ I), nth_In, Hk. }
    destruct (in_dec Nat.eq_dec p act) as [J|J].
    2:{ rewrite !ext_other by auto. destruct (Nat.eqb_spec (2 * p + t) (2 * nth k act 0 + s)) as [E|_]; [|reflexivity]. exfalso. assert (p = nth k act 0) by lia. subst p. apply J, nth_In, Hk. }
    apply (In_nth _ _ 0) in J as (j & Hj & <-). rewrite !ext_active by auto. rewrite nth_setb by lia.
    destruct (Nat.eqb_spec (2 * j + t) (2 * k + s)) as [E|N].
    - assert (j = k) by lia. subst j. replace t with s by lia. rewrite Nat.eqb_refl. reflexivity.
    - destruct (Nat.eqb_spec (2 * nth j act 0 + t) (2 * nth k act 0 + s)) as [E|_]; [|reflexivity]. exfalso. apply N. assert (E2 : nth j act 0 = nth k act 0) by lia.
      apply (proj1 (NoDup_nth act 0) (increasing_NoDup _ Hi)) in E2; auto. lia.
  Qed.
  Lemma ext_parity_orbital b p : p <= n -> odd_count (firstn (2 * p) (ext b)) = odd_count (firstn (2 * below p act) b).
  Proof.
    pose proof Hs as (_ & Hi & Hd & Hr). induction p as [|p IH]; intros Hp.
    - replace (below 0 act) with 0; [reflexivity|]. clear. unfold below. induction act as [|a l IH]; [reflexivity|]. exact IH.
    - replace (2 * S p) with (S (S (2 * p))) by lia. rewrite !firstn_odd, IH by lia. rewrite below_S by (apply increasing_NoDup; exact Hi). pose proof (ext_nth b p 0 ltac:(lia) ltac:(lia)) as E0. pose proof (ext_nth b p 1 ltac:(lia) ltac:(lia)) as E1.
      rewrite Nat.add_0_r in E0. replace (S (2 * p)) with (2 * p + 1) by lia. rewrite E0, E1.
      destruct (memb Nat.eqb p act) eqn:Ma.
      + apply (memb_In _ nat_eqb_spec) in Ma. replace (memb Nat.eqb p occ) with false. 2:{ symmetry. apply not_true_is_false. intros E. apply (memb_In _ nat_eqb_spec) in E. apply (Hd _ E Ma). }
        apply (In_nth _ _ 0) in Ma as (k & Hk & <-). rewrite pos_nth by (auto using increasing_NoDup). rewrite below_nth by auto. replace (2 * (k + 1)) with (S (S (2 * k))) by lia. rewrite !firstn_odd.
        rewrite Nat.add_0_r. replace (S (2 * k)) with (2 * k + 1) by lia. reflexivity.
      + rewrite Nat.add_0_r. rewrite pos_none. 2:{ intros I. apply (memb_In _ nat_eqb_spec) in I. congruence. } destruct (memb Nat.eqb p occ), (odd_count (firstn (2 * below p act) b)); reflexivity.
  Qed.
  Lemma ext_parity b k s : k < length act -> s < 2 -> odd_count (firstn (2 * nth k act 0 + s) (ext b)) = odd_count (firstn (2 * k + s) b).
  Proof.
    pose proof Hs as (_ & Hi & Hd & Hr). intros Hk Hs2. assert (Ha : nth k act 0 < n) by (apply Hr; right; apply nth_In; exact Hk).
    pose proof (ext_parity_orbital b (nth k act 0) ltac:(lia)) as E. rewrite below_nth in E by auto. destruct s as [|[|s]]; [rewrite !Nat.add_0_r; exact E| |lia].
    rewrite !Nat.add_1_r, !firstn_odd, E. pose proof (ext_active b k 0 Hk ltac:(lia)) as A. rewrite !Nat.add_0_r in A. rewrite A. reflexivity.
  Qed.
End E.
