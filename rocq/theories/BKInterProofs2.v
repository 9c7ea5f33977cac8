(** Facts about the update, parity, occupation and remainder sets. *)
From Coq Require Import NArith Nnat Permutation.
From Verif Require Import Base BaseFacts MatModel OpModel FermiModel FermiSpec FermiProofs BKProofs FermiProofs4 FermiProofs5 BKInterModel.
Open Scope list_scope.
Local Open Scope N_scope.

Lemma parity_chain fuel : forall i x y, In x (parity_loop fuel i) -> In y (parity_loop fuel i) -> x < y -> N.succ x <= clear (N.succ y).
Proof.
  induction fuel as [|f IH]; intros i x y; cbn [parity_loop]; [intros []|]. destruct (N.ltb_spec 0 i) as [L|L]; [|intros []]. fold (clear i).
  intros [<-|Hx] [<-|Hy] H.
  - lia.
  - apply (proj2 (parity_loop_range f (clear i))) in Hy. pose proof (clear_lt i L). lia.
  - apply (proj2 (parity_loop_range f (clear i))) in Hx. rewrite N.succ_pred by lia. lia.
  - eapply IH; eauto.
Qed.
Lemma clear_half i : N.even i = true -> N.even (clear i) = true.
Proof.
  intros E. apply N.even_spec in E as [k ->]. destruct (N.eq_dec k 0) as [->|H]; [reflexivity|]. rewrite clear_even by lia. rewrite N.even_mul. reflexivity.
Qed.
Lemma parity_odd fuel : forall i x, N.even i = true -> In x (parity_loop fuel i) -> N.even x = false.
Proof.
  induction fuel as [|f IH]; intros i x E; cbn [parity_loop]; [intros []|]. destruct (N.ltb_spec 0 i) as [L|L]; [|intros []]. fold (clear i).
  intros [<-|Hx]; [|apply (IH (clear i)); auto using clear_half]. rewrite N.even_pred by lia. rewrite <- N.negb_even, E. reflexivity.
Qed.
Lemma parity_even_member j x : In x (parity_set j) -> N.even x = true -> j = N.succ x.
Proof.
  unfold parity_set. cbn [parity_loop]. destruct (N.ltb_spec 0 j) as [L|L]; [|intros []]. fold (clear j). intros [<-|H] E; [lia|]. exfalso.
  assert (C : N.even (clear j) = true).
  { destruct (N.even j) eqn:Ej; [apply clear_half; auto|]. rewrite <- N.negb_odd in Ej. apply Bool.negb_false_iff, N.odd_spec in Ej as [k ->]. rewrite clear_odd, N.even_mul. reflexivity. }
  apply (parity_odd _ _ x C) in H. congruence.
Qed.
Lemma parity_succ i : N.even i = true -> parity_set (N.succ i) = i :: parity_set i.
Proof.
  intros E. unfold parity_set. rewrite N2Nat.inj_succ. cbn [parity_loop]. destruct (N.ltb_spec 0 (N.succ i)) as [L|L]; [|lia]. rewrite N.pred_succ. f_equal.
  replace (N.land (N.succ i) i) with (clear (N.succ i)) by (unfold clear; rewrite N.pred_succ; reflexivity).
  apply N.even_spec in E as [k ->]. rewrite <- N.add_1_r, clear_odd. reflexivity.
Qed.
Lemma parity_covers fuel : forall i a, (N.to_nat i < fuel)%nat -> 0 < a <= i -> exists x, In x (parity_loop fuel i) /\ covers (N.succ x) a = true.
Proof.
  induction fuel as [|f IH]; intros i a Hf Ha; [lia|]. cbn [parity_loop]. destruct (N.ltb_spec 0 i) as [L|L]; [|lia]. fold (clear i). pose proof (clear_lt i L).
  destruct (N.ltb_spec (clear i) a) as [C|C].
  - exists (N.pred i). split; [left; auto|]. rewrite N.succ_pred by lia. unfold covers. apply andb_true_intro. split; [apply N.ltb_lt|apply N.leb_le]; lia.
  - destruct (IH (clear i) a) as (x & Hx & Cx); [lia|lia|]. exists x. split; [right; auto|auto].
Qed.
(** the occupation set lies in the parity set, apart from the index itself *)
Lemma occupation_loop_sub k b fuel : forall x y, x < 2 ^ k -> In y (occupation_loop fuel (2 ^ k * b + x) (2 ^ k * b)) ->
  In y (parity_loop fuel (2 ^ k * b + x)) /\ 2 ^ k * b < N.succ y.
Proof.
  induction fuel as [|f IH]; intros x y Hx; cbn [occupation_loop parity_loop]; [intros []|].
  destruct (N.eqb_spec (2 ^ k * b + x) (2 ^ k * b)) as [E|E]; [intros []|]. assert (H0 : 0 < x) by lia. destruct (N.ltb_spec 0 (2 ^ k * b + x)) as [L|L]; [|lia].
  fold (clear (2 ^ k * b + x)). rewrite chain_step by auto. pose proof (clear_lt x H0). intros [<-|H']; [split; [left; auto|lia]|].
  apply IH in H' as [H1 H2]; [|lia]. split; [right; auto|auto].
Qed.
Lemma parity_fuel f : forall g i, (N.to_nat i < f)%nat -> (N.to_nat i < g)%nat -> parity_loop f i = parity_loop g i.
Proof.
  induction f as [|f IH]; intros g i Hf Hg; [lia|]. destruct g as [|g]; [lia|]. cbn [parity_loop]. destruct (N.ltb_spec 0 i) as [L|L]; [|reflexivity]. fold (clear i). pose proof (clear_lt i L).
  f_equal. apply IH; lia.
Qed.
Lemma occupation_member i x : In x (occupation_set i) -> x = i \/ (In x (parity_set i) /\ covers (N.succ i) (N.succ x) = true).
Proof.
  unfold occupation_set. rewrite N.pred_succ. intros [<-|H]; [left; auto|right].
  destruct (low_form (N.succ i)) as (k & a & E1 & _ & E3); [lia|].
  assert (Hk : 0 < 2 ^ k) by (apply N.neq_0_lt_0, N.pow_nonzero; lia).
  replace (N.land (N.succ i) i) with (clear (N.succ i)) in H by (unfold clear; rewrite N.pred_succ; reflexivity). rewrite E3 in H.
  replace i with (2 ^ k * (2 * a) + (2 ^ k - 1)) in H at 2 by nia. apply occupation_loop_sub in H; [|lia]. replace (2 ^ k * (2 * a) + (2 ^ k - 1)) with i in H by nia. destruct H as [H1 H2].
  split.
  - unfold parity_set. rewrite (parity_fuel _ (S (N.to_nat (N.succ i)))) by lia. exact H1.
  - apply (proj2 (parity_loop_range _ _)) in H1. unfold covers. rewrite E3. apply andb_true_intro. split; [apply N.ltb_lt; auto|apply N.leb_le; lia].
Qed.
Lemma occupation_even i : N.even i = true -> occupation_set i = [i].
Proof.
  intros E. unfold occupation_set. rewrite N.pred_succ. replace (N.land (N.succ i) i) with (clear (N.succ i)) by (unfold clear; rewrite N.pred_succ; reflexivity).
  apply N.even_spec in E as [k ->]. rewrite <- N.add_1_r, clear_odd. cbn [occupation_loop]. rewrite N.eqb_refl. reflexivity.
Qed.
(** climbing the tree *)
Lemma update_loop_covers fuel : forall i n x c, 0 < i -> In x (update_loop fuel i n) -> N.succ x < c -> covers c i = covers c (N.succ x).
Proof.
  induction fuel as [|f IH]; intros i n x c Hi; cbn [update_loop]; [intros []|]. destruct (N.leb_spec i n) as [L|L]; [|intros []]. intros [<-|H] Hc.
  - rewrite N.succ_pred by lia. reflexivity.
  - assert (G : i < c). { pose proof (proj2 (update_loop_NoDup f (i + low_bit i) n ltac:(lia)) x H). pose proof (low_pos i Hi). lia. }
    rewrite covers_next by auto. apply (IH (i + low_bit i) n x c); [lia|auto|auto].
Qed.
Lemma update_covers i n x j : In x (update_set i n) -> x < j -> covers (N.succ j) (N.succ i) = covers (N.succ j) (N.succ x).
Proof.
  intros H L. pose proof (proj2 (update_set_NoDup i n) x H) as G. unfold update_set in H. rewrite covers_next by lia. apply (update_loop_covers _ _ n x (N.succ j)) in H; [exact H|lia|lia].
Qed.
Lemma occupation_update i j n x : j < n -> In x (occupation_set j) -> x <> j -> (x = i \/ In x (update_set i n)) -> i < j -> In j (update_set i n).
Proof.
  intros Hj Hx Ne Hi L. destruct (occupation_member j x Hx) as [->|[Hp Hc]]; [congruence|]. apply update_set_spec. split; [auto|]. split; [lia|].
  destruct Hi as [->|Hi]; [exact Hc|]. pose proof (proj2 (parity_set_range j) x Hp). rewrite (update_covers i n x j) by auto. exact Hc.
Qed.

(** * Boolean forms *)
Definition inU (i n q : N) : bool := memb N.eqb q (update_set i n).
Definition inP (i q : N) : bool := memb N.eqb q (parity_set i).
Definition inF (i q : N) : bool := memb N.eqb q (occupation_set i).
Lemma memb_minus q l m : memb N.eqb q (set_minus l m) = memb N.eqb q l && negb (memb N.eqb q m).
Proof.
  apply Bool.eq_iff_eq_true. rewrite andb_true_iff, negb_true_iff, !(memb_In _ N_eqb_spec'), set_minus_In. rewrite <- (memb_In _ N_eqb_spec' q m). destruct (memb N.eqb q m); intuition congruence.
Qed.
Lemma memb_inter q l m : memb N.eqb q (set_inter l m) = memb N.eqb q l && memb N.eqb q m.
Proof. apply Bool.eq_iff_eq_true. unfold set_inter. rewrite andb_true_iff, (memb_In _ N_eqb_spec' q (filter _ _)), filter_In, (memb_In _ N_eqb_spec' q l). reflexivity. Qed.
Lemma memb_app q (l m : list N) : memb N.eqb q (l ++ m) = memb N.eqb q l || memb N.eqb q m.
Proof. apply existsb_app. Qed.
Lemma memb_sym q l m : memb N.eqb q (sym_diff l m) = xorb (memb N.eqb q l) (memb N.eqb q m).
Proof. unfold sym_diff. rewrite memb_app, !memb_minus. destruct (memb N.eqb q l), (memb N.eqb q m); reflexivity. Qed.
Lemma memb_one q x : memb N.eqb q [x] = N.eqb q x.
Proof. cbn. apply Bool.orb_false_r. Qed.
Lemma memb_add q l x : memb N.eqb q (set_add l x) = memb N.eqb q l || N.eqb q x.
Proof.
  unfold set_add. destruct (memb N.eqb x l) eqn:E; [|rewrite memb_app, memb_one; reflexivity]. destruct (N.eqb_spec q x) as [->|]; [rewrite E; reflexivity|symmetry; apply Bool.orb_false_r].
Qed.
Lemma NoDup_minus l m : NoDup l -> NoDup (set_minus l m). Proof. apply NoDup_filter. Qed.
Lemma NoDup_inter l m : NoDup l -> NoDup (set_inter l m). Proof. apply NoDup_filter. Qed.
Lemma NoDup_sym l m : NoDup l -> NoDup m -> NoDup (sym_diff l m).
Proof. intros H1 H2. apply NoDup_app_intro'; [apply NoDup_filter; auto|apply NoDup_filter; auto|]. intros x A B. apply set_minus_In in A, B. tauto. Qed.
Lemma NoDup_add l x : NoDup l -> NoDup (set_add l x).
Proof.
  intros H. unfold set_add. destruct (memb N.eqb x l) eqn:E; [auto|]. apply NoDup_app_intro'; [auto|constructor; [intros []|constructor]|]. intros y A [<-|[]]. apply (memb_In _ N_eqb_spec') in A. congruence.
Qed.
Lemma update_ND i n : NoDup (update_set i n). Proof. apply update_set_NoDup. Qed.
Lemma parity_ND i : NoDup (parity_set i). Proof. apply parity_set_range. Qed.
Lemma occupation_ND i : NoDup (occupation_set i). Proof. apply occupation_set_range. Qed.
Lemma remainder_ND i : NoDup (remainder_set i). Proof. apply NoDup_minus, parity_ND. Qed.
Lemma alpha_ND i j n : NoDup (alpha_set i j n). Proof. apply NoDup_inter, update_ND. Qed.
#[global] Hint Resolve NoDup_minus NoDup_inter NoDup_sym NoDup_add update_ND parity_ND occupation_ND remainder_ND alpha_ND : sets.
Lemma U_ND i j n : NoDup (U_ij_set i j n). Proof. unfold U_ij_set. auto with sets. Qed.
Lemma P0_ND i j : NoDup (P0_ij_set i j). Proof. unfold P0_ij_set. auto with sets. Qed.
Lemma P1_ND i j : NoDup (P1_ij_set i j). Proof. unfold P1_ij_set. auto with sets. Qed.
Lemma P2_ND i j : NoDup (P2_ij_set i j). Proof. unfold P2_ij_set. auto with sets. Qed.
Lemma P3_ND i j : NoDup (P3_ij_set i j). Proof. unfold P3_ij_set. auto with sets. Qed.
Lemma F_ND i j : NoDup (F_ij_set i j). Proof. unfold F_ij_set. auto with sets. Qed.
#[global] Hint Resolve U_ND P0_ND P1_ND P2_ND P3_ND F_ND : sets.
Lemma Ud_ND i j n : NoDup (U_diff_a_set i j n). Proof. unfold U_diff_a_set. auto with sets. Qed.
Lemma P0d_ND i j n : NoDup (P0_ij_diff_a_set i j n). Proof. unfold P0_ij_diff_a_set. auto with sets. Qed.
#[global] Hint Resolve Ud_ND P0d_ND : sets.

Lemma inU_lt i n q : inU i n q = true -> i < q /\ q < n.
Proof. unfold inU. intros H. apply (memb_In _ N_eqb_spec') in H. split; [apply (update_set_NoDup i n); auto|apply update_set_spec in H; tauto]. Qed.
Lemma inP_lt i q : inP i q = true -> q < i.
Proof. unfold inP. intros H. apply (memb_In _ N_eqb_spec') in H. apply (parity_set_range i); auto. Qed.
Lemma inU_not i n q : q <= i -> inU i n q = false.
Proof. intros H. apply not_true_iff_false. intros X. apply inU_lt in X. lia. Qed.
Lemma inP_not i q : i <= q -> inP i q = false.
Proof. intros H. apply not_true_iff_false. intros X. apply inP_lt in X. lia. Qed.
Lemma inF_self i : inF i i = true.
Proof. apply (memb_In _ N_eqb_spec'). apply occupation_set_range. Qed.
Lemma inF_sub i q : inF i q = true -> q <> i -> inP i q = true.
Proof. unfold inF, inP. rewrite !(memb_In _ N_eqb_spec'). intros H Ne. destruct (occupation_member i q H) as [->|[G _]]; [congruence|auto]. Qed.
Lemma inF_even i q : N.even i = true -> inF i q = N.eqb q i.
Proof. intros E. unfold inF. rewrite occupation_even by auto. apply memb_one. Qed.
Lemma inF_climb i j n q : j < n -> i < j -> inF j q = true -> q <> j -> (q = i \/ inU i n q = true) -> inU i n j = true.
Proof. unfold inF, inU. rewrite !(memb_In _ N_eqb_spec'). intros. eapply occupation_update; eauto. Qed.
Lemma inP_even i j : N.even i = true -> inP j i = true -> j = N.succ i.
Proof. unfold inP. rewrite !(memb_In _ N_eqb_spec'). intros E H. apply parity_even_member; auto. Qed.
Lemma inP_succ i q : N.even i = true -> inP (N.succ i) q = N.eqb q i || inP i q.
Proof. intros E. unfold inP. rewrite parity_succ by auto. reflexivity. Qed.
Lemma succ_inU i n : N.even i = true -> N.succ i < n -> inU i n (N.succ i) = true.
Proof.
  intros E H. unfold inU. apply (memb_In _ N_eqb_spec'), update_set_spec. split; [auto|]. split; [lia|]. unfold covers. apply andb_true_intro. split; [|apply N.leb_le; lia].
  apply N.ltb_lt. apply N.even_spec in E as [k ->]. replace (N.succ (N.succ (2 * k))) with (2 * N.succ k) by lia. rewrite clear_even by lia. pose proof (clear_lt (N.succ k) ltac:(lia)). lia.
Qed.
(** the modes that both flip with i and carry the parity before j: at most one, and one exactly when i is before j and not itself in the parity set *)
Lemma alpha_none i j n : j <= i -> alpha_set i j n = [].
Proof.
  intros H. destruct (alpha_set i j n) as [|x l] eqn:E; [reflexivity|]. exfalso. assert (X : memb N.eqb x (alpha_set i j n) = true) by (rewrite E; cbn; rewrite N.eqb_refl; reflexivity).
  unfold alpha_set in X. rewrite memb_inter in X. apply andb_prop in X as [X1 X2]. apply inU_lt in X1. apply inP_lt in X2. lia.
Qed.
Lemma alpha_one i j n : i < j -> j < n -> inP j i = false -> exists a, alpha_set i j n = [a] /\ i < a < j.
Proof.
  intros L Hj Hp. destruct (parity_covers (S (N.to_nat j)) j (N.succ i)) as (a & Ha & Ca); [lia|lia|]. fold (parity_set j) in Ha.
  pose proof (proj2 (parity_set_range j) a Ha) as La.
  assert (Ne : i <> a) by (intros ->; apply not_true_iff_false in Hp; apply Hp, (memb_In _ N_eqb_spec'), Ha).
  assert (Ua : In a (update_set i n)) by (apply update_set_spec; split; [lia|auto]). pose proof (proj2 (update_set_NoDup i n) a Ua) as Ga.
  exists a. split; [|lia].
  assert (Only : forall x, In x (alpha_set i j n) <-> x = a).
  { intros x. rewrite <- (memb_In _ N_eqb_spec'). unfold alpha_set. rewrite memb_inter, andb_true_iff, !(memb_In _ N_eqb_spec'). split; [|intros ->; auto].
    intros [Ux Px]. destruct (N.lt_trichotomy x a) as [C|[C|C]]; [|auto|]; exfalso.
    - pose proof (parity_chain _ _ _ _ Px Ha C). apply update_set_spec in Ua as (_ & _ & Cv). apply andb_prop in Cv as [Cv _]. apply N.ltb_lt in Cv. pose proof (proj2 (update_set_NoDup i n) x Ux). lia.
    - pose proof (parity_chain _ _ _ _ Ha Px C). apply update_set_spec in Ux as (_ & _ & Cv). apply andb_prop in Cv as [Cv _]. apply N.ltb_lt in Cv. lia. }
  pose proof (alpha_ND i j n) as D. destruct (alpha_set i j n) as [|x [|y l]].
  - exfalso. apply (proj2 (Only a)). auto.
  - f_equal. apply Only. left. auto.
  - exfalso. inversion D as [|? ? Hx _]. apply Hx. left. transitivity a; [apply Only; right; left; auto|symmetry; apply Only; left; auto].
Qed.
