(** The basis of C76: the states are those with the right numbers, each once. *)
From Coq Require Import Permutation Sorted.
From Verif Require Import Base BaseFacts MatModel LiftSpec PauliProofs SparseModel SectorSpec SectorOpModel SectorOpSpec.
Open Scope list_scope.
Local Open Scope nat_scope.

(** ** Combinations are the filtered lists *)
Lemma filter_false {X} (f : X -> bool) l : (forall x, In x l -> f x = false) -> filter f l = [].
Proof. induction l as [|x l IH]; cbn; intros H; [reflexivity|]. rewrite (H x) by auto. apply IH. auto. Qed.
Lemma filter_true {X} (f : X -> bool) l : (forall x, In x l -> f x = true) -> filter f l = l.
Proof. induction l as [|x l IH]; cbn; intros H; [reflexivity|]. rewrite (H x) by auto. f_equal. apply IH. auto. Qed.
Lemma combinations_zero {X} (l : list X) : combinations 0 l = [[]].
Proof. destruct l; reflexivity. Qed.
Lemma combinations_sub {X} (l : list X) : forall k c, In c (combinations k l) -> length c = k /\ forall x, In x c -> In x l.
Proof.
  induction l as [|x l IH]; intros [|k] c H; cbn in H.
  - destruct H as [<-|[]]. split; [reflexivity|intros y []].
  - destruct H.
  - destruct H as [<-|[]]. split; [reflexivity|intros y []].
  - apply in_app_iff in H as [H|H].
    + apply in_map_iff in H as (c' & <- & H). apply IH in H as [L H]. split; [cbn; lia|]. intros y [->|Hy]; [left; auto|right; auto].
    + apply IH in H as [L H]. split; [auto|]. intros y Hy. right. auto.
Qed.
Lemma combinations_filter {X} (f : X -> bool) (l : list X) : In (filter f l) (combinations (length (filter f l)) l).
Proof.
  induction l as [|x l IH]; [left; reflexivity|]. cbn [filter]. destruct (f x).
  - cbn [length combinations]. apply in_app_iff. left. apply in_map. exact IH.
  - destruct (length (filter f l)) as [|k] eqn:E; [rewrite combinations_zero; left; destruct (filter f l); [reflexivity|discriminate E]|]. cbn [combinations]. apply in_app_iff. right. exact IH.
Qed.
Lemma combinations_is_filter {X} (f : X -> bool) (l : list X) : NoDup l -> forall k c, In c (combinations k l) -> (forall x, In x l -> f x = true <-> In x c) -> c = filter f l.
Proof.
  induction 1 as [|x l Hx Hn IH]; intros [|k] c H Hf; cbn in H.
  - destruct H as [<-|[]]. reflexivity.
  - destruct H.
  - destruct H as [<-|[]]. symmetry. apply filter_false. intros y Hy. destruct (f y) eqn:E; [|reflexivity]. exfalso. exact (proj1 (Hf y Hy) E).
  - apply in_app_iff in H as [H|H].
    + apply in_map_iff in H as (c' & <- & H). cbn [filter]. rewrite (proj2 (Hf x (or_introl eq_refl)) (or_introl eq_refl)). f_equal. apply (IH k); auto.
      intros y Hy. rewrite (Hf y (or_intror Hy)). split; [intros [->|E]; [contradiction|auto]|right; auto].
    + cbn [filter]. destruct (f x) eqn:E. { exfalso. apply (Hf x (or_introl eq_refl)) in E. apply Hx. exact (proj2 (combinations_sub l _ _ H) x E). } apply (IH (S k)); auto. intros y Hy. apply Hf. right; auto.
Qed.
Lemma combinations_NoDup {X} (l : list X) : NoDup l -> forall k, NoDup (combinations k l).
Proof.
  induction 1 as [|x l Hx Hn IH]; intros [|k]; cbn; try (constructor; [intros []|constructor]); try constructor.
  apply NoDup_app.
  - apply FinFun.Injective_map_NoDup; [|auto]. intros a b E. inversion E; auto.
  - apply (IH (S k)).
  - intros c H H'. apply in_map_iff in H as (c' & <- & _). apply combinations_sub in H' as [_ H']. apply Hx. apply H'. left; auto.
Qed.
(** ** Setting modes *)
Lemma set_at_setb i x : forall b, set_at i x b = setb i x b.
Proof. induction i as [|i IH]; intros [|y b]; cbn; rewrite ?IH; auto. Qed.
Lemma set_all_length x l : forall b, length (set_all x l b) = length b.
Proof. unfold set_all. induction l as [|i l IH]; intros b; cbn; [auto|]. rewrite IH, set_at_setb, setb_length. auto. Qed.
Lemma set_all_out x l : forall b i, ~ In i l -> nth i (set_all x l b) false = nth i b false.
Proof. unfold set_all. induction l as [|j l IH]; intros b i H; cbn; [auto|]. rewrite IH by (intros Hi; apply H; right; auto). rewrite set_at_setb, nth_setb_other; auto. intros ->. apply H. left; auto. Qed.
Lemma set_all_in x l : forall b i, In i l -> i < length b -> nth i (set_all x l b) false = x.
Proof.
  unfold set_all. induction l as [|j l IH]; intros b i H Hb; [destruct H|]. cbn [fold_left]. destruct (in_dec Nat.eq_dec i l) as [I|I].
  - apply IH; auto. rewrite set_at_setb, setb_length. auto.
  - destruct H as [->|H]; [|contradiction]. fold (set_all x l (set_at i x b)). rewrite set_all_out by auto. rewrite set_at_setb. apply nth_setb_same. auto.
Qed.
Lemma list_ext b c : length b = length c -> (forall i, i < length b -> nth i b false = nth i c false) -> b = c.
Proof. intros L H. apply (nth_ext _ _ false false); auto. Qed.

(** ** Choosing modes from several disjoint lists *)
Definition choice := (bool * list nat * nat)%type.
Fixpoint choose (l : list choice) (b : list bool) : list (list bool) :=
  match l with [] => [b] | (x, L, o) :: l' => flat_map (fun c => choose l' (set_all x c b)) (combinations o L) end.
Lemma flat_map_NoDup {X Y} (f : X -> list Y) l : NoDup l -> (forall x, In x l -> NoDup (f x)) -> (forall x y z, In x l -> In y l -> In z (f x) -> In z (f y) -> x = y) -> NoDup (flat_map f l).
Proof.
  induction 1 as [|x l Hx Hn IH]; intros H1 H2; cbn; [constructor|]. apply NoDup_app.
  - apply H1. left; auto.
  - apply IH; [intros y Hy; apply H1; right; auto|]. intros y z w Hy Hz. apply H2; right; auto.
  - intros z Hz Hw. apply in_flat_map in Hw as (y & Hy & Hw). apply Hx. rewrite (H2 x y z); auto; [left; auto|right; auto].
Qed.
Definition value (c : choice) : bool := fst (fst c).
Definition modes (c : choice) : list nat := snd (fst c).
(** the lists are disjoint, in range and hold the other value *)
Fixpoint fit (l : list choice) (b : list bool) : Prop :=
  match l with [] => True | c :: l' => NoDup (modes c) /\ (forall i, In i (modes c) -> i < length b /\ nth i b false = negb (value c)) /\ (forall i, In i (modes c) -> forall c', In c' l' -> ~ In i (modes c')) /\ fit l' b end.
Lemma fit_keep l : forall b b', fit l b -> length b' = length b -> (forall c i, In c l -> In i (modes c) -> nth i b' false = nth i b false) -> fit l b'.
Proof.
  induction l as [|c l IH]; cbn [fit]; intros b b' H L E; [auto|]. destruct H as (H1 & H2 & H3 & H4). split; [auto|]. split; [|split; [auto|]].
  - intros i Hi. rewrite L, (E c i) by (auto; left; auto). auto.
  - apply (IH b); auto. intros c' i Hc. apply E. right; auto.
Qed.
Lemma fit_set x L o l b c : fit ((x, L, o) :: l) b -> (forall i, In i c -> In i L) -> fit l (set_all x c b).
Proof.
  intros (_ & _ & H3 & H4) Hc. apply (fit_keep l b); auto; [apply set_all_length|]. intros c' i Hl Hi. apply set_all_out. intros Hic. apply (H3 i (Hc i Hic) c' Hl Hi).
Qed.
(** what the states chosen have in common *)
Definition chosen (l : list choice) (b s : list bool) : Prop :=
  length s = length b /\ (forall i, (forall c, In c l -> ~ In i (modes c)) -> nth i s false = nth i b false) /\
  forall c, In c l -> length (filter (fun i => Bool.eqb (nth i s false) (value c)) (modes c)) = snd c.
Lemma choose_keeps l : forall b s, In s (choose l b) -> forall i, (forall c, In c l -> ~ In i (modes c)) -> nth i s false = nth i b false.
Proof.
  induction l as [|[[x L] o] l IH]; intros b s H i Hi; cbn [choose] in H; [destruct H as [<-|[]]; auto|]. apply in_flat_map in H as (c & Hc & Hs). rewrite (IH _ _ Hs) by (intros c' Hc'; apply Hi; right; auto).
  apply set_all_out. intros Hic. apply (Hi (x, L, o)); [left; auto|]. cbn. apply (combinations_sub L o c Hc). auto.
Qed.
(** the set chosen first can be read off the state *)
Lemma choose_first x L o l b c s : fit ((x, L, o) :: l) b -> In c (combinations o L) -> In s (choose l (set_all x c b)) -> c = filter (fun i => Bool.eqb (nth i s false) x) L.
Proof.
  intros F Hc Hs. destruct F as (H1 & H2 & H3 & H4). cbn [modes value fst snd] in *. apply (combinations_is_filter _ L H1 o); auto. intros i Hi.
  rewrite (choose_keeps l _ s Hs) by (intros c' Hc' Hi'; apply (H3 i Hi c' Hc' Hi')). destruct (H2 i Hi) as [Hb E].
  destruct (in_dec Nat.eq_dec i c) as [I|I].
  - rewrite set_all_in by auto. rewrite Bool.eqb_reflx. tauto.
  - rewrite set_all_out, E by auto. destruct x; cbn; split; intros; try discriminate; contradiction.
Qed.
Lemma choose_spec l : forall b s, fit l b -> (In s (choose l b) <-> chosen l b s).
Proof.
  induction l as [|[[x L] o] l IH]; intros b s F.
  - cbn [choose]. split.
    + intros [<-|[]]. split; [auto|]. split; [auto|]. intros c [].
    + intros (H1 & H2 & _). left. apply list_ext; [auto|]. intros i Hi. symmetry. apply H2. intros c [].
  - cbn [choose]. pose proof F as (F1 & F2 & F3 & F4). cbn [modes value fst snd] in F1, F2, F3. split.
    + intros H. apply in_flat_map in H as (c & Hc & Hs). pose proof (choose_first x L o l b c s F Hc Hs) as Ec. pose proof (combinations_sub L o c Hc) as [Lc Sc].
      pose proof (proj1 (IH _ s (fit_set x L o l b c F Sc)) Hs) as (H1 & H2 & H3). split; [rewrite H1; apply set_all_length|]. split.
      * intros i Hi. rewrite H2 by (intros c' Hc'; apply Hi; right; auto). apply set_all_out. intros Hic. apply (Hi (x, L, o)); [left; auto|]. cbn. auto.
      * intros c' [<-|Hc']; [|auto]. cbn [modes value fst snd]. rewrite <- Ec. exact Lc.
    + intros (H1 & H2 & H3). apply in_flat_map. pose proof (H3 (x, L, o) (or_introl eq_refl)) as Lo. cbn [modes value fst snd] in Lo. exists (filter (fun i => Bool.eqb (nth i s false) x) L). split; [rewrite <- Lo; apply combinations_filter|].
      assert (Sc : forall i, In i (filter (fun i => Bool.eqb (nth i s false) x) L) -> In i L) by (intros i Hi; apply filter_In in Hi; tauto).
      apply IH; [apply (fit_set x L o); auto|]. split; [rewrite set_all_length; auto|]. split; [|intros c' Hc'; apply H3; right; auto].
      intros i Hi. destruct (in_dec Nat.eq_dec i L) as [I|I].
      * destruct (F2 i I) as [Hb E]. destruct (Bool.eqb (nth i s false) x) eqn:B.
        -- rewrite set_all_in by (auto; apply filter_In; auto). apply Bool.eqb_prop in B. auto.
        -- rewrite set_all_out by (intros Hf; apply filter_In in Hf as [_ Hf]; congruence). rewrite E. destruct (nth i s false), x; auto; discriminate.
      * rewrite set_all_out by (intros Hf; apply I; auto). apply H2. intros c' [<-|Hc']; auto.
Qed.
Lemma choose_NoDup l : forall b, fit l b -> NoDup (choose l b).
Proof.
  induction l as [|[[x L] o] l IH]; intros b F; cbn [choose]; [constructor; [intros []|constructor]|]. apply flat_map_NoDup.
  - apply combinations_NoDup. apply F.
  - intros c Hc. apply IH. apply (fit_set x L o l b c F). apply (combinations_sub L o c Hc).
  - intros c c' s Hc Hc' Hs Hs'. rewrite (choose_first x L o l b c s F Hc Hs). symmetry. apply (choose_first x L o l b c' s F Hc' Hs').
Qed.

(** ** The index lists *)
Lemma map_flat {X Y} (f : X -> Y) l : map f l = flat_map (fun x => [f x]) l.
Proof. induction l; cbn; congruence. Qed.
Lemma flat_map_ext' {X Y} (f g : X -> list Y) l : (forall x, f x = g x) -> flat_map f l = flat_map g l.
Proof. intros H. induction l; cbn; [auto|]. rewrite H. congruence. Qed.
Lemma order_choose r o : iterate_basis_order r o = choose [(false, where_true r, o); (true, where_true (map negb r), o)] r.
Proof. unfold iterate_basis_order. cbn [choose]. apply flat_map_ext'. intros c. apply map_flat. Qed.
Lemma spin_choose r p q : iterate_basis_spin_order r p q = choose [(false, map (fun i => i * 2) (where_true (evens r)), p); (true, map (fun i => i * 2) (where_true (map negb (evens r))), p);
  (false, map (fun i => i * 2 + 1) (where_true (odds r)), q); (true, map (fun i => i * 2 + 1) (where_true (map negb (odds r))), q)] r.
Proof. unfold iterate_basis_spin_order. cbn [choose]. apply flat_map_ext'. intros a. apply flat_map_ext'. intros b. apply flat_map_ext'. intros c. apply map_flat. Qed.

Lemma where_spec b i : In i (where_true b) <-> nth i b false = true.
Proof.
  unfold where_true. rewrite filter_In, in_seq. split; [tauto|]. intros H. split; [|auto]. split; [lia|]. cbn. destruct (Nat.lt_ge_cases i (length b)); [auto|]. rewrite nth_overflow in H by auto. discriminate.
Qed.
Lemma where_NoDup b : NoDup (where_true b).
Proof. apply NoDup_filter, seq_NoDup. Qed.
Lemma nth_negb b i : i < length b -> nth i (map negb b) false = negb (nth i b false).
Proof. revert i. induction b as [|x b IH]; intros [|i] H; cbn in *; try lia; auto. apply IH. lia. Qed.
Lemma where_not b i : In i (where_true (map negb b)) <-> i < length b /\ nth i b false = false.
Proof.
  rewrite where_spec. destruct (Nat.lt_ge_cases i (length b)) as [H|H].
  - rewrite nth_negb by auto. destruct (nth i b false); cbn; intuition discriminate.
  - rewrite nth_overflow by (rewrite map_length; auto). split; [discriminate|lia].
Qed.
Lemma evens_nth : forall n b i, length b <= n -> nth i (evens b) false = nth (i * 2) b false /\ (i < length (evens b) <-> i * 2 < length b).
Proof.
  induction n as [|n IH]; intros b i H; [destruct b; [|cbn in H; lia]; cbn; destruct i; cbn; split; auto; lia|]. destruct b as [|x [|y b]]; cbn [evens]; [destruct i; cbn; split; auto; lia| |].
  - destruct i as [|i]; cbn; [split; auto; lia|]. destruct i; cbn; split; auto; lia.
  - destruct i as [|i]; [cbn; split; auto; lia|]. cbn [length] in *. specialize (IH b i ltac:(lia)). cbn [Nat.mul Nat.add nth length]. destruct IH as [E1 E2]. split; [exact E1|lia].
Qed.
Lemma odds_nth b i : nth i (odds b) false = nth (i * 2 + 1) b false /\ (i < length (odds b) <-> i * 2 + 1 < length b).
Proof. destruct b as [|x b]; cbn [odds]; [rewrite !nth_overflow by (cbn; lia); cbn; split; auto; lia|]. destruct (evens_nth _ b i (le_n _)) as [E1 E2]. rewrite Nat.add_1_r. cbn [nth length]. split; [auto|lia]. Qed.
Lemma even_form i : Nat.even i = true <-> exists j, i = j * 2.
Proof. rewrite Nat.even_spec. unfold Nat.Even. split; intros [j E]; exists j; lia. Qed.
Lemma odd_form i : Nat.odd i = true <-> exists j, i = j * 2 + 1.
Proof. rewrite Nat.odd_spec. unfold Nat.Odd. split; intros [j E]; exists j; lia. Qed.
Lemma even_on b i : In i (map (fun i => i * 2) (where_true (evens b))) <-> Nat.even i = true /\ nth i b false = true.
Proof.
  rewrite in_map_iff, even_form. split.
  - intros (j & <- & H). apply where_spec in H. rewrite (proj1 (evens_nth _ b j (le_n _))) in H. split; [exists j; auto|auto].
  - intros [[j ->] H]. exists j. split; [auto|]. apply where_spec. rewrite (proj1 (evens_nth _ b j (le_n _))). auto.
Qed.
Lemma even_off b i : In i (map (fun i => i * 2) (where_true (map negb (evens b)))) <-> Nat.even i = true /\ i < length b /\ nth i b false = false.
Proof.
  rewrite in_map_iff, even_form. split.
  - intros (j & <- & H). apply where_not in H. destruct (evens_nth _ b j (le_n _)) as [E1 E2]. rewrite E1 in H. split; [exists j; auto|]. split; tauto.
  - intros [[j ->] [H1 H2]]. exists j. split; [auto|]. apply where_not. destruct (evens_nth _ b j (le_n _)) as [E1 E2]. rewrite E1. tauto.
Qed.
Lemma odd_on b i : In i (map (fun i => i * 2 + 1) (where_true (odds b))) <-> Nat.odd i = true /\ nth i b false = true.
Proof.
  rewrite in_map_iff, odd_form. split.
  - intros (j & <- & H). apply where_spec in H. rewrite (proj1 (odds_nth b j)) in H. split; [exists j; auto|auto].
  - intros [[j ->] H]. exists j. split; [auto|]. apply where_spec. rewrite (proj1 (odds_nth b j)). auto.
Qed.
Lemma odd_off b i : In i (map (fun i => i * 2 + 1) (where_true (map negb (odds b)))) <-> Nat.odd i = true /\ i < length b /\ nth i b false = false.
Proof.
  rewrite in_map_iff, odd_form. split.
  - intros (j & <- & H). apply where_not in H. destruct (odds_nth b j) as [E1 E2]. rewrite E1 in H. split; [exists j; auto|]. split; tauto.
  - intros [[j ->] [H1 H2]]. exists j. split; [auto|]. apply where_not. destruct (odds_nth b j) as [E1 E2]. rewrite E1. tauto.
Qed.
Lemma even_NoDup b : NoDup (map (fun i => i * 2) (where_true b)).
Proof. apply FinFun.Injective_map_NoDup; [|apply where_NoDup]. intros i j E. lia. Qed.
Lemma odd_NoDup b : NoDup (map (fun i => i * 2 + 1) (where_true b)).
Proof. apply FinFun.Injective_map_NoDup; [|apply where_NoDup]. intros i j E. lia. Qed.

(** ** Counting *)
Lemma count_list P f L n : NoDup L -> (forall i, In i L <-> i < n /\ P i = true) -> length (filter f L) = how_many (fun i => P i && f i)%bool n.
Proof.
  intros Hn H. unfold how_many. apply Permutation_length. apply NoDup_Permutation; [apply NoDup_filter; auto|apply NoDup_filter, seq_NoDup|].
  intros i. rewrite !filter_In, in_seq, H, andb_true_iff. intuition lia.
Qed.
Lemma how_many_ext P Q n : (forall i, i < n -> P i = Q i) -> how_many P n = how_many Q n.
Proof. intros H. unfold how_many. f_equal. apply filter_ext_in. intros i Hi. apply H. apply in_seq in Hi. lia. Qed.
Lemma how_many_split P Q n : how_many P n = how_many (fun i => P i && Q i)%bool n + how_many (fun i => P i && negb (Q i))%bool n.
Proof. unfold how_many. induction (seq 0 n) as [|i l IH]; cbn; [auto|]. destruct (P i), (Q i); cbn; lia. Qed.
Lemma particles_how_many b : particles b = how_many (fun i => occupied b i) (length b).
Proof.
  assert (G : forall b a, particles b = length (filter (fun i => nth (i - a) b false) (seq a (length b)))).
  { clear b. induction b as [|x b IH]; intros a; [reflexivity|]. cbn [particles length seq filter]. rewrite Nat.sub_diag. cbn [nth].
    rewrite (filter_ext_in _ (fun i => nth (i - S a) b false)) by (intros i Hi; apply in_seq in Hi; replace (i - a) with (S (i - S a)) by lia; reflexivity). rewrite (IH (S a)). destruct x; reflexivity. }
  rewrite (G b 0). unfold how_many, occupied. f_equal. apply filter_ext. intros i. f_equal. lia.
Qed.
(** the numbers of modes emptied and filled decide whether the numbers of particles agree *)
Lemma balance_on (P : nat -> bool) r s : length s = length r ->
  how_many (fun i => P i && occupied s i)%bool (length r) + how_many (fun i => P i && occupied r i && negb (occupied s i))%bool (length r) =
  how_many (fun i => P i && occupied r i)%bool (length r) + how_many (fun i => P i && negb (occupied r i) && occupied s i)%bool (length r).
Proof.
  intros _. rewrite (how_many_split (fun i => P i && occupied s i)%bool (occupied r)), (how_many_split (fun i => P i && occupied r i)%bool (occupied s)).
  rewrite (how_many_ext (fun i => P i && occupied s i && occupied r i)%bool (fun i => P i && occupied r i && occupied s i)%bool) by (intros; destruct (P i), (occupied s i), (occupied r i); auto).
  rewrite (how_many_ext (fun i => P i && occupied s i && negb (occupied r i))%bool (fun i => P i && negb (occupied r i) && occupied s i)%bool) by (intros; destruct (P i), (occupied s i), (occupied r i); auto). lia.
Qed.

(** ** The states *)
Lemma order_fit r o : fit [(false, where_true r, o); (true, where_true (map negb r), o)] r.
Proof.
  cbn [fit modes value fst snd negb]. split; [apply where_NoDup|]. split; [|split; [|split; [apply where_NoDup|split; [|split; [intros i _ c []|exact I]]]]].
  - intros i Hi. apply where_spec in Hi. split; [|auto]. destruct (Nat.lt_ge_cases i (length r)); [auto|]. rewrite nth_overflow in Hi by auto. discriminate.
  - intros i Hi c [<-|[]] Hi'. cbn [modes fst snd] in Hi'. apply where_spec in Hi. apply where_not in Hi'. destruct Hi'. congruence.
  - intros i Hi. apply where_not in Hi. auto.
Qed.
Lemma on_lt b i : nth i b false = true -> i < length b.
Proof. intros H. destruct (Nat.lt_ge_cases i (length b)); [auto|]. rewrite nth_overflow in H by auto. discriminate. Qed.
Lemma spin_fit r p q : fit [(false, map (fun i => i * 2) (where_true (evens r)), p); (true, map (fun i => i * 2) (where_true (map negb (evens r))), p);
  (false, map (fun i => i * 2 + 1) (where_true (odds r)), q); (true, map (fun i => i * 2 + 1) (where_true (map negb (odds r))), q)] r.
Proof.
  assert (EO : forall i, Nat.even i = true -> Nat.odd i = true -> False) by (intros i H1 H2; rewrite <- Nat.negb_even, H1 in H2; discriminate).
  cbn [fit modes value fst snd negb]. split; [apply even_NoDup|]. split; [|split; [|split; [apply even_NoDup|split; [|split; [|split; [apply odd_NoDup|split; [|split; [|split; [apply odd_NoDup|split; [|split; [intros i _ c []|exact I]]]]]]]]]]].
  - intros i Hi. apply even_on in Hi as [_ Hi]. split; [apply on_lt|]; auto.
  - intros i Hi c Hc Hi'. apply even_on in Hi as [E1 E2]. destruct Hc as [<-|[<-|[<-|[]]]]; cbn [modes fst snd] in Hi'; [apply even_off in Hi' as (A & B & D); congruence|apply odd_on in Hi' as [A B]; eauto|apply odd_off in Hi' as [A B]; eauto].
  - intros i Hi. apply even_off in Hi as (_ & A & B). auto.
  - intros i Hi c Hc Hi'. apply even_off in Hi as (E1 & E2 & E3). destruct Hc as [<-|[<-|[]]]; cbn [modes fst snd] in Hi'; [apply odd_on in Hi' as [A B]; eauto|apply odd_off in Hi' as [A B]; eauto].
  - intros i Hi. apply odd_on in Hi as [_ Hi]. split; [apply on_lt|]; auto.
  - intros i Hi c Hc Hi'. apply odd_on in Hi as [E1 E2]. destruct Hc as [<-|[]]; cbn [modes fst snd] in Hi'. apply odd_off in Hi' as (A & B & D). congruence.
  - intros i Hi. apply odd_off in Hi as (_ & A & B). auto.
Qed.
Lemma and_true_l n (P : nat -> bool) : how_many (fun i => true && P i)%bool n = how_many P n.
Proof. reflexivity. Qed.
Lemma order_spec r o s : In s (iterate_basis_order r o) <-> length s = length r /\ particles s = particles r /\ excitations r s = o.
Proof.
  rewrite order_choose, choose_spec by apply order_fit. unfold chosen.
  assert (C1 : length (filter (fun i => Bool.eqb (nth i s false) false) (where_true r)) = excitations r s).
  { rewrite (count_list (occupied r) _ (where_true r) (length r) (where_NoDup r)). - apply how_many_ext. intros i _. unfold occupied. destruct (nth i r false), (nth i s false); reflexivity.
    - intros i. rewrite where_spec. split; [intros H; split; [apply on_lt|]; auto|tauto]. }
  assert (C2 : length (filter (fun i => Bool.eqb (nth i s false) true) (where_true (map negb r))) = how_many (fun i => true && negb (occupied r i) && occupied s i)%bool (length r)).
  { rewrite (count_list (fun i => negb (occupied r i)) _ (where_true (map negb r)) (length r) (where_NoDup _)). - apply how_many_ext. intros i _. unfold occupied. destruct (nth i r false), (nth i s false); reflexivity.
    - intros i. rewrite where_not, negb_true_iff. reflexivity. }
  split.
  - intros (L & _ & H). pose proof (H _ (or_introl eq_refl)) as H1. pose proof (H _ (or_intror (or_introl eq_refl))) as H2. cbn [modes value fst snd] in H1, H2. rewrite C1 in H1. rewrite C2 in H2.
    split; [auto|]. split; [|auto]. rewrite !particles_how_many, L. pose proof (balance_on (fun _ => true) r s L) as B. unfold excitations in H1. cbn [andb] in *. lia.
  - intros (L & E & X). split; [auto|]. split.
    + intros i Hi. assert (G : length r <= i). { destruct (Nat.lt_ge_cases i (length r)) as [G|G]; [|auto]. exfalso. destruct (nth i r false) eqn:N.
        - apply (Hi _ (or_introl eq_refl)). apply where_spec. auto.
        - apply (Hi _ (or_intror (or_introl eq_refl))). apply where_not. auto. }
      rewrite !nth_overflow by lia. reflexivity.
    + intros c [<-|[<-|[]]]; cbn [modes value fst snd]; rewrite ?C1, ?C2; auto. rewrite !particles_how_many, L in E. pose proof (balance_on (fun _ => true) r s L) as B. unfold excitations in X. cbn [andb] in *. lia.
Qed.

Lemma spin_spec r p q s : In s (iterate_basis_spin_order r p q) <-> length s = length r /\ particles_up s = particles_up r /\ particles_down s = particles_down r /\
  how_many (fun i => Nat.even i && occupied r i && negb (occupied s i))%bool (length r) = p /\ how_many (fun i => Nat.odd i && occupied r i && negb (occupied s i))%bool (length r) = q.
Proof.
  rewrite spin_choose, choose_spec by apply spin_fit. unfold chosen, particles_up, particles_down.
  assert (C1 : length (filter (fun i => Bool.eqb (nth i s false) false) (map (fun i => i * 2) (where_true (evens r)))) = how_many (fun i => Nat.even i && occupied r i && negb (occupied s i))%bool (length r)).
  { rewrite (count_list (fun i => Nat.even i && occupied r i)%bool _ _ (length r) (even_NoDup _)). - apply how_many_ext. intros i _. unfold occupied. destruct (Nat.even i), (nth i r false), (nth i s false); reflexivity.
    - intros i. rewrite even_on, andb_true_iff. split; [intros [H1 H2]; split; [apply on_lt; auto|auto]|tauto]. }
  assert (C2 : length (filter (fun i => Bool.eqb (nth i s false) true) (map (fun i => i * 2) (where_true (map negb (evens r))))) = how_many (fun i => Nat.even i && negb (occupied r i) && occupied s i)%bool (length r)).
  { rewrite (count_list (fun i => Nat.even i && negb (occupied r i))%bool _ _ (length r) (even_NoDup _)). - apply how_many_ext. intros i _. unfold occupied. destruct (Nat.even i), (nth i r false), (nth i s false); reflexivity.
    - intros i. rewrite even_off, andb_true_iff, negb_true_iff. unfold occupied. tauto. }
  assert (C3 : length (filter (fun i => Bool.eqb (nth i s false) false) (map (fun i => i * 2 + 1) (where_true (odds r)))) = how_many (fun i => Nat.odd i && occupied r i && negb (occupied s i))%bool (length r)).
  { rewrite (count_list (fun i => Nat.odd i && occupied r i)%bool _ _ (length r) (odd_NoDup _)). - apply how_many_ext. intros i _. unfold occupied. destruct (Nat.odd i), (nth i r false), (nth i s false); reflexivity.
    - intros i. rewrite odd_on, andb_true_iff. split; [intros [H1 H2]; split; [apply on_lt; auto|auto]|tauto]. }
  assert (C4 : length (filter (fun i => Bool.eqb (nth i s false) true) (map (fun i => i * 2 + 1) (where_true (map negb (odds r))))) = how_many (fun i => Nat.odd i && negb (occupied r i) && occupied s i)%bool (length r)).
  { rewrite (count_list (fun i => Nat.odd i && negb (occupied r i))%bool _ _ (length r) (odd_NoDup _)). - apply how_many_ext. intros i _. unfold occupied. destruct (Nat.odd i), (nth i r false), (nth i s false); reflexivity.
    - intros i. rewrite odd_off, andb_true_iff, negb_true_iff. unfold occupied. tauto. }
  split.
  - intros (L & _ & H). pose proof (H _ (or_introl eq_refl)) as H1. pose proof (H _ (or_intror (or_introl eq_refl))) as H2. pose proof (H _ (or_intror (or_intror (or_introl eq_refl)))) as H3. pose proof (H _ (or_intror (or_intror (or_intror (or_introl eq_refl))))) as H4.
    clear H. cbn [modes value fst snd] in H1, H2, H3, H4. rewrite C1 in H1. rewrite C2 in H2. rewrite C3 in H3. rewrite C4 in H4. rewrite L.
    pose proof (balance_on Nat.even r s L) as B. pose proof (balance_on Nat.odd r s L) as B'. repeat split; auto; lia.
  - intros (L & E1 & E2 & X1 & X2). rewrite L in E1, E2. pose proof (balance_on Nat.even r s L) as B. pose proof (balance_on Nat.odd r s L) as B'. split; [auto|]. split.
    + intros i Hi. assert (G : length r <= i). { destruct (Nat.lt_ge_cases i (length r)) as [G|G]; [|auto]. exfalso. destruct (Nat.even i) eqn:Ev, (nth i r false) eqn:N.
        - apply (Hi _ (or_introl eq_refl)). apply even_on. auto.
        - apply (Hi _ (or_intror (or_introl eq_refl))). apply even_off. auto.
        - apply (Hi _ (or_intror (or_intror (or_introl eq_refl)))). apply odd_on. rewrite <- Nat.negb_even, Ev. auto.
        - apply (Hi _ (or_intror (or_intror (or_intror (or_introl eq_refl))))). apply odd_off. rewrite <- Nat.negb_even, Ev. auto. }
      rewrite !nth_overflow by lia. reflexivity.
    + intros c [<-|[<-|[<-|[<-|[]]]]]; cbn [modes value fst snd]; rewrite ?C1, ?C2, ?C3, ?C4; lia.
Qed.
Lemma spin_sum (f : nat -> bool) n : how_many f n = how_many (fun i => Nat.even i && f i)%bool n + how_many (fun i => Nat.odd i && f i)%bool n.
Proof.
  rewrite (how_many_split f Nat.even). f_equal; apply how_many_ext; intros i _; [apply andb_comm|]. rewrite Nat.negb_even. apply andb_comm.
Qed.
Lemma spin_excitations r s : excitations r s = how_many (fun i => Nat.even i && occupied r i && negb (occupied s i))%bool (length r) + how_many (fun i => Nat.odd i && occupied r i && negb (occupied s i))%bool (length r).
Proof. unfold excitations. rewrite spin_sum. f_equal; apply how_many_ext; intros i _; apply andb_assoc. Qed.
Lemma spin_particles b : particles b = particles_up b + particles_down b.
Proof. rewrite particles_how_many, spin_sum. reflexivity. Qed.
Lemma how_many_le P Q n : (forall i, i < n -> P i = true -> Q i = true) -> how_many P n <= how_many Q n.
Proof. intros H. unfold how_many. assert (G : forall l, (forall i, In i l -> P i = true -> Q i = true) -> length (filter P l) <= length (filter Q l)). { induction l as [|i l IH]; cbn; intros Hl; [lia|]. specialize (IH (fun j Hj => Hl j (or_intror Hj))). pose proof (Hl i (or_introl eq_refl)). destruct (P i); [rewrite H0 by auto; cbn; lia|destruct (Q i); cbn; lia]. } apply G. intros i Hi. apply H. apply in_seq in Hi. lia. Qed.
Lemma excitations_le r s : excitations r s <= particles r.
Proof. unfold excitations. rewrite particles_how_many. apply how_many_le. intros i _ H. apply andb_true_iff in H. tauto. Qed.
Lemma count_true_particles b : count_true b = particles b.
Proof. unfold count_true. induction b as [|[] b IH]; cbn; auto. Qed.
Lemma count_evens r : count_true (evens r) = particles_up r.
Proof.
  rewrite count_true_particles, particles_how_many. unfold particles_up. transitivity (length (filter (fun _ => true) (map (fun i => i * 2) (where_true (evens r))))).
  - rewrite filter_true by auto. rewrite map_length. unfold where_true, how_many, occupied. reflexivity.
  - rewrite (count_list (fun i => Nat.even i && occupied r i)%bool _ _ (length r) (even_NoDup _)); [apply how_many_ext; intros; apply andb_true_r|]. intros i. rewrite even_on, andb_true_iff. split; [intros [H1 H2]; split; [apply on_lt; auto|auto]|tauto].
Qed.
Lemma count_odds r : count_true (odds r) = particles_down r.
Proof.
  rewrite count_true_particles, particles_how_many. unfold particles_down. transitivity (length (filter (fun _ => true) (map (fun i => i * 2 + 1) (where_true (odds r))))).
  - rewrite filter_true by auto. rewrite map_length. unfold where_true, how_many, occupied. reflexivity.
  - rewrite (count_list (fun i => Nat.odd i && occupied r i)%bool _ _ (length r) (odd_NoDup _)); [apply how_many_ext; intros; apply andb_true_r|]. intros i. rewrite odd_on, andb_true_iff. split; [intros [H1 H2]; split; [apply on_lt; auto|auto]|tauto].
Qed.

Definition same_numbers (spin : bool) (r s : list bool) : Prop := if spin then particles_up s = particles_up r /\ particles_down s = particles_down r else particles s = particles r.
Lemma basis_spec r level spin s : In s (iterate_basis r level spin) <-> length s = length r /\ same_numbers spin r s /\ excitations r s <= level.
Proof.
  unfold iterate_basis, same_numbers. destruct spin; cbn [negb].
  - rewrite in_flat_map. split.
    + intros (o & Ho & H). apply in_flat_map in H as (a & Ha & H). destruct (Nat.ltb_spec o a); [destruct H|]. destruct (Nat.ltb _ _); [destruct H|]. cbn [orb] in H. apply spin_spec in H as (L & E1 & E2 & X1 & X2).
      apply in_seq in Ho. split; [auto|]. split; [auto|]. rewrite spin_excitations, X1, X2. lia.
    + intros (L & [E1 E2] & X). rewrite spin_excitations in X. set (p := how_many _ _) in X at 1. set (q := how_many _ _) in X. exists (p + q). split; [apply in_seq; lia|]. apply in_flat_map. exists p.
      assert (Hp : p <= particles_up r) by (apply how_many_le; intros i _ H; apply andb_true_iff in H; tauto).
      assert (Hq : q <= particles_down r) by (apply how_many_le; intros i _ H; apply andb_true_iff in H; tauto).
      rewrite count_evens, count_odds. split; [apply in_seq; lia|]. replace (p + q - p) with q by lia. rewrite (proj2 (Nat.ltb_ge (p + q) p)), (proj2 (Nat.ltb_ge (Nat.min (particles_down r) level) q)) by lia. cbn [orb]. apply spin_spec. repeat split; auto.
  - rewrite in_flat_map. split.
    + intros (o & Ho & H). apply order_spec in H as (L & E & X). apply in_seq in Ho. repeat split; auto. lia.
    + intros (L & E & X). exists (excitations r s). split; [apply in_seq; lia|]. apply order_spec. auto.
Qed.
Lemma basis_NoDup r level spin : NoDup (iterate_basis r level spin).
Proof.
  unfold iterate_basis. destruct spin; cbn [negb].
  - apply flat_map_NoDup; [apply seq_NoDup| |].
    + intros o Ho. apply flat_map_NoDup; [apply seq_NoDup| |].
      * intros a Ha. destruct (_ || _)%bool; [constructor|]. rewrite spin_choose. apply choose_NoDup, spin_fit.
      * intros a a' s Ha Ha' H H'. destruct (_ || _)%bool in H; [destruct H|]. destruct (_ || _)%bool in H'; [destruct H'|]. apply spin_spec in H as (_ & _ & _ & X1 & _). apply spin_spec in H' as (_ & _ & _ & Y1 & _). congruence.
    + intros o o' s Ho Ho' H H'. apply in_flat_map in H as (a & Ha & H). apply in_flat_map in H' as (a' & Ha' & H').
      destruct (Nat.ltb_spec o a); [destruct H|]. destruct (Nat.ltb _ _) in H; [destruct H|]. destruct (Nat.ltb_spec o' a'); [destruct H'|]. destruct (Nat.ltb _ _) in H'; [destruct H'|]. cbn [orb] in *.
      apply spin_spec in H as (_ & _ & _ & X1 & X2). apply spin_spec in H' as (_ & _ & _ & Y1 & Y2). lia.
  - apply flat_map_NoDup; [apply seq_NoDup| |].
    + intros o Ho. rewrite order_choose. apply choose_NoDup, order_fit.
    + intros o o' s _ _ H H'. apply order_spec in H as (_ & _ & X). apply order_spec in H' as (_ & _ & Y). congruence.
Qed.
Lemma basis_first r level spin : exists l, iterate_basis r level spin = r :: l.
Proof.
  unfold iterate_basis. rewrite Nat.add_1_r. destruct spin; cbn [negb].
  - rewrite (Nat.add_1_r (Nat.min _ _)). cbn [seq flat_map]. replace (Nat.ltb 0 0 || Nat.ltb (Nat.min (count_true (odds r)) level) (0 - 0))%bool with false by reflexivity.
    rewrite spin_choose. cbn [choose]. rewrite !combinations_zero. cbn [flat_map choose app]. unfold set_all. cbn [fold_left]. eexists. reflexivity.
  - cbn [seq flat_map]. rewrite order_choose. cbn [choose]. rewrite !combinations_zero. cbn [flat_map choose app]. unfold set_all. cbn [fold_left]. eexists. reflexivity.
Qed.

(** ** The order *)
Lemma sorted_app {X} (R : X -> X -> Prop) l m : StronglySorted R l -> StronglySorted R m -> (forall x y, In x l -> In y m -> R x y) -> StronglySorted R (l ++ m).
Proof.
  induction 1 as [|x l Hl IH Hf]; cbn; intros Hm H; [auto|]. constructor; [apply IH; auto|]. apply Forall_app. split; [auto|]. apply Forall_forall. auto.
Qed.
Lemma flat_map_sorted {X} (f : nat -> list X) (key : X -> nat) : (forall o x, In x (f o) -> key x = o) -> forall n a, StronglySorted (fun x y => key x <= key y) (flat_map f (seq a n)).
Proof.
  intros H. induction n as [|n IH]; intros a; cbn [seq flat_map]; [constructor|]. apply sorted_app; auto.
  - assert (G : forall l, (forall x, In x l -> key x = a) -> StronglySorted (fun x y => key x <= key y) l).
    { induction l as [|x l IHl]; intros Hl; constructor; [apply IHl; intros y Hy; apply Hl; right; auto|]. apply Forall_forall. intros y Hy. rewrite (Hl x), (Hl y) by (cbn; auto). lia. }
    apply G. apply H.
  - intros x y Hx Hy. apply in_flat_map in Hy as (o & Ho & Hy). apply in_seq in Ho. rewrite (H _ _ Hx), (H _ _ Hy). lia.
Qed.
Lemma basis_sorted r level spin : StronglySorted (fun s s' => excitations r s <= excitations r s') (iterate_basis r level spin).
Proof.
  unfold iterate_basis. destruct spin; cbn [negb].
  - apply flat_map_sorted. intros o s H. apply in_flat_map in H as (a & Ha & H). destruct (Nat.ltb_spec o a); [destruct H|]. destruct (Nat.ltb _ _); [destruct H|]. cbn [orb] in H. apply spin_spec in H as (_ & _ & _ & X1 & X2). rewrite spin_excitations. lia.
  - apply flat_map_sorted. intros o s H. apply order_spec in H. tauto.
Qed.
