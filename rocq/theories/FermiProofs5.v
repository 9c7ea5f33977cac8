(** The Bravyi-Kitaev transform. *)
From Coq Require Import NArith Nnat Permutation Sorted Ring.
From Verif Require Import Base BaseFacts MatModel MatFacts LiftSpec LiftProofs OpModel OpSpec OpProofs PauliProofs OpProofs2 ConjProofs
  FermiModel FermiSpec FermiProofs FermiProofs2 FermiProofs3 BKProofs FermiProofs4.
Open Scope list_scope.
Local Open Scope nat_scope.

Lemma largest_pow2_form fuel : forall k a, k < fuel -> largest_pow2 fuel (2 ^ k * (2 * a + 1)) = 2 ^ k.
Proof.
  induction fuel as [|f IH]; intros k a Hk; [lia|]. cbn [largest_pow2]. destruct k as [|k].
  - replace (2 ^ 0 * (2 * a + 1)) with (1 + 2 * a) by (cbn; lia). rewrite Nat.even_add_mul_2. reflexivity.
  - replace (2 ^ S k * (2 * a + 1)) with (2 * (2 ^ k * (2 * a + 1))) by (cbn [Nat.pow]; lia). rewrite Nat.even_mul. cbn [Nat.even orb].
    replace (2 * (2 ^ k * (2 * a + 1)) / 2) with (2 ^ k * (2 * a + 1)) by (rewrite (Nat.mul_comm 2 (2 ^ k * _)), Nat.div_mul by lia; reflexivity). rewrite IH by lia. cbn [Nat.pow]. lia.
Qed.
Lemma bk_low_clear j : N.of_nat (bk_low j) = clear (N.succ (N.of_nat j)).
Proof.
  unfold bk_low. destruct (low_form (N.succ (N.of_nat j))) as (k & a & E1 & _ & E3); [lia|].
  assert (Ej : S j = 2 ^ N.to_nat k * (2 * N.to_nat a + 1)).
  { apply Nat2N.inj. rewrite Nat2N.inj_succ, E1. rewrite Nat2N.inj_mul, Nat2N.inj_pow, Nat2N.inj_add, Nat2N.inj_mul, !N2Nat.id. reflexivity. }
  rewrite Ej at 3. rewrite largest_pow2_form.
  - rewrite E3. rewrite Ej at 1. rewrite Nat2N.inj_sub, Nat2N.inj_mul, Nat2N.inj_pow, Nat2N.inj_add, Nat2N.inj_mul, !N2Nat.id. cbn [N.of_nat Pos.of_succ_nat Pos.succ]. nia.
  - rewrite Ej. assert (N.to_nat k < 2 ^ N.to_nat k) by (apply Nat.pow_gt_lin_r; lia). nia.
Qed.
Lemma odd_count_perm l m : Permutation l m -> odd_count l = odd_count m.
Proof.
  unfold odd_count. induction 1; cbn; auto; [congruence| |congruence]. destruct x, y, (fold_right xorb false l); auto.
Qed.

Lemma NoDup_app_intro' {X} (l m : list X) : NoDup l -> NoDup m -> (forall x, In x l -> In x m -> False) -> NoDup (l ++ m).
Proof.
  induction 1 as [|x l Hx Hl IH]; intros Hm Hd; cbn [app]; [auto|]. constructor.
  - rewrite in_app_iff. intros [H|H]; [auto|apply (Hd x); [left|]; auto].
  - apply IH; auto. intros y H1 H2. apply (Hd y); [right|]; auto.
Qed.
Lemma odd_count_filter {X} (g : X -> bool) (q : X -> bool) l : odd_count (map g l) = xorb (odd_count (map g (filter q l))) (odd_count (map g (filter (fun x => negb (q x)) l))).
Proof.
  unfold odd_count. induction l as [|x l IH]; cbn [map filter fold_right]; [reflexivity|]. rewrite IH. destruct (q x); cbn [negb map fold_right];
  destruct (g x), (fold_right xorb false (map g (filter q l))), (fold_right xorb false (map g (filter (fun x => negb (q x)) l))); reflexivity.
Qed.
Lemma N_eqb_spec' : eqb_spec_of N.eqb.
Proof. intros x y. apply N.eqb_eq. Qed.
Lemma odd_count_sym_diff (g : N -> bool) l m : NoDup l -> NoDup m -> odd_count (map g (sym_diff l m)) = xorb (odd_count (map g l)) (odd_count (map g m)).
Proof.
  intros Hl Hm. unfold sym_diff, set_minus. rewrite map_app, odd_count_app.
  rewrite (odd_count_filter g (fun x => memb N.eqb x m) l), (odd_count_filter g (fun x => memb N.eqb x l) m).
  assert (P : Permutation (filter (fun x => memb N.eqb x m) l) (filter (fun x => memb N.eqb x l) m)).
  { apply NoDup_Permutation; try (apply NoDup_filter; auto). intros x. rewrite !filter_In, !(memb_In _ N_eqb_spec'). tauto. }
  apply (Permutation_map g) in P. apply odd_count_perm in P. rewrite P.
  repeat match goal with |- context [odd_count ?a] => generalize (odd_count a); intros end. destruct b, b0, b1; reflexivity.
Qed.

(** ** The code *)
Section Code.
  Context (n : nat) (c : list bool) (Hc : length c = n).
  Definition Pf (k : N) : bool := odd_count (firstn (N.to_nat k) c).
  Definition gbit (i : N) : bool := xorb (Pf (N.succ i)) (Pf (clear (N.succ i))).
  Lemma bk_code_length : length (bk_code n c) = n.
  Proof. unfold bk_code. rewrite map_length, seq_length. reflexivity. Qed.
  Lemma bk_code_nth j : j < n -> nth j (bk_code n c) false = gbit (N.of_nat j).
  Proof.
    intros Hj. unfold bk_code. set (fn := fun j => odd_count (skipn (bk_low j) (firstn (S j) c))).
    rewrite (nth_indep _ false (fn 0)) by (rewrite map_length, seq_length; auto). rewrite (map_nth fn), seq_nth by auto. cbn [plus]. unfold fn, gbit, Pf.
    rewrite <- bk_low_clear, Nat2N.id, <- Nat2N.inj_succ, Nat2N.id. rewrite <- (firstn_skipn (bk_low j) (firstn (S j) c)) at 2. rewrite odd_count_app.
    rewrite firstn_firstn. replace (Nat.min (bk_low j) (S j)) with (bk_low j) by (unfold bk_low; lia).
    destruct (odd_count (firstn (bk_low j) c)), (odd_count (skipn (bk_low j) (firstn (S j) c))); reflexivity.
  Qed.
  Definition bitat (e : list bool) (i : N) : bool := nth (N.to_nat i) e false.
  Lemma over_code l : (forall i, In i l -> (i < N.of_nat n)%N) -> odd_count (map (bitat (bk_code n c)) l) = parity_over gbit l.
  Proof.
    intros H. unfold parity_over. f_equal. apply map_ext_in. intros i Hi. specialize (H i Hi). unfold bitat. rewrite bk_code_nth by lia. rewrite N2Nat.id. reflexivity.
  Qed.
  Lemma code_parity p : (p < N.of_nat n)%N -> odd_count (map (bitat (bk_code n c)) (parity_set p)) = Pf p.
  Proof.
    intros H. destruct (parity_set_range p) as [_ R]. rewrite over_code by (intros i Hi; apply R in Hi; lia).
    rewrite (parity_set_sum Pf gbit) by reflexivity. unfold Pf at 2. cbn. apply Bool.xorb_false_r.
  Qed.
  Lemma firstn_S_odd p : p < length c -> xorb (odd_count (firstn (S p) c)) (odd_count (firstn p c)) = nth p c false.
  Proof.
    clear Hc. revert p. induction c as [|x l IH]; intros p Hp; [cbn in Hp; lia|]. destruct p as [|p]; [cbn; destruct x; reflexivity|].
    cbn in Hp. cbn [nth]. rewrite <- (IH p) by lia.
    change (odd_count (firstn (S (S p)) (x :: l))) with (xorb x (odd_count (firstn (S p) l))). change (odd_count (firstn (S p) (x :: l))) with (xorb x (odd_count (firstn p l))).
    destruct x, (odd_count (firstn (S p) l)), (odd_count (firstn p l)); reflexivity.
  Qed.
  Lemma code_occupation p : (p < N.of_nat n)%N -> odd_count (map (bitat (bk_code n c)) (occupation_set p)) = nth (N.to_nat p) c false.
  Proof.
    intros H. destruct (occupation_set_range p) as (_ & _ & R). rewrite over_code by (intros i Hi; apply R in Hi; lia).
    rewrite (occupation_set_sum Pf gbit) by reflexivity. unfold Pf. rewrite N2Nat.inj_succ. apply firstn_S_odd. lia.
  Qed.
End Code.
Lemma bk_code_injective n c d : length c = n -> length d = n -> bk_code n c = bk_code n d -> c = d.
Proof.
  intros Hc Hd E. apply bits_ext; [congruence|]. intros i Hi. rewrite <- (Nat2N.id i).
  rewrite <- (code_occupation n c Hc), <- (code_occupation n d Hd), E by lia. reflexivity.
Qed.
(** flipping mode p flips exactly the update set and p *)
Lemma bk_code_flip n c p v : length c = n -> p < n -> v = negb (nth p c false) -> forall j, j < n ->
  nth j (bk_code n (setb p v c)) false = xorb (nth j (bk_code n c) false) (covers (N.succ (N.of_nat j)) (N.succ (N.of_nat p))).
Proof.
  intros Hc Hp Hv j Hj. rewrite !bk_code_nth by (rewrite ?setb_length; auto). unfold gbit, Pf. rewrite !odd_count_setb by lia.
  assert (X : xorb v (nth p c false) = true) by (rewrite Hv; destruct (nth p c false); reflexivity). rewrite X.
  unfold covers. pose proof (clear_lt (N.succ (N.of_nat j))) as L. specialize (L ltac:(lia)). set (lo := clear (N.succ (N.of_nat j))) in *.
  destruct (Nat.ltb_spec p (N.to_nat (N.succ (N.of_nat j)))) as [A|A], (Nat.ltb_spec p (N.to_nat lo)) as [B|B],
    (N.ltb_spec lo (N.succ (N.of_nat p))) as [C|C], (N.leb_spec (N.succ (N.of_nat p)) (N.succ (N.of_nat j))) as [D|D]; try lia; cbn [andb];
  destruct (odd_count (firstn (N.to_nat (N.succ (N.of_nat j))) c)), (odd_count (firstn (N.to_nat lo) c)); reflexivity.
Qed.

Section BK.
  Context {K : cring} (im half : K) (Him : kmul im im = kopp k1) (Hhalf : kadd half half = k1) (small : K -> bool).
  Context (Hs1 : small half = false) (Hs2 : small (kmul half im) = false) (Hs3 : small (kopp (kmul half im)) = false).
  Context (order : list N -> list N) (Horder : forall l, Permutation (order l) l) (n : nat).
  Add Ring Kring_bk : (kth K).
  Open Scope K_scope.
  Notation act := (term_act (K := K) im).
  Lemma encoding_mono : meq (bk_encoding n) (mono (K := K) n (fun c => (1, bk_code n c))).
  Proof.
    apply (meq_bits n); auto. intros b c Hb Hc. rewrite mono_ent; auto; [|apply bk_code_length]. cbn [ent bk_encoding fst snd]. rewrite !bits_bval_n by auto. reflexivity.
  Qed.
  Definition on (a : pauli) (l : list N) : term pauli := map (fun i => (N.to_nat i, a)) (order l).
  Lemma on_In a l f : In f (on a l) <-> exists i, In i l /\ f = (N.to_nat i, a).
  Proof.
    unfold on. rewrite in_map_iff. split.
    - intros (i & <- & Hi). exists i. split; [eapply Permutation_in; [apply Horder|auto]|auto].
    - intros (i & Hi & ->). exists i. split; [auto|]. eapply Permutation_in; [symmetry; apply Horder|auto].
  Qed.
  Lemma on_fst a l : Permutation (map fst (on a l)) (map N.to_nat l).
  Proof. unfold on. rewrite map_map. cbn [fst]. apply Permutation_map, Horder. Qed.
  Lemma on_z l e : act (on Pz l) e = (sgn (odd_count (map (bitat e) l)), e).
  Proof.
    unfold on. replace (map (fun i => (N.to_nat i, Pz)) (order l)) with (map (fun q => (q, Pz)) (map N.to_nat (order l))) by (rewrite map_map; reflexivity).
    rewrite z_act, map_map. f_equal. f_equal. apply odd_count_perm. apply (Permutation_map (bitat e)), Horder.
  Qed.
  Lemma NoDup_to_nat l : NoDup l -> NoDup (map N.to_nat l).
  Proof. induction 1 as [|x l Hx Hn IH]; cbn; constructor; auto. intros H. apply in_map_iff in H as (y & E & Hy). apply N2Nat.inj in E. subst. auto. Qed.
  Lemma memb_to_nat i l : memb Nat.eqb (N.to_nat i) (map N.to_nat l) = memb N.eqb i l.
  Proof.
    unfold memb. induction l as [|x l IH]; cbn [map existsb]; [reflexivity|]. rewrite IH. f_equal. destruct (N.eqb_spec i x) as [->|Ne]; [apply Nat.eqb_refl|].
    apply Nat.eqb_neq. intros E. apply Ne, N2Nat.inj, E.
  Qed.
  Lemma on_x l e : NoDup l -> (forall i, In i l -> (N.to_nat i < length e)%nat) -> act (on Px l) e = (1, flips (map N.to_nat l) e).
  Proof.
    intros Hn Hl. unfold on. replace (map (fun i => (N.to_nat i, Px)) (order l)) with (map (fun q => (q, Px)) (map N.to_nat (order l))) by (rewrite map_map; reflexivity).
    rewrite x_act.
    - f_equal. unfold flips. apply map_ext. intros q. f_equal. apply Bool.eq_iff_eq_true. rewrite !(memb_In _ nat_eqb_spec).
      split; intros H; (eapply Permutation_in; [|exact H]); [|symmetry]; apply Permutation_map, Horder.
    - eapply Permutation_NoDup; [apply Permutation_map; symmetry; apply Horder|]. apply NoDup_to_nat; auto.
    - intros q Hq. apply in_map_iff in Hq as (i & <- & Hi). apply Hl. eapply Permutation_in; [apply Horder|auto].
  Qed.
  Lemma set_minus_In l m x : In x (set_minus l m) <-> In x l /\ ~ In x m.
  Proof.
    unfold set_minus. rewrite filter_In, negb_true_iff. rewrite <- (memb_In _ N_eqb_spec' x m). destruct (memb N.eqb x m); intuition congruence.
  Qed.
  Section Ladder.
    Context (p : nat) (d : bool) (Hp : p < n).
    Let pN := N.of_nat p.
    Let us := update_set pN (N.of_nat n) ++ [pN].
    Let os := occupation_set pN.
    Let ps := parity_set pN.
    Let xs := set_minus us [pN].
    Let zz := set_minus (sym_diff ps os) [pN].
    Definition t1 := on Px us ++ on Pz ps.
    Definition t2 := [(p, Py)] ++ on Px xs ++ on Pz zz.
    Lemma us_range x : In x us -> (pN <= x < N.of_nat n)%N.
    Proof.
      intros H. apply in_app_or in H as [H|[<-|[]]]; [|unfold pN; lia]. pose proof (proj2 (update_set_NoDup pN (N.of_nat n)) x H). apply update_set_spec in H. lia.
    Qed.
    Lemma us_NoDup : NoDup us.
    Proof.
      destruct (update_set_NoDup pN (N.of_nat n)) as [H1 H2]. unfold us. eapply Permutation_NoDup; [apply Permutation_cons_append|]. constructor; [|auto]. intros H. apply H2 in H. lia.
    Qed.
    Lemma sym_In x : In x (sym_diff ps os) <-> (In x ps /\ ~ In x os) \/ (In x os /\ ~ In x ps).
    Proof. unfold sym_diff. rewrite in_app_iff, !set_minus_In. tauto. Qed.
    Lemma zz_range x : In x zz -> (x < pN)%N.
    Proof.
      unfold zz. rewrite set_minus_In, sym_In. cbn [In]. intros [H Hne]. destruct (parity_set_range pN) as [_ R1]. destruct (occupation_set_range pN) as (_ & _ & R2).
      assert (x <> pN) by (intros ->; apply Hne; auto). destruct H as [[H _]|[H _]]; [apply R1 in H|apply R2 in H]; lia.
    Qed.
    Lemma sym_NoDup : NoDup (sym_diff ps os).
    Proof.
      destruct (parity_set_range pN) as [N1 _]. destruct (occupation_set_range pN) as (N2 & _ & _). unfold sym_diff, set_minus.
      apply NoDup_app_intro'; [apply NoDup_filter; auto|apply NoDup_filter; auto|]. intros x H1 H2. apply (set_minus_In ps os) in H1. apply (set_minus_In os ps) in H2. tauto.
    Qed.
    Lemma fst_t1 : Permutation (map fst t1) (map N.to_nat (us ++ ps)).
    Proof. unfold t1. rewrite !map_app. apply Permutation_app; apply on_fst. Qed.
    Lemma fst_t2 : Permutation (map fst t2) (map N.to_nat ([pN] ++ xs ++ zz)).
    Proof. unfold t2. rewrite !map_app. apply Permutation_app; [cbn; unfold pN; rewrite Nat2N.id; reflexivity|]. apply Permutation_app; apply on_fst. Qed.
    Lemma t1_distinct : NoDup (map fst t1).
    Proof.
      eapply Permutation_NoDup; [symmetry; apply fst_t1|]. apply NoDup_to_nat. destruct (parity_set_range pN) as [N1 R1].
      apply NoDup_app_intro'; [apply us_NoDup|auto|]. intros x H1 H2. apply us_range in H1. apply R1 in H2. lia.
    Qed.
    Lemma t2_distinct : NoDup (map fst t2).
    Proof.
      eapply Permutation_NoDup; [symmetry; apply fst_t2|]. apply NoDup_to_nat. cbn [app]. constructor.
      - rewrite in_app_iff. intros [H|H]; [apply set_minus_In in H as [_ H]; apply H; left; auto|apply zz_range in H; lia].
      - apply NoDup_app_intro'; [apply NoDup_filter, us_NoDup|apply NoDup_filter, sym_NoDup|].
        intros x H1 H2. apply set_minus_In in H1 as [H1 _]. apply us_range in H1. apply zz_range in H2. lia.
    Qed.
    Lemma t1_paulis f : In f t1 -> snd f <> Pid.
    Proof. unfold t1. rewrite in_app_iff, !on_In. intros [(i & _ & ->)|(i & _ & ->)]; discriminate. Qed.
    Lemma t2_paulis f : In f t2 -> snd f <> Pid.
    Proof. unfold t2. rewrite !in_app_iff, !on_In. intros [[<-|[]]|[(i & _ & ->)|(i & _ & ->)]]; discriminate. Qed.
    Lemma t1_range f : In f t1 -> fst f < n.
    Proof.
      unfold t1. rewrite in_app_iff, !on_In. intros [(i & H & ->)|(i & H & ->)]; cbn [fst]; [apply us_range in H; lia|].
      apply (proj2 (parity_set_range pN)) in H. unfold pN in H. lia.
    Qed.
    Lemma t2_range f : In f t2 -> fst f < n.
    Proof.
      unfold t2. rewrite !in_app_iff, !on_In. intros [[<-|[]]|[(i & H & ->)|(i & H & ->)]]; cbn [fst]; [auto|apply set_minus_In in H as [H _]; apply us_range in H; lia|].
      apply zz_range in H. unfold pN in H. lia.
    Qed.
    Definition c2 : K := if d then kopp (half * im) else half * im.
    Lemma bk_terms : bk_ladder im half small order (N.of_nat n) (p, d) = [(sort_by index_leb t1, half); (sort_by index_leb t2, c2)].
    Proof.
      unfold bk_ladder. cbn [fst snd]. fold pN.
      assert (M : memb N.eqb pN (update_set pN (N.of_nat n)) = false).
      { apply not_true_iff_false. intros H. apply (memb_In _ N_eqb_spec') in H. apply update_set_NoDup in H. lia. }
      rewrite M. fold us os ps xs. fold zz. change (map (fun i : N => (N.to_nat i, Px)) (order us) ++ map (fun i : N => (N.to_nat i, Pz)) (order ps)) with t1.
      change ((p, Py) :: map (fun i : N => (N.to_nat i, Px)) (order xs) ++ map (fun i : N => (N.to_nat i, Pz)) (order zz)) with t2.
      cbn [app]. change ((p, Py) :: map (fun i : N => (N.to_nat i, Px)) (order xs) ++ map (fun i : N => (N.to_nat i, Pz)) (order zz)) with t2.
      unfold mk_op. rewrite !simplify_distinct by (auto using t1_distinct, t2_distinct, t1_paulis, t2_paulis).
      assert (Ne : sort_by index_leb t1 <> sort_by index_leb t2).
      { intros E. assert (H : In (p, Py) t1).
        { eapply Permutation_in; [apply (sort_by_perm index_leb)|]. rewrite E. eapply Permutation_in; [symmetry; apply (sort_by_perm index_leb)|]. left. auto. }
        unfold t1 in H. rewrite in_app_iff, !on_In in H. destruct H as [(i & _ & H)|(i & _ & H)]; discriminate. }
      unfold c2. destruct d.
      - apply two_terms; auto.
      - rewrite two_terms_sub; auto; [|assert (X : kopp (kopp (half * im)) = half * im) by ring; rewrite X; auto].
        assert (X : kopp (kopp (half * im)) = half * im) by ring. rewrite X. reflexivity.
    Qed.
    Section State.
      Context (c : list bool) (Hc : length c = n).
      Let e := bk_code n c.
      Let s : K := sgn (odd_count (firstn p c)).
      Let x := nth p c false.
      Lemma e_length : length e = n.
      Proof. apply bk_code_length. Qed.
      Lemma flips_code : flips (map N.to_nat us) e = bk_code n (setb p (negb x) c).
      Proof.
        apply bits_ext; [rewrite flips_length, e_length, bk_code_length; auto|]. intros j Hj. rewrite flips_length, e_length in Hj.
        rewrite flips_nth by (rewrite e_length; auto). rewrite (bk_code_flip n c p (negb x)) by auto. fold e. f_equal.
        rewrite <- (Nat2N.id j) at 1. rewrite memb_to_nat. apply Bool.eq_iff_eq_true. rewrite (memb_In _ N_eqb_spec'). fold pN.
        unfold us. rewrite in_app_iff, update_set_spec. cbn [In]. split.
        - intros [(_ & _ & H)|[<-|[]]]; [auto|]. apply covers_self. lia.
        - intros H. destruct (N.eq_dec pN (N.of_nat j)) as [E|E]; [right; left; auto|left]. split; [lia|auto].
      Qed.
      Lemma act_t1 : act t1 e = (s, bk_code n (setb p (negb x) c)).
      Proof.
        unfold t1. rewrite term_act_app. unfold mcomp. rewrite on_z. cbn [fst snd].
        rewrite on_x; [|apply us_NoDup|intros i Hi; rewrite e_length; apply us_range in Hi; lia]. cbn [fst snd]. rewrite flips_code.
        unfold ps, e. rewrite code_parity by (auto; unfold pN; lia). unfold Pf, pN. rewrite Nat2N.id. apply pair_equal_spec; split; [unfold s; ring|reflexivity].
      Qed.
      Lemma act_t2 : act t2 e = (im * (if x then kopp 1 else 1) * s, bk_code n (setb p (negb x) c)).
      Proof.
        unfold t2. rewrite !term_act_app. unfold mcomp at 1. rewrite term_act_app. unfold mcomp. rewrite on_z. cbn [fst snd].
        rewrite on_x; [|apply NoDup_filter, us_NoDup|intros i Hi; rewrite e_length; apply set_minus_In in Hi as [Hi _]; apply us_range in Hi; lia]. cbn [fst snd term_act].
        unfold mcomp. cbn [fst snd factor_act pauli_bit].
        assert (Ef : nth p (flips (map N.to_nat xs) e) false = nth p e false).
        { rewrite flips_nth by (rewrite e_length; auto). rewrite <- (Nat2N.id p) at 2. rewrite memb_to_nat. assert (M : memb N.eqb (N.of_nat p) xs = false).
          { apply not_true_iff_false. intros H. apply (memb_In _ N_eqb_spec') in H. apply set_minus_In in H as [_ H]. apply H. left. auto. }
          rewrite M. apply Bool.xorb_false_r. }
        rewrite Ef. apply pair_equal_spec; split.
        - (* the sign *)
          assert (Z : xorb (nth p e false) (odd_count (map (bitat e) zz)) = xorb (odd_count (firstn p c)) x).
          { assert (Hsym : odd_count (map (bitat e) (sym_diff ps os)) = xorb (odd_count (map (bitat e) ps)) (odd_count (map (bitat e) os))).
            { destruct (parity_set_range pN) as [N1 _]. destruct (occupation_set_range pN) as (N2 & _ & _). apply odd_count_sym_diff; auto. }
            assert (Hzz : Permutation (sym_diff ps os) (pN :: zz)).
            { apply NoDup_Permutation; [apply sym_NoDup| |].
              - constructor; [intros H; apply zz_range in H; lia|apply NoDup_filter, sym_NoDup].
              - intros y. unfold zz. cbn [In]. rewrite set_minus_In. cbn [In]. split.
                + intros H. destruct (N.eq_dec pN y) as [E|E]; [left; auto|right; tauto].
                + intros [<-|[H _]]; [|auto]. apply sym_In. right. destruct (occupation_set_range pN) as (_ & Hin & _). split; [auto|].
                  intros H. apply (proj2 (parity_set_range pN)) in H. lia. }
            apply (Permutation_map (bitat e)) in Hzz. apply odd_count_perm in Hzz. rewrite Hsym in Hzz.
            change (odd_count (map (bitat e) (pN :: zz))) with (xorb (bitat e pN) (odd_count (map (bitat e) zz))) in Hzz.
            unfold bitat in Hzz at 3. unfold pN in Hzz at 1. rewrite Nat2N.id in Hzz. rewrite <- Hzz. unfold ps, os, e.
            rewrite code_parity, code_occupation by (auto; unfold pN; lia). unfold Pf, pN, x. rewrite !Nat2N.id. reflexivity. }
          assert (S : (if nth p e false then kopp im else im) = im * sgn (nth p e false)) by (destruct (nth p e false); cbn; ring).
          rewrite S. transitivity (im * (sgn (nth p e false) * sgn (odd_count (map (bitat e) zz)))); [ring|]. rewrite <- sgn_xorb, Z, sgn_xorb. unfold s.
          destruct x; cbn [sgn]; ring.
        - rewrite <- flips_code. apply bits_ext; [rewrite setb_length, !flips_length; auto|]. intros j Hj. rewrite setb_length, flips_length, e_length in Hj.
          rewrite nth_setb by (rewrite flips_length, e_length; auto). rewrite !flips_nth by (rewrite e_length; auto).
          rewrite <- (Nat2N.id j) at 3 5. rewrite !memb_to_nat.
          destruct (Nat.eqb_spec j p) as [->|Ne].
          + assert (M : memb N.eqb (N.of_nat p) us = true) by (apply (memb_In _ N_eqb_spec'); unfold us; apply in_or_app; right; left; auto).
            rewrite M. destruct (nth p e false); reflexivity.
          + f_equal. apply Bool.eq_iff_eq_true. rewrite !(memb_In _ N_eqb_spec'). unfold xs. rewrite set_minus_In. cbn [In]. unfold pN. intuition lia.
      Qed.
    End State.
    Lemma bk_ladder_matrix : on_qubits n (bk_ladder im half small order (N.of_nat n) (p, d)) /\
      meq (mmul (qop_matrix im n (bk_ladder im half small order (N.of_nat n) (p, d))) (bk_encoding n)) (mmul (bk_encoding n) (ladder_matrix n (p, d))).
    Proof.
      rewrite bk_terms. split.
      - intros t cc [G|[G|[]]] g Hg; inversion G; subst; [apply t1_range|apply t2_range]; (eapply Permutation_in; [apply (sort_by_perm index_leb)|exact Hg]).
      - set (Q := qop_matrix im n _). assert (SQ : sq (2 ^ n) Q) by apply qop_matrix_shape.
        set (enc := fun c => (1 : K, bk_code n c)). assert (Ke : keeps n enc) by (intros c _; apply bk_code_length).
        transitivity (mmul Q (mono n enc)). { apply (mmul_sq (2 ^ n)); auto; [split; reflexivity|reflexivity|apply encoding_mono]. }
        symmetry. transitivity (mmul (mono n enc) (mono n (ladder_act (K := K) (p, d)))).
        { apply (mmul_sq (2 ^ n)); auto; try (split; reflexivity); [apply encoding_mono|apply ladder_mono; auto]. }
        rewrite mono_mmul by (auto; apply ladder_keeps). symmetry.
        apply (meq_bits n); [cbn; apply SQ|reflexivity|reflexivity|reflexivity|]. intros b c Hb Hc.
        rewrite mmul_mono_r by (auto; try apply SQ; apply bk_code_length). rewrite mono_ent by (auto; unfold mcomp, enc; cbn [snd fst]; apply bk_code_length).
        unfold enc at 1 2. cbn [fst snd]. unfold Q. rewrite ent_two by (auto using t1_range, t2_range; apply bk_code_length).
        rewrite act_t1, act_t2 by auto. unfold mcomp, enc. cbn [fst snd ladder_act].
        set (s := sgn (odd_count (firstn p c)) : K). set (x := nth p c false). destruct (half_cases im half Him Hhalf s x) as [C1 C2]. unfold c2.
        set (A := list_eqb Bool.eqb b (bk_code n (setb p (negb x) c))). set (B := list_eqb Bool.eqb b (bk_code n (setb p d c))).
        assert (AB : x = negb d -> A = B) by (intros E; unfold A, B; rewrite E, Bool.negb_involutive; reflexivity).
        destruct x, d; cbn [negb Bool.eqb] in *; try (rewrite <- AB by reflexivity); destruct A; try destruct B; try ring;
          first [etransitivity; [|etransitivity; [exact C1|ring]]; ring | etransitivity; [|etransitivity; [exact C2|ring]]; ring].
    Qed.
  End Ladder.
End BK.
