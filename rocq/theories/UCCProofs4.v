(** Proofs for C77: the singlet generator. *)
From Coq Require Import Ring Setoid Ncring Ncring_tac.
From Verif Require Import Base BaseFacts MatModel MatFacts LiftSpec LiftProofs OpModel OpSpec OpProofs OpProofs2 ConjProofs BackendProofs FermiModel FermiSpec FermiProofs FermiProofs2 FermiProofs6 FermiProofs7
  JWInterModel UCCModel UCCSpec MatRing UCCProofs UCCProofs2 UCCProofs3.
Open Scope list_scope.
Local Open Scope nat_scope.

Lemma In_enumerate {X} (l : list X) i x : In (i, x) (enumerate l) -> nth_error l i = Some x.
Proof.
  unfold enumerate. enough (G : forall k, In (i, x) (combine (seq k (length l)) l) -> k <= i /\ nth_error l (i - k) = Some x) by (intros H; apply G in H as [_ H]; rewrite Nat.sub_0_r in H; exact H).
  induction l as [|y l IH]; intros k; cbn [length seq combine]; [intros []|]. intros [E|H]; [inversion E; subst; rewrite Nat.sub_diag; auto|].
  apply IH in H as [H1 H2]. split; [lia|]. replace (i - k) with (S (i - S k)) by lia. exact H2.
Qed.
Lemma enumerate_In {X} (l : list X) i x : nth_error l i = Some x -> In (i, x) (enumerate l).
Proof.
  unfold enumerate. enough (G : forall k, nth_error l i = Some x -> In (k + i, x) (combine (seq k (length l)) l)) by exact (G 0).
  revert i. induction l as [|y l IH]; intros i k H; [destruct i; discriminate|]. cbn [length seq combine]. destruct i as [|i]; [inversion H; subst; left; rewrite Nat.add_0_r; auto|].
  right. replace (k + S i) with (S k + i) by lia. apply IH. exact H.
Qed.
Lemma flat_map_enumerate {X Y} (E : X -> list Y) l : flat_map (fun ix => E (snd ix)) (enumerate l) = flat_map E l.
Proof. unfold enumerate. generalize 0. induction l as [|x l IH]; intros k; [reflexivity|]. cbn [length seq combine flat_map snd]. rewrite IH. reflexivity. Qed.
Lemma combinations2_two {X} (l : list X) : combinations2 l = two_of l.
Proof. reflexivity. Qed.
Lemma two_of_map {X Y} (f : X -> Y) l : two_of (map f l) = map (fun p => (f (fst p), f (snd p))) (two_of l).
Proof. induction l as [|x l IH]; [reflexivity|]. cbn [map two_of]. rewrite IH, map_app, !map_map. reflexivity. Qed.
Lemma two_of_length {X} (l : list X) : 2 * length (two_of l) = length l * (length l - 1).
Proof.
  induction l as [|x l IH]; [reflexivity|]. cbn [two_of length]. rewrite app_length, map_length, Nat.mul_add_distr_l, IH. destruct (length l); [reflexivity|]. cbn. lia.
Qed.
Lemma product_range_length a b : length (product_range a b) = a * b.
Proof.
  unfold product_range. rewrite <- (seq_length a 0) at 2. induction (seq 0 a) as [|p l IH]; [reflexivity|]. cbn [flat_map length]. rewrite app_length, map_length, seq_length, IH. reflexivity.
Qed.
Lemma In_product_range a b p q : In (p, q) (product_range a b) <-> p < a /\ q < b.
Proof.
  unfold product_range. rewrite in_flat_map. split.
  - intros (x & Hx & H). apply in_map_iff in H as (y & E & Hy). inversion E; subst. apply in_seq in Hx, Hy. lia.
  - intros [H1 H2]. exists p. split; [apply in_seq; lia|]. apply in_map_iff. exists q. split; [reflexivity|apply in_seq; lia].
Qed.
Lemma two_of_In {X} (l : list X) p : In p (two_of l) -> In (fst p) l /\ In (snd p) l.
Proof.
  induction l as [|x l IH]; [intros []|]. cbn [two_of]. intros H. apply in_app_iff in H as [H|H]; [apply in_map_iff in H as (y & <- & Hy); cbn; auto|]. apply IH in H as [H1 H2]. split; right; auto.
Qed.
Definition shift (occ : nat) (pq : nat * nat) : nat * nat := (occ + fst pq, snd pq).
Lemma seq_add c m : forall a, map (fun p => c + p) (seq a m) = seq (c + a) m.
Proof. induction m as [|m IH]; intros a; [reflexivity|]. cbn [seq map]. rewrite IH, Nat.add_succ_r. reflexivity. Qed.
Lemma orbital_pairs_map n k : orbital_pairs n k = map (shift (occupied_orbitals k)) (virtual_occupied n k).
Proof.
  unfold orbital_pairs, virtual_occupied, product_range, virtual_orbitals, occupied_orbitals. set (occ := (k + 1) / 2). replace (Z.to_nat (Z.of_nat (n / 2) - Z.of_nat occ)) with (n / 2 - occ) by lia.
  set (m := n / 2 - occ). cbn zeta. replace (seq occ m) with (map (fun p => occ + p) (seq 0 m)) by (rewrite seq_add, Nat.add_0_r; reflexivity).
  induction (seq 0 m) as [|p l IH]; [reflexivity|]. cbn [map flat_map]. rewrite IH, map_app, map_map. reflexivity.
Qed.
Lemma orbital_pairs_In n k v o : In (v, o) (orbital_pairs n k) <-> (k + 1) / 2 <= v < n / 2 /\ o < (k + 1) / 2.
Proof.
  unfold orbital_pairs. cbn zeta. rewrite in_flat_map. split.
  - intros (x & Hx & H). apply in_map_iff in H as (y & E & Hy). inversion E; subst. apply in_seq in Hx, Hy. lia.
  - intros [H1 H2]. exists v. split; [apply in_seq; lia|]. apply in_map_iff. exists o. split; [reflexivity|apply in_seq; lia].
Qed.

Section S.
  Context {K : cring} (small : K -> bool) (anti : bool).
  Add Ring Kring_ucc4 : (kth K).
  Open Scope K_scope.
  (** ** The excitations of the loops *)
  Definition single_of (i j : nat) (c : K) : fterm * K := ([(i, true); (j, false)], c).
  Definition double_of (i j k l : nat) (c : K) : fterm * K := ([(i, true); (j, false); (k, true); (l, false)], c).
  Definition pair_terms (vo : nat * nat) (c1 c2 : K) : list (fterm * K) :=
    let (v, o) := vo in [single_of (2 * v) (2 * o) c1; double_of (2 * v) (2 * o) (2 * v + 1) (2 * o + 1) c2; single_of (2 * v + 1) (2 * o + 1) c1; double_of (2 * v + 1) (2 * o + 1) (2 * v) (2 * o) c2].
  Definition two_pair_terms (vo wu : nat * nat) (c : K) : list (fterm * K) :=
    flat_map (fun ab : nat * nat => let (a, b) := ab in
      if (spin_index a (fst vo) =? spin_index b (fst wu))%nat then [] else if (spin_index a (snd vo) =? spin_index b (snd wu))%nat then [] else
      [double_of (spin_index a (fst vo)) (spin_index a (snd vo)) (spin_index b (fst wu)) (spin_index b (snd wu)) c]) (product_range 2 2).
  Lemma pair_step occ t1 t2 g i p q c1 c2 : get1 t1 i = Ok c1 -> get1 t2 i = Ok c2 ->
    pair_excitations small anti occ t1 t2 g (i, (p, q)) = Ok (run small anti (pair_terms (occ + p, q)%nat c1 c2) g).
  Proof. intros H1 H2. unfold pair_excitations. cbn [seq foldM]. rewrite H1, H2. cbn [rbind]. rewrite ?H1, ?H2. reflexivity. Qed.
  Lemma two_pair_step occ t3 g i p q r s c : get1 t3 i = Ok c ->
    two_pair_excitations small anti occ t3 g (i, ((p, q), (r, s))) = Ok (run small anti (two_pair_terms (occ + p, q)%nat (occ + r, s)%nat c) g).
  Proof.
    intros H. unfold two_pair_excitations. rewrite H. cbn [rbind]. f_equal. unfold two_pair_terms, run. generalize (product_range 2 2). intros l. revert g. induction l as [|[a b] l IH]; intros g; [reflexivity|].
    cbn [flat_map fold_left fst snd]. rewrite fold_left_app. rewrite IH. f_equal. destruct (Nat.eqb _ _); [reflexivity|]. destruct (Nat.eqb _ _); reflexivity.
  Qed.
  Lemma foldM_run {X} (f : fop K -> X -> result (fop K)) (e : X -> list (fterm * K)) l : forall g, (forall x g, In x l -> f g x = Ok (run small anti (e x) g)) -> foldM f l g = Ok (run small anti (flat_map e l) g).
  Proof.
    induction l as [|x l IH]; intros g H; [reflexivity|]. cbn [foldM flat_map]. rewrite (H x g) by (left; reflexivity). cbn [rbind]. rewrite IH by (intros y g' Hy; apply H; right; exact Hy). f_equal.
    unfold run. rewrite fold_left_app. reflexivity.
  Qed.
  Context (n k : nat).
  Definition all_terms (t1 t2 : nat * nat -> K) (t3 : nat * nat -> nat * nat -> K) : list (fterm * K) :=
    flat_map (fun p => pair_terms p (t1 p) (t2 p)) (orbital_pairs n k) ++ flat_map (fun pq => two_pair_terms (fst pq) (snd pq) (t3 (fst pq) (snd pq))) (two_of (orbital_pairs n k)).
  Lemma nth_map_app {X} (f : X -> K) l i x rest : nth_error l i = Some x -> get1 (map f l ++ rest) i = Ok (f x).
  Proof.
    intros H. unfold get1. rewrite nth_error_app1 by (rewrite map_length; apply nth_error_Some; congruence). rewrite (map_nth_error f i l H). reflexivity.
  Qed.
  Lemma singlet_run (t1 t2 : nat * nat -> K) (t3 : nat * nat -> nat * nat -> K) rest : (n mod 2 = 0)%nat ->
    uccsd_singlet_generator small (map t1 (orbital_pairs n k) ++ map t2 (orbital_pairs n k) ++ map (fun pq => t3 (fst pq) (snd pq)) (two_of (orbital_pairs n k)) ++ rest) n k anti =
      Ok (run small anti (all_terms t1 t2 t3) []).
  Proof.
    intros He. unfold uccsd_singlet_generator. rewrite He. cbn [Nat.eqb negb]. cbn zeta. unfold all_terms. rewrite orbital_pairs_map, two_of_map, !map_map. cbn [fst snd]. set (L := virtual_occupied n k). set (occ := occupied_orbitals k).
    replace (occ * Z.to_nat (virtual_orbitals n k))%nat with (length L) by (unfold L, virtual_occupied; rewrite product_range_length; fold occ; lia).
    replace (2 * length L - length L)%nat with (length L) by lia.
    rewrite firstn_app, map_length, Nat.sub_diag, firstn_O, app_nil_r, (firstn_all2 (n := length L) (map _ L)) by (rewrite map_length; lia).
    rewrite (skipn_app (length L)), map_length, Nat.sub_diag, skipn_O, (skipn_all2 (n := length L) (map _ L)) by (rewrite map_length; lia). cbn [app].
    rewrite firstn_app, map_length, Nat.sub_diag, firstn_O, app_nil_r, (firstn_all2 (n := length L) (map _ L)) by (rewrite map_length; lia).
    rewrite (foldM_run (pair_excitations small anti occ _ _) (fun ix => pair_terms (shift occ (snd ix)) (t1 (shift occ (snd ix))) (t2 (shift occ (snd ix))))).
    2:{ intros [i [p q]] g Hx. apply In_enumerate in Hx. apply pair_step; rewrite <- (app_nil_r (map _ L)); rewrite (nth_map_app _ L i (p, q)) by exact Hx; reflexivity. }
    cbn [rbind]. rewrite (foldM_run (two_pair_excitations small anti occ _) (fun ix => two_pair_terms (shift occ (fst (snd ix))) (shift occ (snd (snd ix))) (t3 (shift occ (fst (snd ix))) (shift occ (snd (snd ix)))))).
    2:{ intros [i [[p q] [r s]]] g Hx. apply In_enumerate in Hx. apply two_pair_step. replace (2 * length L)%nat with (length (map (fun x => t1 (shift occ x)) L) + length (map (fun x => t2 (shift occ x)) L))%nat by (rewrite !map_length; lia).
        rewrite <- app_length, app_assoc, skipn_app, Nat.sub_diag, skipn_O, skipn_all. cbn [app]. rewrite (nth_map_app _ (two_of L) i ((p, q), (r, s))) by exact Hx. reflexivity. }
    f_equal. rewrite run_app. f_equal.
    rewrite (flat_map_enumerate (fun x => pair_terms (shift occ x) (t1 (shift occ x)) (t2 (shift occ x))) L).
    rewrite (flat_map_enumerate (fun x => two_pair_terms (shift occ (fst x)) (shift occ (snd x)) (t3 (shift occ (fst x)) (shift occ (snd x)))) (combinations2 L)).
    rewrite combinations2_two, !flat_map_concat_map, !map_map. reflexivity.
  Qed.
  (** ** The matrix of the excitations *)
  Notation N := (2 ^ n)%nat.
  Notation F := (fterm_matrix (K := K) n).
  Local Notation "A '==' B" := (sq_eq (K := K) (Nat.pow 2 n) A B) (at level 70, no associativity) : sq_scope.
  Local Notation "A '+' B" := (sq_add (K := K) (Nat.pow 2 n) A B) : sq_scope.
  Local Notation "A '*' B" := (sq_mul (K := K) (Nat.pow 2 n) A B) : sq_scope.
  Notation phi i j := (fun u => ent (F u) i j).
  Lemma sum_two (x y : K) : x + (y + 0) = x + y.
  Proof. ring. Qed.
  Lemma sum_mid (x y : K) : x + (y + 0) = 0 + (x + (y + 0)).
  Proof. ring. Qed.
  Lemma sum_four (x y z w : K) : x + (y + (z + (w + 0))) = (x + (z + 0)) + (y + (w + 0)).
  Proof. ring. Qed.
  Lemma sum_all (x y z w : K) : x + (y + (z + (w + 0))) = x + (y + (z + w)).
  Proof. ring. Qed.
  Lemma pair_parts v o c1 c2 i j : (v < n / 2)%nat -> (o < n / 2)%nat -> v <> o -> (i < N)%nat -> (j < N)%nat ->
    lsum (map (part anti (phi i j)) (pair_terms (v, o) c1 c2)) =
      ent (mscale c1 (minus_hc anti (spin_free n v o))) i j + ent (mscale c2 (minus_hc anti (mmul (spin_free n v o) (spin_free n v o)))) i j.
  Proof.
    intros Hv Ho Hn Hi Hj. pose proof (half_lt n v Hv) as Lv. pose proof (half_lt n o Ho) as Lo.
    rewrite <- (parts_sum n anti c1 (spin_free n v o) [fst (single_of (2 * v) (2 * o) c1); fst (single_of (2 * v + 1) (2 * o + 1) c1)] i j Hi Hj).
    2:{ intros a b Ha Hb. cbn [map lsum single_of fst]. rewrite !term1 by auto. cbn [spin_free ent madd]. ring. }
    rewrite <- (parts_sum n anti c2 (mmul (spin_free n v o) (spin_free n v o)) [fst (double_of (2 * v) (2 * o) (2 * v + 1) (2 * o + 1) c2); fst (double_of (2 * v + 1) (2 * o + 1) (2 * v) (2 * o) c2)] i j Hi Hj).
    2:{ intros a b Ha Hb. cbn [map lsum double_of fst]. rewrite !term2 by auto.
        assert (E : (sf n v o * sf n v o == mv n (2 * v)%nat (2 * o)%nat * mv n (2 * v + 1)%nat (2 * o + 1)%nat + mv n (2 * v + 1)%nat (2 * o + 1)%nat * mv n (2 * v)%nat (2 * o)%nat)%sq).
        { pose proof (mv_same_creator (K := K) n (2 * v) (2 * o) (2 * o) ltac:(lia) ltac:(lia) ltac:(lia) ltac:(lia)) as Z1.
          pose proof (mv_same_creator (K := K) n (2 * v + 1) (2 * o + 1) (2 * o + 1) ltac:(lia) ltac:(lia) ltac:(lia) ltac:(lia)) as Z2. unfold sf.
          set (A := mv n (2 * v) (2 * o)) in *. set (B := mv n (2 * v + 1) (2 * o + 1)) in *.
          transitivity (A * A + B * B + (A * B + B * A))%sq; [non_commutative_ring|]. rewrite Z1, Z2. non_commutative_ring. }
        specialize (E a b Ha Hb). match type of E with _ = ?y => transitivity y; [|symmetry; exact E] end. unfold sq_add. cbn [ent mmul].
        change (nc (excitation (K := K) n (2 * v) (2 * o))) with N. change (nc (excitation (K := K) n (2 * v + 1) (2 * o + 1))) with N.
        match goal with |- ?x + (?y + 0) = ?z + ?w => change z with x; change w with y end. apply sum_two. }
    cbn [pair_terms map lsum single_of double_of fst].
    apply sum_four.
  Qed.
  Lemma index_uu x y : (spin_index 0 x =? spin_index 0 y)%nat = (x =? y)%nat.
  Proof. unfold spin_index. cbn [Nat.eqb]. unfold up_index. apply eq_true_iff_eq. rewrite !Nat.eqb_eq. lia. Qed.
  Lemma index_dd x y : (spin_index 1 x =? spin_index 1 y)%nat = (x =? y)%nat.
  Proof. unfold spin_index. cbn [Nat.eqb]. unfold down_index. apply eq_true_iff_eq. rewrite !Nat.eqb_eq. lia. Qed.
  Lemma index_ud x y : (spin_index 0 x =? spin_index 1 y)%nat = false.
  Proof. unfold spin_index. cbn [Nat.eqb]. unfold up_index, down_index. apply Nat.eqb_neq. lia. Qed.
  Lemma index_du x y : (spin_index 1 x =? spin_index 0 y)%nat = false.
  Proof. unfold spin_index. cbn [Nat.eqb]. unfold up_index, down_index. apply Nat.eqb_neq. lia. Qed.
  Lemma two_pair_parts v o w u c i j : (v < n / 2)%nat -> (o < n / 2)%nat -> (w < n / 2)%nat -> (u < n / 2)%nat -> v <> o -> w <> u -> v <> u -> w <> o -> (i < N)%nat -> (j < N)%nat ->
    lsum (map (part anti (phi i j)) (two_pair_terms (v, o) (w, u) c)) = ent (mscale c (minus_hc anti (mmul (spin_free n v o) (spin_free n w u)))) i j.
  Proof.
    intros Hv Ho Hw Hu N1 N2 N3 N4 Hi Hj. pose proof (half_lt n v Hv) as Lv. pose proof (half_lt n o Ho) as Lo. pose proof (half_lt n w Hw) as Lw. pose proof (half_lt n u Hu) as Lu.
    replace (two_pair_terms (v, o) (w, u) c) with (map (fun t => (t, c)) (map fst (two_pair_terms (v, o) (w, u) c))).
    2:{ rewrite map_map. unfold two_pair_terms. generalize (product_range 2 2). intros l. induction l as [|[a b] l IH]; [reflexivity|]. cbn [flat_map]. rewrite map_app, IH. f_equal. destruct (Nat.eqb _ _); [reflexivity|]. destruct (Nat.eqb _ _); reflexivity. }
    apply parts_sum; auto. intros a b Ha Hb. unfold two_pair_terms. cbn [product_range seq flat_map map app fst snd]. rewrite !index_uu, !index_dd, !index_ud, !index_du.
    change (spin_index 0) with up_index. change (spin_index 1) with down_index. unfold up_index, down_index.
    set (A := mv (K := K) n (2 * v) (2 * o)). set (B := mv (K := K) n (2 * v + 1) (2 * o + 1)). set (C := mv (K := K) n (2 * w) (2 * u)). set (D := mv (K := K) n (2 * w + 1) (2 * u + 1)).
    assert (ZA : v = w \/ o = u -> (A * C == sq0 N)%sq /\ (B * D == sq0 N)%sq).
    { intros [<-|<-]; split; first [apply mv_same_creator; lia|apply mv_same_annihilator; lia]. }
    assert (E : (sf n v o * sf n w u == A * C + (A * D + (B * C + B * D)))%sq) by (unfold sf; fold A B C D; non_commutative_ring).
    specialize (E a b Ha Hb). match goal with |- _ = ?z => change z with (sq_mul (K := K) N (sf n v o) (sf n w u) a b) end. rewrite E. unfold sq_add. clear E.
    assert (U : forall p q r s, ent (F (fst (double_of p q r s c))) a b = sq_mul (K := K) N (mv n p q) (mv n r s) a b) by (intros p q r s; cbn [double_of fst]; rewrite term2 by auto; reflexivity).
    destruct (Nat.eqb_spec v w) as [Ev|Ev]; [|destruct (Nat.eqb_spec o u) as [Eo|Eo]].
    - destruct (ZA (or_introl Ev)) as [Z1 Z2]. rewrite (Z1 a b), (Z2 a b) by auto. cbn [map lsum app]. rewrite !U. unfold sq0. apply sum_mid.
    - destruct (ZA (or_intror Eo)) as [Z1 Z2]. rewrite (Z1 a b), (Z2 a b) by auto. cbn [map lsum app]. rewrite !U. unfold sq0. apply sum_mid.
    - cbn [map lsum app]. rewrite !U. apply sum_all.
  Qed.
  Lemma lsum_flat {X} (e : X -> list (fterm * K)) (V : X -> K) f l : (forall x, In x l -> lsum (map f (e x)) = V x) -> lsum (map f (flat_map e l)) = lsum (map V l).
  Proof. induction l as [|x l IH]; intros H; [reflexivity|]. cbn [flat_map map lsum]. rewrite map_app, lsum_app, IH by (intros y Hy; apply H; right; exact Hy). rewrite H by (left; reflexivity). reflexivity. Qed.
  Lemma lsum_add {X} (f g : X -> K) l : lsum (map (fun x => f x + g x) l) = lsum (map f l) + lsum (map g l).
  Proof. induction l as [|x l IH]; cbn [map lsum]; [ring|rewrite IH; ring]. Qed.
  Lemma pairs_range v o : In (v, o) (orbital_pairs n k) -> (v < n / 2)%nat /\ (o < n / 2)%nat /\ (o < (k + 1) / 2)%nat /\ ((k + 1) / 2 <= v)%nat.
  Proof. intros H. apply orbital_pairs_In in H. lia. Qed.
  Lemma all_parts (t1 t2 : nat * nat -> K) (t3 : nat * nat -> nat * nat -> K) i j : (i < N)%nat -> (j < N)%nat ->
    lsum (map (part anti (phi i j)) (all_terms t1 t2 t3)) = ent (singlet_generator n k anti t1 t2 t3) i j.
  Proof.
    intros Hi Hj. unfold all_terms, singlet_generator. cbn zeta. rewrite map_app, lsum_app. cbn [ent madd]. rewrite !msum_ent, !map_map.
    rewrite (lsum_flat (fun p => pair_terms p (t1 p) (t2 p)) (fun p => ent (mscale (t1 p) (minus_hc anti (spin_free n (fst p) (snd p)))) i j + ent (mscale (t2 p) (minus_hc anti (mmul (spin_free n (fst p) (snd p)) (spin_free n (fst p) (snd p))))) i j)).
    2:{ intros [v o] Hp. apply pairs_range in Hp as (H1 & H2 & H3 & H4). apply (pair_parts v o); auto; lia. }
    rewrite (lsum_flat (fun pq => two_pair_terms (fst pq) (snd pq) (t3 (fst pq) (snd pq)))
      (fun pq => ent (mscale (t3 (fst pq) (snd pq)) (minus_hc anti (mmul (spin_free n (fst (fst pq)) (snd (fst pq))) (spin_free n (fst (snd pq)) (snd (snd pq)))))) i j)).
    2:{ intros [[v o] [w u]] Hp. apply two_of_In in Hp as [P1 P2]. cbn [fst snd] in *. apply pairs_range in P1 as (H1 & H2 & H3 & H4), P2 as (H5 & H6 & H7 & H8). apply (two_pair_parts v o w u); auto; lia. }
    rewrite lsum_add. ring.
  Qed.
End S.
