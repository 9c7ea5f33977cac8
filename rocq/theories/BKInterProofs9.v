(** The whole Bravyi-Kitaev transform of an interaction operator on encoded states. *)
From Coq Require Import NArith Nnat Permutation Ring.
From Verif Require Import Base BaseFacts MatModel MatFacts LiftSpec LiftProofs OpModel OpSpec OpProofs PauliProofs OpProofs2
  FermiModel FermiSpec FermiProofs FermiProofs2 FermiProofs3 FermiProofs6 FermiProofs7 TensorModel TensorSpec TensorProofs TensorProps DiagSpec JWInterModel JWInterSpec JWInterProofs JWInterProofs2 JWInterProofs3 JWInterProps
  BKInterModel BKInterProofs4 BKInterProofs5 BKInterProofs6 BKInterProofs7 BKInterProofs8.
Open Scope list_scope.
Local Open Scope nat_scope.

Section Whole.
  Context {K : cring} (im half : K) (Him : kmul im im = kopp k1) (Hhalf : kadd half half = k1) (small is_zero : K -> bool) (Hs : only_zero small) (Hz : forall c, is_zero c = true -> c = k0)
    (order : list N -> list N) (Horder : forall l, Permutation (order l) l).
  Add Ring Kring_bkw : (kth K).
  Open Scope K_scope.
  Context (h : heap K) (a : ptensor K) (Ha : interaction_ok h a).
  Notation n := (n_qubits a).
  Notation h1 := (h1 h a).
  Notation w := (w (h2 h a)).
  Notation prs := (combinations2 (seq 0 n)).
  Definition lower (x y : list bool) : K :=
    value h a [] [] * dl x y + lsum (fun i => h1 i i * L2 n i i x y) (seq 0 n)
      + lsum (fun i => lsum (fun j => low1 h a i j x y + diag2 h a (j, i) x y) (seq 0 i)) (seq 0 n)
      + lsum (fun t => low2 h a (fst t, fst (snd t)) (snd (snd t), fst t) x y) (filter distinct3 (triples n))
      + lsum (fun t : nat * (nat * (nat * nat)) => let '(i, (j, (k, m))) := t in low2 h a (i, j) (k, m) x y + low2 h a (i, k) (j, m) x y + low2 h a (i, m) (j, k) x y) (quads n).
  Lemma whole_lower nq : nq = None \/ nq = Some n ->
    exists o, bravyi_kitaev_interaction_operator im half small is_zero order h a nq = Ok o /\ rep im n o lower.
  Proof.
    intros Hnq. unfold bravyi_kitaev_interaction_operator. assert (Q : match nq with Some n => n | None => n end = n) by (destruct Hnq; subst; reflexivity). rewrite Q.
    rewrite Nat.ltb_irrefl. rewrite (constant_value h a) by apply Ha. cbn [rbind].
    destruct (number_loop im half Him Hhalf small is_zero Hs Hz order Horder h a Ha (seq 0 n) (fun i Hi => proj2 (proj1 (in_seq n 0 i) Hi)) [] [] (value h a [] []) (fun _ _ => 0)
      (fun x y => value h a [] [] * if list_eqb Bool.eqb x y then 1 else 0) (rep_nil im n) (lrep_const im n _)) as (ham & ops & const & E & R & L).
    match type of E with ?L = _ => match goal with |- context [rbind ?X _] => change X with L end end. rewrite E. cbn [rbind].
    destruct (excitation_loop im half Him Hhalf small is_zero Hs Hz order Horder h a Ha (triples n) (fun i j k H => proj1 (triples_In n i j k) H) ham _ R) as (ham1 & E1 & R1).
    fold (triples n). fold (quads n). rewrite E1. cbn [rbind].
    destruct (double_loop im half Him Hhalf small is_zero Hs Hz order Horder h a Ha (quads n) (fun i j k m H => proj1 (quads_In n i j k m) H) ham1 _ R1) as (ham2 & E2 & R2).
    rewrite E2. cbn [rbind]. eexists. split; [reflexivity|].
    eapply rep_ext; [|apply (rep_add im small Hs n); [exact R2|apply (rep_creation im Him small Hs n); exact L]]. intros x y _ _. cbn beta. unfold lower, dl. ring.
  Qed.
  Context (Hh : hermitian_tensor h a).
  Definition both (u v : nat * nat) (x y : list bool) : K := w u v * L4 n u v x y + w v u * L4 n v u x y.
  Lemma both_swap u v x y : both u v x y = both v u x y.
  Proof. unfold both. ring. Qed.
  Ltac rfac := change (factor bool) with (prod nat bool); ring.
  Ltac modes := let f := fresh in let H := fresh in intros f H; cbn in H; intuition (subst; cbn; lia).
  Lemma L4_left p q v x y : p <> q -> (p < n)%nat -> (q < n)%nat -> (fst v < n)%nat -> (snd v < n)%nat -> length x = n -> length y = n -> L4 (K := K) n (p, q) v x y = - L4 n (q, p) v x y.
  Proof. destruct v as [r s]. cbn [fst snd]. intros D Hp Hq Hr Hs' Hx Hy. unfold L4. cbn [fst snd]. rewrite (swap_modes n [] (p, true) (q, true) [(r, false); (s, false)]) by (auto; modes). reflexivity. Qed.
  Lemma L4_right p q v x y : p <> q -> (p < n)%nat -> (q < n)%nat -> (fst v < n)%nat -> (snd v < n)%nat -> length x = n -> length y = n -> L4 (K := K) n v (p, q) x y = - L4 n v (q, p) x y.
  Proof. destruct v as [r s]. cbn [fst snd]. intros D Hp Hq Hr Hs' Hx Hy. unfold L4. cbn [fst snd]. rewrite (swap_modes n [(r, true); (s, true)] (p, false) (q, false) []) by (auto; modes). reflexivity. Qed.
  Lemma w_left p q v : w (p, q) v = - w (q, p) v.
  Proof. destruct v. unfold JWInterProofs3.w. ring. Qed.
  Lemma w_right p q v : w v (p, q) = - w v (q, p).
  Proof. destruct v. unfold JWInterProofs3.w. ring. Qed.
  Lemma low2_left p q v x y : p <> q -> (p < n)%nat -> (q < n)%nat -> (fst v < n)%nat -> (snd v < n)%nat -> length x = n -> length y = n -> low2 h a (p, q) v x y = low2 h a (q, p) v x y.
  Proof. intros. unfold low2. rewrite (w_left p q), (L4_left p q), (L4_right p q), kconj_opp' by auto. ring. Qed.
  Lemma low2_right p q v x y : p <> q -> (p < n)%nat -> (q < n)%nat -> (fst v < n)%nat -> (snd v < n)%nat -> length x = n -> length y = n -> low2 h a v (p, q) x y = low2 h a v (q, p) x y.
  Proof. intros. unfold low2. rewrite (w_right p q), (L4_left p q), (L4_right p q), kconj_opp' by auto. ring. Qed.
  Lemma low2_both u v x y : In u prs -> In v prs -> u <> v -> low2 h a u v x y = both u v x y.
  Proof. intros Hu Hv D. unfold low2, both. rewrite (w_hermitian h a Ha Hh u v) by auto. reflexivity. Qed.
  Lemma pairs_sum x y : lsum (fun uv => both (fst uv) (snd uv) x y) (combinations2 prs) = lsum (fun uv => both (fst uv) (snd uv) x y) (all_pairs n).
  Proof. apply lsum_perm, pairs_perm. Qed.
  Lemma lsum_nested {X Y} (f : X -> Y -> K) (l : list X) (g : X -> list Y) : lsum (fun x => lsum (f x) (g x)) l = lsum (fun xy => f (fst xy) (snd xy)) (nested l g).
  Proof.
    induction l as [|x l IH]; [reflexivity|]. unfold nested. cbn [flat_map]. rewrite lsum_app, lsum_map. fold (nested l g). rewrite <- IH. reflexivity.
  Qed.
  Lemma swap_perm : Permutation (map (fun u => (snd u, fst u)) (nested (seq 0 n) (seq 0))) prs.
  Proof.
    apply NoDup_Permutation; [|apply prs_NoDup|].
    - apply NoDup_map_inj'; [|apply nested_NoDup; [apply seq_NoDup|intros; apply seq_NoDup]]. intros [p q] [r s] _ _ X. inversion X. reflexivity.
    - intros [p q]. rewrite prs_In, in_map_iff. split.
      + intros ([r s] & X & H). inversion X; subst. apply nested_In in H. rewrite !in_seq in H. cbn [fst snd]. lia.
      + intros H. exists (q, p). split; [reflexivity|]. apply nested_In. rewrite !in_seq. lia.
  Qed.
  Lemma lower_entry x y : length x = n -> length y = n -> lower x y = tensor_entry h a x y.
  Proof.
    intros Hx Hy. rewrite entries by auto. unfold lower.
    rewrite (lsum_nested (fun i j => low1 h a i j x y + diag2 h a (j, i) x y)).
    assert (P : lsum (fun xy => low1 h a (fst xy) (snd xy) x y + diag2 h a (snd xy, fst xy) x y) (nested (seq 0 n) (seq 0)) =
      lsum (fun u => h1 (fst u) (snd u) * L2 n (fst u) (snd u) x y + h1 (snd u) (fst u) * L2 n (snd u) (fst u) x y) prs + lsum (fun u => w u u * L4 n u u x y) prs).
    { rewrite <- lsum_add, <- (lsum_perm _ _ _ swap_perm), lsum_map. apply lsum_ext. intros [i j] H. apply nested_In in H. rewrite !in_seq in H. cbn [fst snd]. unfold low1, diag2. rewrite (h1_hermitian h a Ha Hh) by lia. ring. }
    rewrite P. change (lsum (fun uv => w (fst uv) (snd uv) * L4 n (fst uv) (snd uv) x y + w (snd uv) (fst uv) * L4 n (snd uv) (fst uv) x y) (combinations2 prs)) with (lsum (fun uv => both (fst uv) (snd uv) x y) (combinations2 prs)).
    rewrite pairs_sum. unfold all_pairs. rewrite !lsum_app, !lsum_map.
    assert (C : lsum (fun t => low2 h a (fst t, fst (snd t)) (snd (snd t), fst t) x y) (filter distinct3 (triples n)) = lsum (fun t => both (fst (share t)) (snd (share t)) x y) (filter distinct3 (triples n))).
    { apply lsum_ext. intros (i & j & k) H. apply filter_In in H as [H D]. apply distinct3_spec in D. apply triples_In in H. unfold share. cbn [fst snd].
      destruct (Nat.ltb_spec i k); [|destruct (Nat.ltb_spec i j)]; cbn [fst snd].
      - rewrite (low2_right k i) by (cbn [fst snd]; auto; lia). rewrite low2_both by (try (apply prs_In; lia); intros X; inversion X; lia). apply both_swap.
      - rewrite low2_both by (try (apply prs_In; lia); intros X; inversion X; lia). apply both_swap.
      - rewrite (low2_left i j) by (cbn [fst snd]; auto; lia). rewrite low2_both by (try (apply prs_In; lia); intros X; inversion X; lia). apply both_swap. }
    rewrite C.
    assert (D : lsum (fun t : nat * (nat * (nat * nat)) => let '(i, (j, (k, m))) := t in low2 h a (i, j) (k, m) x y + low2 h a (i, k) (j, m) x y + low2 h a (i, m) (j, k) x y) (quads n) =
      lsum (fun t => both (fst (split1 t)) (snd (split1 t)) x y) (quads n) + lsum (fun t => both (fst (split2 t)) (snd (split2 t)) x y) (quads n) + lsum (fun t => both (fst (split3 t)) (snd (split3 t)) x y) (quads n)).
    { rewrite <- !lsum_add. apply lsum_ext. intros (i & j & k & m) H. apply quads_In in H. unfold split1, split2, split3. cbn [fst snd].
      rewrite (low2_left i j), (low2_right k m), (low2_left i k), (low2_right j m), (low2_left i m), (low2_right j k) by (cbn [fst snd]; auto; lia).
      rewrite !low2_both by (try (apply prs_In; lia); intros X; inversion X; lia).
      rewrite (both_swap (j, i)), (both_swap (k, i)). ring. }
    rewrite D. ring.
  Qed.
  Lemma whole nq : nq = None \/ nq = Some n ->
    exists o, bravyi_kitaev_interaction_operator im half small is_zero order h a nq = Ok o /\ rep im n o (tensor_entry h a).
  Proof.
    intros H. destruct (whole_lower nq H) as (o & E & R). exists o. split; [exact E|]. eapply rep_ext; [|exact R]. intros. apply lower_entry; auto.
  Qed.
End Whole.

Section More.
  Context {K : cring} (im half : K) (small is_zero : K -> bool) (order : list N -> list N) (h : heap K) (a : ptensor K) (Ha : interaction_ok h a).
  Lemma number_steps_run m l : (forall i, In i l -> i < n_qubits a) -> forall s, exists s', foldM (number_step im half small is_zero order h a m) l s = Ok s'.
  Proof.
    induction l as [|i l IH]; intros Hl s; [exists s; reflexivity|]. assert (Hi : i < n_qubits a) by (apply Hl; left; auto). cbn [foldM]. destruct s as [[ham ops] const]. unfold number_step at 1.
    rewrite (one_value im small h a Ha) by auto. cbn [rbind].
    assert (G : forall l, (forall j, In j l -> j < i) -> forall s, exists s', foldM (coulomb_step im half is_zero order h a m i) l s = Ok s').
    { clear IH Hl. induction l0 as [|j l0 IH]; intros Hj s; [exists s; reflexivity|]. assert (j < i) by (apply Hj; left; auto). cbn [foldM]. destruct s as [[ham' ops'] const']. unfold coulomb_step at 1.
      rewrite (one_value im small h a Ha) by lia. cbn [rbind]. rewrite (coef_value im small h a Ha) by lia. cbn [rbind]. destruct (is_zero _); cbn [rbind]; apply IH; intros; apply Hj; right; auto. }
    match goal with |- context [rbind (foldM _ _ ?s0) _] => destruct (G (seq 0 i) (fun j Hj => proj2 (proj1 (in_seq i 0 j) Hj)) s0) as (s1 & E1) end.
    match type of E1 with ?L = _ => match goal with |- context [rbind ?X _] => change X with L end end. rewrite E1. cbn [rbind]. apply IH. intros; apply Hl; right; auto.
  Qed.
End More.
