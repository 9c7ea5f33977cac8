(** The pairs of pairs of modes, counted as triples and quadruples of modes. *)
From Coq Require Import Permutation Sorted Lia.
From Verif Require Import Base BaseFacts FermiProofs6 JWInterModel JWInterProofs2 JWInterProofs3 BKInterModel.
Open Scope list_scope.
Local Open Scope nat_scope.

Lemma nested_In {X Y} (l : list X) (f : X -> list Y) x y : In (x, y) (nested l f) <-> In x l /\ In y (f x).
Proof.
  unfold nested. rewrite in_flat_map. split.
  - intros (z & Hz & H). apply in_map_iff in H as (w & Q & Hw). inversion Q; subst. auto.
  - intros [H1 H2]. exists x. split; [auto|]. apply in_map. auto.
Qed.
Lemma nested_NoDup {X Y} (l : list X) (f : X -> list Y) : NoDup l -> (forall x, NoDup (f x)) -> NoDup (nested l f).
Proof.
  intros Hl Hf. induction Hl as [|x l Hx Hl IH]; [constructor|]. unfold nested. cbn [flat_map]. apply FermiProofs5.NoDup_app_intro'.
  - apply NoDup_map_inj'; [|auto]. intros a b _ _ Q. inversion Q. auto.
  - exact IH.
  - intros [a b] H1 H2. apply in_map_iff in H1 as (c & Q & _). inversion Q; subst. apply nested_In in H2. tauto.
Qed.
Lemma comb_In_sorted {X} (R : X -> X -> Prop) (l : list X) : (forall x y, R x y -> R y x -> False) -> StronglySorted R l -> forall u v, In (u, v) (combinations2 l) <-> In u l /\ In v l /\ R u v.
Proof.
  intros Irr S. induction S as [|x l S IH F]; intros u v; cbn [combinations2]; [cbn; tauto|]. rewrite Forall_forall in F. rewrite in_app_iff, in_map_iff. split.
  - intros [(y & Q & Hy)|H]; [inversion Q; subst; split; [left; auto|split; [right; auto|auto]]|]. apply IH in H as (H1 & H2 & H3). split; [right; auto|split; [right; auto|auto]].
  - intros ([<-|H1] & [<-|H2] & H3).
    + exfalso. eauto.
    + left. exists v. auto.
    + exfalso. eauto.
    + right. apply IH. auto.
Qed.
Definition lex (u v : nat * nat) : Prop := fst u < fst v \/ (fst u = fst v /\ snd u < snd v).
Lemma comb_sorted l : StronglySorted lt l -> StronglySorted lex (combinations2 l).
Proof.
  induction 1 as [|x l S IH F]; cbn [combinations2]; [constructor|]. rewrite Forall_forall in F.
  assert (A : StronglySorted lex (map (fun y => (x, y)) l)).
  { clear IH F. induction S as [|y l S IH F]; cbn [map]; constructor; [auto|]. apply Forall_forall. intros u Hu. apply in_map_iff in Hu as (z & <- & Hz). rewrite Forall_forall in F. right. cbn. auto. }
  assert (Bx : forall u v, In u (map (fun y => (x, y)) l) -> In v (combinations2 l) -> lex u v).
  { intros u [c d] Hu Hv. apply in_map_iff in Hu as (z & <- & Hz). apply comb_in in Hv as [Hc _]. left. cbn. auto. }
  revert A Bx. generalize (map (fun y => (x, y)) l). induction l0 as [|u m IHm]; intros A Bx; cbn [app]; [exact IH|]. inversion A as [|? ? A1 A2]; subst. constructor; [apply IHm; auto; intros; apply Bx; auto; right; auto|].
  apply Forall_forall. intros v Hv. apply in_app_or in Hv as [Hv|Hv]; [rewrite Forall_forall in A2; auto|apply Bx; auto; left; auto].
Qed.
Lemma prs_In n a b : In (a, b) (combinations2 (seq 0 n)) <-> a < b /\ b < n.
Proof.
  rewrite (comb_In_sorted lt); [|intros; lia|apply seq_sorted]. rewrite !in_seq. lia.
Qed.
Lemma prs2_In n a b c d : In ((a, b), (c, d)) (combinations2 (combinations2 (seq 0 n))) <-> a < b /\ b < n /\ c < d /\ d < n /\ (a < c \/ (a = c /\ b < d)).
Proof.
  rewrite (comb_In_sorted lex); [|unfold lex; intros; lia|apply comb_sorted, seq_sorted]. rewrite !prs_In. unfold lex. cbn [fst snd]. lia.
Qed.

Definition triples (n : nat) : list (nat * (nat * nat)) := nested (seq 0 n) (fun _ => nested (seq 0 n) (fun j => seq 0 j)).
Definition quads (n : nat) : list (nat * (nat * (nat * nat))) := nested (seq 0 n) (fun i => nested (seq 0 i) (fun j => nested (seq 0 j) (fun k => seq 0 k))).
Lemma triples_In n i j k : In (i, (j, k)) (triples n) <-> i < n /\ j < n /\ k < j.
Proof. unfold triples. rewrite !nested_In, !in_seq. lia. Qed.
Lemma quads_In n i j k l : In (i, (j, (k, l))) (quads n) <-> i < n /\ j < i /\ k < j /\ l < k.
Proof. unfold quads. rewrite !nested_In, !in_seq. lia. Qed.
Lemma triples_NoDup n : NoDup (triples n).
Proof. repeat (apply nested_NoDup; [apply seq_NoDup|intros]). apply seq_NoDup. Qed.
Lemma quads_NoDup n : NoDup (quads n).
Proof. repeat (apply nested_NoDup; [apply seq_NoDup|intros]). apply seq_NoDup. Qed.

Definition distinct3 (t : nat * (nat * nat)) : bool := negb (Nat.eqb (fst t) (fst (snd t)) || Nat.eqb (fst t) (snd (snd t))).
Definition share (t : nat * (nat * nat)) : (nat * nat) * (nat * nat) :=
  let '(i, (j, k)) := t in if i <? k then ((i, k), (i, j)) else if i <? j then ((k, i), (i, j)) else ((k, i), (j, i)).
Definition split1 (t : nat * (nat * (nat * nat))) : (nat * nat) * (nat * nat) := let '(i, (j, (k, l))) := t in ((l, k), (j, i)).
Definition split2 (t : nat * (nat * (nat * nat))) : (nat * nat) * (nat * nat) := let '(i, (j, (k, l))) := t in ((l, j), (k, i)).
Definition split3 (t : nat * (nat * (nat * nat))) : (nat * nat) * (nat * nat) := let '(i, (j, (k, l))) := t in ((l, i), (k, j)).
Definition all_pairs (n : nat) : list ((nat * nat) * (nat * nat)) :=
  map share (filter distinct3 (triples n)) ++ map split1 (quads n) ++ map split2 (quads n) ++ map split3 (quads n).

Lemma distinct3_spec i j k : distinct3 (i, (j, k)) = true <-> i <> j /\ i <> k.
Proof. unfold distinct3. cbn [fst snd]. rewrite negb_true_iff, orb_false_iff, !Nat.eqb_neq. tauto. Qed.
Lemma share_In n a b c d : In ((a, b), (c, d)) (map share (filter distinct3 (triples n))) <->
  a < b /\ b < n /\ c < d /\ d < n /\ ((a = c /\ b < d) \/ (b = c) \/ (b = d /\ a < c)).
Proof.
  rewrite in_map_iff. split.
  - intros ((i & j & k) & Q & H). apply filter_In in H as [H D]. apply distinct3_spec in D. apply triples_In in H. unfold share in Q.
    destruct (Nat.ltb_spec i k); [|destruct (Nat.ltb_spec i j)]; injection Q as <- <- <- <-; lia.
  - intros (H1 & H2 & H3 & H4 & [[<- H5]|[<-|[<- H5]]]).
    + exists (a, (d, b)). split; [|apply filter_In; rewrite triples_In, distinct3_spec; lia]. unfold share. destruct (Nat.ltb_spec a b); [reflexivity|lia].
    + exists (b, (d, a)). split; [|apply filter_In; rewrite triples_In, distinct3_spec; lia]. unfold share. destruct (Nat.ltb_spec b a); [lia|]. destruct (Nat.ltb_spec b d); [reflexivity|lia].
    + exists (b, (c, a)). split; [|apply filter_In; rewrite triples_In, distinct3_spec; lia]. unfold share. destruct (Nat.ltb_spec b a); [lia|]. destruct (Nat.ltb_spec b c); [lia|reflexivity].
Qed.
Lemma split1_In n a b c d : In ((a, b), (c, d)) (map split1 (quads n)) <-> a < b /\ b < c /\ c < d /\ d < n.
Proof.
  rewrite in_map_iff. split.
  - intros ((i & j & k & l) & Q & H). apply quads_In in H. injection Q as <- <- <- <-. lia.
  - intros H. exists (d, (c, (b, a))). split; [reflexivity|]. apply quads_In. lia.
Qed.
Lemma split2_In n a b c d : In ((a, b), (c, d)) (map split2 (quads n)) <-> a < c /\ c < b /\ b < d /\ d < n.
Proof.
  rewrite in_map_iff. split.
  - intros ((i & j & k & l) & Q & H). apply quads_In in H. injection Q as <- <- <- <-. lia.
  - intros H. exists (d, (b, (c, a))). split; [reflexivity|]. apply quads_In. lia.
Qed.
Lemma split3_In n a b c d : In ((a, b), (c, d)) (map split3 (quads n)) <-> a < c /\ c < d /\ d < b /\ b < n.
Proof.
  rewrite in_map_iff. split.
  - intros ((i & j & k & l) & Q & H). apply quads_In in H. injection Q as <- <- <- <-. lia.
  - intros H. exists (b, (d, (c, a))). split; [reflexivity|]. apply quads_In. lia.
Qed.
Lemma all_pairs_NoDup n : NoDup (all_pairs n).
Proof.
  unfold all_pairs. apply FermiProofs5.NoDup_app_intro'; [|apply FermiProofs5.NoDup_app_intro'; [|apply FermiProofs5.NoDup_app_intro'|]|].
  - apply NoDup_map_inj'; [|apply NoDup_filter, triples_NoDup]. intros (i & j & k) (i' & j' & k') H1 H2 Q. apply filter_In in H1 as [H1 D1], H2 as [H2 D2].
    apply distinct3_spec in D1, D2. apply triples_In in H1, H2. unfold share in Q.
    destruct (Nat.ltb_spec i k), (Nat.ltb_spec i j), (Nat.ltb_spec i' k'), (Nat.ltb_spec i' j'); injection Q; intros; try lia; repeat f_equal; lia.
  - apply NoDup_map_inj'; [|apply quads_NoDup]. intros (i & j & k & l) (i' & j' & k' & l') _ _ Q. injection Q. intros. subst. reflexivity.
  - apply NoDup_map_inj'; [|apply quads_NoDup]. intros (i & j & k & l) (i' & j' & k' & l') _ _ Q. injection Q. intros. subst. reflexivity.
  - apply NoDup_map_inj'; [|apply quads_NoDup]. intros (i & j & k & l) (i' & j' & k' & l') _ _ Q. injection Q. intros. subst. reflexivity.
  - intros [[a b] [c d]]. rewrite split2_In, split3_In. lia.
  - intros [[a b] [c d]]. rewrite in_app_iff, split1_In, split2_In, split3_In. lia.
  - intros [[a b] [c d]]. rewrite share_In, !in_app_iff, split1_In, split2_In, split3_In. lia.
Qed.
Lemma pairs_perm n : Permutation (combinations2 (combinations2 (seq 0 n))) (all_pairs n).
Proof.
  apply NoDup_Permutation; [apply comb_NoDup, comb_NoDup, seq_NoDup|apply all_pairs_NoDup|]. intros [[a b] [c d]]. rewrite prs2_In. unfold all_pairs. rewrite !in_app_iff, share_In, split1_In, split2_In, split3_In. lia.
Qed.
