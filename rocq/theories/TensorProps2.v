(** C52: the elements of a polynomial tensor and their order. *)
From Coq Require Import ZArith Lia Permutation Sorting.Sorted.
From Verif Require Import Base BaseFacts MatModel GaussQ OpModel TensorModel TensorSpec TensorProofs TensorProps ConvSpec ConvProofs.
Open Scope list_scope.
Local Open Scope nat_scope.

Lemma key_int_acc k z : fold_left (fun acc (b : bool) => (10 * acc + if b then 1 else 0)%Z) k z = (z * 10 ^ Z.of_nat (length k) + key_int k)%Z.
Proof.
  unfold key_int. revert z. induction k as [|b k IH]; intros z; [cbn; lia|]. cbn [fold_left length]. rewrite IH, (IH (10 * 0 + _)%Z).
  rewrite Nat2Z.inj_succ, Z.pow_succ_r by lia. destruct b; ring.
Qed.
Lemma key_int_cons b k : key_int (b :: k) = ((if b then 1 else 0) * 10 ^ Z.of_nat (length k) + key_int k)%Z.
Proof. unfold key_int at 1. cbn [fold_left]. rewrite key_int_acc. destruct b; reflexivity. Qed.
Lemma key_int_bounds k : (0 <= key_int k < 10 ^ Z.of_nat (length k))%Z.
Proof.
  induction k as [|b k IH]; [cbn; lia|]. rewrite key_int_cons. cbn [length]. rewrite Nat2Z.inj_succ, Z.pow_succ_r by lia. destruct b; lia.
Qed.
Notation bit_lt := (fun a b : bool => a = false /\ b = true).
Lemma key_int_lt k l : length k = length l -> (key_int k < key_int l)%Z <-> lex_before bit_lt k l.
Proof.
  revert l. induction k as [|b k IH]; intros [|c l] L; try discriminate.
  - split; [cbn; lia|intros H; inversion H].
  - injection L as L. rewrite !key_int_cons, <- L. pose proof (key_int_bounds k) as B1. pose proof (key_int_bounds l) as B2. rewrite <- L in B2. specialize (IH l L).
    destruct b, c.
    + rewrite <- Z.add_lt_mono_l, IH. split; [apply lex_rest|]. intros H; inversion H as [? ? ? ? [X _]|]; subst; [discriminate|auto].
    + split; [lia|]. intros H; inversion H as [? ? ? ? [X _]|]; subst; discriminate.
    + split; [intros _; apply lex_first; auto|lia].
    + rewrite <- Z.add_lt_mono_l, IH. split; [apply lex_rest|]. intros H; inversion H as [? ? ? ? [_ X]|]; subst; [discriminate|auto].
Qed.
Lemma key_int_inj k l : length k = length l -> key_int k = key_int l -> k = l.
Proof.
  revert l. induction k as [|b k IH]; intros [|c l] L E; try discriminate; [reflexivity|]. injection L as L. rewrite !key_int_cons, <- L in E.
  pose proof (key_int_bounds k). pose proof (key_int_bounds l) as B2. rewrite <- L in B2. destruct b, c; try lia; f_equal; apply IH; auto; lia.
Qed.
Lemma key_leb_total k l : key_leb k l = true \/ key_leb l k = true.
Proof.
  unfold key_leb. rewrite (Nat.eqb_sym (length l)). destruct (Nat.eqb_spec (length k) (length l)); rewrite ?Z.leb_le, ?Nat.ltb_lt; lia.
Qed.
Lemma key_leb_trans k l m : key_leb k l = true -> key_leb l m = true -> key_leb k m = true.
Proof.
  unfold key_leb. destruct (Nat.eqb_spec (length k) (length l)), (Nat.eqb_spec (length l) (length m)), (Nat.eqb_spec (length k) (length m)); rewrite ?Z.leb_le, ?Nat.ltb_lt; lia.
Qed.
Lemma key_leb_before k l : key_leb k l = true -> k <> l -> length k < length l \/ lex_before bit_lt k l.
Proof.
  unfold key_leb. destruct (Nat.eqb_spec (length k) (length l)) as [E|E]; [|rewrite Nat.ltb_lt; auto]. rewrite Z.leb_le. intros L N. right. apply key_int_lt; [exact E|].
  assert (key_int k <> key_int l) by (intros X; apply N, key_int_inj; auto). lia.
Qed.

Lemma sorted_app {X} (R : X -> X -> Prop) l m : StronglySorted R l -> StronglySorted R m -> (forall x y, In x l -> In y m -> R x y) -> StronglySorted R (l ++ m).
Proof.
  intros S1 S2 H. induction S1 as [|x l S1 IH F]; [exact S2|]. cbn [app]. constructor; [apply IH; intros; apply H; auto; now right|].
  apply Forall_app. split; [exact F|]. apply Forall_forall. intros y Hy. apply H; auto. now left.
Qed.
Lemma sorted_map {X Y} (R : X -> X -> Prop) (S : Y -> Y -> Prop) (f : X -> Y) l : (forall x y, In x l -> In y l -> R x y -> S (f x) (f y)) -> StronglySorted R l -> StronglySorted S (map f l).
Proof.
  intros H S1. induction S1 as [|x l S1 IH F]; cbn [map]; constructor.
  - apply IH. intros; apply H; auto; now right.
  - apply Forall_forall. intros y Hy. apply in_map_iff in Hy as (z & <- & Hz). apply H; [now left|now right|]. now apply (proj1 (Forall_forall _ _) F).
Qed.
Lemma sorted_filter {X} (R : X -> X -> Prop) p l : StronglySorted R l -> StronglySorted R (filter p l).
Proof.
  induction 1 as [|x l S1 IH F]; cbn [filter]; [constructor|]. destruct (p x); [|exact IH]. constructor; [exact IH|]. apply Forall_forall. intros y Hy. apply filter_In in Hy as [Hy _].
  now apply (proj1 (Forall_forall _ _) F).
Qed.
Lemma seq_sorted n s : StronglySorted Nat.lt (seq s n).
Proof. revert s. induction n as [|n IH]; intros s; cbn [seq]; constructor; [apply IH|]. apply Forall_forall. intros x Hx. apply in_seq in Hx. lia. Qed.
Lemma indices_sorted n m : StronglySorted (lex_before Nat.lt) (indices n m).
Proof.
  induction m as [|m IH]; cbn [indices]; [repeat constructor|]. pose proof (seq_sorted n 0) as S. induction S as [|x l S IHl F]; [constructor|]. cbn [flat_map]. apply sorted_app; [|exact IHl|].
  - eapply sorted_map; [|exact IH]. intros; now apply lex_rest.
  - intros i j Hi Hj. apply in_map_iff in Hi as (i' & <- & Hi). apply in_flat_map in Hj as (y & Hy & Hj). apply in_map_iff in Hj as (j' & <- & Hj). apply lex_first.
    + now apply (proj1 (Forall_forall _ _) F).
    + apply in_indices in Hi, Hj. destruct Hi, Hj. congruence.
Qed.

Section Iteration.
  Context {K : cring} (isz : K -> bool).
  (** Iterating over a tensor visits, each once and in order, the constant (if present) and the other stored elements that are not zero. *)
  Theorem C52_iteration h (a : ptensor K) : NoDup (dkeys (n_body_tensors a)) ->
    (forall t, In t (iterate isz h a) <->
      has_key a (map snd t) /\ (t = [] \/ (t <> [] /\ Forall (fun f => fst f < n_qubits a) t /\ isz (value h a (map snd t) (map fst t)) = false))) /\
    NoDup (iterate isz h a) /\ StronglySorted iterated_before (iterate isz h a).
  Proof.
    intros N. split; [intros t; apply in_iterate; auto|]. split; [now apply iterate_NoDup|].
    unfold iterate. set (l := sort_by _ _).
    assert (N' : NoDup (dkeys l)) by (eapply Permutation_NoDup; [|exact N]; apply Permutation_map, Permutation_sym, sort_by_perm).
    assert (S : StronglySorted (leP (fun kv lv : key * entry K => key_leb (fst kv) (fst lv))) l).
    { apply sort_by_sorted; [intros x y; apply key_leb_total|intros x y z; apply key_leb_trans]. }
    clearbody l. clear N.
    assert (Key : forall (kv : key * entry K) t, In t (match fst kv with [] => [[]] | _ :: _ => map (fun i => combine i (fst kv)) (filter (fun i => negb (isz (element h (snd kv) i))) (indices (n_qubits a) (length (fst kv)))) end) -> map snd t = fst kv).
    { intros [k e] t. cbn [fst snd]. destruct k as [|b k]; [intros [<-|[]]; reflexivity|]. intros Ht. apply in_map_iff in Ht as (i & <- & Hi). apply filter_In in Hi as [Hi _]. apply in_indices in Hi as [Hi _].
      now apply combine_snd. }
    induction S as [|[k e] l S IH F]; [constructor|]. cbn [dkeys map fst] in N'. apply NoDup_cons_iff in N' as [N1 N2]. cbn [flat_map]. apply sorted_app; [|now apply IH|].
    - cbn [fst snd]. destruct k as [|b k]; [repeat constructor|]. eapply sorted_map; [|apply sorted_filter, indices_sorted].
      intros i j Hi Hj L. apply filter_In in Hi as [Hi _], Hj as [Hj _]. apply in_indices in Hi as [Hi _], Hj as [Hj _]. right. right.
      rewrite !combine_snd, !combine_fst by auto. auto.
    - intros t u Ht Hu. apply Key in Ht. cbn [fst] in Ht. apply in_flat_map in Hu as ([k' e'] & Hin & Hu). apply Key in Hu. cbn [fst] in Hu.
      apply (proj1 (Forall_forall _ _) F) in Hin as L. unfold leP in L. cbn [fst] in L.
      assert (D : k <> k') by (intros ->; apply N1; apply in_map_iff; exists (k', e'); auto).
      destruct (key_leb_before k k' L D) as [X|X].
      + left. rewrite <- (map_length snd t), <- (map_length snd u), Ht, Hu. exact X.
      + right. left. now rewrite Ht, Hu.
  Qed.
End Iteration.
Example C52_example_iteration : iterate (fun c : GQ => gq_eqb c (gq 0 0)) ex_heap2 ex_c = [[]; [(0, false); (1, true)]; [(0, true); (1, false)]].
Proof. vm_compute. reflexivity. Qed.
Print Assumptions C52_iteration.
