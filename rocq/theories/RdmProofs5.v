(** The density matrix of a state vector. *)
From Coq Require Import ZArith Ring Permutation Setoid Morphisms Ncring Ncring_tac.
From Verif Require Import Base BaseFacts MatModel MatFacts LiftSpec LiftProofs OpModel OpSpec OpProofs PauliProofs OpProofs2 FermiModel FermiSpec FermiProofs FermiProofs2 FermiProofs3 LayoutProofs
  TensorModel TensorSpec TensorProps DiagModel DiagSpec ConvModel ConvProofs ActsProofs SectorSpec MatRing UCCProofs
  MolModel MolSpec MolProofs MolProofs2 MolProofs3 MolProofs4 MolProofs5 MolProofs6 MolProofs8 SparseModel SparseProps RdmModel RdmSpec RdmProofs RdmProofs2 RdmProofs3 RdmProofs4.
Open Scope list_scope.
Local Open Scope nat_scope.

Lemma nth_flat {X} (g : nat -> list X) m (d : X) : (forall i, length (g i) = m) -> forall k a i j, i < k -> j < m -> nth (i * m + j) (flat_map g (seq a k)) d = nth j (g (a + i)) d.
Proof.
  intros Hg. induction k as [|k IH]; intros a i j Hi Hj; [lia|]. cbn [seq flat_map]. destruct i as [|i].
  - cbn [Nat.mul Nat.add]. rewrite app_nth1 by (rewrite Hg; lia). rewrite Nat.add_0_r. reflexivity.
  - rewrite app_nth2 by (rewrite Hg; cbn; lia). rewrite Hg. replace (S i * m + j - m) with (i * m + j) by (cbn; lia). rewrite IH by lia. f_equal. f_equal. lia.
Qed.
Lemma indices2 n i j : i < n -> j < n -> nth (i * n + j) (indices n 2) [] = [i; j].
Proof.
  intros Hi Hj. assert (L1 : indices n 1 = map (fun j => [j]) (seq 0 n)).
  { cbn [indices]. generalize (seq 0 n). intros l. induction l as [|x l IH]; [reflexivity|]. cbn in *. rewrite IH. reflexivity. }
  change (indices n 2) with (flat_map (fun i => map (cons i) (indices n 1)) (seq 0 n)).
  rewrite nth_flat by (auto; intros k; rewrite map_length, L1, map_length, seq_length; reflexivity). rewrite L1, map_map. cbn [Nat.add].
  rewrite (nth_indep _ [] [i; 0]) by (rewrite map_length, seq_length; exact Hj). rewrite (map_nth (fun x => [i; x]) (seq 0 n) 0 j), seq_nth by exact Hj. reflexivity.
Qed.

Lemma flat_length {X} (g : nat -> list X) m l : (forall i, length (g i) = m) -> length (flat_map g l) = length l * m.
Proof. intros Hg. induction l as [|x l IH]; [reflexivity|]. cbn [flat_map length Nat.mul]. rewrite app_length, Hg, IH. reflexivity. Qed.
Lemma indices2_length n : length (indices n 2) = n * n.
Proof.
  change (indices n 2) with (flat_map (fun i => map (cons i) (indices n 1)) (seq 0 n)). rewrite (flat_length _ n), seq_length; [reflexivity|]. intros i. rewrite map_length.
  change (indices n 1) with (flat_map (fun i => map (cons i) [[]]) (seq 0 n)). rewrite (flat_length _ 1), seq_length by reflexivity. lia.
Qed.

Section V.
  Context {K : cring} (im half : K) (Him : kmul im im = kopp k1) (Hhalf : kadd half half = k1) (small isz : K -> bool) (Hz : forall c, isz c = true <-> c = k0).
  Add Ring Kring_rdm5 : (kth K).
  Open Scope K_scope.
  Notation arr := (TensorModel.ndarray K).
  Context (n : nat) (v : vec K) (Lv : vlen v = (2 ^ n)%nat).
  Notation F t := (average n (pure v) (fterm_matrix n t)).
  Lemma state_element_ok t : on_modes n t -> state_element im half small isz n v t = Ok (F t).
  Proof.
    intros Ht. unfold state_element. assert (On : on_qubits n (fermion_op (K := K) t 1)) by (intros u c [E|[]]; inversion E; subst; auto).
    destruct (C74_fermion im half Him Hhalf small isz Hz _ n On) as (A & -> & Hr & Hc & M). cbn [rbind]. destruct (fop_shape n (fermion_op (K := K) t 1)) as [Sr Sc]. rewrite Sr in Hr. rewrite Sc in Hc.
    unfold sandwich. rewrite Lv, Hr, Hc, Nat.eqb_refl. cbn [andb]. f_equal.
    transitivity (bigsum (2 ^ n) (fun j => bigsum (2 ^ n) (fun i => kconj (vent v i) * ent A i j * vent v j))).
    { apply bigsum_ext. intros j _. apply bigsum_mul_r. }
    rewrite bigsum_swap. unfold average. apply bigsum_ext. intros i Hi. apply bigsum_ext. intros j Hj. cbn [pure ent]. rewrite M by congruence. rewrite fop_ent. cbn [fermion_op mk_op fermion_simplify lval fst snd]. ring.
  Qed.
  Lemma one_body_ok : exists x : arr, one_body_of im half small isz n v = Ok x /\ shape0 x = n /\ forall p q, (p < n)%nat -> (q < n)%nat -> data x [p; q] = F [(p, true); (q, false)].
  Proof.
    unfold one_body_of. rewrite (mapM_ok_map _ (fun ij => F (combine ij [true; false]))).
    2:{ intros i Hi. apply state_element_ok. apply in_indices in Hi. destruct Hi as [_ Hi]. rewrite Forall_forall in Hi. intros [p b] Hf. apply Hi. apply in_combine_l in Hf. exact Hf. }
    cbn [rbind]. eexists. split; [reflexivity|]. cbn [shape0 data]. split; [reflexivity|]. intros p q Hp Hq.
    assert (L : (p * n + q < length (indices n 2))%nat).
    { rewrite indices2_length. nia. }
    rewrite (nth_indep _ 0 (F (combine [] [true; false]))) by (rewrite map_length; exact L).
    rewrite (map_nth (fun ij => F (combine ij [true; false])) (indices n 2) [] (p * n + q)). rewrite indices2 by auto. reflexivity.
  Qed.
  Lemma F_swap_c p q r s : (p < n)%nat -> (q < n)%nat -> F [(p, true); (q, true); (r, false); (s, false)] = - F [(q, true); (p, true); (r, false); (s, false)].
  Proof.
    intros Hp Hq. rewrite !average_AV. transitivity (AV n (pure v) (fun i j => - (1) * ent (fterm_matrix n [(q, true); (p, true); (r, false); (s, false)]) i j)); [|rewrite AV_mul; ring].
    apply AV_ext. intros i j Hi Hj. rewrite !T4_ent by auto. rewrite (T4_swap_c n p q r s Hp Hq i j Hi Hj). unfold sq_opp. ring.
  Qed.
  Lemma F_swap_a p q r s : (r < n)%nat -> (s < n)%nat -> F [(p, true); (q, true); (r, false); (s, false)] = - F [(p, true); (q, true); (s, false); (r, false)].
  Proof.
    intros Hp Hq. rewrite !average_AV. transitivity (AV n (pure v) (fun i j => - (1) * ent (fterm_matrix n [(p, true); (q, true); (s, false); (r, false)]) i j)); [|rewrite AV_mul; ring].
    apply AV_ext. intros i j Hi Hj. rewrite !T4_ent by auto. rewrite (T4_swap_a n p q r s Hp Hq i j Hi Hj). unfold sq_opp. ring.
  Qed.
  Notation F4 p q r s := (F [(p, true); (q, true); (r, false); (s, false)]).
  Lemma two_body_ok : exists x : arr, two_body_of im half small isz n v = Ok x /\ shape0 x = n /\
    forall p q r s, (p < n)%nat -> (q < n)%nat -> (r < n)%nat -> (s < n)%nat -> data x [p; q; r; s] = F4 p q r s.
  Proof.
    set (ws := fun p q r s : nat => [([p; q; r; s], F4 p q r s); ([q; p; r; s], - F4 p q r s); ([q; p; s; r], F4 p q r s); ([p; q; s; r], - F4 p q r s)]).
    set (W := flat_map (fun p => flat_map (fun q => flat_map (fun r => flat_map (ws p q r) (seq 0 (r + 1))) (seq 0 n)) (seq 0 (p + 1))) (seq 0 n)).
    assert (E : two_body_of im half small isz n v = Ok (put W (zeros_array n))).
    { unfold two_body_of, W. apply (foldM_put _ (fun p => flat_map (fun q => flat_map (fun r => flat_map (ws p q r) (seq 0 (r + 1))) (seq 0 n)) (seq 0 (p + 1)))).
      intros p Hp x. apply (foldM_put _ (fun q => flat_map (fun r => flat_map (ws p q r) (seq 0 (r + 1))) (seq 0 n))). intros q Hq y. apply (foldM_put _ (fun r => flat_map (ws p q r) (seq 0 (r + 1)))). intros r Hr z.
      apply (foldM_put _ (ws p q r)). intros s Hs t. apply in_seq in Hp, Hq, Hr, Hs. rewrite state_element_ok by (intros f [<-|[<-|[<-|[<-|[]]]]]; cbn; lia). reflexivity. }
    exists (put W (zeros_array n)). split; [exact E|]. split; [rewrite put_shape; reflexivity|]. intros p q r s Hp Hq Hr Hs.
    assert (In_W : forall iv, In iv W <-> exists p q r s, (p < n /\ q <= p /\ r < n /\ s <= r)%nat /\ In iv (ws p q r s)).
    { intros iv. unfold W. rewrite in_flat_map. split.
      - intros (i & Hi & H). apply in_flat_map in H. destruct H as (j & Hj & H). apply in_flat_map in H. destruct H as (k & Hk & H). apply in_flat_map in H. destruct H as (l & Hl & H).
        apply in_seq in Hi, Hj, Hk, Hl. exists i, j, k, l. repeat split; auto; lia.
      - intros (i & j & k & l & Hl & H). exists i. split; [apply in_seq; lia|]. apply in_flat_map. exists j. split; [apply in_seq; lia|]. apply in_flat_map. exists k. split; [apply in_seq; lia|]. apply in_flat_map. exists l. split; [apply in_seq; lia|exact H]. }
    apply put_same.
    - intros iv H Ei. apply In_W in H. destruct H as (i & j & k & l & Hl & H). destruct H as [<-|[<-|[<-|[<-|[]]]]]; cbn [fst snd] in *; injection Ei as -> -> -> ->.
      + reflexivity.
      + rewrite (F_swap_c q p r s) by lia. ring.
      + rewrite (F_swap_c q p s r) by lia. rewrite (F_swap_a p q s r) by lia. ring.
      + rewrite (F_swap_a p q s r) by lia. ring.
    - right. destruct (le_lt_dec q p) as [Lq|Lq], (le_lt_dec s r) as [Ls|Ls].
      + exists ([p; q; r; s], F4 p q r s). split; [|reflexivity]. apply In_W. exists p, q, r, s. split; [lia|]. unfold ws. cbn [In]. auto.
      + exists ([p; q; r; s], - F4 p q s r). split; [|reflexivity]. apply In_W. exists p, q, s, r. split; [lia|]. unfold ws. cbn [In]. auto.
      + exists ([p; q; r; s], - F4 q p r s). split; [|reflexivity]. apply In_W. exists q, p, r, s. split; [lia|]. unfold ws. cbn [In]. auto.
      + exists ([p; q; r; s], F4 q p s r). split; [|reflexivity]. apply In_W. exists q, p, s, r. split; [lia|]. unfold ws. cbn [In]. auto.
  Qed.
End V.
