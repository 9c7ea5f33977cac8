(** Density matrices of the Hartree-Fock state and of state vectors. *)
From Coq Require Import ZArith Ring Permutation Setoid Morphisms Ncring Ncring_tac.
From Verif Require Import Base BaseFacts MatModel MatFacts LiftSpec LiftProofs OpModel OpSpec OpProofs PauliProofs OpProofs2 FermiModel FermiSpec FermiProofs FermiProofs2 FermiProofs3 FermiProofs7 FermiProps FermiProps2
  TensorModel TensorSpec TensorProps DiagModel DiagSpec DiagProofs ConvModel ConvProofs ActsProofs SectorSpec UCCSpec MatRing UCCProofs UCCProofs2 UCCProofs3 UCCProofs4 UCCProofs5
  MolModel MolSpec MolProofs MolProofs2 MolProofs3 MolProofs4 MolProofs5 MolProofs6 MolProofs8 SparseModel SparseProps RdmModel RdmSpec RdmProofs RdmProofs2 RdmProofs3.
Open Scope list_scope.
Local Open Scope nat_scope.

Section HF.
  Context {K : cring} (half : K) (Hhalf : kadd half half = k1) (n : nat).
  Add Ring Kring_rdm4 : (kth K).
  Open Scope K_scope.
  Local Notation "A '==' B" := (sq_eq (K := K) (Nat.pow 2 n) A B) (at level 70, no associativity) : sq_scope.
  Local Notation "A '+' B" := (sq_add (K := K) (Nat.pow 2 n) A B) : sq_scope.
  Local Notation "A '-' B" := (sq_sub (K := K) (Nat.pow 2 n) A B) : sq_scope.
  Local Notation "A '*' B" := (sq_mul (K := K) (Nat.pow 2 n) A B) : sq_scope.
  Local Notation "'-' A" := (sq_opp (K := K) (Nat.pow 2 n) A) : sq_scope.
  Notation c_ p := (lad (K := K) n p true).
  Notation a_ p := (lad (K := K) n p false).
  Notation E2 := (E2 (K := K) n).
  Notation T4 := (T4 (K := K) n).
  Lemma two_zero (x : K) : x = - x -> x = 0.
  Proof. intros H. transitivity ((half + half) * x); [rewrite Hhalf; ring|]. transitivity (half * (x + x)); [ring|]. rewrite H at 1. ring. Qed.
  (** The diagonal entries of a term that does not restore each mode vanish. *)
  Lemma diag_unbalanced P t c : on_modes n t -> length c = n -> tcount P false t <> tcount P true t -> ent (fterm_matrix (K := K) n t) (bval c) (bval c) = 0.
  Proof.
    intros Ht Hc N. destruct (fterm_mono (K := K) n t Ht) as (_ & _ & E). rewrite E.
    2,3: rewrite ?(proj1 (fterm_shape n t)), ?(proj2 (fterm_shape n t)); rewrite <- Hc; apply bval_lt.
    rewrite mono_ent by (auto; rewrite fact_length; auto). destruct (list_eqb Bool.eqb c _) eqn:L; [|ring]. apply (list_eqb_spec _ bool_eqb_spec) in L.
    destruct (fact_counts (K := K) n P t c Ht Hc) as [Z|Z]; [rewrite Z; ring|]. exfalso. apply N. rewrite <- L in Z. lia.
  Qed.
  Lemma T4_number p q c : (p < n)%nat -> (q < n)%nat -> p <> q -> length c = n -> T4 p q q p (bval c) (bval c) = if nth p c false && nth q c false then 1 else 0.
  Proof.
    intros Hp Hq Npq Hc. assert (Bc : (bval c < 2 ^ n)%nat) by (rewrite <- Hc; apply bval_lt).
    assert (Q : (T4 p q q p == (sq1 _ * (c_ p * a_ p)) * (c_ q * a_ q))%sq).
    { pose proof (lad_car (K := K) n p q false false Hp Hq) as C1. pose proof (lad_car (K := K) n p q false true Hp Hq) as C2. cbn [Bool.eqb negb] in C1, C2. unfold delta in C2. rewrite (proj2 (Nat.eqb_neq p q) Npq) in C2.
      unfold MolProofs8.T4. revert C1 C2. generalize (c_ p), (c_ q), (a_ p), (a_ q). intros cp cq ap aq C1 C2.
      transitivity (cp * ap * cq * aq + cp * cq * (ap * aq + aq * ap) - cp * (ap * cq + cq * ap) * aq)%sq; [non_commutative_ring|]. rewrite C1, C2. non_commutative_ring. }
    rewrite (Q _ _ Bc Bc). rewrite number_col by auto. rewrite number_col by auto. unfold sq1, MatModel.delta. rewrite Nat.eqb_refl. destruct (nth p c false), (nth q c false); cbn [andb]; ring.
  Qed.
  Lemma E2_diag p q c : (p < n)%nat -> (q < n)%nat -> length c = n -> ent (fterm_matrix (K := K) n [(p, true); (q, false)]) (bval c) (bval c) = if Nat.eqb p q then (if nth p c false then 1 else 0) else 0.
  Proof.
    intros Hp Hq Hc. assert (Bc : (bval c < 2 ^ n)%nat) by (rewrite <- Hc; apply bval_lt). destruct (Nat.eqb_spec p q) as [<-|N].
    - rewrite E2_ent by auto. unfold MolProofs8.E2. assert (Q : (c_ p * a_ p == sq1 _ * (c_ p * a_ p))%sq) by (generalize (c_ p), (a_ p); intros; non_commutative_ring). rewrite (Q _ _ Bc Bc). rewrite number_col by auto. unfold sq1, MatModel.delta. rewrite Nat.eqb_refl. ring.
    - apply (diag_unbalanced (Nat.eqb p)); [intros f [<-|[<-|[]]]; auto|exact Hc|]. unfold tcount. cbn [filter fst snd Bool.eqb]. rewrite Nat.eqb_refl, (proj2 (Nat.eqb_neq p q) N). cbn. lia.
  Qed.
  Lemma T4_diag p q r s c : (p < n)%nat -> (q < n)%nat -> (r < n)%nat -> (s < n)%nat -> length c = n -> ent (fterm_matrix (K := K) n [(p, true); (q, true); (r, false); (s, false)]) (bval c) (bval c) =
    if negb (Nat.eqb p q) && nth p c false && nth q c false then (if Nat.eqb r q && Nat.eqb s p then 1 else if Nat.eqb r p && Nat.eqb s q then - (1) else 0) else 0.
  Proof.
    intros Hp Hq Hr Hs Hc. assert (Bc : (bval c < 2 ^ n)%nat) by (rewrite <- Hc; apply bval_lt).
    assert (Om : on_modes n [(p, true); (q, true); (r, false); (s, false)]) by (intros f [<-|[<-|[<-|[<-|[]]]]]; auto).
    destruct (Nat.eqb_spec p q) as [<-|Npq]; cbn [negb andb].
    - rewrite T4_ent by auto. apply two_zero. exact (T4_swap_c n p p r s Hp Hp _ _ Bc Bc).
    - destruct (Nat.eqb_spec r s) as [<-|Nrs].
      + rewrite T4_ent by auto. rewrite (two_zero _ (T4_swap_a n p q r r Hr Hr _ _ Bc Bc)). destruct (Nat.eqb_spec r q), (Nat.eqb_spec r p); cbn [andb]; try (exfalso; congruence); destruct (nth p c false && nth q c false); reflexivity.
      + destruct (Nat.eq_dec p r) as [<-|Npr].
        * destruct (Nat.eqb_spec p q); [congruence|]. rewrite Nat.eqb_refl. cbn [andb]. destruct (Nat.eqb_spec s q) as [->|Nsq].
          -- rewrite T4_ent by auto. rewrite (T4_swap_a n p q p q Hp Hq _ _ Bc Bc). unfold sq_opp. rewrite T4_number by auto. destruct (nth p c false && nth q c false); ring.
          -- rewrite (diag_unbalanced (Nat.eqb q)); auto; [destruct (nth p c false && nth q c false); reflexivity|]. unfold tcount. cbn [filter fst snd Bool.eqb]. rewrite Nat.eqb_refl, (proj2 (Nat.eqb_neq q p)), (proj2 (Nat.eqb_neq q s)) by congruence. cbn. lia.
        * destruct (Nat.eq_dec p s) as [<-|Nps].
          -- rewrite Nat.eqb_refl. destruct (Nat.eqb_spec r q) as [->|Nrq]; cbn [andb].
             ++ rewrite T4_ent by auto. rewrite T4_number by auto. reflexivity.
             ++ rewrite (diag_unbalanced (Nat.eqb q)); auto; [destruct (Nat.eqb_spec r p); [congruence|]; cbn [andb]; destruct (nth p c false && nth q c false); reflexivity|]. unfold tcount. cbn [filter fst snd Bool.eqb]. rewrite Nat.eqb_refl, (proj2 (Nat.eqb_neq q p)), (proj2 (Nat.eqb_neq q r)) by congruence. cbn. lia.
          -- rewrite (diag_unbalanced (Nat.eqb p)); auto; [destruct (Nat.eqb_spec s p); [congruence|]; destruct (Nat.eqb_spec r p); [congruence|]; rewrite andb_false_r; cbn [andb]; destruct (nth p c false && nth q c false); reflexivity|].
             unfold tcount. cbn [filter fst snd Bool.eqb]. rewrite Nat.eqb_refl, (proj2 (Nat.eqb_neq p q)), (proj2 (Nat.eqb_neq p r)), (proj2 (Nat.eqb_neq p s)) by congruence. cbn. lia.
  Qed.
End HF.

Section S.
  Context {K : cring}.
  Add Ring Kring_rdm4b : (kth K).
  Open Scope K_scope.
  Notation arr := (TensorModel.ndarray K).
  Lemma fold_put {X} (f : arr -> X -> arr) (ws : X -> list (list nat * K)) l : (forall s, In s l -> forall x, f x s = put (ws s) x) -> forall x, fold_left f l x = put (flat_map ws l) x.
  Proof.
    induction l as [|s l IH]; intros H x; [reflexivity|]. cbn [fold_left flat_map]. rewrite put_app, H by (left; reflexivity). apply IH. intros t Ht. apply H. right; exact Ht.
  Qed.
  Definition hf_two (occ : nat -> bool) (i j k l : nat) : K := if negb (Nat.eqb i j) && occ i && occ j then (if Nat.eqb k j && Nat.eqb l i then 1 else if Nat.eqb k i && Nat.eqb l j then - (1) else 0) else 0.
  Lemma hf_two_data occ n p q r s : (p < n)%nat -> (q < n)%nat ->
    let x := fold_left (fun x i => fold_left (fun (x : arr) j => if negb (Nat.eqb i j) && occ i && occ j then assign (assign x [i; j; j; i] 1) [i; j; i; j] (- (1)) else x) (seq 0 n) x) (seq 0 n) (zeros_array n) in
    shape0 x = n /\ data x [p; q; r; s] = hf_two occ p q r s.
  Proof.
    intros Hp Hq. cbn zeta. set (ws := fun i j => if negb (Nat.eqb i j) && occ i && occ j then [([i; j; j; i], 1 : K); ([i; j; i; j], - (1))] else []).
    rewrite (fold_put _ (fun i => flat_map (ws i) (seq 0 n))).
    2:{ intros i _ x. apply (fold_put _ (ws i)). intros j _ y. unfold ws. destruct (_ && occ j); reflexivity. }
    split; [rewrite put_shape; reflexivity|]. unfold hf_two.
    assert (In_ws : forall iv, In iv (flat_map (fun i => flat_map (ws i) (seq 0 n)) (seq 0 n)) <-> exists i j, (i < n)%nat /\ (j < n)%nat /\ In iv (ws i j)).
    { intros iv. rewrite in_flat_map. split.
      - intros (i & Hi & H). apply in_flat_map in H. destruct H as (j & Hj & H). apply in_seq in Hi, Hj. exists i, j. repeat split; auto; lia.
      - intros (i & j & Hi & Hj & H). exists i. split; [apply in_seq; lia|]. apply in_flat_map. exists j. split; [apply in_seq; lia|exact H]. }
    destruct (negb (Nat.eqb p q) && occ p && occ q) eqn:G.
    2:{ rewrite put_none; [reflexivity|]. intros iv H E. apply In_ws in H. destruct H as (i & j & _ & _ & H). unfold ws in H. destruct (negb (Nat.eqb i j) && occ i && occ j) eqn:G'; [|destruct H]. destruct H as [<-|[<-|[]]]; cbn [fst] in E; inversion E; subst; congruence. }
    assert (Npq : p <> q) by (intros ->; rewrite Nat.eqb_refl in G; discriminate).
    destruct (Nat.eqb_spec r q) as [->|Nrq], (Nat.eqb_spec s p) as [->|Nsp]; cbn [andb].
    - apply put_same; [|right; exists ([p; q; q; p], 1); split; [apply In_ws; exists p, q; unfold ws; rewrite G; cbn; auto|reflexivity]].
      intros iv H E. apply In_ws in H. destruct H as (i & j & _ & _ & H). unfold ws in H. destruct (_ && occ j); [|destruct H]. destruct H as [<-|[<-|[]]]; cbn [fst snd] in *; inversion E; subst; congruence.
    - destruct (Nat.eqb_spec q p); [congruence|]. cbn [andb]. rewrite put_none; [reflexivity|]. intros iv H E. apply In_ws in H. destruct H as (i & j & _ & _ & H). unfold ws in H. destruct (_ && occ j); [|destruct H]. destruct H as [<-|[<-|[]]]; cbn [fst] in E; inversion E; subst; congruence.
    - destruct (Nat.eqb_spec p q); [congruence|]. rewrite andb_false_r. rewrite put_none; [reflexivity|]. intros iv H E. apply In_ws in H. destruct H as (i & j & _ & _ & H). unfold ws in H. destruct (_ && occ j); [|destruct H]. destruct H as [<-|[<-|[]]]; cbn [fst] in E; inversion E; subst; congruence.
    - destruct (Nat.eqb_spec r p) as [->|Nrp], (Nat.eqb_spec s q) as [->|Nsq]; cbn [andb].
      + apply put_same; [|right; exists ([p; q; p; q], - (1)); split; [apply In_ws; exists p, q; unfold ws; rewrite G; cbn; auto|reflexivity]].
        intros iv H E. apply In_ws in H. destruct H as (i & j & _ & _ & H). unfold ws in H. destruct (_ && occ j); [|destruct H]. destruct H as [<-|[<-|[]]]; cbn [fst snd] in *; inversion E; subst; congruence.
      + rewrite put_none; [reflexivity|]. intros iv H E. apply In_ws in H. destruct H as (i & j & _ & _ & H). unfold ws in H. destruct (_ && occ j); [|destruct H]. destruct H as [<-|[<-|[]]]; cbn [fst] in E; inversion E; subst; congruence.
      + rewrite put_none; [reflexivity|]. intros iv H E. apply In_ws in H. destruct H as (i & j & _ & _ & H). unfold ws in H. destruct (_ && occ j); [|destruct H]. destruct H as [<-|[<-|[]]]; cbn [fst] in E; inversion E; subst; congruence.
      + rewrite put_none; [reflexivity|]. intros iv H E. apply In_ws in H. destruct H as (i & j & _ & _ & H). unfold ws in H. destruct (_ && occ j); [|destruct H]. destruct H as [<-|[<-|[]]]; cbn [fst] in E; inversion E; subst; congruence.
  Qed.
  Lemma basis_average n (v : vec K) b A : is_basis_state n v b -> average n (pure v) A = ent A (bval b) (bval b).
  Proof.
    intros (Lv & Hb & Hv'). assert (Hv : forall i, (i < 2 ^ n)%nat -> vent v i = if Nat.eqb i (bval b) then 1 else 0).
    { intros i Hi. rewrite <- (bval_bits_small n i Hi) at 1. rewrite Hv' by apply bits_length. destruct (list_eqb Bool.eqb (bits n i) b) eqn:E.
      - apply (list_eqb_spec _ bool_eqb_spec) in E. rewrite <- E, (bval_bits_small n i Hi), Nat.eqb_refl. reflexivity.
      - destruct (Nat.eqb_spec i (bval b)) as [->|]; [|reflexivity]. rewrite <- Hb, bits_bval, (proj2 (list_eqb_spec _ bool_eqb_spec b b) eq_refl) in E. discriminate. }
    assert (Bb : (bval b < 2 ^ n)%nat) by (rewrite <- Hb; apply bval_lt). assert (Hone : kconj 1 = 1 :> K) by apply kconj_1. assert (Hzero : kconj 0 = 0 :> K) by apply kconj_0. unfold average, pure. cbn [ent].
    rewrite (bigsum_single (2 ^ n) (bval b)); [|exact Bb|]. 2:{ intros i Hi Ni. apply bigsum_0. intros j Hj. rewrite (Hv i Hi), (proj2 (Nat.eqb_neq i (bval b)) Ni), Hzero. ring. }
    rewrite (bigsum_single (2 ^ n) (bval b)); [|exact Bb|]. 2:{ intros j Hj Nj. rewrite (Hv j Hj), (proj2 (Nat.eqb_neq j (bval b)) Nj). ring. }
    rewrite !(Hv _ Bb), Nat.eqb_refl, Hone. ring.
  Qed.
End S.
