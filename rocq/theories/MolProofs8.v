(** Proofs for C79: the reduced Hamiltonian. *)
From Coq Require Import Ring Setoid Morphisms Ncring Ncring_tac.
From Verif Require Import Base BaseFacts MatModel MatFacts LiftSpec LiftProofs OpModel OpSpec OpProofs OpProofs2 PauliProofs ConjProofs FermiModel FermiSpec FermiProofs FermiProofs2 FermiProofs6 TensorModel TensorSpec TensorProps ConvModel DiagModel DiagSpec
  SectorSpec SectorOpSpec UCCSpec MatRing UCCProofs UCCProofs2 UCCProofs3 UCCProofs4 UCCProofs5 MolModel MolSpec MolProofs MolProofs2 MolProofs3 MolProofs4 MolProofs5 MolProofs6.
Open Scope list_scope.
Local Open Scope nat_scope.

Lemma particles_unset y : forall l, nth l y false = true -> S (particles (setb l false y)) = particles y.
Proof.
  induction y as [|b y IH]; intros [|l] H; cbn in H; try discriminate.
  - subst b. reflexivity.
  - cbn [setb particles]. rewrite <- (IH l H). lia.
Qed.
Section R.
  Context {K : cring} (n : nat).
  Add Ring Kring_mol8 : (kth K).
  Open Scope K_scope.
  Local Notation "A '==' B" := (sq_eq (K := K) (Nat.pow 2 n) A B) (at level 70, no associativity) : sq_scope.
  Local Notation "A '+' B" := (sq_add (K := K) (Nat.pow 2 n) A B) : sq_scope.
  Local Notation "A '-' B" := (sq_sub (K := K) (Nat.pow 2 n) A B) : sq_scope.
  Local Notation "A '*' B" := (sq_mul (K := K) (Nat.pow 2 n) A B) : sq_scope.
  Local Notation "'-' A" := (sq_opp (K := K) (Nat.pow 2 n) A) : sq_scope.
  Notation c_ p := (lad (K := K) n p true).
  Notation a_ p := (lad (K := K) n p false).
  Definition E2 p q := (c_ p * a_ q)%sq.
  Definition T4 p q r s := (c_ p * c_ q * a_ r * a_ s)%sq.
  Lemma E2_ent p q i j : (i < 2 ^ n)%nat -> (j < 2 ^ n)%nat -> ent (K := K) (fterm_matrix n [(p, true); (q, false)]) i j = E2 p q i j.
  Proof.
    intros Hi Hj. assert (Q : (c_ p * (a_ q * sq1 _) == E2 p q)%sq) by (unfold E2; generalize (c_ p), (a_ q); intros; non_commutative_ring). exact (Q i j Hi Hj).
  Qed.
  Lemma T4_ent p q r s i j : (i < 2 ^ n)%nat -> (j < 2 ^ n)%nat -> ent (K := K) (fterm_matrix n [(p, true); (q, true); (r, false); (s, false)]) i j = T4 p q r s i j.
  Proof.
    intros Hi Hj. assert (Q : (c_ p * (c_ q * (a_ r * (a_ s * sq1 _))) == T4 p q r s)%sq) by (unfold T4; generalize (c_ p), (c_ q), (a_ r), (a_ s); intros; non_commutative_ring). exact (Q i j Hi Hj).
  Qed.
  Lemma lad_anti p q d : (p < n)%nat -> (q < n)%nat -> (lad n p d * lad n q d == - (lad n q d * lad n p d))%sq.
  Proof.
    intros Hp Hq. pose proof (lad_car (K := K) n p q d d Hp Hq) as E. rewrite Bool.eqb_reflx in E. cbn [negb] in E.
    transitivity ((lad n p d * lad n q d + lad n q d * lad n p d) - lad n q d * lad n p d)%sq; [non_commutative_ring|]. rewrite E. non_commutative_ring.
  Qed.
  Lemma T4_swap_a p q r s : (r < n)%nat -> (s < n)%nat -> (T4 p q r s == - T4 p q s r)%sq.
  Proof. intros. unfold T4. transitivity (c_ p * c_ q * (a_ r * a_ s))%sq; [non_commutative_ring|]. rewrite (lad_anti r s) by auto. non_commutative_ring. Qed.
  Lemma T4_swap_c p q r s : (p < n)%nat -> (q < n)%nat -> (T4 p q r s == - T4 q p r s)%sq.
  Proof. intros. unfold T4. rewrite (lad_anti p q) by auto. non_commutative_ring. Qed.
  Lemma su_cons {X} (x : X) l f : su (K := K) (x :: l) f = f x + su l f. Proof. reflexivity. Qed.
  Lemma count_ones c : su (seq 0 (length c)) (fun j => if nth j c false then 1 else 0 : K) = ones (particles c).
  Proof.
    induction c as [|b c IH]; [reflexivity|]. cbn [length seq particles]. rewrite su_cons. cbn [nth].
    rewrite <- seq_shift, su_map. cbn [nth]. rewrite IH. destruct b; cbn [ones Nat.add]; ring.
  Qed.
  Lemma number_col (A : sqm K (2 ^ n)) p i c : (p < n)%nat -> (i < 2 ^ n)%nat -> length c = n -> (A * (c_ p * a_ p))%sq i (bval c) = A i (bval c) * (if nth p c false then 1 else 0).
  Proof.
    intros Hp Hi Hc. assert (Bc : (bval c < 2 ^ n)%nat) by (rewrite <- Hc; apply bval_lt).
    transitivity (((A * c_ p) * a_ p)%sq i (bval c)).
    { assert (Q : (A * (c_ p * a_ p) == (A * c_ p) * a_ p)%sq) by (generalize (c_ p), (a_ p); intros; non_commutative_ring). exact (Q i (bval c) Hi Bc). }
    rewrite mul_lad by auto. cbn [negb]. destruct (nth p c false) eqn:E; cbn [Bool.eqb]; [|ring].
    rewrite mul_lad by (auto; rewrite setb_length; auto). rewrite nth_setb_same by lia. cbn [negb Bool.eqb].
    replace (setb p true (setb p false c)) with c; [|symmetry].
    - rewrite odd_count_setb by lia. rewrite Nat.ltb_irrefl. transitivity (A i (bval c) * (sgn (odd_count (firstn p c)) * sgn (odd_count (firstn p c)))); [ring|]. f_equal. unfold sgn. destruct (odd_count (firstn p c)); ring.
    - apply (nth_ext _ _ false false); [rewrite !setb_length; reflexivity|]. intros q Hq. destruct (Nat.eq_dec q p) as [->|Nq]; [rewrite nth_setb_same; [auto|rewrite setb_length; lia]|rewrite !nth_setb_other; auto].
  Qed.
  Lemma inner_number p s i y : (p < n)%nat -> (s < n)%nat -> (i < 2 ^ n)%nat -> length y = n ->
    su (seq 0 n) (fun j => T4 p j j s i (bval y)) = integer (Z.of_nat (particles y) - 1) * E2 p s i (bval y).
  Proof.
    intros Hp Hs Hi Hy. assert (By : (bval y < 2 ^ n)%nat) by (rewrite <- Hy; apply bval_lt).
    set (c := setb s false y). assert (Lc : length c = n) by (unfold c; rewrite setb_length; exact Hy).
    set (w := if Bool.eqb (nth s y false) true then sgn (K := K) (odd_count (firstn s y)) else 0).
    transitivity (su (seq 0 n) (fun j => c_ p i (bval c) * w * (if nth j c false then 1 else 0))).
    { apply su_ext. intros j Hj. apply in_seq in Hj. assert (Q : (T4 p j j s == (c_ p * (c_ j * a_ j)) * a_ s)%sq) by (unfold T4; generalize (c_ p), (c_ j), (a_ j), (a_ s); intros; non_commutative_ring).
      rewrite (Q i (bval y) Hi By). rewrite mul_lad by auto. fold c. cbn [negb]. fold w. rewrite number_col by (auto; lia). ring. }
    rewrite su_mul. pose proof (count_ones c) as Q. rewrite Lc in Q. rewrite Q. clear Q. unfold E2. rewrite mul_lad by auto. cbn [negb]. fold c w.
    unfold w. destruct (nth s y false) eqn:E; cbn [Bool.eqb]; [|ring]. pose proof (particles_unset y s E) as P. fold c in P. rewrite <- P.
    replace (Z.of_nat (S (particles c)) - 1)%Z with (Z.of_nat (particles c)) by lia. replace (integer (K := K) (Z.of_nat (particles c))) with (ones (K := K) (particles c)); [ring|].
    destruct (particles c) as [|m]; [reflexivity|]. cbn [Z.of_nat integer]. rewrite SuccNat2Pos.id_succ. reflexivity.
  Qed.
  Lemma pick (a : nat) (f : nat -> K) : (a < n)%nat -> su (seq 0 n) (fun q => f q * eye_at a q) = f a.
  Proof.
    intros Ha. rewrite (su_single _ a); [unfold eye_at; rewrite Nat.eqb_refl; ring|apply seq_NoDup|apply in_seq; lia|]. intros x _ Nx. unfold eye_at. replace (Nat.eqb a x) with false by (symmetry; apply Nat.eqb_neq; auto). ring.
  Qed.
  Lemma eye_sym a b : eye_at (K := K) a b = eye_at b a. Proof. unfold eye_at. rewrite Nat.eqb_sym. reflexivity. Qed.
  Notation s_ f := (su (seq 0 n) f).
  Lemma reduced_sum (h1 : nat -> nat -> K) nu i y : (i < 2 ^ n)%nat -> length y = n -> nu * ((1 + 1 + 1 + 1) * integer (Z.of_nat (particles y) - 1)) = 1 ->
    s_ (fun p => s_ (fun q => s_ (fun r => s_ (fun s => nu * (h1 p s * eye_at q r + h1 q r * eye_at p s - h1 p r * eye_at q s - h1 q s * eye_at p r) * T4 p q r s i (bval y))))) =
    s_ (fun p => s_ (fun q => h1 p q * E2 p q i (bval y))).
  Proof.
    intros Hi Hy Hn. assert (By : (bval y < 2 ^ n)%nat) by (rewrite <- Hy; apply bval_lt). set (k1 := integer (Z.of_nat (particles y) - 1)) in *. set (H := s_ (fun p => s_ (fun q => h1 p q * E2 p q i (bval y)))).
    set (tt := fun p q r s => T4 p q r s i (bval y)).
    assert (A1 : s_ (fun p => s_ (fun q => s_ (fun r => s_ (fun s => h1 p s * eye_at q r * tt p q r s)))) = k1 * H).
    { unfold H. rewrite <- su_mul. apply su_ext. intros p Hp. rewrite <- su_mul. 
      transitivity (s_ (fun q => s_ (fun s => h1 p s * tt p q q s))).
      - apply su_ext. intros q Hq. apply in_seq in Hq. rewrite su_swap. apply su_ext. intros s Hs. rewrite (su_ext _ _ (fun r => h1 p s * tt p q r s * eye_at q r)) by (intros; ring). apply (pick q (fun r => h1 p s * tt p q r s)); lia.
      - rewrite su_swap. apply su_ext. intros s Hs. apply in_seq in Hp, Hs. rewrite su_mul. unfold tt. rewrite inner_number by (auto; lia). fold k1. ring. }
    assert (A2 : s_ (fun p => s_ (fun q => s_ (fun r => s_ (fun s => h1 q r * eye_at p s * tt p q r s)))) = k1 * H).
    { transitivity (s_ (fun q => s_ (fun r => s_ (fun p => h1 q r * tt q p p r)))).
      - rewrite su_swap. apply su_ext. intros q Hq. rewrite su_swap. apply su_ext. intros r Hr. apply su_ext. intros p Hp. apply in_seq in Hp, Hq, Hr.
        rewrite (su_ext _ _ (fun s => h1 q r * tt p q r s * eye_at p s)) by (intros; ring). rewrite (pick p (fun s => h1 q r * tt p q r s)) by lia. f_equal. unfold tt.
        rewrite (T4_swap_c p q r p ltac:(lia) ltac:(lia) i (bval y) Hi By). pose proof (T4_swap_a q p r p ltac:(lia) ltac:(lia) i (bval y) Hi By) as Q. unfold sq_opp in *. rewrite Q. ring.
      - unfold H. rewrite <- su_mul. apply su_ext. intros q Hq. rewrite <- su_mul. apply su_ext. intros r Hr. apply in_seq in Hq, Hr. rewrite su_mul. unfold tt. rewrite inner_number by (auto; lia). fold k1. ring. }
    assert (A3 : s_ (fun p => s_ (fun q => s_ (fun r => s_ (fun s => h1 p r * eye_at q s * tt p q r s)))) = - (k1 * H)).
    { transitivity (s_ (fun p => s_ (fun r => s_ (fun q => h1 p r * - tt p q q r)))).
      - apply su_ext. intros p Hp. rewrite su_swap. apply su_ext. intros r Hr. apply su_ext. intros q Hq. apply in_seq in Hp, Hq, Hr.
        rewrite (su_ext _ _ (fun s => h1 p r * tt p q r s * eye_at q s)) by (intros; ring). rewrite (pick q (fun s => h1 p r * tt p q r s)) by lia. f_equal. unfold tt.
        apply (T4_swap_a p q r q ltac:(lia) ltac:(lia) i (bval y) Hi By).
      - unfold H. rewrite <- su_mul, <- su_opp. apply su_ext. intros p Hp. rewrite <- su_mul, <- su_opp. apply su_ext. intros r Hr. apply in_seq in Hp, Hr. rewrite su_mul, su_opp. unfold tt. rewrite inner_number by (auto; lia). fold k1. ring. }
    assert (A4 : s_ (fun p => s_ (fun q => s_ (fun r => s_ (fun s => h1 q s * eye_at p r * tt p q r s)))) = - (k1 * H)).
    { transitivity (s_ (fun q => s_ (fun s => s_ (fun p => h1 q s * - tt q p p s)))).
      - rewrite su_swap. apply su_ext. intros q Hq. transitivity (s_ (fun p => s_ (fun s => h1 q s * - tt q p p s))); [|apply su_swap]. apply su_ext. intros p Hp. rewrite su_swap. apply su_ext. intros s Hs. apply in_seq in Hp, Hq, Hs.
        rewrite (su_ext _ _ (fun r => h1 q s * tt p q r s * eye_at p r)) by (intros; ring). rewrite (pick p (fun r => h1 q s * tt p q r s)) by lia. f_equal. unfold tt.
        apply (T4_swap_c p q p s ltac:(lia) ltac:(lia) i (bval y) Hi By).
      - unfold H. rewrite <- su_mul, <- su_opp. apply su_ext. intros p Hp. rewrite <- su_mul, <- su_opp. apply su_ext. intros r Hr. apply in_seq in Hp, Hr. rewrite su_mul, su_opp. unfold tt. rewrite inner_number by (auto; lia). fold k1. ring. }
    transitivity (nu * (s_ (fun p => s_ (fun q => s_ (fun r => s_ (fun s => h1 p s * eye_at q r * tt p q r s)))) + s_ (fun p => s_ (fun q => s_ (fun r => s_ (fun s => h1 q r * eye_at p s * tt p q r s)))) - s_ (fun p => s_ (fun q => s_ (fun r => s_ (fun s => h1 p r * eye_at q s * tt p q r s)))) - s_ (fun p => s_ (fun q => s_ (fun r => s_ (fun s => h1 q s * eye_at p r * tt p q r s)))))).
    2: { rewrite A1, A2, A3, A4. transitivity (nu * ((1 + 1 + 1 + 1) * k1) * H); [ring|rewrite Hn; ring]. }
    clear A1 A2 A3 A4.
    assert (L : forall f g : nat -> K, s_ f - s_ g = s_ (fun x => f x - g x)) by (intros f g; transitivity (s_ f + - s_ g); [ring|rewrite <- su_opp, <- su_add; apply su_ext; intros; ring]).
    rewrite <- su_add, !L, <- su_mul. apply su_ext. intros p _. rewrite <- su_add, !L, <- su_mul. apply su_ext. intros q _. rewrite <- su_add, !L, <- su_mul. apply su_ext. intros r _. rewrite <- su_add, !L, <- su_mul. apply su_ext. intros s _.
    unfold tt. ring.
  Qed.
End R.
