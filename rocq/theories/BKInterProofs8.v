(** What a Hermitian interaction operator says about its coefficients. *)
From Coq Require Import NArith Nnat Permutation Ring.
From Verif Require Import Base BaseFacts MatModel MatFacts LiftSpec LiftProofs OpModel OpSpec OpProofs PauliProofs OpProofs2
  FermiModel FermiSpec FermiProofs FermiProofs2 FermiProofs3 FermiProofs7 TensorModel TensorSpec DiagSpec JWInterModel JWInterSpec JWInterProofs JWInterProofs2 JWInterProofs3 JWInterProps
  BKInterModel BKInterProofs6.
Open Scope list_scope.
Local Open Scope nat_scope.

Definition zeros (n : nat) : list bool := repeat false n.
Definition one (n p : nat) : list bool := setb p true (zeros n).
Definition two (n : nat) (u : nat * nat) : list bool := setb (fst u) true (setb (snd u) true (zeros n)).
Lemma zeros_length n : length (zeros n) = n. Proof. apply repeat_length. Qed.
Lemma zeros_nth n p : nth p (zeros n) false = false.
Proof. unfold zeros. revert p. induction n as [|n IH]; intros [|p]; cbn; auto. Qed.
Lemma one_length n p : length (one n p) = n. Proof. unfold one. rewrite setb_length. apply zeros_length. Qed.
Lemma two_length n u : length (two n u) = n. Proof. unfold two. rewrite !setb_length. apply zeros_length. Qed.
Lemma nth_setb q p v b : q < length b -> nth p (setb q v b) false = if Nat.eqb q p then v else nth p b false.
Proof. intros H. destruct (Nat.eqb_spec q p) as [<-|]; [apply nth_setb_same; auto|apply nth_setb_other; auto]. Qed.
Lemma one_nth n p q : p < n -> nth q (one n p) false = Nat.eqb p q.
Proof. intros H. unfold one. rewrite nth_setb by (rewrite zeros_length; auto). rewrite zeros_nth. destruct (Nat.eqb p q); auto. Qed.
Lemma two_nth n u q : fst u < n -> snd u < n -> nth q (two n u) false = (Nat.eqb (fst u) q || Nat.eqb (snd u) q)%bool.
Proof.
  intros H1 H2. unfold two. rewrite !nth_setb by (rewrite ?setb_length, zeros_length; auto). rewrite zeros_nth. destruct (Nat.eqb (fst u) q), (Nat.eqb (snd u) q); auto.
Qed.

Section Coef.
  Context {K : cring}.
  Add Ring Kring_bkc : (kth K).
  Open Scope K_scope.
  Lemma lsum_single {X} (f : X -> K) l x : NoDup l -> In x l -> (forall y, In y l -> y <> x -> f y = 0) -> lsum f l = f x.
  Proof.
    intros Nl. induction Nl as [|y l Hy Nl IH]; intros Hx H; [destruct Hx|]. unfold lsum. cbn [fold_right]. fold (lsum f l). destruct Hx as [->|Hx].
    - rewrite lsum_0; [ring|]. intros z Hz. apply H; [right; auto|]. intros ->. auto.
    - rewrite IH; auto; [|intros; apply H; auto; right; auto]. rewrite H; [ring|left; auto|]. intros ->. auto.
  Qed.
  Section N.
    Context (n : nat).
    Lemma L2_zero p q x y : (p < n)%nat -> (q < n)%nat -> length x = n -> length y = n -> nth q y false = false -> L2 (K := K) n p q x y = 0.
    Proof.
      intros Hp Hq Hx Hy H. unfold L2. rewrite (lad n) by (auto; intros f [<-|[<-|[]]]; auto). cbn [FermiProofs3.fact]. unfold mcomp. cbn [fst snd ladder_act]. rewrite H. cbn [negb Bool.eqb].
      destruct (list_eqb _ _ _); [|reflexivity]. ring.
    Qed.
    Lemma L2_one p q : (p < n)%nat -> (q < n)%nat -> p <> q -> L2 (K := K) n p q (one n p) (one n q) = 1.
    Proof.
      intros Hp Hq Hpq. unfold L2. rewrite (lad n) by (auto using one_length; intros f [<-|[<-|[]]]; auto). cbn [FermiProofs3.fact]. unfold mcomp. cbn [fst snd ladder_act]. rewrite !one_nth by auto.
      rewrite Nat.eqb_refl. assert (Q : setb q false (one n q) = zeros n). { unfold one. rewrite setb_setb. rewrite <- (zeros_nth n q) at 1. apply setb_nth. }
      rewrite Q, zeros_nth. fold (one n p). rewrite (eqb_spec_refl _ (list_eqb_spec _ bool_eqb_spec)). cbn [negb Bool.eqb].
      assert (Z : forall k, odd_count (firstn k (zeros n)) = false). { unfold zeros. generalize n. induction n0 as [|m IH]; intros [|k]; cbn; auto. unfold odd_count in IH. rewrite IH. reflexivity. }
      unfold one at 1. rewrite odd_count_setb by (rewrite zeros_length; auto). rewrite Nat.ltb_irrefl, !Z. cbn [sgn]. ring.
    Qed.
    Lemma L4_zero u v x y : In u (combinations2 (seq 0 n)) -> In v (combinations2 (seq 0 n)) -> length x = n -> length y = n -> (nth (fst v) y false && nth (snd v) y false)%bool = false -> L4 (K := K) n u v x y = 0.
    Proof.
      destruct u as [p q], v as [r s]. intros Hu Hv Hx Hy H. apply prs_In in Hu, Hv. unfold L4. cbn [fst snd] in *. rewrite (lad n) by (auto; intros f [<-|[<-|[<-|[<-|[]]]]]; cbn; lia).
      cbn [FermiProofs3.fact]. unfold mcomp. cbn [fst snd ladder_act]. destruct (list_eqb _ _ _); [|reflexivity]. rewrite (nth_setb s r) by lia. destruct (Nat.eqb_spec s r); [lia|].
      destruct (nth s y false); cbn [negb Bool.eqb]; [|ring]. rewrite Bool.andb_true_r in H. rewrite H. cbn [negb Bool.eqb]. ring.
    Qed.
    Lemma L4_two u v : In u (combinations2 (seq 0 n)) -> In v (combinations2 (seq 0 n)) -> exists b, L4 (K := K) n u v (two n u) (two n v) = sgn b.
    Proof.
      destruct u as [p q], v as [r s]. intros Hu Hv. apply prs_In in Hu, Hv. unfold L4. cbn [fst snd] in *. rewrite (lad n) by (auto using two_length; intros f [<-|[<-|[<-|[<-|[]]]]]; cbn; lia).
      cbn [FermiProofs3.fact]. unfold mcomp. cbn [fst snd ladder_act].
      assert (Q : setb r false (setb s false (two n (r, s))) = zeros n).
      { apply bits_ext; [rewrite !setb_length, two_length, zeros_length; auto|]. intros k Hk. rewrite !nth_setb by (rewrite ?setb_length, two_length; lia). rewrite two_nth by (cbn; lia). cbn [fst snd]. rewrite zeros_nth.
        destruct (Nat.eqb r k), (Nat.eqb s k); reflexivity. }
      rewrite Q. fold (two n (p, q)). change (setb p true (setb q true (zeros n))) with (two n (p, q)). rewrite (eqb_spec_refl _ (list_eqb_spec _ bool_eqb_spec)).
      rewrite !nth_setb by (rewrite ?zeros_length, ?two_length; lia). rewrite !two_nth by (cbn; lia). rewrite !zeros_nth. cbn [fst snd]. rewrite !Nat.eqb_refl.
      destruct (Nat.eqb_spec s r); [lia|]. destruct (Nat.eqb_spec q p); [lia|]. rewrite Bool.orb_true_r. cbn [orb negb Bool.eqb].
      match goal with |- exists b, sgn ?a * (sgn ?c * (sgn ?d * (sgn ?e * 1))) = _ => exists (xorb a (xorb c (xorb d e))) end. rewrite !sgn_xorb. ring.
    Qed.
    Lemma two_both u v : In u (combinations2 (seq 0 n)) -> In v (combinations2 (seq 0 n)) -> u <> v -> (nth (fst v) (two n u) false && nth (snd v) (two n u) false)%bool = false.
    Proof.
      destruct u as [p q], v as [r s]. intros Hu Hv D. apply prs_In in Hu, Hv. rewrite !two_nth by (cbn; lia). cbn [fst snd].
      destruct (Nat.eqb_spec p r), (Nat.eqb_spec q r), (Nat.eqb_spec p s), (Nat.eqb_spec q s); subst; auto; try lia. congruence.
    Qed.
    Lemma one_both p v : (p < n)%nat -> In v (combinations2 (seq 0 n)) -> (nth (fst v) (one n p) false && nth (snd v) (one n p) false)%bool = false.
    Proof.
      destruct v as [r s]. intros Hp Hv. apply prs_In in Hv. rewrite !one_nth by auto. cbn [fst snd]. destruct (Nat.eqb_spec p r), (Nat.eqb_spec p s); auto. lia.
    Qed.
  End N.
  Context (h : heap K) (a : ptensor K) (Ha : interaction_ok h a) (Hh : hermitian_tensor h a).
  Notation n := (n_qubits a).
  Notation prs := (combinations2 (seq 0 n)).
  Lemma one_entry p q : p <> q -> (p < n)%nat -> (q < n)%nat -> tensor_entry h a (one n p) (one n q) = h1 h a p q.
  Proof.
    intros Hpq Hp Hq. rewrite entries by (auto using one_length). assert (D : list_eqb Bool.eqb (one n p) (one n q) = false).
    { destruct (list_eqb _ _ _) eqn:X; [|reflexivity]. apply (list_eqb_spec _ bool_eqb_spec) in X. apply (f_equal (fun l => nth p l false)) in X. rewrite !one_nth, Nat.eqb_refl in X by auto. destruct (Nat.eqb_spec q p); [lia|discriminate]. }
    unfold dl. rewrite D. rewrite (lsum_0 (fun p0 => h1 h a p0 p0 * _)) by (intros k Hk; apply in_seq in Hk; rewrite L2_diag by (auto using one_length; lia); ring).
    rewrite (lsum_0 (fun u => JWInterProofs3.w _ u u * _)) by (intros u Hu; rewrite L4_zero by (auto using one_length, one_both); ring).
    rewrite (lsum_0 (fun uv => JWInterProofs3.w _ (fst uv) (snd uv) * _ + _)) by (intros [u v] Huv; apply comb_in in Huv as [Hu Hv]; cbn [fst snd]; rewrite !L4_zero by (auto using one_length, one_both); ring).
    assert (G : forall p' q', (p' < n)%nat -> (q' < n)%nat -> p' <> q' -> (p', q') <> (p, q) -> L2 (K := K) n p' q' (one n p) (one n q) = 0).
    { intros p' q' Hp' Hq' N1 N2. destruct (Nat.eq_dec q' q) as [->|E].
      - transitivity (kconj (L2 (K := K) n q p' (one n q) (one n p))); [rewrite conj_L2 by (auto using one_length); reflexivity|]. rewrite L2_zero; auto using one_length; [apply kconj_0|]. rewrite one_nth by auto. apply Nat.eqb_neq. congruence.
      - apply L2_zero; auto using one_length. rewrite one_nth by auto. apply Nat.eqb_neq. auto. }
    destruct (Nat.lt_ge_cases p q) as [L|L].
    - rewrite (lsum_single _ _ (p, q)); [|apply prs_NoDup|apply prs_In; lia|].
      + cbn [fst snd]. rewrite L2_one by auto. rewrite (G q p) by (auto; congruence). ring.
      + intros [r s] Hrs N1. apply prs_In in Hrs. cbn [fst snd]. rewrite !G; try lia; [ring|intros X; inversion X; lia|auto].
    - rewrite (lsum_single _ _ (q, p)); [|apply prs_NoDup|apply prs_In; lia|].
      + cbn [fst snd]. rewrite L2_one by auto. rewrite (G q p) by (auto; congruence). ring.
      + intros [r s] Hrs N1. apply prs_In in Hrs. cbn [fst snd]. rewrite !G; try lia; [ring|intros X; inversion X; subst; auto|intros X; inversion X; lia].
  Qed.
  Lemma h1_hermitian p q : p <> q -> (p < n)%nat -> (q < n)%nat -> kconj (h1 h a p q) = h1 h a q p.
  Proof. intros. rewrite <- !one_entry by auto. apply Hh; apply one_length. Qed.
  Notation S1 x y := (lsum (fun u => h1 h a (fst u) (snd u) * L2 n (fst u) (snd u) x y + h1 h a (snd u) (fst u) * L2 n (snd u) (fst u) x y) prs).
  Lemma S1_conj x y : length x = n -> length y = n -> kconj (S1 y x) = S1 x y.
  Proof.
    intros Hx Hy. rewrite lsum_conj. apply lsum_ext. intros [p q] Hu. apply prs_In in Hu. cbn [fst snd]. rewrite kconj_add, !kconj_mul, !conj_L2 by auto. rewrite !h1_hermitian by lia. ring.
  Qed.
  Lemma two_entry u v : In u prs -> In v prs -> u <> v ->
    tensor_entry h a (two n u) (two n v) = S1 (two n u) (two n v) + JWInterProofs3.w (h2 h a) u v * L4 n u v (two n u) (two n v).
  Proof.
    intros Hu Hv D. rewrite entries by (auto using two_length). pose proof (proj1 (prs_In n (fst u) (snd u)) ltac:(destruct u; exact Hu)) as Bu. pose proof (proj1 (prs_In n (fst v) (snd v)) ltac:(destruct v; exact Hv)) as Bv.
    assert (Dx : list_eqb Bool.eqb (two n u) (two n v) = false).
    { destruct (list_eqb _ _ _) eqn:X; [|reflexivity]. apply (list_eqb_spec _ bool_eqb_spec) in X. pose proof (two_both n v u Hv Hu (fun H => D (eq_sym H))) as Y. rewrite <- X in Y. rewrite !two_nth in Y by lia. rewrite !Nat.eqb_refl, Bool.orb_true_r in Y. discriminate. }
    unfold dl. rewrite Dx. rewrite (lsum_0 (fun p0 => h1 h a p0 p0 * _)) by (intros k Hk; apply in_seq in Hk; rewrite L2_diag by (auto using two_length; lia); ring).
    rewrite (lsum_0 (fun u0 => JWInterProofs3.w _ u0 u0 * _)) by (intros z Hz; rewrite L4_diag by (auto using two_length); ring).
    assert (G : forall u' v', In u' prs -> In v' prs -> (u', v') <> (u, v) -> L4 (K := K) n u' v' (two n u) (two n v) = 0).
    { intros u' v' Hu' Hv' N1. assert (E : v' = v \/ v' <> v) by (destruct v as [r s], v' as [r' s'], (Nat.eq_dec r' r), (Nat.eq_dec s' s); subst; auto; right; congruence). destruct E as [->|E].
      - transitivity (kconj (L4 (K := K) n v u' (two n v) (two n u))); [rewrite conj_L4 by (auto using two_length); reflexivity|]. rewrite L4_zero; auto using two_length; [apply kconj_0|]. apply two_both; auto. congruence.
      - apply L4_zero; auto using two_length. apply two_both; auto. }
    assert (T : lsum (fun uv => JWInterProofs3.w (h2 h a) (fst uv) (snd uv) * L4 n (fst uv) (snd uv) (two n u) (two n v) + JWInterProofs3.w (h2 h a) (snd uv) (fst uv) * L4 n (snd uv) (fst uv) (two n u) (two n v)) (combinations2 prs)
      = JWInterProofs3.w (h2 h a) u v * L4 n u v (two n u) (two n v)).
    { assert (P2 : forall u' v', In (u', v') (combinations2 prs) -> In u' prs /\ In v' prs /\ lex u' v') by (intros u' v'; apply (comb_In_sorted lex); [unfold lex; intros; lia|apply comb_sorted, seq_sorted]).
      assert (C : lex u v \/ lex v u). { unfold lex. destruct u as [p q], v as [r s]. cbn [fst snd]. destruct (Nat.eq_dec p r); [|lia]. subst. assert (q <> s) by congruence. lia. }
      destruct C as [C|C].
      - rewrite (lsum_single _ _ (u, v)).
        + cbn [fst snd]. rewrite (G v u) by (auto; congruence). ring.
        + apply comb_NoDup, prs_NoDup.
        + apply (comb_In_sorted lex); [unfold lex; intros; lia|apply comb_sorted, seq_sorted|auto].
        + intros [u' v'] H N1. apply P2 in H as (Hu' & Hv' & L). cbn [fst snd]. rewrite !G; auto; [ring|]. intros X. inversion X; subst. unfold lex in *. lia.
      - rewrite (lsum_single _ _ (v, u)).
        + cbn [fst snd]. rewrite (G v u) by (auto; congruence). ring.
        + apply comb_NoDup, prs_NoDup.
        + apply (comb_In_sorted lex); [unfold lex; intros; lia|apply comb_sorted, seq_sorted|auto].
        + intros [u' v'] H N1. apply P2 in H as (Hu' & Hv' & L). cbn [fst snd]. rewrite !G; auto; [ring| |]; intros X; inversion X; subst; [auto|unfold lex in *; lia]. }
    rewrite T. ring.
  Qed.
  Lemma w_hermitian u v : In u prs -> In v prs -> u <> v -> kconj (JWInterProofs3.w (h2 h a) u v) = JWInterProofs3.w (h2 h a) v u.
  Proof.
    intros Hu Hv D. pose proof (Hh (two n v) (two n u) (two_length _ _) (two_length _ _)) as X. rewrite !two_entry in X by auto. rewrite kconj_add, S1_conj, kconj_mul, conj_L4 in X by (auto using two_length).
    destruct (L4_two n v u Hv Hu) as [b Eb]. rewrite Eb in X. set (s := S1 _ _) in X. set (k := kconj _) in *. set (k' := JWInterProofs3.w _ v u) in *.
    transitivity ((s + k * sgn b - s) * sgn b); [transitivity (k * (sgn b * sgn b)); [rewrite sgn_sq|]; ring|]. rewrite X. transitivity (k' * (sgn b * sgn b)); [|rewrite sgn_sq]; ring.
  Qed.
End Coef.
