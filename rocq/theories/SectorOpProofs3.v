(** The whole operator of C76. *)
From Coq Require Import Permutation Sorted Ring.
From Verif Require Import Base BaseFacts MatModel MatFacts LiftSpec LiftProofs OpModel OpSpec OpProofs PauliProofs OpProofs2 FermiModel FermiSpec FermiProofs FermiProofs2 FermiProofs3 FermiProofs7 FermiProps SparseModel SparseProofs SectorSpec SectorProofs SectorProofs2 SectorOpModel SectorOpSpec SectorOpProofs SectorOpProofs2.
Open Scope list_scope.
Local Open Scope nat_scope.

Lemma bval_cons x b : bval (x :: b) = (if x then 2 ^ length b else 0) + bval b.
Proof. reflexivity. Qed.
(** the state with the first modes occupied has the largest encoding *)
Lemma first_largest b : forall k, particles b = k -> bval b <= bval (repeat true k ++ repeat false (length b - k)).
Proof.
  induction b as [|x b IH]; intros k E; [cbn in E; subst; cbn; lia|]. cbn [particles] in E. destruct x.
  - destruct k as [|k]; [lia|]. cbn [repeat length app Nat.sub]. specialize (IH k ltac:(lia)). rewrite !bval_cons.
    assert (L : particles b <= length b) by (clear; induction b as [|[] b IH]; cbn; lia). rewrite app_length, !repeat_length. replace (k + (length b - k)) with (length b) by lia. lia.
  - destruct k as [|k].
    + cbn [repeat app length Nat.sub]. rewrite !bval_cons. specialize (IH 0 E). cbn [repeat app] in IH. rewrite Nat.sub_0_r in IH. lia.
    + cbn [repeat length app Nat.sub]. rewrite !bval_cons. assert (L : particles b <= length b) by (clear; induction b as [|[] b IH]; cbn; lia). cbn in E. pose proof (bval_lt b). rewrite app_length, !repeat_length. replace (k + (length b - k)) with (length b) by lia. lia.
Qed.
Lemma default_reference k n : map (fun i => Nat.ltb i k) (seq 0 n) = repeat true (Nat.min k n) ++ repeat false (n - Nat.min k n).
Proof.
  assert (G : forall n k a, map (fun i => Nat.ltb i (a + k)) (seq a n) = repeat true (Nat.min k n) ++ repeat false (n - Nat.min k n)).
  { clear. induction n as [|n IH]; intros k a; [rewrite Nat.min_0_r; reflexivity|]. cbn [seq map]. destruct k as [|k].
    - rewrite (proj2 (Nat.ltb_ge a (a + 0))) by lia. cbn [Nat.min repeat app Nat.sub]. f_equal. replace (a + 0) with (S a + 0 - 1) by lia. specialize (IH 0 (S a)). cbn [Nat.min repeat app] in IH. rewrite Nat.sub_0_r in IH. rewrite <- IH. apply map_ext_in. intros i Hi. apply in_seq in Hi. rewrite !(proj2 (Nat.ltb_ge _ _)) by lia. reflexivity.
    - rewrite (proj2 (Nat.ltb_lt a (a + S k))) by lia. cbn [Nat.min repeat app Nat.sub]. f_equal. rewrite <- (IH k (S a)). apply map_ext. intros i. f_equal. lia. }
  apply (G n k 0).
Qed.
Lemma particles_repeat k m : particles (repeat true k ++ repeat false m) = k.
Proof. rewrite particles_app. assert (A : particles (repeat true k) = k) by (induction k; cbn; auto). assert (B : particles (repeat false m) = 0) by (induction m; cbn; auto). lia. Qed.

Section S.
  Context {K : cring} (small : K -> bool).
  Add Ring Kring_so3 : (kth K).
  Open Scope K_scope.

  Section T.
    Context (n : nat) (states : list (list bool)) (Hn : NoDup states) (Hl : forall s, In s states -> length s = n).
    Notation ints := (map bval states).
    Notation size := (length states).
    Definition add_term (sparse_op : mat K) (tc : term bool * K) : result (mat K) := let '(t, coefficient) := tc in
      match t with
      | [] => Ok (madd sparse_op (mscale coefficient (eye size)))
      | _ => let! term_op := build_term_op t states ints (argsort ints) n in Ok (madd sparse_op (mscale coefficient term_op))
      end.
    Lemma terms_ok (a : fop K) : (forall t c, In (t, c) a -> sorted_term t) -> forall A R, nr A = size -> nc A = size -> foldM add_term a A = Ok R ->
      (forall t c, In (t, c) a -> balanced t /\ on_modes n t) /\ nr R = size /\ nc R = size /\
      forall i j, (i < size)%nat -> (j < size)%nat -> ent R i j = ent A i j + ent (fop_matrix n a) (bval (nth i states [])) (bval (nth j states [])).
    Proof.
      induction a as [|[t c] a IH]; intros Hs A R HA HA' E; cbn [foldM] in E.
      - inversion E; subst. split; [intros t c []|]. repeat split; auto. intros i j _ _. rewrite fop_ent. cbn. ring.
      - assert (G : exists B, add_term A (t, c) = Ok B /\ balanced t /\ on_modes n t /\ nr B = size /\ nc B = size /\ forall i j, (i < size)%nat -> (j < size)%nat -> ent B i j = ent A i j + c * ent (fterm_matrix n t) (bval (nth i states [])) (bval (nth j states []))).
        { destruct t as [|f t].
          - eexists. split; [reflexivity|]. split; [reflexivity|]. split; [intros f []|]. cbn [nr nc madd]. split; [auto|]. split; [auto|]. intros i j Hi Hj. cbn [ent madd mscale eye fterm_matrix fold_right].
            f_equal. f_equal. rewrite eqb_bval by (rewrite !(state_length n states Hl) by auto; auto). unfold delta.
            destruct (Nat.eqb_spec i j) as [->|N]; [rewrite (eqb_spec_refl _ (list_eqb_spec _ bool_eqb_spec)); reflexivity|].
            destruct (list_eqb Bool.eqb (nth i states []) (nth j states [])) eqn:B; [|reflexivity]. apply (list_eqb_spec _ bool_eqb_spec) in B. exfalso. apply N. apply (proj1 (NoDup_nth states []) Hn); auto.
          - match type of E with context [add_term A ?x] => destruct (add_term A x) as [B|] eqn:EB end; [|discriminate E]. exists B. split; [first [exact EB|reflexivity]|]. unfold add_term in EB. destruct (build_term_op _ _ _ _ _) as [T|] eqn:ET; [|discriminate EB]. cbn [rbind] in EB. inversion EB; subst B.
            destruct (build_ok n states Hn Hl (f :: t) T) as (B1 & B2 & B3 & B4 & B5); [apply (Hs _ c); left; auto|exact ET|]. split; [auto|]. split; [auto|]. cbn [nr nc madd]. split; [auto|]. split; [auto|]. intros i j Hi Hj. cbn [ent madd mscale]. rewrite B5 by auto. reflexivity. }
        destruct G as (B & EB & G1 & G2 & G3 & G4 & G5). match type of E with context [add_term A ?x] => replace (add_term A x) with (Ok B) in E by (symmetry; exact EB) end. cbn [rbind] in E. destruct (IH (fun t c H => Hs t c (or_intror H)) B R G3 G4 E) as (I1 & I2 & I3 & I4).
        split; [intros u d [Eu|Hu]; [inversion Eu; subst; auto|eauto]|]. split; [auto|]. split; [auto|]. intros i j Hi Hj. rewrite I4, G5 by auto. rewrite !fop_ent. cbn [lval fst snd]. ring.
    Qed.
    Lemma terms_total (a : fop K) : (forall t c, In (t, c) a -> exists R, build_term_op (K := K) t states ints (argsort ints) n = Ok R) -> forall A, exists R, foldM add_term a A = Ok R.
    Proof.
      induction a as [|[t c] a IH]; intros H A; cbn [foldM]; [eexists; reflexivity|].
      assert (E : exists B, add_term A (t, c) = Ok B). { destruct t as [|f t]; [eexists; reflexivity|]. destruct (H _ c (or_introl eq_refl)) as [T ET]. unfold add_term. rewrite ET. eexists. reflexivity. }
      destruct E as [B ->]. cbn [rbind]. apply IH. intros u d Hu. apply (H u d). right; auto.
    Qed.
    Lemma terms_error (a : fop K) : (forall t c, In (t, c) a -> balanced t -> exists R, build_term_op (K := K) t states ints (argsort ints) n = Ok R) -> (exists t c, In (t, c) a /\ ~ balanced t) -> forall A, foldM add_term a A = Err ValueError.
    Proof.
      induction a as [|[t c] a IH]; intros H (t0 & c0 & H0 & N0) A; [destruct H0|]. cbn [foldM]. destruct (Nat.eq_dec (length (creators t)) (length (annihilators t))) as [B|B].
      - assert (E : exists B, add_term A (t, c) = Ok B). { destruct t as [|f t]; [eexists; reflexivity|]. destruct (H _ c (or_introl eq_refl) B) as [T ET]. unfold add_term. rewrite ET. eexists. reflexivity. }
        destruct E as [A' ->]. cbn [rbind]. apply IH; [intros u d Hu; apply (H u d); right; auto|]. exists t0, c0. destruct H0 as [E|H0]; [inversion E; subst; contradiction|auto].
      - destruct t as [|f t]; [exfalso; apply B; reflexivity|]. unfold add_term at 1. rewrite (build_unbalanced n states (f :: t) B). reflexivity.
    Qed.
  End T.

  Definition reference (num_qubits num_electrons : nat) (ref : option (list bool)) : list bool := match ref with None => map (fun i => Nat.ltb i num_electrons) (seq 0 num_qubits) | Some b => b end.
  Definition level (num_electrons : nat) (l : option nat) : nat := match l with None => num_electrons | Some l => l end.
  Notation matrix := (get_number_preserving_sparse_operator (K := K) small).
  Lemma matrix_form a nq ne spin ref lv : matrix a nq ne spin ref lv =
    foldM (add_term (length (reference nq ne ref)) (sector_basis nq ne spin ref lv)) (normal_ordered small a) (zeros (length (sector_basis nq ne spin ref lv)) (length (sector_basis nq ne spin ref lv))).
  Proof.
    unfold get_number_preserving_sparse_operator. destruct (basis_first (reference nq ne ref) (level ne lv) spin) as [l E].
    change (sector_basis nq ne spin ref lv) with (iterate_basis (reference nq ne ref) (level ne lv) spin). rewrite E. reflexivity.
  Qed.
  Lemma sector_states nq ne spin ref lv : NoDup (sector_basis nq ne spin ref lv) /\ forall s, In s (sector_basis nq ne spin ref lv) -> length s = length (reference nq ne ref).
  Proof. split; [apply basis_NoDup|]. intros s Hs. apply (basis_spec (reference nq ne ref) (level ne lv) spin s) in Hs. tauto. Qed.
  Lemma normal_sorted (a : fop K) : forall t c, In (t, c) (normal_ordered small a) -> sorted_term t.
  Proof. intros t c H. apply sorted_normal. apply (proj1 (C46_normal small a) t c H). Qed.

  (** normal ordering keeps the balance of creation and annihilation operators among the modes in P *)
  Definition balanced_in (P : nat -> bool) (t : term bool) : Prop := length (filter P (creators t)) = length (filter P (annihilators t)).
  Lemma count_perm (P : nat -> bool) t u : Permutation t u -> length (filter P (creators t)) = length (filter P (creators u)) /\ length (filter P (annihilators t)) = length (filter P (annihilators u)).
  Proof.
    intros H. unfold creators, annihilators. induction H as [|[p d] t u H IH|[p d] [q e] t|t u v H IH H' IH']; cbn [filter snd negb map fst]; auto.
    - destruct d; cbn [negb map filter fst]; destruct (P p); cbn [length]; lia.
    - destruct d, e; cbn [negb map filter fst]; destruct (P p), (P q); cbn [length]; lia.
    - lia.
  Qed.
  Lemma balanced_perm P t u : Permutation t u -> balanced_in P t -> balanced_in P u.
  Proof. intros H B. unfold balanced_in in *. destruct (count_perm P t u H). lia. Qed.
  Lemma balanced_del P (l : term bool) x y r : fst x = fst y -> snd x <> snd y -> balanced_in P (l ++ x :: y :: r) -> balanced_in P (l ++ r).
  Proof.
    intros E N B. assert (Pm : Permutation (l ++ x :: y :: r) (x :: y :: l ++ r)) by (rewrite <- !Permutation_middle; reflexivity).
    apply (balanced_perm P _ _ Pm) in B. destruct x as [p d], y as [q e]. cbn [fst snd] in *. subst q. unfold balanced_in, creators, annihilators in *. destruct d, e; try congruence; cbn [filter snd negb map fst] in B; destruct (P p); cbn [length] in B; lia.
  Qed.
  Lemma normal_keeps (Q : term bool -> Prop) (a : fop K) : (forall t u, Permutation t u -> Q t -> Q u) -> (forall (l : term bool) x y r, fst x = fst y -> snd x <> snd y -> Q (l ++ x :: y :: r) -> Q (l ++ r)) ->
    (forall t c, In (t, c) a -> Q t) -> forall t c, In (t, c) (normal_ordered small a) -> Q t.
  Proof. intros Hp Hd Ha t c H. destruct (normal_ordered_ok small Q Hp Hd a Ha) as [G _]. destruct (good_In _ bool_eqb_spec _ _ _ G t c H) as [[_ X] _]. exact X. Qed.
End S.
