(** Freezing orbitals: one term. *)
From Coq Require Import Permutation Sorted Ring.
From Verif Require Import Base BaseFacts MatModel MatFacts LiftSpec LiftProofs OpModel OpSpec OpProofs PauliProofs OpProofs2 FermiModel FermiSpec FermiProofs FermiProofs2 FermiProofs3
  ReindexModel ReindexProofs ReindexProofs2 FreezeSpec.
Open Scope list_scope.
Local Open Scope nat_scope.

Definition pops (p : nat) (t : fterm) : fterm := filter (fun f => Nat.eqb (fst f) p) t.
Definition others (p : nat) (t : fterm) : fterm := filter (fun f => negb (Nat.eqb (fst f) p)) t.
Fixpoint legal (d : bool) (l : fterm) : bool :=
  match l with [] => true | f :: l' => legal d l' && negb (Bool.eqb (xorb d (Nat.odd (length l'))) (snd f)) end.
Fixpoint counted (p : nat) (t : fterm) : Z :=
  match t with [] => 0%Z | f :: t' => if Nat.eqb (fst f) p then (counted p t' + (Z.of_nat (length t') - Z.of_nat (S (length (pops p t')))))%Z else counted p t' end.
Fixpoint swaps (p : nat) (t : fterm) : bool :=
  match t with [] => false | f :: t' => if Nat.eqb (fst f) p then xorb (swaps p t') (Nat.odd (length (others p t'))) else swaps p t' end.
Lemma pops_others p t : length (pops p t) + length (others p t) = length t.
Proof. unfold pops, others. induction t as [|f t IH]; cbn; [auto|]. destruct (Nat.eqb (fst f) p); cbn; lia. Qed.
Lemma zodd_nat m : Z.odd (Z.of_nat m) = Nat.odd m.
Proof. induction m as [|m IH]; [reflexivity|]. rewrite Nat2Z.inj_succ, Z.odd_succ, Nat.odd_succ, <- Z.negb_odd, <- Nat.negb_odd, IH. reflexivity. Qed.
Lemma nat_odd_S m : Nat.odd (S m) = negb (Nat.odd m).
Proof. rewrite Nat.odd_succ, <- Nat.negb_odd. reflexivity. Qed.
Lemma counted_odd p t : Z.odd (counted p t) = xorb (swaps p t) (Nat.odd (length (pops p t))).
Proof.
  induction t as [|f t IH]; [reflexivity|]. cbn [counted swaps].
  assert (Q : pops p (f :: t) = if Nat.eqb (fst f) p then f :: pops p t else pops p t) by reflexivity. rewrite Q.
  destruct (Nat.eqb (fst f) p) eqn:E; [|exact IH]. cbn [length]. rewrite nat_odd_S. pose proof (pops_others p t) as L.
  replace (counted p t + (Z.of_nat (length t) - Z.of_nat (S (length (pops p t)))))%Z with (counted p t + Z.of_nat (length (others p t)) - 1)%Z by lia.
  rewrite Z.odd_sub, Z.odd_add, IH, zodd_nat. cbn [Z.odd]. destruct (swaps p t), (Nat.odd (length (others p t))), (Nat.odd (length (pops p t))); reflexivity.
Qed.

Section Term.
  Context {K : cring} (n : nat) (p : nat) (d : bool).
  Add Ring Kring_fr : (kth K).
  Open Scope K_scope.
  Notation F := (fterm_matrix (K := K) n).
  Notation fact := (fact (K := K)).
  Lemma loop_state same (t : fterm) (c : K) : (forall f, In f t -> same (fst f) p = Nat.eqb (fst f) p) ->
    fold_left (freeze_step same (p, d)) (rev t) (O, [], c, d, O, 0%Z) =
    (length t, others p t, if legal d (pops p t) then c else 0, xorb d (Nat.odd (length (pops p t))), length (pops p t), counted p t).
  Proof.
    induction t as [|f t IH]; intros H; [cbn; rewrite xorb_false_r; reflexivity|]. cbn [rev]. rewrite fold_left_app, IH by (intros g Hg; apply H; right; auto).
    cbn [fold_left freeze_step fst snd]. rewrite H by (left; auto). unfold others, pops. cbn [filter length counted]. fold (others p t) (pops p t).
    destruct (Nat.eqb (fst f) p) eqn:E; cbn [negb length legal]; [|reflexivity].
    assert (X : negb (xorb d (Nat.odd (length (pops p t)))) = xorb d (Nat.odd (S (length (pops p t))))) by (rewrite nat_odd_S; destruct d, (Nat.odd (length (pops p t))); reflexivity).
    rewrite X. destruct (Bool.eqb (xorb d (Nat.odd (length (pops p t)))) (snd f)), (legal d (pops p t)); reflexivity.
  Qed.
  Lemma ent_fact (t : fterm) x y : on_modes n t -> length x = n -> length y = n ->
    ent (F t) (bval x) (bval y) = if list_eqb Bool.eqb x (snd (fact t y)) then fst (fact t y) else 0.
  Proof.
    intros Ht Hx Hy. destruct (fterm_mono (K := K) n t Ht) as (_ & _ & E). rewrite E.
    - apply mono_ent; auto. rewrite fact_length. auto.
    - rewrite (proj1 (fterm_shape n t)), <- Hx. apply bval_lt.
    - rewrite (proj2 (fterm_shape n t)), <- Hy. apply bval_lt.
  Qed.
  Section Move.
    Context (phi : fterm -> K) (Hphi : carf (on_modes n) phi).
    Lemma move_right g (l r m : fterm) : fst g = p -> (forall f, In f m -> fst f <> p) -> on_modes n (l ++ g :: m ++ r) ->
      phi (l ++ g :: m ++ r) = sgn (Nat.odd (length m)) * phi (l ++ m ++ g :: r).
    Proof.
      revert l. induction m as [|f m IH]; intros l Hg Hm Hn; cbn [app length]; [cbn; ring|].
      pose proof (carf_swap _ phi Hphi l g f (m ++ r) Hn) as C. unfold car in C.
      assert (E : Nat.eqb (fst g) (fst f) = false) by (apply Nat.eqb_neq; rewrite Hg; intros E; apply (Hm f); [left|]; auto). rewrite E in C. cbn [andb] in C.
      change (l ++ f :: g :: m ++ r) with (l ++ [f] ++ g :: m ++ r) in C. rewrite app_assoc in C. cbn [app] in Hn.
      rewrite IH in C; [|auto|intros h Hh; apply Hm; right; auto|].
      - rewrite <- app_assoc in C. cbn [app] in C. rewrite nat_odd_S. 
        assert (G : forall a b s z : K, a + s * b = 0 * z -> a = - (s * b)).
        { intros a b s z Q. transitivity (a + s * b - s * b); [ring|]. rewrite Q. ring. }
        etransitivity; [exact (G _ _ _ _ C)|]. destruct (Nat.odd (length m)); cbn; ring.
      - apply (on_modes_perm n (l ++ g :: f :: m ++ r)); [|exact Hn]. rewrite <- app_assoc. apply Permutation_app_head. cbn [app]. apply perm_swap.
    Qed.
    Lemma move_all (t l : fterm) : on_modes n (l ++ t) -> phi (l ++ t) = sgn (swaps p t) * phi (l ++ others p t ++ pops p t).
    Proof.
      revert l. induction t as [|f t IH]; intros l Hn; cbn [swaps]; [change (others p [] ++ pops p []) with ([] : fterm); cbn [sgn]; ring|]. change (l ++ f :: t) with (l ++ [f] ++ t) in Hn |- *. rewrite app_assoc in Hn |- *.
      rewrite IH by auto. rewrite <- app_assoc. cbn [app]. unfold others at 3, pops at 2. cbn [filter]. fold (others p t) (pops p t).
      destruct (Nat.eqb_spec (fst f) p) as [E|E]; cbn [negb app]; [|reflexivity]. rewrite sgn_xorb.
      rewrite move_right; [ring|auto| |].
      - intros g Hg. apply filter_In in Hg as [_ Hg]. apply negb_true_iff, Nat.eqb_neq in Hg. auto.
      - intros g Hg. apply Hn. apply in_app_iff in Hg as [Hg|[Hg|Hg]]; [|subst g|].
        + apply in_app_iff. left. apply in_app_iff. auto.
        + apply in_app_iff. left. apply in_app_iff. right. left. auto.
        + apply in_app_iff. right. apply in_app_iff in Hg as [Hg|Hg]; apply filter_In in Hg; tauto.
    Qed.
  End Move.
  Lemma fact_pops (y : list bool) : p < length y -> nth p y false = d -> forall l : fterm, (forall f, In f l -> fst f = p) ->
    snd (fact l y) = match l with [] => y | f :: _ => setb p (snd f) y end /\
    if legal d l then fact l y = (sgn (Nat.odd (length l) && odd_count (firstn p y)), setb p (xorb d (Nat.odd (length l))) y) else fst (fact l y) = 0.
  Proof.
    intros Hp Hd. induction l as [|f l IH]; intros Hl.
    - split; [reflexivity|]. cbn. rewrite xorb_false_r, <- Hd, setb_nth. reflexivity.
    - destruct IH as [I1 I2]; [intros g Hg; apply Hl; right; auto|]. assert (Ef : fst f = p) by (apply Hl; left; auto). split.
      + cbn [FermiProofs3.fact]. unfold mcomp, ladder_act. cbn [snd]. rewrite Ef, I1. destruct l as [|g l]; [auto|]. rewrite setb_setb. auto.
      + cbn [legal length]. cbn [FermiProofs3.fact]. unfold mcomp. destruct (legal d l) eqn:E; cbn [andb].
        * rewrite I2. cbn [fst snd]. unfold ladder_act. rewrite Ef. cbn [fst snd]. rewrite nth_setb_same by auto. rewrite nat_odd_S.
          rewrite odd_count_setb by auto. rewrite Nat.ltb_irrefl. rewrite setb_setb.
          destruct d, (Nat.odd (length l)), (snd f), (odd_count (firstn p y)); cbn; first [reflexivity|f_equal; ring|ring].
        * cbn [fst]. rewrite I2. ring.
  Qed.
  Lemma fact_other (l : fterm) : (forall f, In f l -> fst f <> p) -> forall y, nth p (snd (fact l y)) false = nth p y false.
  Proof.
    induction l as [|f l IH]; intros H y; [reflexivity|]. cbn [FermiProofs3.fact]. unfold mcomp, ladder_act. cbn [snd].
    rewrite nth_setb_other by (intros E; apply (H f); [left|]; auto). apply IH. intros g Hg. apply H. right; auto.
  Qed.
  (** the entry of a term between states with the frozen occupation *)
  Lemma freeze_term (t : fterm) x y : on_modes n t -> length x = n -> length y = n -> nth p x false = d -> nth p y false = d ->
    ent (F t) (bval x) (bval y) =
    if legal d (pops p t) && negb (Nat.odd (length (pops p t))) then sgn (Z.odd (counted p t)) * ent (F (others p t)) (bval x) (bval y) else 0.
  Proof.
    intros Ht Hx Hy Dx Dy.
    assert (Lx : bval x < 2 ^ n) by (rewrite <- Hx; apply bval_lt). assert (Ly : bval y < 2 ^ n) by (rewrite <- Hy; apply bval_lt).
    pose proof (move_all _ (mat_carf n (bval x) (bval y) Lx Ly) t [] Ht) as Mv. cbn [app] in Mv. rewrite Mv. clear Mv.
    assert (Ho : on_modes n (others p t)) by (intros f Hf; apply filter_In in Hf as [Hf _]; auto).
    assert (Hop : on_modes n (others p t ++ pops p t)) by (intros f Hf; apply in_app_iff in Hf as [Hf|Hf]; apply filter_In in Hf as [Hf _]; auto).
    assert (No : forall f, In f (others p t) -> fst f <> p) by (intros f Hf; apply filter_In in Hf as [_ Hf]; apply negb_true_iff, Nat.eqb_neq in Hf; auto).
    assert (Np : forall f, In f (pops p t) -> fst f = p) by (intros f Hf; apply filter_In in Hf as [_ Hf]; apply Nat.eqb_eq in Hf; auto).
    rewrite counted_odd. destruct (pops p t) as [|g l] eqn:Eg.
    - cbn [legal length andb Nat.odd Nat.even negb]. rewrite app_nil_r, xorb_false_r. reflexivity.
    - assert (Hp : p < length y). { rewrite Hy. rewrite <- (Np g) by (left; auto). apply Ht. assert (I : In g (pops p t)) by (rewrite Eg; left; auto). apply filter_In in I. tauto. }
      rewrite <- Eg in *. clear Eg g l. destruct (fact_pops y Hp Dy (pops p t) Np) as [_ G].
      rewrite ent_fact, fact_app by auto. unfold mcomp. destruct (legal d (pops p t)); cbn [andb].
      + rewrite G. cbn [fst snd]. destruct (Nat.odd (length (pops p t))) eqn:O; cbn [andb negb].
        * destruct (list_eqb Bool.eqb x _) eqn:Q; [|ring]. apply (list_eqb_spec _ bool_eqb_spec) in Q. exfalso.
          pose proof (fact_other (others p t) No (setb p (xorb d true) y)) as W. rewrite <- Q, Dx, nth_setb_same in W by auto. destruct d; discriminate.
        * rewrite ent_fact by auto. rewrite xorb_false_r. rewrite xorb_false_r. replace (setb p d y) with y by (rewrite <- Dy; symmetry; apply setb_nth).
          destruct (list_eqb Bool.eqb x _); cbn [sgn]; ring.
      + cbn [fst]. rewrite G. destruct (list_eqb Bool.eqb x _); ring.
  Qed.
End Term.
