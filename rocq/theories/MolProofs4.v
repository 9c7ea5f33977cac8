(** Proofs for C78: the restriction of the electronic Hamiltonian to an active space. *)
From Coq Require Import Ring Setoid Morphisms Ncring Ncring_tac.
From Verif Require Import Base BaseFacts MatModel MatFacts LiftSpec LiftProofs OpModel OpSpec OpProofs OpProofs2 PauliProofs FermiModel FermiSpec FermiProofs FermiProofs2 FermiProofs6 UCCSpec MatRing UCCProofs UCCProofs2 UCCProofs3
  MolSpec MolProofs MolProofs2 MolProofs3.
Open Scope list_scope.
Local Open Scope nat_scope.

Section E.
  Context {K : cring} (n : nat).
  Add Ring Kring_mol4a : (kth K).
  Open Scope K_scope.
  Notation N2 := (Nat.pow 2 (2 * n)).
  Definition te (p q r s : nat) : sqm K N2 := sq_add N2 (sq_add N2 (qd n p 0 q 0 r 0 s 0) (qd n p 0 q 1 r 1 s 0))%nat (sq_add N2 (qd n p 1 q 0 r 0 s 1) (qd n p 1 q 1 r 1 s 1))%nat.
  Lemma qd_ent p a q b r c s d : sq_eq (K := K) N2 (ent (fterm_matrix (2 * n) [(2 * p + a, true); (2 * q + b, true); (2 * r + c, false); (2 * s + d, false)]%nat)) (qd n p a q b r c s d).
  Proof.
    change (sq_eq (K := K) N2 (sq_mul N2 (cr n p a) (sq_mul N2 (cr n q b) (sq_mul N2 (an n r c) (sq_mul N2 (an n s d) (sq1 N2))))) (qd n p a q b r c s d)).
    unfold qd. generalize (cr (K := K) n p a), (cr (K := K) n q b), (an (K := K) n r c), (an (K := K) n s d). intros A B C D. non_commutative_ring.
  Qed.
  Lemma two_electron_ent p q r s i j : (i < N2)%nat -> (j < N2)%nat -> ent (two_electron n p q r s) i j = te p q r s i j.
  Proof.
    intros Hi Hj. unfold two_electron, te. cbn [ent madd]. unfold sq_add. rewrite <- !(qd_ent _ _ _ _ _ _ _ _ i j Hi Hj). reflexivity.
  Qed.
  Definition one_sum (h : nat -> nat -> K) (S : nat -> nat -> K) : K := su (seq 0 n) (fun p => su (seq 0 n) (fun q => h p q * S p q)).
  Definition two_sum (half : K) (g : nat -> nat -> nat -> nat -> K) (T : nat -> nat -> nat -> nat -> K) : K :=
    su (seq 0 n) (fun p => su (seq 0 n) (fun q => su (seq 0 n) (fun r => su (seq 0 n) (fun s => half * g p q r s * T p q r s)))).
  Lemma electronic_ent half c h g i j : (i < N2)%nat -> (j < N2)%nat ->
    ent (electronic n half c h g) i j = c * sq1 N2 i j + (one_sum h (fun p q => sf (2 * n) p q i j) + two_sum half g (fun p q r s => te p q r s i j)).
  Proof.
    intros Hi Hj. unfold electronic. cbn [ent madd mscale eye]. f_equal. f_equal.
    - rewrite msum_ent. change (lsum (map (fun A : mat K => ent A i j) ?l)) with (su l (fun A => ent A i j)). rewrite su_flat. apply su_ext. intros p Hp. rewrite su_map. apply su_ext. intros q Hq. cbn [ent mscale]. rewrite spin_free_sq. reflexivity.
    - rewrite msum_ent. change (lsum (map (fun A : mat K => ent A i j) ?l)) with (su l (fun A => ent A i j)). rewrite su_flat. apply su_ext. intros p _. rewrite su_flat. apply su_ext. intros q _. rewrite su_flat. apply su_ext. intros r _. rewrite su_map. apply su_ext. intros s _.
      cbn [ent mscale]. rewrite two_electron_ent by auto. reflexivity.
  Qed.
  Lemma electronic_shape half c h g : nr (electronic (K := K) n half c h g) = N2 /\ nc (electronic (K := K) n half c h g) = N2.
  Proof. split; reflexivity. Qed.
End E.

Section R.
  Context {K : cring} (n : nat) (occ act : list nat) (Hs : active_space n occ act).
  Add Ring Kring_mol4 : (kth K).
  Open Scope K_scope.
  Notation NN := (2 * n)%nat.
  Notation MM := (2 * length act)%nat.
  Notation pr := (proj (K := K) n occ act).
  Notation other p := (~ In p occ /\ ~ In p act).
  Lemma proj_at A B i j : sq_eq (Nat.pow 2 MM) (pr A) B -> (i < 2 ^ MM)%nat -> (j < 2 ^ MM)%nat -> pr A i j = B i j.
  Proof. intros H. apply H. Qed.
  Lemma sf_cr p q : sf (K := K) NN p q = sq_add _ (sq_mul _ (cr n p 0) (an n q 0)) (sq_mul _ (cr n p 1) (an n q 1)).
  Proof. unfold sf, mv, cr, an. rewrite !Nat.add_0_r. reflexivity. Qed.
  Section I.
    Context (i j : nat) (Hi : (i < 2 ^ MM)%nat) (Hj : (j < 2 ^ MM)%nat).
    Definition D0 : K := sq1 (2 ^ MM) i j.
    Definition S0 p q : K := pr (sf NN p q) i j.
    Definition T0 p q r s : K := pr (te n p q r s) i j.
    Lemma S0_split p q : S0 p q = pr (sq_mul _ (cr n p 0) (an n q 0)) i j + pr (sq_mul _ (cr n p 1) (an n q 1)) i j.
    Proof. unfold S0. rewrite sf_cr. reflexivity. Qed.
    Lemma S0_core p q : In p occ -> (q < n)%nat -> S0 p q = if Nat.eqb p q then D0 + D0 else 0.
    Proof.
      intros Hp Hq. rewrite S0_split. assert (E : forall s t, (s < 2)%nat -> (t < 2)%nat -> pr (sq_mul _ (cr n p s) (an n q t)) i j = _) by (intros s t H1 H2; exact (proj_at _ _ _ _ (one_core n occ act Hs p s q t Hp Hq H1 H2) Hi Hj)). rewrite !E by auto. clear E. unfold del. rewrite !andb_true_r. destruct (Nat.eqb p q).
      - rewrite (proj_at _ _ _ _ (proj_one n occ act Hs)) by auto. reflexivity.
      - cbn. unfold proj, sq0. ring.
    Qed.
    Lemma S0_act p q : In p act -> In q occ -> S0 p q = 0.
    Proof. intros Hp Hq. rewrite S0_split. assert (E : forall s t, (s < 2)%nat -> (t < 2)%nat -> pr (sq_mul _ (cr n p s) (an n q t)) i j = _) by (intros s t H1 H2; exact (proj_at _ _ _ _ (one_act_core n occ act Hs p s q t Hp Hq H1 H2) Hi Hj)). rewrite !E by auto. clear E. unfold sq0. ring. Qed.
    Lemma S0_other p q : (p < n)%nat -> (q < n)%nat -> other p \/ other q -> S0 p q = 0.
    Proof. intros Hp Hq H. rewrite S0_split. assert (E : forall s t, (s < 2)%nat -> (t < 2)%nat -> pr (sq_mul _ (cr n p s) (an n q t)) i j = _) by (intros s t H1 H2; exact (proj_at _ _ _ _ (one_other n occ act p s q t Hp Hq H1 H2 H) Hi Hj)). rewrite !E by auto. clear E. unfold sq0. ring. Qed.
    Lemma T0_split p q r s : T0 p q r s = pr (qd n p 0 q 0 r 0 s 0)%nat i j + pr (qd n p 0 q 1 r 1 s 0)%nat i j + (pr (qd n p 1 q 0 r 0 s 1)%nat i j + pr (qd n p 1 q 1 r 1 s 1)%nat i j).
    Proof. reflexivity. Qed.
    Lemma del_mul p a q b A : pr (sq_mul _ (del n p a q b) A) i j = if (Nat.eqb p q && Nat.eqb a b)%bool then pr A i j else 0.
    Proof.
      unfold del. destruct (Nat.eqb p q && Nat.eqb a b)%bool.
      - assert (E : sq_eq _ (sq_mul (2 ^ NN) (sq1 (2 ^ NN)) A) A) by non_commutative_ring. apply E; apply ex_lt.
      - assert (E : sq_eq _ (sq_mul (2 ^ NN) (sq0 (2 ^ NN)) A) (sq0 _)) by non_commutative_ring. apply E; apply ex_lt.
    Qed.
    Lemma T0_core p q r s : In p occ -> (q < n)%nat -> (r < n)%nat -> (s < n)%nat -> T0 p q r s = (if Nat.eqb p s then S0 q r + S0 q r else 0) - (if Nat.eqb p r then S0 q s else 0).
    Proof.
      intros Hp Hq Hr Hs'. rewrite T0_split. assert (E : forall a b, (a < 2)%nat -> (b < 2)%nat -> pr (qd n p a q b r b s a) i j = _) by (intros a b H1 H2; exact (proj_at _ _ _ _ (two_core n occ act Hs p a q b r b s a Hp Hq Hr Hs' H1 H2 H2 H1) Hi Hj)). rewrite !E by auto. clear E. unfold sq_sub. rewrite !del_mul, !S0_split. cbn [Nat.eqb].
      rewrite ?andb_true_r, ?andb_false_r. destruct (Nat.eqb p s), (Nat.eqb p r); ring.
    Qed.
    Lemma T0_swap p q r s : (p < n)%nat -> (q < n)%nat -> (r < n)%nat -> (s < n)%nat -> T0 p q r s = T0 q p s r.
    Proof.
      intros Hp Hq Hr Hs'. rewrite !T0_split.
      assert (E : forall a b, (a < 2)%nat -> (b < 2)%nat -> pr (qd n p a q b r b s a) i j = pr (qd n q b p a s a r b) i j) by (intros a b Ha Hb; apply (qd_swap n p a q b r b s a); auto; apply ex_lt).
      rewrite !E by lia. ring.
    Qed.
    Lemma T0_act p q r s : In p act -> In q act -> (r < n)%nat -> (s < n)%nat -> In r occ \/ In s occ -> T0 p q r s = 0.
    Proof. intros Hp Hq Hr Hs' H. rewrite T0_split. assert (E : forall a b, (a < 2)%nat -> (b < 2)%nat -> pr (qd n p a q b r b s a) i j = _) by (intros a b H1 H2; exact (proj_at _ _ _ _ (two_act_core n occ act Hs p a q b r b s a Hp Hq Hr Hs' H1 H2 H2 H1 H) Hi Hj)). rewrite !E by auto. clear E. unfold sq0. ring. Qed.
    Lemma T0_other p q r s : (p < n)%nat -> (q < n)%nat -> (r < n)%nat -> (s < n)%nat -> other p \/ other q \/ other r \/ other s -> T0 p q r s = 0.
    Proof. intros Hp Hq Hr Hs' H. rewrite T0_split. assert (E : forall a b, (a < 2)%nat -> (b < 2)%nat -> pr (qd n p a q b r b s a) i j = _) by (intros a b H1 H2; exact (proj_at _ _ _ _ (two_other n occ act p a q b r b s a Hp Hq Hr Hs' H1 H2 H2 H1 H) Hi Hj)). rewrite !E by auto. clear E. unfold sq0. ring. Qed.
    Lemma S0_small k l : (k < length act)%nat -> (l < length act)%nat -> S0 (nth k act 0%nat) (nth l act 0%nat) = sf MM k l i j.
    Proof. intros Hk Hl. rewrite S0_split. assert (E : forall s t, (s < 2)%nat -> (t < 2)%nat -> pr (sq_mul _ (cr n (nth k act 0%nat) s) (an n (nth l act 0%nat) t)) i j = _) by (intros s t H1 H2; exact (proj_at _ _ _ _ (one_act n occ act Hs k s l t Hk Hl H1 H2) Hi Hj)). rewrite !E by auto. clear E. unfold sf, mv. rewrite !Nat.add_0_r. reflexivity. Qed.
    Lemma T0_small a b c d : (a < length act)%nat -> (b < length act)%nat -> (c < length act)%nat -> (d < length act)%nat ->
      T0 (nth a act 0%nat) (nth b act 0%nat) (nth c act 0%nat) (nth d act 0%nat) = te (length act) a b c d i j.
    Proof. intros Ha Hb Hc Hd. rewrite T0_split. assert (E : forall s t, (s < 2)%nat -> (t < 2)%nat -> pr (qd n (nth a act 0%nat) s (nth b act 0%nat) t (nth c act 0%nat) t (nth d act 0%nat) s) i j = _) by (intros s t H1 H2; exact (proj_at _ _ _ _ (two_act n occ act Hs a s b t c t d s Ha Hb Hc Hd H1 H2 H2 H1) Hi Hj)). rewrite !E by auto. clear E. reflexivity. Qed.
  End I.
  Definition core_energy (h : nat -> nat -> K) (g : nat -> nat -> nat -> nat -> K) : K := su occ (fun i => (1 + 1) * h i i + su occ (fun j => (1 + 1) * g i j j i - g i j i j)).
  Definition dressed (h : nat -> nat -> K) (g : nat -> nat -> nat -> nat -> K) (u v : nat) : K := h u v + su occ (fun i => (1 + 1) * g i u v i - g i u i v).
  Notation a_ k := (nth k act 0%nat).
  Theorem restriction half c h g b b' x y : half + half = 1 -> exchange_symmetric n g -> extends n occ act b x -> extends n occ act b' y ->
    ent (electronic n half c h g) (bval x) (bval y) =
    ent (electronic (length act) half (c + core_energy h g) (fun k l => dressed h g (a_ k) (a_ l)) (fun k l m o => g (a_ k) (a_ l) (a_ m) (a_ o))) (bval b) (bval b').
  Proof.
    intros Hh Hg Hx Hy. pose proof (extends_unique n occ act Hs b x Hx) as ->. pose proof (extends_unique n occ act Hs b' y Hy) as ->.
    destruct Hx as (Lb & _), Hy as (Lb' & _). assert (Hi : (bval b < 2 ^ MM)%nat) by (rewrite <- Lb; apply bval_lt). assert (Hj : (bval b' < 2 ^ MM)%nat) by (rewrite <- Lb'; apply bval_lt).
    rewrite !electronic_ent by (auto; apply ex_lt). set (i := bval b). set (j := bval b').
    assert (Eb : bits MM i = b) by (apply bits_bval_n; exact Lb). assert (Eb' : bits MM j = b') by (apply bits_bval_n; exact Lb').
    assert (P : forall A : sqm K (2 ^ NN), A (bval (ext n occ act b)) (bval (ext n occ act b')) = pr A i j) by (intros A; unfold proj; rewrite Eb, Eb'; reflexivity).
    rewrite P, (proj_at _ _ _ _ (proj_one n occ act Hs)) by auto.
    assert (F := frozen_core n occ act Hs half Hh (D0 i j) (S0 i j) (T0 i j) (S0_core i j Hi Hj) (S0_act i j Hi Hj) (S0_other i j Hi Hj) (T0_core i j Hi Hj) (T0_swap i j Hi Hj) (T0_act i j Hi Hj) (T0_other i j Hi Hj) h g Hg).
    match goal with |- _ + (?A + ?B) = _ => transitivity (c * D0 i j + (one_sum n h (S0 i j) + two_sum n half g (T0 i j))) end.
    { f_equal. f_equal; [apply su_ext; intros p _; apply su_ext; intros q _; rewrite P; reflexivity|]. apply su_ext; intros p _; apply su_ext; intros q _. apply su_ext; intros r _; apply su_ext; intros s _. rewrite P. reflexivity. }
    unfold one_sum at 1, two_sum at 1. rewrite F. fold (core_energy h g). fold (D0 i j).
    assert (A1 : su act (fun u => su act (fun v => (h u v + su occ (fun i0 => (1 + 1) * g i0 u v i0 - g i0 u i0 v)) * S0 i j u v)) =
      one_sum (length act) (fun k l => dressed h g (a_ k) (a_ l)) (fun p q => sf MM p q i j)).
    { rewrite su_nth. apply su_ext. intros k Hk. rewrite su_nth. apply su_ext. intros l Hl. apply in_seq in Hk, Hl. rewrite S0_small by (auto; lia). reflexivity. }
    assert (A2 : su act (fun p => su act (fun q => su act (fun r => su act (fun s => half * g p q r s * T0 i j p q r s)))) =
      two_sum (length act) half (fun k l m o => g (a_ k) (a_ l) (a_ m) (a_ o)) (fun p q r s => te (length act) p q r s i j)).
    { rewrite su_nth. apply su_ext. intros k Hk. rewrite su_nth. apply su_ext. intros l Hl. rewrite su_nth. apply su_ext. intros m Hm. rewrite su_nth. apply su_ext. intros o Ho. apply in_seq in Hk, Hl, Hm, Ho. rewrite T0_small by (auto; lia). reflexivity. }
    rewrite A1, A2. ring.
  Qed.
End R.
