(** Proofs for C78: symmetries of the electronic Hamiltonian. *)
From Coq Require Import Ring Setoid Morphisms Ncring Ncring_tac.
From Verif Require Import Base BaseFacts MatModel MatFacts LiftSpec LiftProofs OpModel OpSpec OpProofs OpProofs2 PauliProofs ConjProofs FermiModel FermiSpec FermiProofs FermiProofs2 FermiProofs6 SectorSpec SectorOpSpec UCCSpec MatRing
  UCCProofs UCCProofs2 UCCProofs3 UCCProofs4 UCCProofs5 MolModel MolSpec MolProofs MolProofs2 MolProofs3 MolProofs4 MolProofs5.
Open Scope list_scope.
Local Open Scope nat_scope.

Section S.
  Context {K : cring} (n : nat).
  Add Ring Kring_mol7 : (kth K).
  Open Scope K_scope.
  Notation N := (2 * n)%nat.
  Local Notation "A '==' B" := (sq_eq (K := K) (Nat.pow 2 (2 * n)) A B) (at level 70, no associativity) : sq_scope.
  Local Notation "A '+' B" := (sq_add (K := K) (Nat.pow 2 (2 * n)) A B) : sq_scope.
  Local Notation "A '-' B" := (sq_sub (K := K) (Nat.pow 2 (2 * n)) A B) : sq_scope.
  Local Notation "A '*' B" := (sq_mul (K := K) (Nat.pow 2 (2 * n)) A B) : sq_scope.
  Local Notation "'-' A" := (sq_opp (K := K) (Nat.pow 2 (2 * n)) A) : sq_scope.
  Lemma qd_split p q r s a b : (p < n)%nat -> (q < n)%nat -> (r < n)%nat -> (s < n)%nat -> (a < 2)%nat -> (b < 2)%nat ->
    (qd (K := K) n p a q b r b s a == (cr n p a * an n s a) * (cr n q b * an n r b) - cr n p a * (del n q b s a * an n r b))%sq.
  Proof.
    intros. unfold qd. transitivity ((cr n p a * cr n q b) * (an n r b * an n s a))%sq; [non_commutative_ring|]. rewrite (anti_aa n r s) by auto.
    transitivity (- (cr n p a * ((cr n q b * an n s a) * an n r b)))%sq; [non_commutative_ring|]. rewrite (anti_ca n q s) by auto. non_commutative_ring.
  Qed.
  Lemma te_split p q r s : (p < n)%nat -> (q < n)%nat -> (r < n)%nat -> (s < n)%nat ->
    (te (K := K) n p q r s == sf N p s * sf N q r + sq_scale _ (if Nat.eqb q s then kopp 1%K else 0%K) (sf N p r))%sq.
  Proof.
    intros Hp Hq Hr Hs. unfold te. rewrite !qd_split by lia. rewrite !sf_cr. unfold del. cbn [Nat.eqb]. rewrite !andb_false_r, !andb_true_r.
    destruct (Nat.eqb q s).
    - assert (Q : forall X : sqm K (2 ^ N), (sq_scale (2 ^ N) (kopp 1%K) X == - X)%sq) by (intros X i j Hi Hj; unfold sq_scale, sq_opp; ring). rewrite Q. non_commutative_ring.
    - assert (Q : forall X : sqm K (2 ^ N), (sq_scale (2 ^ N) 0%K X == sq0 (K := K) (2 ^ N))%sq) by (intros X i j Hi Hj; unfold sq_scale, sq0; ring). rewrite Q. non_commutative_ring.
  Qed.
  Lemma div2 : (N / 2)%nat = n. Proof. rewrite Nat.mul_comm, Nat.div_mul; lia. Qed.
  Lemma te_comm2 p q r s : (p < n)%nat -> (q < n)%nat -> (r < n)%nat -> (s < n)%nat -> comm2 N (te (K := K) n p q r s).
  Proof.
    intros. eapply comm2_ext; [symmetry; apply te_split; assumption|]. apply comm2_add; [apply comm2_mul|apply comm2_scale]; apply comm2_sf; rewrite div2; assumption.
  Qed.
  Lemma electronic_shape2 half c h g : sq (2 ^ N) (electronic (K := K) n half c h g).
  Proof. split; reflexivity. Qed.
  Lemma electronic_comm2 half c h g : comm2 N (ent (electronic (K := K) n half c h g)).
  Proof.
    unfold electronic. cbn [ent madd mscale eye]. apply comm2_add; [|apply (comm2_add N (ent (msum N _)))]; [|apply comm2_msum; intros A HA..].
    - eapply (comm2_ext N (sq_scale _ c (sq1 _))); [intros i j Hi Hj; reflexivity|]. apply comm2_scale. split; non_commutative_ring.
    - apply in_flat_map in HA as (p & Hp & HA). apply in_map_iff in HA as (q & <- & Hq). apply in_seq in Hp, Hq. cbn [ent mscale]. rewrite spin_free_sq. apply comm2_scale. apply comm2_sf; rewrite div2; lia.
    - apply in_flat_map in HA as (p & Hp & HA). apply in_flat_map in HA as (q & Hq & HA). apply in_flat_map in HA as (r & Hr & HA). apply in_map_iff in HA as (s & <- & Hs). apply in_seq in Hp, Hq, Hr, Hs.
      cbn [ent mscale]. apply comm2_scale. eapply comm2_ext; [|apply (te_comm2 p q r s); lia]. intros i j Hi Hj. symmetry. apply two_electron_ent; auto.
  Qed.
  Lemma electronic_spin half c h g : commute (electronic (K := K) n half c h g) (raise_spin N) /\ commute (electronic (K := K) n half c h g) (lower_spin N).
  Proof. apply comm2_commute; [apply electronic_shape2|apply electronic_comm2]. Qed.

  (** ** Hermitian *)
  Lemma qd_star p a q b r c s d : (star N (qd (K := K) n p a q b r c s d) == qd n s d r c q b p a)%sq.
  Proof.
    unfold qd, cr, an. rewrite !star_mul, !star_lad. cbn [negb]. non_commutative_ring.
  Qed.
  Lemma te_star p q r s : (star N (te (K := K) n p q r s) == te n s r q p)%sq.
  Proof. unfold te. rewrite !star_add, !qd_star. non_commutative_ring. Qed.
  Lemma su_conj {X} (l : list X) f : kconj (su (K := K) l f) = su l (fun x => kconj (f x)).
  Proof. induction l as [|x l IH]; unfold su in *; cbn [map lsum]; [apply kconj_0|]. rewrite kconj_add, IH. reflexivity. Qed.
  Notation Q4 l F := (su l (fun p => su l (fun q => su l (fun r => su l (fun s => F p q r s))))).
  Lemma su_t12 (l : list nat) (F : nat -> nat -> nat -> nat -> K) : Q4 l F = Q4 l (fun p q r s => F q p r s).
  Proof. apply (su_swap l l (fun p q => su l (fun r => su l (fun s => F p q r s)))). Qed.
  Lemma su_t23 (l : list nat) (F : nat -> nat -> nat -> nat -> K) : Q4 l F = Q4 l (fun p q r s => F p r q s).
  Proof. apply su_ext. intros p _. apply (su_swap l l (fun q r => su l (fun s => F p q r s))). Qed.
  Lemma su_t34 (l : list nat) (F : nat -> nat -> nat -> nat -> K) : Q4 l F = Q4 l (fun p q r s => F p q s r).
  Proof. apply su_ext. intros p _. apply su_ext. intros q _. apply (su_swap l l (fun r s => F p q r s)). Qed.
  Lemma su_rev (l : list nat) (F : nat -> nat -> nat -> nat -> K) : Q4 l F = Q4 l (fun p q r s => F s r q p).
  Proof.
    rewrite (su_t12 l F). rewrite (su_t23 l (fun p q r s => F q p r s)). rewrite (su_t34 l (fun p q r s => F r p q s)). rewrite (su_t12 l (fun p q r s => F s p q r)).
    rewrite (su_t23 l (fun p q r s => F s q p r)). rewrite (su_t12 l (fun p q r s => F s r p q)). reflexivity.
  Qed.
  Lemma electronic_hermitian half c h g : kconj half = half -> kconj c = c -> hermitian_integrals n h g -> hermitian (electronic (K := K) n half c h g).
  Proof.
    intros Hh Hc [H1 H2]. split; [reflexivity|]. cbn [nr electronic madd mscale eye]. intros i j Hi Hj. rewrite !electronic_ent by assumption. rewrite !kconj_add, kconj_mul, Hc. f_equal; [|f_equal].
    - f_equal. unfold sq1. rewrite Nat.eqb_sym. destruct (Nat.eqb i j); [symmetry; apply kconj_1|symmetry; apply kconj_0].
    - unfold one_sum. rewrite su_conj. rewrite su_swap. apply su_ext. intros q Hq. rewrite su_conj. apply su_ext. intros p Hp. apply in_seq in Hp, Hq. rewrite kconj_mul, H1 by lia. f_equal.
      symmetry. apply (star_sf N q p j i Hj Hi).
    - unfold two_sum. rewrite su_conj.
      transitivity (su (seq 0 n) (fun p => su (seq 0 n) (fun q => su (seq 0 n) (fun r => su (seq 0 n) (fun s => half * g s r q p * te n s r q p j i))))).
      + apply (su_rev (seq 0 n) (fun p q r s => half * g p q r s * te n p q r s j i)).
      + apply su_ext. intros p Hp. rewrite su_conj. apply su_ext. intros q Hq. rewrite su_conj. apply su_ext. intros r Hr. rewrite su_conj. apply su_ext. intros s Hs. apply in_seq in Hp, Hq, Hr, Hs.
        rewrite !kconj_mul, Hh, H2 by lia. f_equal. symmetry. apply (te_star p q r s j i Hj Hi).
  Qed.

  (** ** Particles of each spin *)
  Lemma term_counts P (t : fterm) : on_modes N t -> tcount P true t = tcount P false t ->
    forall x y, length x = N -> length y = N -> pcount P x <> pcount P y -> ent (K := K) (fterm_matrix N t) (bval x) (bval y) = 0.
  Proof.
    intros H1 H2 x y Hx Hy D. pose proof (fop_counts (K := K) N P [(t, 1)]) as Q. cbn [dkeys map fst] in Q. specialize (Q ltac:(intros u [<-|[]]; auto) x y Hx Hy D). rewrite fop_ent in Q. cbn [lval fst snd] in Q.
    rewrite <- Q. ring.
  Qed.
  Lemma spin_set P : (forall x, P x = Nat.even x) \/ (forall x, P x = Nat.odd x) -> forall p q a, P (2 * p + a)%nat = P (2 * q + a)%nat.
  Proof. intros [H|H] p q a; rewrite !H, ?Nat.even_add, ?Nat.odd_add, ?Nat.even_mul, ?Nat.odd_mul; reflexivity. Qed.
  Lemma electronic_counts P half c h g x y : (forall x, P x = Nat.even x) \/ (forall x, P x = Nat.odd x) -> length x = N -> length y = N -> pcount P x <> pcount P y ->
    ent (electronic (K := K) n half c h g) (bval x) (bval y) = 0.
  Proof.
    intros HP Hx Hy D. assert (Bx : (bval x < 2 ^ N)%nat) by (rewrite <- Hx; apply bval_lt). assert (By : (bval y < 2 ^ N)%nat) by (rewrite <- Hy; apply bval_lt).
    rewrite electronic_ent by assumption. pose proof (spin_set P HP) as SP.
    assert (E0 : sq1 (K := K) (2 ^ N) (bval x) (bval y) = 0).
    { unfold sq1. destruct (Nat.eqb_spec (bval x) (bval y)) as [E|_]; [|reflexivity]. exfalso. apply D. f_equal. apply bval_inj; [congruence|exact E]. }
    assert (E1 : one_sum n h (fun p q => sf N p q (bval x) (bval y)) = 0).
    { apply su_zero. intros p Hp. apply su_zero. intros q Hq. apply in_seq in Hp, Hq.
      assert (Q : forall a, (a < 2)%nat -> sq_mul (K := K) (2 ^ N) (cr n p a) (an n q a) (bval x) (bval y) = 0).
      { intros a Ha. transitivity (ent (K := K) (fterm_matrix N [(2 * p + a, true); (2 * q + a, false)]%nat) (bval x) (bval y)).
        - assert (Q : sq_eq (K := K) (2 ^ N) (sq_mul _ (cr n p a) (sq_mul _ (an n q a) (sq1 _))) (sq_mul _ (cr n p a) (an n q a))).
          { generalize (cr (K := K) n p a), (an (K := K) n q a). intros U V. non_commutative_ring. } symmetry. exact (Q _ _ Bx By).
        - apply (term_counts P); auto; [intros f [<-|[<-|[]]]; cbn [fst]; lia|]. unfold tcount. cbn [filter fst snd Bool.eqb]. rewrite (SP p q a). destruct (P (2 * q + a)%nat); reflexivity. }
      rewrite sf_cr. unfold sq_add. rewrite !Q by lia. ring. }
    assert (E2 : two_sum n half g (fun p q r s => te n p q r s (bval x) (bval y)) = 0).
    { apply su_zero. intros p Hp. apply su_zero. intros q Hq. apply su_zero. intros r Hr. apply su_zero. intros s Hs. apply in_seq in Hp, Hq, Hr, Hs.
      assert (Q : forall a b, (a < 2)%nat -> (b < 2)%nat -> qd (K := K) n p a q b r b s a (bval x) (bval y) = 0).
      { intros a b Ha Hb. rewrite <- (qd_ent n p a q b r b s a _ _ Bx By). apply (term_counts P); auto; [intros f [<-|[<-|[<-|[<-|[]]]]]; cbn [fst]; lia|].
        unfold tcount. cbn [filter fst snd Bool.eqb]. rewrite (SP p s a), (SP q r b). destruct (P (2 * s + a)%nat), (P (2 * r + b)%nat); reflexivity. }
      unfold te, sq_add. rewrite !Q by lia. ring. }
    rewrite E0, E1, E2. ring.
  Qed.
End S.
