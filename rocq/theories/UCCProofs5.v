(** Proofs for C77: the singlet generator commutes with the total spin; numbers of particles of each spin. *)
From Coq Require Import Ring Setoid Ncring Ncring_tac.
From Verif Require Import Base BaseFacts MatModel MatFacts LiftSpec LiftProofs OpModel OpSpec OpProofs PauliProofs OpProofs2 ConjProofs BackendProofs FermiModel FermiSpec FermiProofs FermiProofs2 FermiProofs3 FermiProofs6 FermiProofs7
  SectorOpSpec JWInterModel UCCModel UCCSpec MatRing UCCProofs UCCProofs2 UCCProofs3 UCCProofs4.
Open Scope list_scope.
Local Open Scope nat_scope.

Section S.
  Context {K : cring} (n : nat).
  Add Ring Kring_ucc5 : (kth K).
  Open Scope K_scope.
  Notation N := (2 ^ n)%nat.
  Local Notation "A '==' B" := (sq_eq (K := K) (Nat.pow 2 n) A B) (at level 70, no associativity) : sq_scope.
  Local Notation "A '+' B" := (sq_add (K := K) (Nat.pow 2 n) A B) : sq_scope.
  Local Notation "A '*' B" := (sq_mul (K := K) (Nat.pow 2 n) A B) : sq_scope.
  Definition star (X : T (K := K) n) : T n := fun i j => kconj (X j i).
  Lemma star_ext X Y : (X == Y)%sq -> (star X == star Y)%sq.
  Proof. intros H i j Hi Hj. unfold star. rewrite H by auto. reflexivity. Qed.
  Lemma star_mul X Y : (star (X * Y) == star Y * star X)%sq.
  Proof. intros i j Hi Hj. unfold star, sq_mul. rewrite bigsum_conj. apply bigsum_ext. intros k Hk. rewrite kconj_mul. ring. Qed.
  Lemma star_add X Y : (star (X + Y) == star X + star Y)%sq.
  Proof. intros i j Hi Hj. unfold star, sq_add. apply kconj_add. Qed.
  Lemma star_star X : (star (star X) == X)%sq.
  Proof. intros i j Hi Hj. unfold star. apply kconj_invol. Qed.
  Lemma star_lad p d : (star (lad n p d) == lad n p (negb d))%sq.
  Proof. intros i j Hi Hj. destruct (ladder_adjoint (K := K) n (p, d)) as (_ & _ & E). apply E; auto. Qed.
  Lemma star_mv p q : (star (mv n p q) == mv n q p)%sq.
  Proof. unfold mv. rewrite star_mul, !star_lad. reflexivity. Qed.
  Lemma star_sf v o : (star (sf n v o) == sf n o v)%sq.
  Proof. unfold sf. rewrite star_add, !star_mv. reflexivity. Qed.
  Definition comm2 (X : T (K := K) n) : Prop := (X * up n == up n * X)%sq /\ (X * down n == down n * X)%sq.
  Lemma comm2_ext X Y : (X == Y)%sq -> comm2 X -> comm2 Y.
  Proof. intros H [H1 H2]. split; rewrite <- H; auto. Qed.
  Lemma comm2_add X Y : comm2 X -> comm2 Y -> comm2 (X + Y)%sq.
  Proof.
    intros [H1 H2] [H3 H4]. split.
    - transitivity (X * up n + Y * up n)%sq; [non_commutative_ring|]. rewrite H1, H3. non_commutative_ring.
    - transitivity (X * down n + Y * down n)%sq; [non_commutative_ring|]. rewrite H2, H4. non_commutative_ring.
  Qed.
  Lemma comm2_mul X Y : comm2 X -> comm2 Y -> comm2 (X * Y)%sq.
  Proof.
    intros [H1 H2] [H3 H4]. split.
    - transitivity (X * (Y * up n))%sq; [non_commutative_ring|]. rewrite H3. transitivity ((X * up n) * Y)%sq; [non_commutative_ring|]. rewrite H1. non_commutative_ring.
    - transitivity (X * (Y * down n))%sq; [non_commutative_ring|]. rewrite H4. transitivity ((X * down n) * Y)%sq; [non_commutative_ring|]. rewrite H2. non_commutative_ring.
  Qed.
  Lemma scale_mul_l c X Y : (sq_scale _ c X * Y == sq_scale _ c (X * Y))%sq.
  Proof. intros i j Hi Hj. unfold sq_scale, sq_mul. rewrite bigsum_mul_l. apply bigsum_ext. intros. ring. Qed.
  Lemma scale_mul_r c X Y : (X * sq_scale _ c Y == sq_scale _ c (X * Y))%sq.
  Proof. intros i j Hi Hj. unfold sq_scale, sq_mul. rewrite bigsum_mul_l. apply bigsum_ext. intros. ring. Qed.
  Lemma scale_ext c X Y : (X == Y)%sq -> (sq_scale _ c X == sq_scale _ c Y)%sq.
  Proof. intros H i j Hi Hj. unfold sq_scale. rewrite H by auto. reflexivity. Qed.
  Lemma comm2_scale c X : comm2 X -> comm2 (sq_scale _ c X).
  Proof. intros [H1 H2]. split; rewrite scale_mul_l, scale_mul_r; apply scale_ext; auto. Qed.
  Lemma comm2_sf v o : (v < n / 2)%nat -> (o < n / 2)%nat -> comm2 (sf n v o).
  Proof. intros Hv Ho. split; [apply sf_up|apply sf_down]; auto. Qed.
  Lemma comm2_msum (l : list (mat K)) : (forall A, In A l -> comm2 (ent A)) -> comm2 (ent (msum n l)).
  Proof.
    induction l as [|A l IH]; intros H; [split; cbn [msum fold_right]; intros i j Hi Hj; unfold sq_mul; cbn [ent zeros]; rewrite !bigsum_0; auto; intros; ring|].
    cbn [msum fold_right ent madd]. apply (comm2_add (ent A)); [apply H; left; reflexivity|]. apply IH. intros B HB. apply H. right. exact HB.
  Qed.
  Lemma comm2_minus_hc anti (X : mat K) : comm2 (ent X) -> comm2 (star (ent X)) -> comm2 (ent (minus_hc anti X)).
  Proof. intros H1 H2. destruct anti; [|exact H1]. apply (comm2_add (ent X)); [exact H1|]. apply (comm2_scale (- (1)) (star (ent X))). exact H2. Qed.
  Lemma singlet_comm2 k anti t1 t2 t3 : comm2 (ent (singlet_generator n k anti t1 t2 t3)).
  Proof.
    assert (P : forall p, In p (orbital_pairs n k) -> comm2 (ent (spin_free (K := K) n (fst p) (snd p))) /\ comm2 (star (ent (spin_free (K := K) n (fst p) (snd p))))).
    { intros [v o] Hp. apply pairs_range in Hp as (H1 & H2 & _ & _). cbn [fst snd]. rewrite spin_free_sq. split; [apply comm2_sf; auto|].
      eapply comm2_ext; [symmetry; apply star_sf|]. apply comm2_sf; auto. }
    assert (Q : forall p q, In p (orbital_pairs n k) -> In q (orbital_pairs n k) -> comm2 (ent (minus_hc anti (mmul (spin_free (K := K) n (fst p) (snd p)) (spin_free n (fst q) (snd q)))))).
    { intros p q Hp Hq. destruct (P p Hp) as [P1 P2], (P q Hq) as [Q1 Q2]. apply comm2_minus_hc; [apply (comm2_mul (ent (spin_free n (fst p) (snd p))) (ent (spin_free n (fst q) (snd q)))); auto|].
      eapply comm2_ext; [symmetry; apply (star_mul (ent (spin_free n (fst p) (snd p))) (ent (spin_free n (fst q) (snd q))))|]. apply comm2_mul; auto. }
    unfold singlet_generator. cbn zeta. cbn [ent madd]. apply comm2_add; [|apply (comm2_add (ent (msum n _)))]; apply comm2_msum; intros A HA; apply in_map_iff in HA as (p & <- & Hp); cbn [ent mscale]; apply comm2_scale.
    - destruct (P p Hp). apply comm2_minus_hc; auto.
    - apply Q; auto.
    - apply two_of_In in Hp as [H1 H2]. apply Q; auto.
  Qed.
  Lemma singlet_shape k anti (t1 t2 : nat * nat -> K) t3 : sq N (singlet_generator n k anti t1 t2 t3).
  Proof.
    unfold singlet_generator. cbn zeta. match goal with |- sq N (madd ?A _) => cut (sq N A); [intros H; exact H|] end.
    apply msum_shape. apply Forall_forall. intros A HA. apply in_map_iff in HA as (a & <- & _). destruct anti; split; reflexivity.
  Qed.
  Lemma comm2_commute (X : mat K) : sq N X -> comm2 (ent X) -> commute X (raise_spin n) /\ commute X (lower_spin n).
  Proof.
    intros [S1 S2] [H1 H2]. assert (R : sq N (raise_spin (K := K) n) /\ sq N (lower_spin (K := K) n)).
    { split; apply msum_shape; apply Forall_forall; intros A HA; apply in_map_iff in HA as (p & <- & _); split; reflexivity. }
    destruct R as [[R1 R2] [L1 L2]]. split; (split; [cbn [nr mmul]; congruence|]); (split; [cbn [nc mmul]; congruence|]); cbn [nr nc mmul]; intros i j Hi Hj; cbn [ent mmul].
    - rewrite S1 in Hi. rewrite R2 in Hj. rewrite S2, R2. specialize (H1 i j Hi Hj). unfold sq_mul in H1. rewrite raise_sq. exact H1.
    - rewrite S1 in Hi. rewrite L2 in Hj. rewrite S2, L2. specialize (H2 i j Hi Hj). unfold sq_mul in H2. rewrite lower_sq. exact H2.
  Qed.
  (** ** Particles counted in some of the modes *)
  Definition pcount (P : nat -> bool) (b : list bool) : nat := how_many (fun i => P i && occupied b i) (length b).
  Definition tcount (P : nat -> bool) (d : bool) (t : fterm) : nat := length (filter (fun f : factor bool => P (fst f) && Bool.eqb (snd f) d) t).
  Lemma pcount_setb P p d b : (p < length b)%nat -> (pcount P (setb p d b) + (if P p && nth p b false then 1 else 0) = pcount P b + (if P p && d then 1 else 0))%nat.
  Proof.
    intros H. unfold pcount, how_many, occupied. rewrite setb_length.
    assert (G : forall m a, (forall i, (a <= i < a + m)%nat -> i <> p) -> filter (fun i => P i && nth i (setb p d b) false) (seq a m) = filter (fun i => P i && nth i b false) (seq a m)).
    { intros m a Hm. apply filter_ext_in. intros i Hi. apply in_seq in Hi. rewrite nth_setb_other by (specialize (Hm i Hi); auto). reflexivity. }
    replace (length b) with (p + (1 + (length b - p - 1)))%nat by lia. rewrite !seq_app, !filter_app, !app_length. cbn [Nat.add seq]. rewrite !G by lia. cbn [seq filter Nat.add]. rewrite nth_setb_same by auto.
    destruct (P p); cbn [andb]; [|lia]. destruct d, (nth p b false); cbn [length]; lia.
  Qed.
  Lemma fact_counts P t : forall c, on_modes n t -> length c = n ->
    fst (fact (K := K) t c) = 0 \/ (pcount P (snd (fact (K := K) t c)) + tcount P false t = pcount P c + tcount P true t)%nat.
  Proof.
    induction t as [|[p d] t IH]; intros c H Hc; cbn [fact]; [right; reflexivity|].
    assert (Hp : (p < n)%nat) by (apply (H (p, d)); left; auto). destruct (IH c) as [E|E]; auto; [intros f Hf; apply H; right; auto| |].
    - left. unfold mcomp. cbn [fst]. rewrite E. ring.
    - unfold mcomp, ladder_act. cbn [fst snd]. set (e := snd (fact (K := K) t c)) in *.
      assert (Le : length e = n) by (unfold e; rewrite fact_length; auto).
      destruct (Bool.eqb (nth p e false) (negb d)) eqn:B; [|left; ring]. right. apply Bool.eqb_prop in B.
      pose proof (pcount_setb P p d e ltac:(lia)) as Q. rewrite B in Q. unfold tcount in *. cbn [filter fst snd]. destruct (P p), d; cbn [andb negb Bool.eqb length] in *; lia.
  Qed.
  Lemma fop_counts P (a : fop K) : (forall t, In t (dkeys a) -> on_modes n t /\ tcount P true t = tcount P false t) ->
    forall x y, length x = n -> length y = n -> pcount P x <> pcount P y -> ent (fop_matrix n a) (bval x) (bval y) = 0.
  Proof.
    intros H x y Hx Hy Nn. rewrite fop_ent. induction a as [|[t c] a IH]; [reflexivity|]. cbn [lval fst snd]. rewrite IH by (intros u Hu; apply H; right; auto). clear IH.
    destruct (H t (or_introl eq_refl)) as [Ht Hb]. destruct (fterm_mono (K := K) n t Ht) as (_ & _ & E). rewrite E.
    2,3: rewrite ?(proj1 (fterm_shape n t)), ?(proj2 (fterm_shape n t)); first [rewrite <- Hx; apply bval_lt|rewrite <- Hy; apply bval_lt].
    rewrite mono_ent by (auto; rewrite fact_length; auto). destruct (list_eqb Bool.eqb x _) eqn:L; [|ring]. apply (list_eqb_spec _ bool_eqb_spec) in L.
    destruct (fact_counts P t y Ht Hy) as [Z|Z]; [rewrite Z; ring|]. exfalso. apply Nn. rewrite L. lia.
  Qed.
End S.
