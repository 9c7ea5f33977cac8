(** Proofs for C83: unitary rotations of the modes are unitary transformations of the operators. *)
From Coq Require Import Ring Setoid Morphisms Ncring Ncring_tac Sorted.
From Verif Require Import Base BaseFacts MatModel MatFacts LiftSpec LiftProofs OpModel OpSpec PauliProofs FermiModel FermiSpec FermiProofs FermiProofs2 FermiProofs3 FermiProofs6 UCCSpec MatRing UCCProofs RotProofs3 RotProofs4 TensorModel DiagSpec RotSpec.
Open Scope list_scope.
Local Open Scope nat_scope.

Section S.
  Context {K : cring} (n : nat).
  Add Ring Kring_rot5 : (kth K).
  Local Notation "A '==' B" := (sq_eq (K := K) (Nat.pow 2 n) A B) (at level 70, no associativity) : sq_scope.
  Local Notation "A '+' B" := (sq_add (K := K) (Nat.pow 2 n) A B) : sq_scope.
  Local Notation "A '-' B" := (sq_sub (K := K) (Nat.pow 2 n) A B) : sq_scope.
  Local Notation "A '*' B" := (sq_mul (K := K) (Nat.pow 2 n) A B) : sq_scope.
  Local Notation "'-' A" := (sq_opp (K := K) (Nat.pow 2 n) A) : sq_scope.
  Local Notation "0" := (sq0 (K := K) (Nat.pow 2 n)) : sq_scope.
  Local Notation "1" := (sq1 (K := K) (Nat.pow 2 n)) : sq_scope.
  Notation T := (T (K := K) n).
  Notation lad := (lad (K := K) n).
  Notation vac := (vac (K := K) n).
  (** sums of matrices *)
  Definition msum (m : nat) (f : nat -> T) : T := fun i j => bigsum m (fun k => f k i j).
  Lemma msum_ext m f g : (forall k, k < m -> (f k == g k)%sq) -> (msum m f == msum m g)%sq.
  Proof. intros E i j Hi Hj. apply bigsum_ext. intros k Hk. apply (E k Hk); auto. Qed.
  Lemma msum_mul_l m X f : (X * msum m f == msum m (fun k => X * f k))%sq.
  Proof. intros i j Hi Hj. unfold sq_mul, msum. rewrite bigsum_swap. apply bigsum_ext. intros k _. apply bigsum_mul_l. Qed.
  Lemma msum_mul_r m X f : (msum m f * X == msum m (fun k => f k * X))%sq.
  Proof. intros i j Hi Hj. unfold sq_mul, msum. rewrite bigsum_swap. apply bigsum_ext. intros k _. apply bigsum_mul_r. Qed.
  Lemma msum_add m f g : (msum m f + msum m g == msum m (fun k => f k + g k))%sq.
  Proof. intros i j Hi Hj. unfold sq_add, msum. symmetry. apply bigsum_add. Qed.
  Lemma msum_swap m m' (f : nat -> nat -> T) : (msum m (fun k => msum m' (fun l => f k l)) == msum m' (fun l => msum m (fun k => f k l)))%sq.
  Proof. intros i j Hi Hj. apply bigsum_swap. Qed.
  Lemma msum_0 m f : (forall k, k < m -> (f k == 0)%sq) -> (msum m f == 0)%sq.
  Proof. intros E i j Hi Hj. apply bigsum_0. intros k Hk. apply (E k Hk); auto. Qed.
  Lemma msum_single m k f : k < m -> (forall l, l < m -> l <> k -> (f l == 0)%sq) -> (msum m f == f k)%sq.
  Proof. intros Hk E i j Hi Hj. unfold msum. rewrite (bigsum_single (K := K) m k); [reflexivity|exact Hk|]. intros l Hl N. apply (E l Hl N); auto. Qed.
  Definition scl (c : K) (X : T) : T := fun i j => kmul c (X i j).
  Lemma scl_mul_l c X Y : (scl c X * Y == scl c (X * Y))%sq.
  Proof. intros i j _ _. unfold sq_mul, scl. rewrite bigsum_mul_l. apply bigsum_ext. intros k _. ring. Qed.
  Lemma scl_mul_r c X Y : (X * scl c Y == scl c (X * Y))%sq.
  Proof. intros i j _ _. unfold sq_mul, scl. rewrite bigsum_mul_l. apply bigsum_ext. intros k _. ring. Qed.
  Global Instance scl_proper : Proper (eq ==> sq_eq (K := K) (2 ^ n) ==> sq_eq (2 ^ n)) scl.
  Proof. intros c ? <- X Y E i j Hi Hj. unfold scl. rewrite (E i j Hi Hj). reflexivity. Qed.
  (** A double sum of terms that change their sign when the indices are exchanged. *)
  Lemma msum_anti m (f : nat -> nat -> T) : (forall k, k < m -> (f k k == 0)%sq) -> (forall k l, k < m -> l < m -> (f k l + f l k == 0)%sq) -> (msum m (fun k => msum m (fun l => f k l)) == 0)%sq.
  Proof.
    induction m as [|m IH]; intros D E; [intros i j _ _; reflexivity|]. intros i j Hi Hj. unfold msum, sq0. cbn [bigsum].
    rewrite bigsum_add. assert (X : bigsum m (fun k => bigsum m (fun l => f k l i j)) = k0) by (apply (IH ltac:(auto) ltac:(auto) i j Hi Hj)). rewrite X. rewrite (D m ltac:(lia) i j Hi Hj). unfold sq0.
    transitivity (bigsum m (fun k => kadd (f k m i j) (f m k i j))); [rewrite bigsum_add; ring|]. apply bigsum_0. intros k Hk. apply (E k m ltac:(lia) ltac:(lia) i j Hi Hj).
  Qed.

  Section Rot.
    Context (R : mat K) (Hr : nr R = n) (Hc : nc R = n).
    Definition cf (R : mat K) (p : nat) (d : bool) (A : nat) : K := if d then kconj (ent R p A) else ent R p A.
    Definition rl (R : mat K) (p : nat) (d : bool) : T := msum n (fun A => scl (cf R p d A) (lad A d)).
    Lemma rl_ent p d : rl R p d = ent (rotated_ladder n R (p, d)).
    Proof. reflexivity. Qed.
    Lemma rl_mul p d q e : (rl R p d * rl R q e == msum n (fun A => msum n (fun B => scl (kmul (cf R p d A) (cf R q e B)) (lad A d * lad B e))))%sq.
    Proof.
      unfold rl. rewrite msum_mul_r. apply msum_ext. intros A _. rewrite msum_mul_l. apply msum_ext. intros B _. rewrite scl_mul_l, scl_mul_r. intros i j _ _. unfold scl. ring.
    Qed.
    Context (HU : unitary R).
    Lemma rows p q : p < n -> q < n -> bigsum n (fun A => kmul (ent R p A) (kconj (ent R q A))) = if Nat.eqb p q then k1 else k0.
    Proof. intros Hp Hq. destruct HU as (_ & _ & _ & _ & E). specialize (E p q). cbn [mmul adjoint nr nc ent eye] in E. rewrite Hr, Hc in E. apply E; auto. Qed.
    Lemma cols p q : p < n -> q < n -> bigsum n (fun A => kmul (kconj (ent R A p)) (ent R A q)) = if Nat.eqb p q then k1 else k0.
    Proof. intros Hp Hq. destruct HU as (_ & (_ & _ & E) & _). specialize (E p q). cbn [mmul adjoint nr nc ent eye] in E. rewrite Hr, Hc in E. apply E; auto. Qed.
    Lemma rl_fock : fock n (rl R).
    Proof.
      split; [|split].
      - intros p q d e Hp Hq. rewrite !rl_mul. rewrite (msum_swap n n (fun A B => scl (kmul (cf R q e A) (cf R p d B)) (lad A e * lad B d)%sq)). rewrite msum_add.
        transitivity (msum n (fun A => msum n (fun B => scl (kmul (cf R p d A) (cf R q e B)) (if negb (Bool.eqb d e) then delta n A B else 0%sq)))).
        { apply msum_ext. intros A HA. rewrite msum_add. apply msum_ext. intros B HB. transitivity (scl (kmul (cf R p d A) (cf R q e B)) (lad A d * lad B e + lad B e * lad A d)%sq); [intros i j _ _; unfold scl, sq_add; ring|]. rewrite (lad_car n A B d e HA HB). reflexivity. }
        destruct (Bool.eqb_spec d e) as [<-|N]; cbn [negb]; [apply msum_0; intros A _; apply msum_0; intros B _ i j _ _; unfold scl, sq0; ring|].
        transitivity (msum n (fun A => scl (kmul (cf R p d A) (cf R q e A)) 1%sq)).
        { apply msum_ext. intros A HA. etransitivity; [apply (msum_single n A); [exact HA|intros B HB NB; unfold delta; destruct (Nat.eqb_spec A B); [congruence|]; intros i j _ _; unfold scl, sq0; ring]|]. unfold delta. rewrite Nat.eqb_refl. reflexivity. }
        intros i j Hi Hj. unfold msum, scl. rewrite <- (bigsum_mul_r (K := K)). unfold delta. destruct d, e; try congruence; unfold cf.
        + transitivity (kmul (bigsum n (fun A => kmul (ent R q A) (kconj (ent R p A)))) (sq1 (K := K) (2 ^ n) i j)); [f_equal; apply bigsum_ext; intros A _; ring|]. rewrite rows by auto. rewrite (Nat.eqb_sym q p). destruct (Nat.eqb p q); unfold sq0; ring.
        + rewrite rows by auto. destruct (Nat.eqb p q); unfold sq0; ring.
      - intros p d Hp. rewrite rl_mul. apply msum_anti.
        + intros A HA. rewrite (lad_nil n A d HA). intros i j _ _. unfold scl, sq0. ring.
        + intros A B HA HB. pose proof (lad_car (K := K) n A B d d HA HB) as E. rewrite Bool.eqb_reflx in E. cbn [negb] in E.
          transitivity (scl (kmul (cf R p d A) (cf R p d B)) (lad A d * lad B d + lad B d * lad A d)%sq); [intros i j _ _; unfold scl, sq_add; ring|]. rewrite E. intros i j _ _. unfold scl, sq0. ring.
      - intros p Hp. unfold rl. rewrite msum_mul_r. apply msum_0. intros A HA. rewrite scl_mul_l. destruct (lad_fock (K := K) n) as (_ & _ & V). rewrite (V A HA). intros i j _ _. unfold scl, sq0. ring.
    Qed.
    Lemma lad_adj A d : (sadj n (lad A d) == lad A (negb d))%sq.
    Proof. intros i j Hi Hj. destruct (ladder_adjoint (K := K) n (A, d)) as (_ & _ & E). apply (E i j Hi Hj). Qed.
    Lemma rl_adj p d : (sadj n (rl R p d) == rl R p (negb d))%sq.
    Proof.
      intros i j Hi Hj. unfold rl, msum, sadj at 1. rewrite bigsum_conj. apply bigsum_ext. intros A _. unfold scl. rewrite kconj_mul. pose proof (lad_adj A d i j Hi Hj) as E. unfold sadj in E. rewrite E. f_equal. unfold cf. destruct d; cbn [negb]; [apply kconj_invol|reflexivity].
    Qed.
    Notation U := (built n (rl R)).
    Lemma adj_step p d : p < n -> (sadj n U * rl R p d == lad p d * sadj n U)%sq.
    Proof.
      intros Hp. pose proof (built_step n (rl R) p (negb d) rl_fock Hp) as E. assert (X : (sadj n (U * lad p (negb d)) == sadj n (rl R p (negb d) * U))%sq) by (rewrite E; reflexivity).
      rewrite !sadj_mul, lad_adj, rl_adj, !negb_involutive in X. symmetry. exact X.
    Qed.
    Lemma vac_row A j : A < n -> j < 2 ^ n -> lad A true 0 j = k0.
    Proof.
      intros HA Hj. pose proof (lad_adj A false 0 j (pow_pos n) Hj) as E. cbn [negb] in E. rewrite <- E. unfold sadj. destruct (lad_fock (K := K) n) as (_ & _ & V). specialize (V A HA j 0 Hj (pow_pos n)). rewrite vac_col in V by exact Hj. rewrite V. unfold sq0. apply kconj_0.
    Qed.
    Lemma built_vac : (U * vac == vac)%sq.
    Proof.
      intros i j Hi Hj. destruct (Nat.eqb_spec j 0) as [->|N].
      - rewrite vac_col by exact Hi. unfold built. rewrite occl_zero. cbn [made fold_right]. unfold sq1, vac, RotProofs3.vac. rewrite andb_true_r. reflexivity.
      - unfold sq_mul, vac, RotProofs3.vac. destruct (Nat.eqb_spec j 0); [contradiction|]. rewrite andb_false_r. apply bigsum_0. intros k _. rewrite andb_false_r. ring.
    Qed.
    Lemma built_row0 j : j < 2 ^ n -> U 0 j = if Nat.eqb j 0 then k1 else k0.
    Proof.
      intros Hj. unfold built. destruct (occl n j) as [|p l] eqn:E.
      - cbn [made fold_right]. assert (j = 0) as ->; [|reflexivity]. rewrite <- (bval_bits_small n j Hj), <- (bval_bits_small n 0 (pow_pos n)). f_equal. rewrite <- !occb_occl, E, occl_zero. reflexivity.
      - cbn [made fold_right]. fold (made n (rl R) l). assert (Hp : p < n) by (apply (proj2 (occl_ok n j) p); rewrite E; left; reflexivity).
        destruct (Nat.eqb_spec j 0) as [->|_]; [rewrite occl_zero in E; discriminate|]. unfold sq_mul. apply bigsum_0. intros k Hk. unfold rl, msum. rewrite (bigsum_0 (K := K) n); [ring|]. intros A HA. unfold scl. rewrite vac_row by auto. ring.
    Qed.
    Lemma iso : (sadj n U * U == 1)%sq.
    Proof.
      apply commutant.
      - intros p d Hp. transitivity (sadj n U * (U * lad p d))%sq; [non_commutative_ring|]. rewrite (built_step n (rl R) p d rl_fock Hp). transitivity ((sadj n U * rl R p d) * U)%sq; [non_commutative_ring|]. rewrite adj_step by exact Hp. non_commutative_ring.
      - transitivity (sadj n U * (U * vac))%sq; [non_commutative_ring|]. rewrite built_vac. intros i j Hi Hj. destruct (Nat.eqb_spec j 0) as [->|N].
        + rewrite vac_col by exact Hi. unfold sadj. rewrite built_row0 by exact Hi. unfold vac, RotProofs3.vac. rewrite andb_true_r. destruct (Nat.eqb i 0); [apply kconj_1|apply kconj_0].
        + unfold sq_mul, vac, RotProofs3.vac. destruct (Nat.eqb_spec j 0); [contradiction|]. rewrite andb_false_r. apply bigsum_0. intros k _. rewrite andb_false_r. ring.
    Qed.
  End Rot.
  Lemma adjoint_unitary (R : mat K) : unitary R -> unitary (adjoint R).
  Proof.
    intros (S & (A1 & A2 & A3) & (B1 & B2 & B3)). split; [cbn; congruence|]. cbn [adjoint nr nc mmul ent eye] in *. split; (split; [reflexivity|]; split; [reflexivity|]); cbn [adjoint nr nc mmul ent]; intros i j Hi Hj.
    - etransitivity; [|exact (B3 i j Hi Hj)]. apply bigsum_ext. intros k _. rewrite kconj_invol. ring.
    - etransitivity; [|exact (A3 i j Hi Hj)]. apply bigsum_ext. intros k _. rewrite kconj_invol. ring.
  Qed.
  Lemma both (R : mat K) : nr R = n -> nc R = n -> unitary R -> (sadj n (built n (rl R)) * built n (rl R) == 1)%sq /\ (built n (rl R) * sadj n (built n (rl R)) == 1)%sq.
  Proof.
    intros Hr Hc HU. pose proof (iso R Hr Hc HU) as I. split; [exact I|]. set (U := built n (rl R)) in *. set (R' := adjoint R). set (U' := built n (rl R')).
    assert (HU' : unitary R') by (apply adjoint_unitary, HU).
    assert (F : fock n (rl R)) by (apply rl_fock; auto). assert (F' : fock n (rl R')) by (apply rl_fock; auto).
    assert (E : (U * U' == 1)%sq).
    { apply commutant.
      - intros p d Hp. transitivity (U * (U' * lad p d))%sq; [non_commutative_ring|]. unfold U' at 1. rewrite (built_step n (rl R') p d F' Hp). fold U'.
        transitivity ((U * rl R' p d) * U')%sq; [non_commutative_ring|]. assert (X : (U * rl R' p d == lad p d * U)%sq); [|rewrite X; non_commutative_ring].
        unfold rl at 1. rewrite msum_mul_l. transitivity (msum n (fun A => scl (cf R' p d A) (rl R A d * U)%sq)).
        { apply msum_ext. intros A HA. rewrite scl_mul_r. unfold U. rewrite (built_step n (rl R) A d F HA). reflexivity. }
        transitivity (msum n (fun A => scl (cf R' p d A) (rl R A d)) * U)%sq; [rewrite msum_mul_r; apply msum_ext; intros A _; rewrite scl_mul_l; reflexivity|].
        assert (Y : (msum n (fun A => scl (cf R' p d A) (rl R A d)) == lad p d)%sq); [|rewrite Y; reflexivity].
        transitivity (msum n (fun B => scl (if Nat.eqb p B then k1 else k0) (lad B d))).
        { intros i j Hi Hj. unfold msum, scl, rl, msum, scl. transitivity (bigsum n (fun k => bigsum n (fun A => kmul (kmul (cf R' p d k) (cf R k d A)) (lad A d i j)))); [apply bigsum_ext; intros k _; rewrite bigsum_mul_l; apply bigsum_ext; intros A _; ring|].
          rewrite bigsum_swap. apply bigsum_ext. intros B HB. rewrite <- bigsum_mul_r. f_equal. rewrite <- (cols R Hr Hc HU p B Hp HB). unfold cf, R'. cbn [adjoint ent]. destruct d.
          - transitivity (kconj (bigsum n (fun A => kmul (kconj (ent R A p)) (ent R A B)))); [rewrite bigsum_conj; apply bigsum_ext; intros A _; rewrite kconj_mul; reflexivity|]. rewrite (cols R Hr Hc HU p B Hp HB). destruct (Nat.eqb p B); [apply kconj_1|apply kconj_0].
          - reflexivity. }
        etransitivity; [apply (msum_single n p); [exact Hp|intros l Hl N; destruct (Nat.eqb_spec p l); [congruence|]; intros i j _ _; unfold scl, sq0; ring]|]. rewrite Nat.eqb_refl. intros i j _ _. unfold scl. ring.
      - transitivity (U * (U' * vac))%sq; [non_commutative_ring|]. unfold U'. rewrite built_vac. unfold U. rewrite built_vac. reflexivity. }
    clearbody U' U. assert (EU : (sadj n U == U')%sq). { generalize dependent (sadj n U). intros V I. transitivity (V * (U * U'))%sq; [rewrite E; symmetry; non_commutative_ring|]. transitivity ((V * U) * U')%sq; [non_commutative_ring|]. rewrite I. non_commutative_ring. }
    rewrite EU. exact E.
  Qed.
End S.
