(** C64: testing for identity and unitarity, comparing unitaries up to a global phase.  Exact real arithmetic. *)
From Coq Require Import Reals Lra Psatz Setoid.
From Verif Require Import Base BaseFacts MatModel MatFacts Cplx GateMatModel GateMatProofs CmpModel CmpProofs.
Local Open Scope R_scope.

(** Acceptance is exactly: off-diagonal entries at most [tol], diagonal ones within [tol] + 1e-5 of 1. *)
Theorem C64_identity : forall u tol, nr u = nc u ->
  exists b, is_identity u tol = Ok b /\ (b = true <-> forall i j, (i < nr u)%nat -> (j < nr u)%nat ->
     if Nat.eqb i j then cmod (csub (ent u i i) c1) <= tol + 1 / 100000 else cmod (ent u i j) <= tol).
Proof.
  intros u tol E. unfold is_identity. rewrite E, Nat.eqb_refl. cbn [negb]. eexists. split; [reflexivity|].
  rewrite allclose_spec. rewrite E. split; intros H i j Hi Hj; specialize (H i j Hi Hj); cbn [ent eye] in *;
  destruct (Nat.eqb_spec i j) as [Q|N]; try subst j; unfold delta in *; cbn [k0 k1 CC] in *.
  - rewrite cmod_1 in H. lra.
  - rewrite cmod_0 in H. replace (csub (ent u i j) c0) with (ent u i j) in H by (symmetry; apply c_eq; cbn; ring). lra.
  - rewrite cmod_1. lra.
  - rewrite cmod_0. replace (csub (ent u i j) c0) with (ent u i j) by (symmetry; apply c_eq; cbn; ring). lra.
Qed.
Theorem C64_not_square : forall u tol, nr u <> nc u -> is_identity u tol = Err GenericException /\ is_unitary u tol = Err GenericException.
Proof. intros u tol N. unfold is_identity, is_unitary. apply Nat.eqb_neq in N. rewrite N. auto. Qed.

Lemma identity_accepted u n tol : 0 <= tol -> meq u (eye n) -> is_identity u tol = Ok true.
Proof.
  intros T (E1 & E2 & E3). cbn in E1, E2. destruct (C64_identity u tol) as (b & -> & Hb); [congruence|]. f_equal. apply Hb.
  intros i j Hi Hj. rewrite !E3 by lia. cbn [ent eye]. destruct (Nat.eqb_spec i j) as [<-|N].
  - rewrite Nat.eqb_refl. unfold delta. cbn [k1 CC]. rewrite csub_diag, cmod_0. lra.
  - apply Nat.eqb_neq in N. unfold delta. cbn [k0 CC]. rewrite cmod_0. lra.
Qed.
(** Every unitary matrix is accepted; acceptance says the columns are orthogonal within [tol] and of length one within [tol] + 1e-5. *)
Theorem C64_unitary_accepted : forall u tol, 0 <= tol -> unitary u -> is_unitary u tol = Ok true.
Proof.
  intros u tol T (E & U & _). unfold is_unitary. rewrite E, Nat.eqb_refl. cbn [negb]. apply (identity_accepted _ (nc u)); auto.
Qed.
Theorem C64_unitary : forall u tol, nr u = nc u ->
  exists b, is_unitary u tol = Ok b /\ (b = true <-> forall i j, (i < nr u)%nat -> (j < nr u)%nat ->
     let dot := inner (Build_vec (nr u) (fun k => ent u k i)) (Build_vec (nr u) (fun k => ent u k j)) in
     if Nat.eqb i j then cmod (csub dot c1) <= tol + 1 / 100000 else cmod dot <= tol).
Proof.
  intros u tol E. unfold is_unitary. rewrite E, Nat.eqb_refl. cbn [negb].
  destruct (C64_identity (mmul (adjoint u) u) tol eq_refl) as (b & -> & Hb). exists b. split; [reflexivity|]. rewrite Hb. clear Hb.
  cbn [nr mmul adjoint]. split; intros H i j Hi Hj; specialize (H i j Hi Hj); cbn [ent mmul adjoint inner vlen vent nc] in *;
  rewrite ?E in *; destruct (Nat.eqb_spec i j) as [Q|N]; try subst j; exact H.
Qed.

(** Unitaries of equal size that differ by a phase are equal for [compare_unitary]. *)
Lemma unit_nonzero z : cmul (cconj z) z = c1 -> cabs2 z = 1.
Proof. rewrite cconj_mul_abs. intros H. injection H. auto. Qed.
Theorem C64_equal_up_to_phase : forall u1 u2 z tol, 0 <= tol -> unitary u1 -> (0 < nr u1)%nat ->
  cabs2 z = 1 -> meq u2 (mscale (K := CC) z u1) -> compare_unitary u1 u2 tol = Ok true.
Proof.
  intros u1 u2 z tol T U P Z E.
  assert (Hz : kmul (kconj (z : CC)) z = k1). { cbn. rewrite cconj_mul_abs, Z. reflexivity. }
  assert (U2 : unitary u2) by (apply (unitary_ext (mscale (K := CC) z u1)); [symmetry; exact E|apply unitary_mscale; auto]).
  unfold compare_unitary. rewrite !C64_unitary_accepted by auto. cbn [rbind negb].
  destruct U as (S & UU & _). destruct E as (E1 & E2 & E3). cbn [nr nc mscale] in E1, E2, E3.
  unfold matmul. cbn [nc adjoint]. rewrite E1, Nat.eqb_refl. cbn [rbind nr mmul adjoint].
  destruct (Nat.eqb_spec (nc u1) 0) as [Q|_]; [rewrite S, Q in P; inversion P|].
  assert (TM : forall i j, (i < nc u1)%nat -> (j < nc u1)%nat -> ent (mmul (adjoint u1) u2) i j = cmul z (delta (K := CC) (Nat.eqb i j))).
  { intros i j Hi Hj. destruct UU as (_ & _ & UU). specialize (UU i j Hi Hj). cbn [ent mmul adjoint nc eye] in UU |- *.
    transitivity (kmul (z : CC) (bigsum (K := CC) (nr u1) (fun l => kmul (kconj (ent u1 l i)) (ent u1 l j)))).
    - rewrite bigsum_mul_l. apply bigsum_ext. intros l Hl. rewrite E3 by lia. cbn [ent mscale]. apply c_eq; cbn; ring.
    - rewrite UU. reflexivity. }
  rewrite TM by lia. unfold power_minus_one.
  assert (Zd : cmul z (delta (K := CC) (Nat.eqb 0 0)) = z) by (apply c_eq; cbn; ring). rewrite Zd.
  destruct (is_zero z) eqn:Ez; [apply is_zero_spec in Ez; subst z; unfold cabs2 in Z; cbn in Z; lra|]. cbn [rbind].
  apply (identity_accepted _ (nc u1)); auto. split; [reflexivity|]. split; [cbn; congruence|].
  cbn [nr nc mscale mmul adjoint]. intros i j Hi Hj. cbn [ent mscale eye]. rewrite E2 in Hj. rewrite TM by auto.
  destruct (Nat.eqb i j); unfold delta; cbn [kmul k0 k1 CC].
  - replace (cmul z c1) with z by (apply c_eq; cbn; ring). apply cinv_l. lra.
  - apply c_eq; cbn; ring.
Qed.

Lemma unitary_entry (u : mat CC) i j : unitary u -> (i < nr u)%nat -> (j < nr u)%nat -> cmod (ent u i j) <= 1.
Proof.
  intros (S & U & _) Hi Hj. destruct U as (_ & _ & U). specialize (U j j). cbn [nr nc mmul adjoint ent eye] in U. rewrite <- S in U.
  specialize (U Hj Hj). rewrite Nat.eqb_refl in U. unfold delta in U.
  assert (G : forall n, (exists x, bigsum (K := CC) n (fun l => kmul (kconj (ent u l j)) (ent u l j)) = rc x /\ 0 <= x /\ (forall l, (l < n)%nat -> cabs2 (ent u l j) <= x))).
  { induction n as [|n (x & E & X & L)]; [exists 0; repeat split; [lra|intros; lia]|].
    exists (x + cabs2 (ent u n j)). cbn [bigsum]. rewrite E. cbn [kadd kmul kconj CC]. rewrite cconj_mul_abs.
    pose proof (cabs2_nonneg (ent u n j)). repeat split; [apply c_eq; cbn; ring|lra|].
    intros l Hl. destruct (Nat.eq_dec l n) as [->|N]; [lra|]. specialize (L l ltac:(lia)). lra. }
  destruct (G (nr u)) as (x & E & X & L). rewrite E in U. injection U as ->. specialize (L i Hi).
  rewrite <- (cmod_sq (ent u i j)) in L. pose proof (cmod_nonneg (ent u i j)). nra.
Qed.
(** Conversely, two unitaries accepted by [compare_unitary] are equal up to the factor z = <first column of u1 | first column of u2>, entry
    by entry within n (tol + 1e-5). *)
Theorem C64_accepted_close : forall u1 u2 tol, 0 <= tol -> unitary u1 -> unitary u2 -> nr u1 = nr u2 ->
  compare_unitary u1 u2 tol = Ok true ->
  exists z, 0 < cmod z <= 1 /\ forall i j, (i < nr u1)%nat -> (j < nr u1)%nat ->
    cmod (csub (ent u2 i j) (cmul z (ent u1 i j))) <= INR (nr u1) * (tol + 1 / 100000).
Proof.
  intros u1 u2 tol T U1 U2 S H. unfold compare_unitary in H. rewrite !C64_unitary_accepted in H by auto. cbn [rbind negb] in H.
  unfold matmul in H. cbn [nc adjoint] in H. rewrite S, Nat.eqb_refl in H. cbn [rbind nr mmul adjoint] in H.
  destruct (Nat.eqb_spec (nc u1) 0) as [|P]; [discriminate|].
  pose proof U1 as (S1 & UL & UR). pose proof U2 as (S2 & _ & _).
  set (tm := mmul (adjoint u1) u2) in *. set (z := ent tm 0%nat 0%nat) in *.
  unfold power_minus_one in H. destruct (is_zero z) eqn:Ez; [discriminate|]. cbn [rbind] in H.
  assert (Nz : cabs2 z <> 0). { intros Q. apply cabs2_zero in Q. apply is_zero_spec in Q. congruence. }
  assert (UT : unitary tm) by (apply unitary_mmul; [exact S|apply unitary_adjoint; auto|auto]).
  destruct (C64_identity (mscale (K := CC) (cinv z) tm) tol) as (b & E & Hb); [cbn; congruence|]. rewrite E in H. injection H as ->.
  destruct Hb as [Hb _]. specialize (Hb eq_refl). cbn [nr mscale mmul adjoint] in Hb.
  assert (Z1 : cmod z <= 1) by (apply (unitary_entry tm 0 0 UT); cbn; lia).
  exists z. split; [split; [|exact Z1]|].
  { pose proof (cmod_nonneg z) as Q. destruct Q as [Q|Q]; [exact Q|]. exfalso. apply Nz. rewrite <- cmod_sq, <- Q. ring. }
  intros i j Hi Hj.
  (* u2 = u1 tm, and tm - z I = z (tm / z - I) *)
  set (D := fun k l => csub (ent tm k l) (cmul z (delta (K := CC) (Nat.eqb k l)))).
  assert (DB : forall k l, (k < nr u1)%nat -> (l < nr u1)%nat -> cmod (D k l) <= tol + 1 / 100000).
  { intros k l Hk Hl. assert (B : cmod (csub (cmul (cinv z) (ent tm k l)) (delta (K := CC) (Nat.eqb k l))) <= tol + 1 / 100000).
    { assert (Hk' : (k < nc u1)%nat) by lia. assert (Hl' : (l < nc u1)%nat) by lia.
      specialize (Hb k l Hk' Hl'). cbn [ent mscale] in Hb. destruct (Nat.eqb_spec k l) as [Q|N]; try subst l; unfold delta; cbn [k0 k1 CC].
      - exact Hb.
      - replace (csub (cmul (cinv z) (ent tm k l)) c0) with (kmul (cinv z : CC) (ent tm k l)) by (apply c_eq; cbn; ring). lra. }
    replace (D k l) with (cmul z (csub (cmul (cinv z) (ent tm k l)) (delta (K := CC) (Nat.eqb k l)))).
    - rewrite cmod_mul. pose proof (cmod_nonneg (csub (cmul (cinv z) (ent tm k l)) (delta (K := CC) (Nat.eqb k l)))). pose proof (cmod_nonneg z). nra.
    - unfold D. transitivity (csub (cmul (cmul z (cinv z)) (ent tm k l)) (cmul z (delta (K := CC) (Nat.eqb k l)))); [c_ring|].
      rewrite cinv_r by exact Nz. c_ring. }
  assert (EU : ent u2 i j = bigsum (K := CC) (nc u1) (fun k => cmul (ent u1 i k) (ent tm k j))).
  { assert (M : meq (mmul u1 tm) u2).
    { transitivity (mmul (mmul u1 (adjoint u1)) u2); [symmetry; apply mmul_assoc; [reflexivity|exact S]|].
      transitivity (mmul (eye (nr u1)) u2); [apply mmul_ext; [exact S|exact UR|reflexivity]|apply mmul_eye_l; exact S]. }
    destruct M as (_ & _ & M). specialize (M i j Hi). cbn [nc mmul ent] in M. rewrite <- M by (unfold tm; cbn; lia). reflexivity. }
  assert (EV : cmul z (ent u1 i j) = bigsum (K := CC) (nc u1) (fun k => cmul (ent u1 i k) (cmul z (delta (K := CC) (Nat.eqb k j))))).
  { symmetry. rewrite (bigsum_single (K := CC) (nc u1) j).
    - rewrite Nat.eqb_refl. unfold delta. apply c_eq; cbn; ring.
    - lia.
    - intros k Hk N. apply Nat.eqb_neq in N. rewrite N. unfold delta. apply c_eq; cbn; ring. }
  rewrite EU, EV.
  replace (csub _ _) with (bigsum (K := CC) (nc u1) (fun k => cmul (ent u1 i k) (D k j))).
  - rewrite S1. apply cmod_bigsum. intros k Hk. rewrite cmod_mul.
    pose proof (unitary_entry u1 i k U1 Hi ltac:(lia)). pose proof (DB k j ltac:(lia) Hj).
    pose proof (cmod_nonneg (ent u1 i k)). pose proof (cmod_nonneg (D k j)). nra.
  - transitivity (kadd (bigsum (K := CC) (nc u1) (fun k => cmul (ent u1 i k) (ent tm k j)))
       (kmul (kopp (k1 : CC)) (bigsum (K := CC) (nc u1) (fun k => cmul (ent u1 i k) (cmul z (delta (K := CC) (Nat.eqb k j))))))).
    + rewrite bigsum_mul_l, <- bigsum_add. apply bigsum_ext. intros k Hk. unfold D. apply c_eq; cbn; ring.
    + apply c_eq; cbn; ring.
Qed.

(** The claim "unitaries that differ by more than a phase give False" fails: whenever the overlap of the first columns vanishes the comparison
    raises ZeroDivisionError, for instance for I and X. *)
Theorem C64_overlap_zero : forall (u1 u2 : mat CC) tol, 0 <= tol -> unitary u1 -> unitary u2 -> nr u1 = nr u2 -> (0 < nr u1)%nat ->
  bigsum (K := CC) (nr u1) (fun k => cmul (cconj (ent u1 k 0%nat)) (ent u2 k 0%nat)) = c0 ->
  compare_unitary u1 u2 tol = Err ZeroDivisionError.
Proof.
  intros u1 u2 tol T U1 U2 S P H. unfold compare_unitary. rewrite !C64_unitary_accepted by auto. cbn [rbind negb].
  unfold matmul. cbn [nc adjoint]. rewrite S, Nat.eqb_refl. cbn [rbind nr mmul adjoint].
  destruct U1 as (S1 & _). destruct (Nat.eqb_spec (nc u1) 0) as [Q|_]; [lia|].
  unfold power_minus_one. cbn [ent nc].
  replace (is_zero _) with true; [reflexivity|]. symmetry. apply is_zero_spec. exact H.
Qed.
Theorem C64_compare_refuted : unitary i_matrix /\ unitary x_matrix /\ compare_unitary i_matrix x_matrix 0 = Err ZeroDivisionError.
Proof.
  split; [apply i_unitary|]. split; [apply x_unitary|]. apply C64_overlap_zero; try (cbn; lia || lra); auto using i_unitary, x_unitary.
  cbn. apply c_eq; cbn; ring.
Qed.
(** A non-trivial case of the positive direction: H and i H. *)
Example C64_example : compare_unitary h_matrix (mscale (K := CC) ci h_matrix) 0 = Ok true.
Proof. apply (C64_equal_up_to_phase _ _ ci); [lra|apply h_unitary|cbn; lia|unfold cabs2; cbn; ring|reflexivity]. Qed.
Print Assumptions C64_accepted_close.
