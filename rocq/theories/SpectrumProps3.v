(** C104, continued: energies over the complex numbers. Eigenvalues of Hermitian matrices are real, and no state has an energy below the ground state's. *)
From Coq Require Import List Arith Lia Reals Lra.
From Verif Require Import Base MatModel MatFacts Cplx OpModel FermiModel TensorModel SectorSpec SparseModel SpectrumModel SpectrumSpec SpectrumProps.
Import ListNotations.
Open Scope list_scope.
Local Open Scope nat_scope.

Section General.
  Context {K : cring}.
  Add Ring Kring_c104c : (kth K).
  Open Scope K_scope.
  Lemma mean_inner (A : mat K) v : nr A = nc A -> nc A = vlen v -> mean A v = inner v (mvmul A v).
  Proof. intros Sq L. unfold mean, inner. apply bigsum_ext. intros i Hi. cbn [vent mvmul]. now rewrite L. Qed.
  Lemma inner_ext (u u' v v' : MatModel.vec K) : veq u u' -> veq v v' -> vlen u = vlen v -> inner u v = inner u' v'.
  Proof. intros (L1 & H1) (L2 & H2) E. unfold inner. rewrite <- L1. apply bigsum_ext. intros i Hi. rewrite H1, H2; auto. now rewrite <- E. Qed.
  (** In the basis of the eigenvectors, the energy is a sum over the eigenvalues. *)
  Lemma mean_spectrum (A : mat K) l v : nr A = nc A -> nc A = vlen v -> spectrum_of A l -> exists w, vlen w = length l /\ norm2 w = norm2 v /\
    mean A v = bigsum (length l) (fun i => nth i l 0 * (kconj (vent w i) * vent w i)).
  Proof.
    intros Sq Lv (Ll & U & U1 & UU & D). assert (U2 : nc U = nr A) by (destruct UU; congruence). set (w := mvmul (adjoint U) v). assert (Lw : vlen w = nr A) by (cbn; congruence).
    assert (V : veq (mvmul U w) v).
    { transitivity (mvmul (mmul U (adjoint U)) v); [symmetry; apply mvmul_assoc; reflexivity|]. transitivity (mvmul (eye (nr U)) v); [apply mvmul_ext; [cbn; congruence|apply UU|reflexivity]|apply mvmul_eye; congruence]. }
    exists w. split; [congruence|]. split.
    - change (norm2 w) with (inner w w). change (norm2 v) with (inner v v). rewrite <- (unitary_inner U w w UU) by congruence. apply inner_ext; auto.
    - rewrite mean_inner by assumption.
      assert (AV : veq (mvmul A v) (mvmul U (mvmul (diagonal_of l) w))).
      { transitivity (mvmul A (mvmul U w)); [apply mvmul_ext; [exact Lv|reflexivity|now symmetry]|]. transitivity (mvmul (mmul A U) w); [symmetry; apply mvmul_assoc; congruence|].
        transitivity (mvmul (mmul U (diagonal_of l)) w); [apply mvmul_ext; [cbn; congruence|exact D|reflexivity]|]. apply mvmul_assoc. cbn. congruence. }
      rewrite (inner_ext v (mvmul U w) (mvmul A v) (mvmul U (mvmul (diagonal_of l) w))); [|now symmetry|exact AV|cbn; congruence].
      rewrite unitary_inner by (auto; cbn; congruence). unfold inner. rewrite Lw, <- Ll. apply bigsum_ext. intros i Hi. cbn [vent mvmul diagonal_of nc ent].
      rewrite (bigsum_single _ i); [rewrite Nat.eqb_refl; ring|exact Hi|]. intros j Hj N. destruct (Nat.eqb_spec i j); [congruence|]. ring.
  Qed.
  Lemma spectrum_entries (A : mat K) l i : nr A = nc A -> spectrum_of A l -> i < length l -> exists u, vlen u = nc A /\ norm2 u = 1 /\ eigenpair A (nth i l 0) u.
  Proof.
    intros Sq (Ll & U & U1 & UU & D) Hi. assert (U2 : nc U = nr A) by (destruct UU; congruence). exists (Build_vec (nr A) (fun j => ent U j i)). split; [exact Sq|]. split.
    - unfold norm2. cbn [vlen vent]. destruct UU as (_ & (_ & _ & X) & _). specialize (X i i). cbn [mmul adjoint nr nc ent eye] in X. rewrite U1, Nat.eqb_refl in X. apply X; congruence.
    - split; [cbn; congruence|]. cbn [vlen vent]. intros k Hk. destruct D as (_ & _ & D). specialize (D k i). cbn [mmul nr nc ent diagonal_of] in D. rewrite D by (auto; congruence).
      rewrite (bigsum_single _ i); [rewrite Nat.eqb_refl; ring|lia|]. intros j Hj N. destruct (Nat.eqb_spec j i); [congruence|]. ring.
  Qed.
End General.

Local Open Scope R_scope.
Lemma fst_bigsum n (f : nat -> CC) : fst (bigsum n f) = fold_right (fun i s => fst (f i) + s) 0 (rev (seq 0 n)).
Proof.
  induction n as [|n IH]; [reflexivity|]. rewrite seq_S, rev_app_distr. cbn [rev app fold_right Nat.add]. rewrite <- IH. cbn [bigsum]. change (fst (bigsum n f) + fst (f n) = fst (f n) + fst (bigsum n f)). lra.
Qed.
Lemma weighted n (x : nat -> CC) (p : nat -> CC) (low : R) : (forall i, (i < n)%nat -> snd (x i) = 0 /\ low <= fst (x i)) ->
  low * fst (bigsum n (fun i => kmul (kconj (p i)) (p i))) <= fst (bigsum n (fun i => kmul (x i) (kmul (kconj (p i)) (p i)))).
Proof.
  induction n as [|n IH]; intros H; [cbn; lra|]. cbn [bigsum]. assert (IH' := IH (fun i Hi => H i (Nat.lt_lt_succ_r _ _ Hi))). destruct (H n (Nat.lt_succ_diag_r n)) as (S & L).
  change (low * (fst (bigsum n (fun i => kmul (kconj (p i)) (p i))) + fst (kmul (kconj (p n)) (p n : CC))) <= fst (bigsum n (fun i => kmul (x i) (kmul (kconj (p i)) (p i)))) + fst (kmul (x n) (kmul (kconj (p n)) (p n)))).
  change (kmul (kconj (p n)) (p n)) with (cmul (cconj (p n)) (p n)). rewrite (cconj_mul_abs (p n)). change (fst (kmul (x n) (rc (cabs2 (p n)) : CC))) with (fst (x n) * cabs2 (p n) - snd (x n) * 0). change (fst (rc (cabs2 (p n)))) with (cabs2 (p n)).
  rewrite S. pose proof (cabs2_nonneg (p n)). nra.
Qed.
Lemma norm2_real (v : MatModel.vec CC) : snd (norm2 v) = 0.
Proof.
  unfold norm2. induction (vlen v) as [|n IH]; [reflexivity|]. cbn [bigsum]. change (snd (bigsum n (fun i => kmul (kconj (vent v i)) (vent v i))) + snd (cmul (cconj (vent v n)) (vent v n)) = 0). rewrite IH, cconj_mul_abs. cbn. lra.
Qed.
Lemma norm2_pos (v : MatModel.vec CC) : nonzero v -> 0 < fst (norm2 v).
Proof.
  intros (k & Hk & N). unfold norm2. assert (G : forall n, 0 <= fst (bigsum n (fun i => kmul (kconj (vent v i)) (vent v i))) /\ ((k < n)%nat -> 0 < fst (bigsum n (fun i => kmul (kconj (vent v i)) (vent v i))))).
  { induction n as [|n (I1 & I2)]; [split; [cbn; lra|lia]|]. cbn [bigsum].
    change (fst (kadd (bigsum n (fun i => kmul (kconj (vent v i)) (vent v i))) (kmul (kconj (vent v n)) (vent v n)))) with (fst (bigsum n (fun i => kmul (kconj (vent v i)) (vent v i))) + fst (cmul (cconj (vent v n)) (vent v n))).
    rewrite cconj_mul_abs. change (fst (rc (cabs2 (vent v n)))) with (cabs2 (vent v n)). pose proof (cabs2_nonneg (vent v n)). split; [lra|]. intros L. destruct (Nat.eq_dec k n) as [->|Nk]; [|assert ((k < n)%nat) by lia; specialize (I2 H0); lra].
    assert (P : 0 < cabs2 (vent v n)); [|lra]. destruct (Rle_lt_or_eq_dec _ _ H) as [X|X]; [exact X|]. exfalso. apply N. unfold cabs2 in X. apply c_eq; cbn; nra. }
  apply G, Hk.
Qed.
Lemma norm_nonzero (v : MatModel.vec CC) : norm2 v <> k0 -> nonzero v.
Proof.
  unfold norm2, nonzero. induction (vlen v) as [|n IH]; intros H; [exfalso; now apply H|].
  destruct (Req_EM_T (fst (vent v n)) 0) as [E1|E1]; [|exists n; split; [lia|]; intros E; apply E1; rewrite E; reflexivity].
  destruct (Req_EM_T (snd (vent v n)) 0) as [E2|E2]; [|exists n; split; [lia|]; intros E; apply E2; rewrite E; reflexivity].
  destruct IH as (i & Hi & Ni); [|exists i; split; [lia|exact Ni]]. intros Z. apply H. cbn [bigsum]. rewrite Z. apply c_eq; cbn; rewrite E1, E2; ring.
Qed.
(** ** The eigenvalues of a Hermitian matrix are real. *)
Theorem C104_real (A : mat CC) x : hermitian A -> eigenvalue A x -> snd x = 0.
Proof.
  intros (Sq & H) (v & (k & Hk & N) & E1 & E2).
  assert (M1 : mean A v = kmul x (norm2 v)).
  { unfold mean, norm2. rewrite bigsum_mul_l. apply bigsum_ext. intros i Hi. rewrite <- E1 at 1. rewrite E2 by congruence. apply c_eq; cbn; ring. }
  assert (M2 : kconj (mean A v) = mean A v).
  { unfold mean. rewrite bigsum_conj. transitivity (bigsum (vlen v) (fun i => bigsum (vlen v) (fun j => kmul (vent v i) (kmul (kconj (ent A i j)) (kconj (vent v j)))))).
    - apply bigsum_ext. intros i Hi. rewrite kconj_mul, kconj_invol, bigsum_conj, bigsum_mul_l. apply bigsum_ext. intros j Hj. now rewrite kconj_mul.
    - rewrite bigsum_swap. apply bigsum_ext. intros j Hj. rewrite bigsum_mul_l. apply bigsum_ext. intros i Hi. rewrite (H i j) by congruence. apply c_eq; cbn; ring. }
  assert (P : 0 < fst (norm2 v)).
  { apply norm2_pos. exists k. auto. }
  assert (I : snd (norm2 v) = 0) by apply norm2_real.
  rewrite M1 in M2. assert (X : snd (kmul x (norm2 v)) = 0). { assert (Y : snd (kconj (kmul x (norm2 v))) = snd (kmul x (norm2 v))) by now rewrite M2. change (snd (kconj (kmul x (norm2 v)))) with (- snd (kmul x (norm2 v))) in Y. lra. }
  change (snd (kmul x (norm2 v))) with (fst x * snd (norm2 v) + snd x * fst (norm2 v)) in X. rewrite I in X. nra.
Qed.
Section Variational.
  Context (leb : CC -> CC -> bool) (total : forall a b, leb a b = true \/ leb b a = true) (trans : forall a b c, leb a b = true -> leb b c = true -> leb a c = true) (by_real : forall a b : CC, leb a b = true -> fst a <= fst b).
  Context (eigsh : mat CC -> option (MatModel.vec CC) -> result (list CC * mat CC)) (Hs : finds_lowest (fun a b => leb a b = true) eigsh).
  (** ** No normalised state has a lower energy than the ground state; the ground state, normalised, has it. The matrix is Hermitian and has an orthonormal basis of eigenvectors, as Hermitian matrices do. *)
  Theorem C104_variational A guess value v u : hermitian A -> (exists l, spectrum_of A l) -> get_ground_state leb eigsh A guess = Ok (value, v) ->
    vlen u = nc A -> norm2 u = k1 -> fst value <= fst (mean A u) /\ (norm2 v = k1 -> mean A v = value) /\ snd value = 0.
  Proof.
    intros Hm (l & Hl) G Lu Nu. assert (Sq : nr A = nc A) by apply Hm. destruct (C104_ground_state leb total trans eigsh Hs A guess value v G) as (Nz & P & Low).
    assert (Each : forall i, (i < length l)%nat -> snd (nth i l k0) = 0 /\ fst value <= fst (nth i l (k0 : CC))).
    { intros i Hi. destruct (spectrum_entries A l i Sq Hl Hi) as (x & Lx & Nx & Px). assert (Ei : eigenvalue A (nth i l k0)).
      { exists x. split; [|exact Px]. apply norm_nonzero. rewrite Nx. intros E. apply (f_equal fst) in E. cbn in E. lra. }
      split; [now apply (C104_real A)|]. apply by_real, Low, Ei. }
    destruct (mean_spectrum A l u Sq (eq_sym Lu) Hl) as (w & Lw & Nw & M). split; [|split].
    - rewrite M. pose proof (weighted (length l) (fun i => nth i l k0) (vent w) (fst value) Each) as W. rewrite Nu in Nw. unfold norm2 in Nw. rewrite Lw in Nw. rewrite Nw in W. cbn [fst k1 CC c1] in W. lra.
    - intros Nv. exact (C104_mean leb total trans eigsh Hs A guess value v Sq G Nv).
    - apply (C104_real A value Hm). exists v. auto.
  Qed.
End Variational.

(** ** A case: a solver for diagonal matrices of size 2, and the Pauli matrix Z *)
Definition clex (a b : CC) : bool := if Rlt_dec (fst a) (fst b) then true else if Req_EM_T (fst a) (fst b) then if Rle_dec (snd a) (snd b) then true else false else false.
Lemma clex_iff a b : clex a b = true <-> fst a < fst b \/ (fst a = fst b /\ snd a <= snd b).
Proof. unfold clex. destruct (Rlt_dec (fst a) (fst b)), (Req_EM_T (fst a) (fst b)), (Rle_dec (snd a) (snd b)); split; intros H; try reflexivity; try discriminate; try (destruct H as [H|(H & H')]; exfalso; lra); auto. Qed.
Lemma clex_total a b : clex a b = true \/ clex b a = true.
Proof. rewrite !clex_iff. lra. Qed.
Lemma clex_trans a b c : clex a b = true -> clex b c = true -> clex a c = true.
Proof. rewrite !clex_iff. lra. Qed.
Lemma clex_real a b : clex a b = true -> fst a <= fst b.
Proof. rewrite clex_iff. lra. Qed.
Definition c_is0 (a : CC) : bool := if Req_EM_T (fst a) 0 then if Req_EM_T (snd a) 0 then true else false else false.
Lemma c_is0_iff a : c_is0 a = true <-> a = k0.
Proof. unfold c_is0. destruct (Req_EM_T (fst a) 0), (Req_EM_T (snd a) 0); split; intros H; try reflexivity; try discriminate; try (exfalso; rewrite H in *; cbn in *; lra). now apply c_eq. Qed.
Lemma cc_domain (v a : CC) : kmul v a = k0 -> v <> k0 -> a = k0.
Proof.
  intros E N. assert (P : cabs2 v * cabs2 a = 0) by (rewrite <- cabs2_mul; change (cmul v a) with (kmul v a); rewrite E; unfold cabs2; cbn; ring).
  destruct (Rmult_integral _ _ P) as [Z|Z]; [exfalso; apply N|]; unfold cabs2 in Z; apply c_eq; cbn; nra.
Qed.
Definition solver2 (A : mat CC) (guess : option (MatModel.vec CC)) : result (list CC * mat CC) :=
  if (Nat.eqb (nr A) 2 && Nat.eqb (nc A) 2 && c_is0 (ent A 0 1) && c_is0 (ent A 1 0))%bool then Ok ([ent A 0 0; ent A 1 1], eye 2) else Err ValueError.
Lemma solver2_lowest : finds_lowest (fun a b => clex a b = true) solver2.
Proof.
  intros A guess values vectors E. unfold solver2 in E. destruct (Nat.eqb_spec (nr A) 2) as [N1|]; [|discriminate]. destruct (Nat.eqb_spec (nc A) 2) as [N2|]; [|discriminate].
  destruct (c_is0 (ent A 0 1)) eqn:Z1; [|discriminate]. destruct (c_is0 (ent A 1 0)) eqn:Z2; [|discriminate]. apply c_is0_iff in Z1, Z2. cbn [andb] in E. injection E as <- <-. split; [reflexivity|]. split; [now rewrite N2|]. split.
  - intros i x Ex v. assert (One : (k1 : CC) <> k0) by (intros F; apply (f_equal fst) in F; cbn in F; lra). destruct i as [|[|i]]; cbn in Ex; [| |destruct i; discriminate]; injection Ex as <-.
    + split; [exists 0%nat; split; [cbn; lia|exact One]|]. split; [now rewrite N2|]. rewrite N1, N2. intros k Hk. destruct k as [|[|k]]; [| |lia]; cbn [bigsum v vent eye ent Nat.eqb delta]; rewrite ?Z1, ?Z2; apply c_eq; cbn; ring.
    + split; [exists 1%nat; split; [cbn; lia|exact One]|]. split; [now rewrite N2|]. rewrite N1, N2. intros k Hk. destruct k as [|[|k]]; [| |lia]; cbn [bigsum v vent eye ent Nat.eqb delta]; rewrite ?Z1, ?Z2; apply c_eq; cbn; ring.
  - assert (All : forall y, eigenvalue A y -> y = ent A 0 0 \/ y = ent A 1 1).
    { intros y (v & (k & Hk & Nk) & E1 & E2). rewrite N2 in *. rewrite N1 in E2. rewrite <- E1 in Hk. destruct k as [|[|k]]; [left|right|lia].
      - specialize (E2 0%nat). cbn [bigsum] in E2. rewrite Z1 in E2. specialize (E2 ltac:(lia)). assert (W : kmul (vent v 0) (ksub (ent A 0 0) y) = k0).
        { transitivity (ksub (kmul (ent A 0 0) (vent v 0)) (kmul y (vent v 0))); [apply c_eq; cbn; ring|]. rewrite <- E2. apply c_eq; cbn; ring. }
        apply cc_domain in W; [|exact Nk]. transitivity (ksub (ent A 0 0) (ksub (ent A 0 0) y)); [apply c_eq; cbn; ring|]. rewrite W. apply c_eq; cbn; ring.
      - specialize (E2 1%nat). cbn [bigsum] in E2. rewrite Z2 in E2. specialize (E2 ltac:(lia)). assert (W : kmul (vent v 1) (ksub (ent A 1 1) y) = k0).
        { transitivity (ksub (kmul (ent A 1 1) (vent v 1)) (kmul y (vent v 1))); [apply c_eq; cbn; ring|]. rewrite <- E2. apply c_eq; cbn; ring. }
        apply cc_domain in W; [|exact Nk]. transitivity (ksub (ent A 1 1) (ksub (ent A 1 1) y)); [apply c_eq; cbn; ring|]. rewrite W. apply c_eq; cbn; ring. }
    assert (Rf : forall a, clex a a = true) by (intros a; apply clex_iff; lra).
    destruct (clex_total (ent A 0 0) (ent A 1 1)) as [L|L].
    + exists (ent A 0 0). split; [now left|]. intros y Hy. destruct (All y Hy) as [-> | ->]; auto.
    + exists (ent A 1 1). split; [right; now left|]. intros y Hy. destruct (All y Hy) as [-> | ->]; auto.
Qed.
Definition Zmat : mat CC := Build_mat (K := CC) 2 2 (fun i j => if Nat.eqb i j then if Nat.eqb i 0 then rc 1 else rc (-1) else rc 0).
Lemma Zmat_hermitian : hermitian Zmat.
Proof. split; [reflexivity|]. cbn [nr Zmat]. intros i j Hi Hj. destruct i as [|[|i]], j as [|[|j]]; try lia; apply c_eq; cbn; ring. Qed.
Lemma Zmat_spectrum : spectrum_of Zmat [rc 1 : CC; rc (-1) : CC].
Proof.
  split; [reflexivity|]. exists (eye 2). split; [reflexivity|]. split; [apply unitary_eye|]. split; [reflexivity|]. split; [reflexivity|]. cbn [nr nc mmul Zmat eye diagonal_of length]. intros i j Hi Hj.
  destruct i as [|[|i]], j as [|[|j]]; try lia; apply c_eq; cbn; ring.
Qed.
Definition a_state : MatModel.vec CC := Build_vec (K := CC) 2 (fun i => if Nat.eqb i 0 then rc (3 / 5) else (0, 4 / 5)).
Example C104_variational_case : exists value v, get_ground_state clex solver2 Zmat None = Ok (value, v) /\ norm2 a_state = k1 /\ fst value <= fst (mean Zmat a_state).
Proof.
  assert (E : solver2 Zmat None = Ok ([rc 1 : CC; rc (-1) : CC], eye 2)).
  { unfold solver2. cbn [nr nc Zmat Nat.eqb ent andb]. assert (X : c_is0 (rc 0) = true) by (now apply c_is0_iff). now rewrite X. }
  destruct (C104_ground_state_total clex clex_total clex_trans solver2 solver2_lowest Zmat None) as (value & v & G); [intros e; rewrite E; discriminate|]. exists value, v. split; [exact G|].
  assert (N : norm2 a_state = k1) by (apply c_eq; cbn; field). split; [exact N|].
  apply (C104_variational clex clex_total clex_trans clex_real solver2 solver2_lowest Zmat None value v a_state Zmat_hermitian (ex_intro _ _ Zmat_spectrum) G eq_refl N).
Qed.
Print Assumptions C104_real.
Print Assumptions C104_variational.
