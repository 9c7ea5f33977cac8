(** Sums of groups, expectation values and measurement counts (C36, C37, C41). *)
From Coq Require Import Permutation Sorted Lia Ring Reals Lra.
From Verif Require Import Base BaseFacts MatModel MatFacts Cplx CircuitModel CircuitSpec CircuitProofs OpModel OpSpec OpProofs OpProofs2 EstModel EstSpec EstProofs ConjProofs EstProofs3.
Open Scope list_scope.
Local Open Scope nat_scope.

Section S.
  Context {K : cring} (im : K) (n : nat).
  Add Ring KrE5 : (kth K).
  Lemma lval_perm (phi : term pauli -> K) (a b : qop K) : Permutation a b -> lval phi a = lval phi b.
  Proof. induction 1; cbn; try congruence. ring. Qed.
  Lemma sum_matrices_shape gs : sq (2 ^ n) (sum_matrices im n gs).
  Proof. induction gs as [|g gs IH]; cbn [sum_matrices fold_right]; [split; reflexivity|]. destruct (qop_matrix_shape im n g). split; assumption. Qed.
  Lemma sum_matrices_ent gs i j : ent (sum_matrices im n gs) i j = lval (fun t => ent (term_matrix im n t) i j) (concat gs).
  Proof.
    induction gs as [|g gs IH]; [reflexivity|]. cbn [sum_matrices fold_right concat]. rewrite lval_app, <- IH, <- (qop_matrix_ent im n). reflexivity.
  Qed.
  Lemma sum_groups gs lost a : Permutation (concat gs ++ lost) a ->
    meq (madd (sum_matrices im n gs) (qop_matrix im n lost)) (qop_matrix im n a).
  Proof.
    intros P. destruct (sum_matrices_shape gs) as [S1 S2]. destruct (qop_matrix_shape im n a) as [S3 S4].
    split; [cbn [nr madd]; congruence|]. split; [cbn [nc madd]; congruence|]. intros i j _ _. cbn [ent madd].
    rewrite sum_matrices_ent, !qop_matrix_ent, <- lval_app. apply lval_perm, P.
  Qed.

  Lemma adjoint_expect (U : mat K) (v w : vec K) : nc U = vlen v -> nr U = vlen w ->
    bigsum (vlen v) (fun i => kmul (kconj (vent v i)) (vent (mvmul (adjoint U) w) i)) = bigsum (vlen w) (fun k => kmul (kconj (vent (mvmul U v) k)) (vent w k)).
  Proof.
    intros H1 H2. cbn [vent mvmul adjoint nc nr ent]. rewrite H1, H2.
    transitivity (bigsum (vlen v) (fun i => bigsum (vlen w) (fun k => kmul (kmul (kconj (ent U k i)) (kconj (vent v i))) (vent w k)))).
    { apply bigsum_ext. intros i _. rewrite bigsum_mul_l. apply bigsum_ext. intros; ring. }
    rewrite bigsum_swap. apply bigsum_ext. intros k _. rewrite bigsum_conj, bigsum_mul_r. apply bigsum_ext. intros i _. rewrite kconj_mul. ring.
  Qed.
  Lemma expectation_ext (A B : mat K) v : nc A = vlen v -> nr A = vlen v -> meq A B -> expectation A v = expectation B v.
  Proof.
    intros H1 H2 E. unfold expectation. apply bigsum_ext. intros i Hi. f_equal.
    destruct (mvmul_ext A B v v H1 E) as [_ X]; [split; auto|]. apply X. cbn. lia.
  Qed.
  Lemma expectation_conj N (U D : mat K) v : sq N U -> sq N D -> vlen v = N -> expectation (conj_by U D) v = expectation D (mvmul U v).
  Proof.
    intros [U1 U2] [D1 D2] Hv. unfold expectation, conj_by.
    transitivity (bigsum (vlen v) (fun i => kmul (kconj (vent v i)) (vent (mvmul (adjoint U) (mvmul D (mvmul U v))) i))).
    - apply bigsum_ext. intros i Hi. f_equal.
      destruct (mvmul_assoc (adjoint U) (mmul D U) v) as [_ X]; [cbn; congruence|]. rewrite X by (cbn; lia).
      destruct (mvmul_ext (adjoint U) (adjoint U) (mvmul (mmul D U) v) (mvmul D (mvmul U v))) as [_ Y].
      + cbn; congruence.
      + reflexivity.
      + apply mvmul_assoc. congruence.
      + apply Y. cbn; lia.
    - rewrite adjoint_expect; [|cbn; congruence|cbn; congruence]. cbn [vlen mvmul]. rewrite D1, U1. reflexivity.
  Qed.
  Lemma expectation_diagonal (io : isop K) w : vlen w = (2 ^ n)%nat ->
    expectation (diagonal_of n io) w =
    bigsum (2 ^ n) (fun b => kmul (kmul (kconj (vent w b)) (vent w b)) (isop_value (fun q => nth q (bits n b) false) io)).
  Proof.
    intros Hw. unfold expectation. rewrite Hw. apply bigsum_ext. intros b Hb. cbn [vent mvmul diagonal_of nc ent].
    rewrite (bigsum_single _ b); [rewrite Nat.eqb_refl; ring|exact Hb|]. intros i _ Hi. destruct (Nat.eqb_spec b i); [congruence|]. ring.
  Qed.
End S.

(** Success of context selection *)
Section Success.
  Context {K : cring} (small : K -> bool) {Num : Type} (angle : R -> Num).
  Lemma context_selection_total (a : qop K) : comeasurable_group a ->
    exists c io, get_context_selection_circuit_for_group small angle a = Ok (c, io) /\ valid_circuit c.
  Proof.
    intros H. destruct (build_total small a H) as [[ctx io] E]. unfold get_context_selection_circuit_for_group.
    cbn [mk_circuit circuit_size_by_operations rbind]. rewrite E. cbn [rbind fst snd].
    set (ops := flat_map (basis_change angle) ctx).
    assert (Ho : forall o, In o ops -> exists g q, o = GateOp g [q]).
    { intros o Ho. apply in_flat_map in Ho as (f & _ & Ho). unfold basis_change in Ho. destruct (snd f); cbn in Ho; try contradiction; destruct Ho as [Ho|[]]; subst o; do 2 eexists; reflexivity. }
    set (c0 := Build_circuit _ _). assert (V0 : valid_circuit c0). { exists [], None. reflexivity. }
    assert (EA : forall l c, foldM (fun c o => circuit_add c (AddOp (Num := Num) o)) l c = foldM circuit_add (map AddOp l) c).
    { clear. induction l as [|o ops IH]; intros c; [reflexivity|]. cbn [foldM map]. destruct (circuit_add c (AddOp o)); cbn [rbind]; auto. }
    destruct (add_sequence (map AddOp ops) c0 V0) as [A2 V].
    { apply Forall_forall. intros x Hin. apply in_map_iff in Hin as (o & <- & Hin). apply Ho in Hin as (g & q & ->). cbn. congruence. }
    rewrite EA, A2. cbn [rbind]. do 2 eexists. split; [reflexivity|exact V].
  Qed.
  Lemma context_selection_err (a : qop K) : ~ comeasurable_group a -> get_context_selection_circuit_for_group small angle a = Err ValueError.
  Proof.
    intros H. unfold get_context_selection_circuit_for_group. cbn [mk_circuit circuit_size_by_operations rbind].
    destruct (build_context small a) as [r|e] eqn:E; cbn [rbind]; [exfalso; apply H; eapply build_comeasurable; eauto|]. apply build_err in E. congruence.
  Qed.
End Success.

(** Variances *)
Local Open Scope R_scope.
Lemma sum_R_nonneg l : (forall x, In x l -> 0 <= x) -> 0 <= sum_R l.
Proof. induction l as [|x l IH]; cbn; intros H; [lra|]. pose proof (H x (or_introl eq_refl)). pose proof (IH (fun y Hy => H y (or_intror Hy))). lra. Qed.
Lemma sum_R_scale c {A} (f : A -> R) l : sum_R (map (fun x => c * f x) l) = c * sum_R (map f l).
Proof. induction l as [|x l IH]; cbn; [ring|]. rewrite IH. ring. Qed.
Lemma amgm x y z : 0 <= x -> 0 <= y -> z * z <= x * y -> 2 * z <= x + y.
Proof. intros Hx Hy H. destruct (Rle_dec (2 * z) (x + y)) as [|N]; [assumption|]. exfalso. pose proof (Rle_0_sqr (x - y)) as Q. unfold Rsqr in Q.
  assert (X : (x + y) * (x + y) < 2 * z * (2 * z)) by (apply Rmult_le_0_lt_compat; lra). lra. Qed.
Lemma cauchy (l : list (R * R)) : (forall sn, In sn l -> 0 <= fst sn /\ 0 < snd sn) ->
  sum_R (map fst l) * sum_R (map fst l) <= sum_R (map (fun sn => fst sn * fst sn / snd sn) l) * sum_R (map snd l).
Proof.
  induction l as [|[s n] l IH]; intros H; cbn [map sum_R fst snd]; [lra|].
  assert (H' : forall sn, In sn l -> 0 <= fst sn /\ 0 < snd sn) by (intros; apply H; right; auto). specialize (IH H').
  destruct (H (s, n) (or_introl eq_refl)) as [Hs Hn]. cbn [fst snd] in Hs, Hn.
  set (S := sum_R (map fst l)) in *. set (B := sum_R (map snd l)) in *. set (A := sum_R (map (fun sn => fst sn * fst sn / snd sn) l)) in *.
  assert (HS : 0 <= S). { apply sum_R_nonneg. intros x Hx. apply in_map_iff in Hx as (y & <- & Hy). apply H', Hy. }
  assert (HB : 0 <= B). { apply sum_R_nonneg. intros x Hx. apply in_map_iff in Hx as (y & <- & Hy). apply Rlt_le, H', Hy. }
  assert (HA : 0 <= A). { apply sum_R_nonneg. intros x Hx. apply in_map_iff in Hx as (y & <- & Hy). destruct (H' y Hy). apply Rmult_le_pos; [nra|]. apply Rlt_le, Rinv_0_lt_compat; auto. }
  set (q := s * s / n). assert (Hq : q * n = s * s) by (unfold q; field; lra). assert (Hq0 : 0 <= q) by (unfold q; apply Rmult_le_pos; [nra|]; apply Rlt_le, Rinv_0_lt_compat; auto).
  assert (X : 2 * (S * s) <= A * n + q * B).
  { apply amgm; [nra|nra|]. replace (A * n * (q * B)) with (A * B * (q * n)) by ring. rewrite Hq. replace (S * s * (S * s)) with (S * S * (s * s)) by ring. apply Rmult_le_compat_r; [nra|exact IH]. }
  nra.
Qed.
