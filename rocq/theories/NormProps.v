(** C88: norms of operators. *)
From Coq Require Import Reals ZArith Lra Psatz Lia Permutation.
From Verif Require Import Base BaseFacts MatModel MatFacts Cplx CmpModel CmpProofs LiftSpec LiftProofs OpModel OpSpec OpProofs PauliProofs OpProofs2 PauliBasis NormModel NormSpec NormProofs NormProofs2.
Local Open Scope R_scope.

(** ** For every kind of operator *)
(** A positive order p: the result is the p-th root of the sum of the p-th powers of the moduli, and nothing else. *)
Theorem C88_norm {A} (a : sop A CC) (p : nat) : (0 < p)%nat -> exists v, induced_norm a (Z.of_nat p) = Ok v /\ forall w, induced_norm a (Z.of_nat p) = Ok w <-> is_norm p a w.
Proof. intros Hp. destruct p as [|p]; [lia|]. destruct (norm_ok a p) as (v & E & _). exists v. split; [exact E|]. intros w. apply norm_is. Qed.
(** The order 0 is never accepted; a negative one fails for the zero operator and for operators with a zero coefficient. *)
Theorem C88_other_orders {A} (a : sop A CC) (order : Z) : (order <= 0)%Z ->
  ((exists v, induced_norm a order = Ok v) <-> (order < 0)%Z /\ a <> [] /\ forall t c, In (t, c) a -> c <> c0) /\
  ((forall v, induced_norm a order <> Ok v) -> induced_norm a order = Err ZeroDivisionError).
Proof.
  intros Ho. assert (F : forall l s, (forall t c, In (t, c) l -> order < 0 -> c <> c0)%Z ->
    foldM (fun norm (tc : term A * CC) => let! x := float_pow (cmod (snd tc)) order in Ok (norm + x)) l s = Ok (s + total (fun tc => powerRZ (cmod (snd tc)) order) l)).
  { induction l as [|[t c] l IH]; intros s H; [cbn; f_equal; unfold total; cbn; ring|]. cbn [foldM snd]. unfold float_pow at 1.
    assert (E : ((order <? 0)%Z && is_0 (cmod c))%bool = false).
    { destruct (Z.ltb_spec order 0) as [L|L]; [|reflexivity]. destruct (is_0 (cmod c)) eqn:E; [|reflexivity]. exfalso. apply is_0_spec in E. apply (H t c (or_introl eq_refl) L). apply cabs2_zero. rewrite <- cmod_sq, E. ring. }
    rewrite E. cbn [rbind]. rewrite IH by (intros u d Hd; apply (H u d); now right). rewrite total_cons. f_equal. cbn [snd]. ring. }
  assert (Z : forall l s, (order < 0)%Z -> (exists t, In (t, c0) l) -> foldM (fun norm (tc : term A * CC) => let! x := float_pow (cmod (snd tc)) order in Ok (norm + x)) l s = Err ZeroDivisionError).
  { induction l as [|[t c] l IH]; intros s L [u Hu]; [destruct Hu|]. cbn [foldM snd]. unfold float_pow at 1. rewrite (proj2 (Z.ltb_lt _ _) L). cbn [andb].
    destruct (is_0 (cmod c)) eqn:E; [reflexivity|]. cbn [rbind]. apply IH; [exact L|]. destruct Hu as [Hu|Hu]; [|exists u; exact Hu]. injection Hu as -> ->. rewrite cmod_0 in E. rewrite (proj2 (is_0_spec 0) eq_refl) in E. discriminate. }
  assert (D : (order < 0)%Z -> (exists t, In (t, c0) a) \/ forall t c, In (t, c) a -> c <> c0).
  { intros _. clear. induction a as [|[t c] a IH]; [right; intros ? ? []|]. destruct (Req_EM_T (cabs2 c) 0) as [E|E].
    - left. exists t. left. f_equal. apply cabs2_zero. exact E.
    - destruct IH as [[u Hu]|IH]; [left; exists u; now right|]. right. intros u d [[= <- <-]|H]; [|apply (IH u d H)]. intros ->. apply E. unfold cabs2, c0. cbn. ring. }
  unfold induced_norm. destruct (Z.eq_dec order 0) as [->|N0].
  - rewrite F by (intros; lia). cbn [rbind]. unfold float_root. cbn [Z.eqb]. split; [split; [intros [v H]; discriminate|intros [H _]; lia]|reflexivity].
  - assert (L : (order < 0)%Z) by lia. destruct (D L) as [H|H].
    + rewrite Z by assumption. cbn [rbind]. split; [|reflexivity]. split; [intros [v Q]; discriminate|]. intros (_ & _ & Q). destruct H as [t Ht]. exfalso. apply (Q t c0 Ht). reflexivity.
    + rewrite F by (intros t c Hc _; apply (H t c Hc)). cbn [rbind]. rewrite Rplus_0_l. unfold float_root. destruct (Z.eqb_spec order 0); [lia|]. rewrite (proj2 (Z.ltb_lt _ _) L).
      destruct (is_0 _) eqn:E; (split; [split; [|]|]).
      * intros [v Q]. discriminate.
      * intros (_ & Q & _). exfalso. apply is_0_spec in E. destruct a as [|[t c] a]; [apply Q; reflexivity|].
        assert (P : 0 < cmod c) by (destruct (cmod_nonneg c) as [P|P]; [exact P|]; exfalso; apply (H t c (or_introl eq_refl)), cabs2_zero; rewrite <- cmod_sq, <- P; ring).
        assert (N : forall x : term A * CC, In x ((t, c) :: a) -> 0 <= powerRZ (cmod (snd x)) order).
        { intros [u d] Hd. apply Rlt_le, powerRZ_lt. cbn [snd]. destruct (cmod_nonneg d) as [P'|P']; [exact P'|]. exfalso. apply (H u d Hd), cabs2_zero. rewrite <- cmod_sq, <- P'. ring. }
        pose proof (total_zero _ _ N E (t, c) (or_introl eq_refl)) as Q2. cbn [snd] in Q2. pose proof (powerRZ_lt (cmod c) order P). lra.
      * reflexivity.
      * intros _. split; [exact L|]. split; [|exact H]. intros ->. assert (E0 : is_0 0 = false) by exact E. rewrite (proj2 (is_0_spec 0) eq_refl) in E0. discriminate.
      * intros _. eexists. reflexivity.
      * intros Q. exfalso. eapply Q. reflexivity.
Qed.
(** The norm is zero exactly for operators all of whose coefficients are zero, and it scales with the operator. *)
Theorem C88_zero {A} (a : sop A CC) p : (0 < p)%nat -> (induced_norm a (Z.of_nat p) = Ok 0 <-> forall t c, In (t, c) a -> c = c0).
Proof.
  intros Hp. destruct p as [|p]; [lia|]. rewrite norm_is. unfold is_norm. split.
  - intros [_ E] t c Hc. assert (Z : total (fun tc : term A * CC => cmod (snd tc) ^ S p) a = 0) by (etransitivity; [symmetry; exact E|cbn; ring]).
    pose proof (total_zero _ _ (fun x _ => pow_le _ (S p) (cmod_nonneg (snd x))) Z (t, c) Hc) as Q. apply pow_zero in Q. cbn [snd] in Q. apply cabs2_zero. rewrite <- cmod_sq, Q. ring.
  - intros H. split; [lra|]. rewrite (total_ext _ (fun _ => 0)); [rewrite total_0; cbn; ring|]. intros [t c] Hc. cbn [snd]. rewrite (H t c Hc), cmod_0. cbn. ring.
Qed.
Theorem C88_scale {A} (a : sop A CC) c p v : (0 < p)%nat -> induced_norm a (Z.of_nat p) = Ok v -> induced_norm (op_scale (K := CC) a c) (Z.of_nat p) = Ok (cmod c * v).
Proof.
  intros Hp. destruct p as [|p]; [lia|]. rewrite !norm_is. intros [V E]. split; [apply Rmult_le_pos; [apply cmod_nonneg|exact V]|].
  rewrite Rpow_mult_distr, E, <- total_mul. unfold op_scale. rewrite total_map. apply total_ext. intros [t d] _. cbn [snd]. change (kmul (d : CC) c) with (cmul d c). rewrite cmod_mul, Rpow_mult_distr. ring.
Qed.
(** Adding operators: the triangle inequality, for every order and every threshold below which terms are dropped. *)
Theorem C88_triangle {A} (aeqb : A -> A -> bool) small (a b : sop A CC) p u v w : (forall x y, aeqb x y = true <-> x = y) -> (0 < p)%nat -> wf_op a -> wf_op b ->
  induced_norm a (Z.of_nat p) = Ok u -> induced_norm b (Z.of_nat p) = Ok v -> induced_norm (op_add (K := CC) aeqb small a b) (Z.of_nat p) = Ok w -> w <= u + v.
Proof.
  intros Ha Hp Wa Wb. destruct p as [|p]; [lia|]. rewrite !norm_is. intros [Pu Eu] [Pv Ev] [Pw Ew].
  set (s := op_add (K := CC) aeqb small a b) in *. assert (Ws : wf_op s) by (apply (op_add_coef aeqb Ha small b [] a); assumption).
  set (l := uniq (term_eqb aeqb) (dkeys s ++ dkeys a ++ dkeys b)). assert (N : NoDup l) by (apply uniq_NoDup; exact (teqb_spec aeqb Ha)).
  assert (I : forall x : sop A CC, incl (dkeys x) (dkeys s ++ dkeys a ++ dkeys b) -> wf_op x -> total (fun tc => cmod (snd tc) ^ S p) x = total (fun t => cmod (coef aeqb x t) ^ S p) l).
  { intros x Ix Wx. apply (total_coef aeqb Ha (fun c => cmod c ^ S p)); [rewrite cmod_0; cbn; ring|exact Wx|exact N|]. intros t Ht. apply (uniq_In _ (teqb_spec aeqb Ha)). apply Ix. exact Ht. }
  rewrite I in Eu by (assumption || (intros t Ht; apply in_or_app; right; apply in_or_app; now left)). rewrite I in Ev by (assumption || (intros t Ht; apply in_or_app; right; apply in_or_app; now right)).
  rewrite I in Ew by (assumption || (intros t Ht; apply in_or_app; now left)).
  apply (pow_le_inv _ _ p); [exact Pw|lra|]. rewrite Ew. eapply Rle_trans; [|apply (minkowski p (fun t => cmod (coef aeqb a t)) (fun t => cmod (coef aeqb b t)) l u v)]; try assumption; try (intros; apply cmod_nonneg).
  apply total_le. intros t _. apply pow_incr. split; [apply cmod_nonneg|]. pose proof (proj2 (op_add_coef aeqb Ha small b t a Wa Wb)) as Q. fold s in Q. destruct Q as [Q|Q]; rewrite Q; [apply cmod_add|]. rewrite cmod_0.
  pose proof (cmod_nonneg (coef aeqb a t)). pose proof (cmod_nonneg (coef aeqb b t)). lra.
Qed.
(** The norms of orders 1 and 2 bound each other. *)
Theorem C88_compare {A} (a : sop A CC) u v : induced_norm a 1 = Ok u -> induced_norm a 2 = Ok v -> v <= u /\ u <= sqrt (INR (length a)) * v.
Proof.
  change 1%Z with (Z.of_nat 1). change 2%Z with (Z.of_nat 2). rewrite !norm_is. intros [Pu Eu] [Pv Ev]. rewrite pow_1 in Eu.
  assert (Eu' : u = total (fun tc => cmod (snd tc)) a) by (rewrite Eu; apply total_ext; intros; ring). clear Eu.
  split; (apply (pow_le_inv _ _ 1); [assumption|try assumption; try (apply Rmult_le_pos; [apply sqrt_pos|assumption])|]).
  - rewrite Ev, Eu'. clear. induction a as [|[t c] a IH]; [unfold total; cbn; lra|]. rewrite !total_cons. cbn [snd]. pose proof (cmod_nonneg c). 
    set (T := total (fun tc : term A * C => cmod (snd tc)) a) in *. assert (0 <= T) by (apply total_nonneg; intros; apply cmod_nonneg). set (V := total (fun tc : term A * C => cmod (snd tc) ^ 2) a) in *. clearbody T V. cbn [pow] in *. nra.
  - rewrite Rpow_mult_distr. replace (sqrt (INR (length a)) ^ 2) with (INR (length a)) by (rewrite <- (sqrt_sqrt (INR (length a))) at 1 by apply pos_INR; ring). rewrite Ev, Eu'. clear.
    induction a as [|[t c] a IH]; [unfold total; cbn; lra|]. rewrite !total_cons. cbn [snd length]. rewrite S_INR.
    assert (Q : 2 * cmod c * total (fun tc : term A * C => cmod (snd tc)) a <= INR (length a) * cmod c ^ 2 + total (fun tc => cmod (snd tc) ^ 2) a).
    { clear IH. induction a as [|[u d] a IH]; [unfold total; cbn; lra|]. rewrite !total_cons. cbn [snd length]. rewrite S_INR. pose proof (Rle_0_sqr (cmod c - cmod d)) as S. unfold Rsqr in S.
      set (T := total (fun tc : term A * C => cmod (snd tc)) a) in *. set (V := total (fun tc : term A * C => cmod (snd tc) ^ 2) a) in *. clearbody T V. cbn [pow] in *. nra. }
    set (T := total (fun tc : term A * C => cmod (snd tc)) a) in *. set (V := total (fun tc : term A * C => cmod (snd tc) ^ 2) a) in *. clearbody T V. cbn [pow] in *. nra.
Qed.

(** ** For qubit operators *)
(** The norm of order 2 measures the matrix: the squared moduli of all its entries sum up to 2^n times its square. *)
Theorem C88_matrix_size n (a : qop CC) v : wf_op a -> canonical_op a -> on_qubits n a -> induced_norm a 2 = Ok v -> frobenius2 (qop_matrix (K := CC) ci n a) = 2 ^ n * v ^ 2.
Proof. intros W Hc Ho. change 2%Z with (Z.of_nat 2). rewrite norm_is. intros [_ E]. rewrite (frobenius_coefs n a W Hc Ho), E. f_equal. apply total_ext. intros. symmetry. apply cmod_pow2. Qed.
(** The norm of order 1 bounds the matrix: no vector gets longer by more than this factor, and no eigenvalue is larger. *)
Theorem C88_bound n (a : qop CC) u (x : vec CC) : canonical_op a -> on_qubits n a -> induced_norm a 1 = Ok u -> vlen x = (2 ^ n)%nat -> vlength (mvmul (qop_matrix (K := CC) ci n a) x) <= u * vlength x.
Proof.
  intros Hc Ho. change 1%Z with (Z.of_nat 1). rewrite norm_is. intros [_ E] Lx. rewrite pow_1 in E. rewrite E. rewrite (total_ext _ (fun tc => cmod (snd tc))) by (intros; ring). now apply qop_bound.
Qed.
Theorem C88_eigenvalues n (a : qop CC) u (x : vec CC) (c : C) : canonical_op a -> on_qubits n a -> induced_norm a 1 = Ok u -> vlen x = (2 ^ n)%nat -> (exists i, (i < 2 ^ n)%nat /\ vent x i <> c0) ->
  (forall i, (i < 2 ^ n)%nat -> vent (mvmul (qop_matrix (K := CC) ci n a) x) i = cmul c (vent x i)) -> cmod c <= u.
Proof.
  intros Hc Ho E Lx (i & Hi & Ni) Ev. pose proof (C88_bound n a u x Hc Ho E Lx) as B.
  rewrite (vlength_scale x _ c) in B; [| |].
  - assert (P : 0 < vlength x).
    { destruct (vlength_nonneg x) as [P|P]; [exact P|exfalso]. assert (Z : total (fun i => cmod (vent x i) ^ 2) (seq 0 (vlen x)) = 0) by (rewrite <- vlength_pow2, <- P; ring).
      pose proof (total_zero _ _ (fun j _ => pow_le _ 2 (cmod_nonneg (vent x j))) Z i ltac:(apply in_seq; lia)) as Q. apply pow_zero in Q. apply Ni, cabs2_zero. rewrite <- cmod_sq, Q. ring. }
    apply (Rmult_le_reg_r (vlength x)); assumption.
  - assert (S : nr (qop_matrix (K := CC) ci n a) = (2 ^ n)%nat) by (destruct a; [reflexivity|]; cbn [qop_matrix fold_right madd mscale nr]; apply term_matrix_shape). cbn [mvmul vlen]. rewrite S. exact Lx.
  - assert (S : nr (qop_matrix (K := CC) ci n a) = (2 ^ n)%nat) by (destruct a; [reflexivity|]; cbn [qop_matrix fold_right madd mscale nr]; apply term_matrix_shape). cbn [mvmul vlen]. rewrite S. exact Ev.
Qed.

(** ** renormalize *)
(** Above the tolerance it divides by the norm of order 2, which becomes 1; the direction of the matrix stays. *)
Theorem C88_renormalize (a : qop CC) v : induced_norm a 2 = Ok v ->
  (v <= / 100000000 -> renormalize a = Err ZeroDivisionError) /\
  (/ 100000000 < v -> exists b, renormalize a = Ok b /\ dkeys b = dkeys a /\ (forall t, coef (K := CC) pauli_eqb b t = cmul (coef (K := CC) pauli_eqb a t) (rc (/ v))) /\ induced_norm b 2 = Ok 1 /\
     forall n, wf_op a -> canonical_op a -> on_qubits n a -> frobenius2 (qop_matrix (K := CC) ci n b) = 2 ^ n).
Proof.
  intros E. assert (P : 0 <= v) by (apply (norm_is a 1 v); exact E). unfold renormalize. rewrite E. cbn [rbind]. unfold Rle_bool'. rewrite Rminus_0_r, Rabs_R0, Rmult_0_r, Rplus_0_r, (Rabs_pos_eq v P). split; intros H; destruct (Rle_dec v (/ 100000000)); try lra; [reflexivity|].
  assert (N : v <> 0) by (assert (0 < / 100000000) by lra; lra).
  assert (Z : is_0 v = false) by (destruct (is_0 v) eqn:Q; [apply is_0_spec in Q; contradiction|reflexivity]).
  exists (op_scale (K := CC) a (rc (/ v))). split; [unfold op_div, real_quotient; cbn [fst rc]; rewrite Z; unfold Rdiv; rewrite Rmult_1_l; reflexivity|].
  assert (Ek : dkeys (op_scale (K := CC) a (rc (/ v))) = dkeys a) by (unfold dkeys, op_scale; rewrite map_map; reflexivity).
  assert (E1 : induced_norm (op_scale (K := CC) a (rc (/ v))) 2 = Ok 1).
  { change 2%Z with (Z.of_nat 2). rewrite (C88_scale a (rc (/ v)) 2 v) by (lia || exact E). f_equal. assert (M : cmod (rc (/ v)) = / v).
    { unfold cmod, cabs2, rc. cbn [fst snd]. rewrite Rmult_0_l, Rplus_0_r. apply sqrt_square. apply Rlt_le, Rinv_0_lt_compat. lra. }
    rewrite M. apply Rinv_l. exact N. }
  split; [exact Ek|]. split; [|split; [exact E1|]].
  - intros t. unfold coef, op_scale. clear. induction a as [|[u c] a IH]; [apply c_eq; cbn; ring|]. cbn [map dget fst snd]. destruct (term_eqb pauli_eqb t u); [reflexivity|exact IH].
  - intros m W Hc Ho. rewrite (C88_matrix_size m _ 1); [ring| | | |exact E1].
    + unfold wf_op. rewrite Ek. exact W.
    + intros t c Ht. unfold op_scale in Ht. apply in_map_iff in Ht as ([u d] & Eq & Hu). injection Eq as <- _. exact (Hc u d Hu).
    + intros t c Ht. unfold op_scale in Ht. apply in_map_iff in Ht as ([u d] & Eq & Hu). injection Eq as <- _. exact (Ho u d Hu).
Qed.
(** An operator that is not zero may be refused: 10^-9 Z. *)
Definition c88_z (c : R) : qop CC := [([(0%nat, Pz)], rc c)].
Lemma c88_z_norm c p : 0 <= c -> induced_norm (c88_z c) (Z.of_nat (S p)) = Ok c.
Proof.
  intros H. apply norm_is. split; [exact H|]. unfold total, c88_z. cbn [map fold_right snd]. rewrite Rplus_0_r. f_equal. unfold cmod, cabs2, rc. cbn [fst snd]. rewrite Rmult_0_l, Rplus_0_r, sqrt_square by exact H. reflexivity.
Qed.
Theorem C88_tiny_refuted : exists a : qop CC, wf_op a /\ canonical_op a /\ on_qubits 1 a /\ (exists t c, In (t, c) a /\ c <> c0) /\ renormalize a = Err ZeroDivisionError.
Proof.
  exists (c88_z (/ 1000000000)). split; [unfold wf_op; cbn; apply NoDup_cons; [intros []|apply NoDup_nil]|]. split; [intros t c [[= <- <-]|[]]; cbn; split; [discriminate|split; [exact I|exact I]] || idtac|].
  split; [intros t c [[= <- <-]|[]] f [<-|[]]; cbn; lia|]. split; [do 2 eexists; split; [left; reflexivity|]; unfold rc, c0; intros [= E]; lra|].
  apply (C88_renormalize _ (/ 1000000000)); [apply (c88_z_norm _ 1); lra|lra].
Qed.
(** The trace norm does not become 1, as the documentation says: Z is left alone, and has trace norm 2. *)
Theorem C88_trace_norm_refuted : exists b, renormalize (c88_z 1) = Ok b /\ meq (qop_matrix (K := CC) ci 1 b) (qop_matrix (K := CC) ci 1 (c88_z 1)) /\ trace_norm (qop_matrix (K := CC) ci 1 b) 2.
Proof.
  destruct (C88_renormalize (c88_z 1) 1 (c88_z_norm 1 1 ltac:(lra))) as [_ H]. destruct (H ltac:(lra)) as (b & E & Ek & Ec & _ & _). exists b. split; [exact E|].
  assert (Eb : b = c88_z 1).
  { destruct b as [|[t c] [|? ?]]; try discriminate Ek. injection Ek as ->. specialize (Ec [(0%nat, Pz)]). unfold coef, c88_z in Ec. cbn [dget] in Ec. rewrite (proj2 (term_eqb_spec _ pauli_eqb_spec _ _) eq_refl) in Ec. unfold c88_z. do 2 f_equal. rewrite Ec. apply c_eq; cbn; field. }
  subst b. split; [reflexivity|].
  assert (S : nr (qop_matrix (K := CC) ci 1 (c88_z 1)) = 2%nat /\ nc (qop_matrix (K := CC) ci 1 (c88_z 1)) = 2%nat) by (split; reflexivity).
  assert (Em : forall i j, (i < 2)%nat -> (j < 2)%nat -> ent (qop_matrix (K := CC) ci 1 (c88_z 1)) i j = if Nat.eqb i j then (if Nat.eqb i 0 then c1 else copp c1) else c0).
  { intros i j Hi Hj. destruct i as [|[|i]]; [| |lia]; (destruct j as [|[|j]]; [| |lia]); apply c_eq; cbn; ring. }
  exists (eye 2). split; [reflexivity|]. split; [reflexivity|]. set (Z := qop_matrix (K := CC) ci 1 (c88_z 1)) in *. destruct S as [S1 S2]. split; [|split; [|split]].
  - split; [reflexivity|]. split; [reflexivity|]. cbn [mmul eye adjoint nr nc ent]. rewrite S1. intros i j Hi Hj. cbn [bigsum]. rewrite !Em by lia. destruct i as [|[|i]]; [| |lia]; (destruct j as [|[|j]]; [| |lia]); apply c_eq; cbn; ring.
  - split; [reflexivity|]. split; [reflexivity|]. intros i j Hi Hj. cbn in Hi, Hj. destruct i as [|[|i]]; [| |lia]; (destruct j as [|[|j]]; [| |lia]); apply c_eq; cbn; ring.
  - intros v Lv. rewrite S2 in Lv. unfold inner. rewrite Lv. cbn. nra.
  - rewrite S1. apply c_eq; cbn; ring.
Qed.

(** ** Cases *)
Definition c88_op : qop CC := [([(0%nat, Px)], rc 3); ([(0%nat, Pz); (1%nat, Py)], (0, 4))].
Example C88_hypotheses : wf_op c88_op /\ canonical_op c88_op /\ on_qubits 2 c88_op /\ is_norm 1 c88_op 7 /\ is_norm 2 c88_op 5.
Proof.
  assert (M3 : cmod (rc 3) = 3) by (unfold cmod, cabs2, rc; cbn [fst snd]; replace (3 * 3 + 0 * 0) with (3 * 3) by ring; apply sqrt_square; lra).
  assert (M4 : cmod (0, 4) = 4) by (unfold cmod, cabs2; cbn [fst snd]; replace (0 * 0 + 4 * 4) with (4 * 4) by ring; apply sqrt_square; lra).
  split; [unfold wf_op; cbn; apply NoDup_cons; [intros [H|[]]; discriminate|apply NoDup_cons; [intros []|apply NoDup_nil]]|].
  split; [intros t c [[= <- <-]|[[= <- <-]|[]]]; cbn; repeat split; try discriminate; lia|].
  split; [intros t c [[= <- <-]|[[= <- <-]|[]]] f Hf; cbn in Hf; destruct Hf as [<-|Hf]; cbn; try lia; destruct Hf as [<-|[]] || destruct Hf; cbn; lia|].
  unfold is_norm, total, c88_op. cbn [map fold_right snd]. rewrite M3, M4. split; split; lra.
Qed.
(** norm 5: the sum of the squares of the entries is 100, and after renormalize it is 4 *)
Example C88_renormalize_case : exists b, renormalize c88_op = Ok b /\ frobenius2 (qop_matrix (K := CC) ci 2 c88_op) = 100 /\ frobenius2 (qop_matrix (K := CC) ci 2 b) = 4.
Proof.
  destruct C88_hypotheses as (W & Hc & Ho & _ & N2). apply norm_is in N2. destruct (C88_renormalize c88_op 5 N2) as [_ H]. destruct (H ltac:(lra)) as (b & E & _ & _ & _ & Q).
  exists b. split; [exact E|]. split; [rewrite (C88_matrix_size 2 c88_op 5 W Hc Ho N2); lra|]. rewrite (Q 2%nat W Hc Ho). lra.
Qed.
Example C88_orders_case : induced_norm c88_op 0 = Err ZeroDivisionError /\ induced_norm (A := pauli) [] (-1) = Err ZeroDivisionError /\ induced_norm (A := pauli) [] 3 = Ok 0.
Proof.
  destruct (C88_other_orders c88_op 0 ltac:(lia)) as [H1 H2]. split; [apply H2; intros v E; assert (Q : exists v, induced_norm c88_op 0 = Ok v) by (exists v; exact E); apply H1 in Q; destruct Q; lia|].
  destruct (C88_other_orders (A := pauli) [] (-1) ltac:(lia)) as [H3 H4]. split; [apply H4; intros v E; assert (Q : exists v, induced_norm (A := pauli) [] (-1) = Ok v) by (exists v; exact E); apply H3 in Q; destruct Q as (_ & Q & _); now apply Q|].
  apply (C88_zero (A := pauli) [] 3); [lia|]. intros t c [].
Qed.

Print Assumptions C88_norm.
Print Assumptions C88_other_orders.
Print Assumptions C88_zero.
Print Assumptions C88_scale.
Print Assumptions C88_triangle.
Print Assumptions C88_compare.
Print Assumptions C88_matrix_size.
Print Assumptions C88_bound.
Print Assumptions C88_eigenvalues.
Print Assumptions C88_renormalize.
Print Assumptions C88_tiny_refuted.
Print Assumptions C88_trace_norm_refuted.
