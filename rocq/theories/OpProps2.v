(** Property C45 (comparison with tolerance, compression) and concrete cases for C44. *)
From Coq Require Import Reals Permutation Ring Lra.
From Verif Require Import Base BaseFacts MatModel Cplx CmpModel CmpProofs GaussZ OpModel OpSpec OpProofs OpProofs2 OpProps.
Open Scope list_scope.
Local Open Scope nat_scope.

Section C45.
  Context {A : Type} (aeqb : A -> A -> bool) (Ha : eqb_spec_of aeqb).
  Context (order : list (term A) -> list (term A)) (Hord : forall l, Permutation (order l) l).
  Notation op := (sop A CC).
  Notation teqb := (term_eqb aeqb).
  Let Ht : eqb_spec_of teqb := term_eqb_spec aeqb Ha.
  Open Scope R_scope.

  (** product over the shared terms of max(1, |a_t|, |b_t|) *)
  Definition scale_at (a b : op) (t : term A) : R := Rmax 1 (Rmax (cmod (coef aeqb a t)) (cmod (coef aeqb b t))).
  Definition shared (a b : op) : list (term A) := filter (fun t => memb teqb t (dkeys b)) (dkeys a).
  Definition total_scale (a b : op) : R := fold_right (fun t p => scale_at a b t * p) 1 (shared a b).
  Definition differ (a b : op) (t : term A) : R := cmod (csub (coef aeqb a t) (coef aeqb b t)).

  Lemma scale_ge1 a b t : 1 <= scale_at a b t.
  Proof. apply Rmax_l. Qed.
  Lemma prod_ge1 a b l : 1 <= fold_right (fun t p => scale_at a b t * p) 1 l.
  Proof. induction l as [|t l IH]; cbn; [lra|]. pose proof (scale_ge1 a b t). nra. Qed.
  Lemma prod_perm a b l m : Permutation l m -> fold_right (fun t p => scale_at a b t * p) 1 l = fold_right (fun t p => scale_at a b t * p) 1 m.
  Proof. induction 1; cbn; try congruence. ring. Qed.
  Lemma close_common_spec (a b : op) l : (forall t, In t l -> In t (dkeys a) /\ In t (dkeys b)) -> forall tol, 0 < tol ->
    (forall tol', close_common aeqb a b l tol = Some tol' ->
       tol' = tol * fold_right (fun t p => scale_at a b t * p) 1 l /\ forall t, In t l -> differ a b t < tol * fold_right (fun t p => scale_at a b t * p) 1 l) /\
    ((forall t, In t l -> differ a b t < tol) -> exists tol', close_common aeqb a b l tol = Some tol').
  Proof.
    induction l as [|t l IH]; intros Hk tol Htol; cbn [close_common fold_right].
    - split; [|eauto]. intros tol' [= <-]. split; [ring|]. intros t [].
    - destruct (Hk t (or_introl eq_refl)) as [K1 K2].
      destruct (dget teqb t a) as [x|] eqn:Ea; [|apply (dget_None teqb Ht) in Ea; contradiction].
      destruct (dget teqb t b) as [y|] eqn:Eb; [|apply (dget_None teqb Ht) in Eb; contradiction].
      assert (Cx : coef aeqb a t = x) by (unfold coef; now rewrite Ea). assert (Cy : coef aeqb b t = y) by (unfold coef; now rewrite Eb).
      change (Rmax 1 (Rmax (cmod x) (cmod y))) with (Rmax 1 (Rmax (cmod x) (cmod y))). rewrite <- Cx, <- Cy. fold (scale_at a b t). fold (differ a b t).
      pose proof (scale_ge1 a b t) as S1. pose proof (prod_ge1 a b l) as P1. set (s := scale_at a b t) in *. set (p := fold_right _ 1 l) in *.
      assert (Ht' : 0 < tol * s) by nra. destruct (IH (fun t' H' => Hk t' (or_intror H')) (tol * s) Ht') as [I1 I2]. fold p in I1.
      assert (D : is_small (tol * s) (csub (coef aeqb a t) (coef aeqb b t)) = true <-> differ a b t < tol * s) by apply is_small_iff.
      destruct (is_small (tol * s) (csub (coef aeqb a t) (coef aeqb b t))) eqn:E.
      + split.
        * intros tol' Et. destruct (I1 tol' Et) as [J1 J2]. split; [rewrite J1; ring|]. intros t' [<-|H'].
          -- apply Rlt_le_trans with (tol * s); [apply D; auto|]. assert (tol * s * 1 <= tol * s * p) by (apply Rmult_le_compat_l; lra). lra.
          -- specialize (J2 t' H'). lra.
        * intros Hd. apply I2. intros t' H'. specialize (Hd t' (or_intror H')). nra.
      + split; [discriminate|]. intros Hd. specialize (Hd t (or_introl eq_refl)). assert (differ a b t < tol * s) by nra. apply D in H. discriminate.
  Qed.
  Lemma isclose_iff (a b : op) tol : wf_op a -> wf_op b -> 0 < tol ->
    (isclose aeqb order a b tol = true -> forall t, differ a b t < tol * total_scale a b) /\
    ((forall t, differ a b t < tol) -> isclose aeqb order a b tol = true).
  Proof.
    intros Wa Wb Htol. unfold isclose. fold (shared a b).
    assert (Hc : forall t, In t (order (shared a b)) -> In t (dkeys a) /\ In t (dkeys b)).
    { intros t Hin. apply (Permutation_in _ (Hord _)) in Hin. apply filter_In in Hin as [H1 H2]. apply (memb_In teqb Ht) in H2. auto. }
    destruct (close_common_spec a b _ Hc tol Htol) as [C1 C2]. rewrite (prod_perm a b _ _ (Hord (shared a b))) in C1. fold (total_scale a b) in C1.
    assert (Pg : 1 <= total_scale a b) by apply prod_ge1. set (single := (filter _ (dkeys a) ++ filter _ (dkeys b))%list).
    assert (Hs : forall t, In t (order single) -> forall tol', (match dget teqb t a with Some x => is_small tol' x | None => match dget teqb t b with Some y => is_small tol' y | None => true end end) = true <-> (differ a b t < tol')).
    { intros t Hin tol'. apply (Permutation_in _ (Hord _)) in Hin. unfold single in Hin. apply in_app_or in Hin.
      assert (Hx : forall x : CC, cmod (csub x (@k0 CC)) = cmod x) by (intros; f_equal; apply c_eq; cbn; ring). assert (Hy : forall x : CC, cmod (csub (@k0 CC) x) = cmod x) by (intros x; rewrite <- (cmod_opp x); f_equal; apply c_eq; cbn; ring).
      unfold differ, coef. destruct Hin as [Hin|Hin]; apply filter_In in Hin as [H1 H2]; apply negb_true_iff in H2;
        (match type of H2 with memb _ _ (dkeys ?d) = false => assert (N : dget teqb t d = None) by (apply (dget_None teqb Ht); intros Hin; apply (memb_In teqb Ht) in Hin; congruence) end); rewrite N.
      - destruct (dget teqb t a) as [x|] eqn:Ea; [|apply (dget_None teqb Ht) in Ea; contradiction]. rewrite (Hx x). apply is_small_iff.
      - destruct (dget teqb t b) as [y|] eqn:Eb; [|apply (dget_None teqb Ht) in Eb; contradiction]. rewrite (Hy y). apply is_small_iff. }
    split.
    - destruct (close_common aeqb a b (order (shared a b)) tol) as [tol'|] eqn:E; [|discriminate]. destruct (C1 tol' eq_refl) as [J1 J2].
      intros F t. rewrite forallb_forall in F.
      destruct (memb teqb t (dkeys a)) eqn:Ma, (memb teqb t (dkeys b)) eqn:Mb.
      + apply J2. apply (Permutation_in _ (Permutation_sym (Hord _))). apply filter_In. split; [apply (memb_In teqb Ht); auto|auto].
      + rewrite <- J1. assert (Hin : In t (order single)).
        { apply (Permutation_in _ (Permutation_sym (Hord _))). apply in_or_app; left. apply filter_In. split; [apply (memb_In teqb Ht); auto|]. now rewrite Mb. }
        apply (Hs t Hin). apply F, Hin.
      + rewrite <- J1. assert (Hin : In t (order single)).
        { apply (Permutation_in _ (Permutation_sym (Hord _))). apply in_or_app; right. apply filter_In. split; [apply (memb_In teqb Ht); auto|]. now rewrite Ma. }
        apply (Hs t Hin). apply F, Hin.
      + unfold differ, coef. rewrite (proj2 (dget_None teqb Ht t a)), (proj2 (dget_None teqb Ht t b)) by (intros Hin; apply (memb_In teqb Ht) in Hin; congruence).
        replace (csub (@k0 CC) (@k0 CC)) with c0 by (apply c_eq; cbn; ring). rewrite cmod_0. nra.
    - intros Hd. destruct (C2 (fun t _ => Hd t)) as [tol' E]. rewrite E. destruct (C1 tol' E) as [J1 _]. apply forallb_forall. intros t Hin. apply (Hs t Hin).
      specialize (Hd t). rewrite J1. nra.
  Qed.

  (** Operators whose coefficients (absent ones being 0) all differ by less than the tolerance compare as close, and operators that
      compare as close have all coefficients within the tolerance times the product of max(1, |a_t|, |b_t|) over the shared terms. *)
  Theorem C45_accepts (a b : op) tol : wf_op a -> wf_op b -> 0 < tol -> (forall t, differ a b t < tol) -> isclose aeqb order a b tol = true.
  Proof. intros Wa Wb Ht0. apply isclose_iff; auto. Qed.
  Theorem C45_accepted_bound (a b : op) tol : wf_op a -> wf_op b -> 0 < tol -> isclose aeqb order a b tol = true ->
    forall t, differ a b t < tol * total_scale a b.
  Proof. intros Wa Wb Ht0. apply isclose_iff; auto. Qed.
  (** When shared coefficients have modulus at most 1 the answer is exact, whatever the order of iteration. *)
  Definition unit_bounded (a b : op) : Prop := forall t, In t (shared a b) -> cmod (coef aeqb a t) <= 1 /\ cmod (coef aeqb b t) <= 1.
  Theorem C45_exact (a b : op) tol : wf_op a -> wf_op b -> 0 < tol -> unit_bounded a b ->
    (isclose aeqb order a b tol = true <-> forall t, differ a b t < tol).
  Proof.
    intros Wa Wb Ht0 U. destruct (isclose_iff a b tol Wa Wb Ht0) as [I1 I2]. split; [|auto]. intros E t. specialize (I1 E t).
    replace (total_scale a b) with 1 in I1; [lra|]. unfold total_scale. unfold unit_bounded in U. induction (shared a b) as [|u l IH]; cbn; [auto|].
    rewrite <- IH by (intros; apply U; right; auto). destruct (U u (or_introl eq_refl)). unfold scale_at. rewrite Rmax_left; [ring|]. apply Rmax_lub; auto.
  Qed.
  Theorem C45_symmetric (a b : op) tol : wf_op a -> wf_op b -> 0 < tol -> unit_bounded a b ->
    isclose aeqb order a b tol = isclose aeqb order b a tol.
  Proof.
    intros Wa Wb Ht0 U. apply eq_true_iff_eq.
    assert (U' : unit_bounded b a).
    { intros t Hin. apply and_comm. apply U. apply filter_In in Hin as [H1 H2]. apply filter_In. apply (memb_In teqb Ht) in H2. split; [auto|]. apply (memb_In teqb Ht). auto. }
    rewrite (C45_exact a b), (C45_exact b a) by auto.
    assert (D : forall t, differ a b t = differ b a t).
    { intros t. unfold differ. rewrite <- (cmod_opp (csub (coef aeqb a t) (coef aeqb b t))). f_equal. generalize (coef (K := CC) aeqb a t : C), (coef (K := CC) aeqb b t : C). intros; c_ring. }
    split; intros H t; specialize (H t); rewrite D in *; auto.
  Qed.
End C45.

(** The tolerance grows with every large shared coefficient, so the answer depends on the iteration order of a set ... *)
Theorem C45_order_dependence_refuted : exists (a b : sop pauli CC) (o1 o2 : list (term pauli) -> list (term pauli)),
  wf_op a /\ wf_op b /\ (forall l, Permutation (o1 l) l) /\ (forall l, Permutation (o2 l) l) /\
  isclose pauli_eqb o1 a b (1/100) = true /\ isclose pauli_eqb o2 a b (1/100) = false.
Proof.
  assert (Cm : forall x : R, (0 <= x)%R -> cmod (x, 0%R) = x).
  { intros x Hx. unfold cmod, cabs2. cbn. replace (x * x + 0 * 0)%R with (x * x)%R by ring. apply sqrt_square; auto. }
  assert (Sm : forall tol x y : R, (0 <= x - y)%R -> is_small tol (csub (x, 0%R) (y, 0%R)) = Rlt_bool (x - y) tol).
  { intros tol x y H. unfold is_small. f_equal. rewrite <- (Cm (x - y)%R H). f_equal. apply c_eq; cbn; ring. }
  exists [([], (100, 0)%R); ([(0, Px)], (1, 0)%R)], [([], (100, 0)%R); ([(0, Px)], (1/2, 0)%R)], (fun l => l), (@rev _).
  assert (W : forall c d : CC, wf_op ([([], c); ([(0, Px)], d)] : sop pauli CC)).
  { intros c d. unfold wf_op; cbn. repeat constructor; cbn; intuition discriminate. }
  split; [apply W|]. split; [apply W|]. split; [auto|]. split; [intros; symmetry; apply Permutation_rev|].
  unfold isclose. cbn [dkeys map fst filter memb existsb term_eqb list_eqb factor_eqb Nat.eqb pauli_eqb snd andb orb negb app rev].
  cbn [close_common dget term_eqb list_eqb factor_eqb fst snd Nat.eqb pauli_eqb andb].
  rewrite !Cm by lra. rewrite !Sm by lra. unfold Rlt_bool.
  rewrite !(Rmax_left 100), !(Rmax_right 1 100), !(Rmax_left 1 (1/2)), !(Rmax_left 1 1) by lra.
  split.
  - destruct (Rlt_dec _ _) as [_|N]; [|exfalso; lra]. destruct (Rlt_dec _ _) as [_|N]; [reflexivity|exfalso; lra].
  - destruct (Rlt_dec _ _) as [N|_]; [exfalso; lra|]. reflexivity.
Qed.
(** ... and operators that differ by a coefficient 5 can compare equal at the default tolerance 1e-8. *)
Theorem C45_large_difference_refuted : isclose pauli_eqb (fun l => l) [([(0, Pz)], (1000000000, 0)%R : CC)]
  [([(0, Pz)], (1000000000, 0)%R); ([(0, Px)], (5, 0)%R)] (1/100000000) = true.
Proof.
  assert (Cm : forall x : R, (0 <= x)%R -> cmod (x, 0%R) = x).
  { intros x Hx. unfold cmod, cabs2. cbn. replace (x * x + 0 * 0)%R with (x * x)%R by ring. apply sqrt_square; auto. }
  unfold isclose. cbn [dkeys map fst filter memb existsb term_eqb list_eqb factor_eqb Nat.eqb pauli_eqb snd andb orb negb app rev].
  cbn [close_common dget term_eqb list_eqb factor_eqb fst snd Nat.eqb pauli_eqb andb forallb].
  rewrite !Cm by lra. unfold is_small. replace (csub (1000000000, 0)%R (1000000000, 0)%R) with c0 by c_ring. rewrite cmod_0, !Cm by lra. unfold Rlt_bool.
  rewrite (Rmax_left 1000000000), (Rmax_right 1) by lra.
  destruct (Rlt_dec _ _) as [_|N]; [|exfalso; lra]. destruct (Rlt_dec _ _) as [_|N]; [reflexivity|exfalso; lra].
Qed.

(** compress: a number is kept exactly if its real or its imaginary part exceeds the tolerance; parts within the tolerance are zeroed. *)
Definition chop (tol x : R) : R := if Rle_dec (Rabs x) tol then 0%R else x.
Definition big_part (tol : R) (c : C) : bool := if Rlt_dec tol (Rabs (fst c)) then true else if Rlt_dec tol (Rabs (snd c)) then true else false.
Lemma cmod_ge_parts (c : C) : (Rabs (fst c) <= cmod c /\ Rabs (snd c) <= cmod c)%R.
Proof.
  assert (S : forall x y : R, (0 <= y)%R -> (x * x <= y * y)%R -> (Rabs x <= y)%R).
  { intros x y Hy H. apply Rabs_le. split; nra. }
  pose proof (cmod_nonneg c) as N. pose proof (cmod_sq c) as Q. unfold cabs2 in Q. split; apply S; auto; nra.
Qed.
Theorem C45_compress {A} (tol : R) (a : sop A CC) : (0 <= tol)%R ->
  compress (fun _ => false) tol a = map (fun tc => (fst tc, (chop tol (fst (snd tc)), chop tol (snd (snd tc))))) (filter (fun tc => big_part tol (snd tc)) a).
Proof.
  intros Ht0. unfold compress. induction a as [|[t [x y]] a IH]; [reflexivity|]. cbn [flat_map filter fst snd]. rewrite IH. clear IH.
  assert (M0 : cmod (0%R, 0%R) = 0%R) by exact cmod_0.
  unfold compress_number, big_part, Rle_bool', Rlt_bool. cbn [fst snd].
  assert (Cx : chop tol x = if Rle_dec (Rabs x) tol then 0%R else x) by reflexivity. assert (Cy : chop tol y = if Rle_dec (Rabs y) tol then 0%R else y) by reflexivity.
  destruct (Rle_dec (Rabs y) tol) as [Hy|Hy]; cbn [fst snd]; destruct (Rle_dec (Rabs x) tol) as [Hx|Hx]; cbn [fst snd].
  - rewrite M0. destruct (Rlt_dec tol 0) as [B|_]; [exfalso; lra|]. destruct (Rlt_dec tol (Rabs x)) as [B|_]; [exfalso; lra|]. destruct (Rlt_dec tol (Rabs y)) as [B|_]; [exfalso; lra|]. reflexivity.
  - pose proof (cmod_ge_parts (x, 0%R)) as [P _]; cbn [fst] in P. destruct (Rlt_dec tol (cmod (x, 0%R))) as [_|B]; [|exfalso; lra].
    destruct (Rlt_dec tol (Rabs x)) as [_|B]; [|exfalso; lra]. cbn [map app fst snd]. rewrite Cx, Cy. reflexivity.
  - pose proof (cmod_ge_parts (0%R, y)) as [_ P]; cbn [snd] in P. destruct (Rlt_dec tol (cmod (0%R, y))) as [_|B]; [|exfalso; lra].
    destruct (Rlt_dec tol (Rabs x)) as [B|_]; [exfalso; lra|]. destruct (Rlt_dec tol (Rabs y)) as [_|B]; [|exfalso; lra]. cbn [map app fst snd]. rewrite Cx, Cy. reflexivity.
  - pose proof (cmod_ge_parts (x, y)) as [P _]; cbn [fst] in P. destruct (Rlt_dec tol (cmod (x, y))) as [_|B]; [|exfalso; lra].
    destruct (Rlt_dec tol (Rabs x)) as [_|B]; [|exfalso; lra]. cbn [map app fst snd]. rewrite Cx, Cy. reflexivity.
Qed.
(** A coefficient of modulus above the tolerance can be removed: 0.8 + 0.8i at tolerance 1. *)
Theorem C45_compress_modulus_refuted : (cmod (8/10, 8/10)%R > 1)%R /\ compress (A := pauli) (fun _ => false) 1 [([], (8/10, 8/10)%R : CC)] = [].
Proof.
  split.
  - pose proof (cmod_nonneg (8/10, 8/10)%R). pose proof (cmod_sq (8/10, 8/10)%R) as Q. unfold cabs2 in Q; cbn in Q. nra.
  - rewrite C45_compress by lra. unfold big_part; cbn [filter snd fst]. rewrite Rabs_right by lra. destruct (Rlt_dec 1 (8/10)) as [B|_]; [exfalso; lra|]. reflexivity.
Qed.
(** A negative sympy coefficient, however large, is removed. *)
Theorem C45_compress_sympy_negative_refuted tol x : (0 <= tol)%R -> (x < 0)%R -> compress (A := pauli) (fun _ => true) tol [([], (x, 0)%R : CC)] = [].
Proof.
  intros H1 H2. unfold compress; cbn [flat_map snd fst]. unfold compress_sympy, Rle_bool'. cbn [fst snd]. destruct (Rle_dec 0 tol) as [_|B]; [|exfalso; lra]. cbn [fst snd].
  destruct (Rle_dec x tol) as [_|B]; [|exfalso; lra]. assert (M0 : cmod (0%R, 0%R) = 0%R) by exact cmod_0. cbn [fst snd]. rewrite M0. destruct (Rle_dec 0 tol) as [_|B]; [|exfalso; lra]. reflexivity.
Qed.
Theorem C45_induced_norm {A} (a : sop A CC) : induced_norm1 a = fold_right Rplus 0%R (map (fun tc => cmod (snd tc)) a) /\
  (0 <= induced_norm2 a)%R /\ (induced_norm2 a * induced_norm2 a = fold_right Rplus 0%R (map (fun tc => cabs2 (snd tc)) a))%R.
Proof.
  assert (G : forall (f : term A * CC -> R) l x, fold_left (fun n tc => n + f tc)%R l x = (x + fold_right Rplus 0%R (map f l))%R).
  { intros f l. induction l as [|tc l IH]; intros x; cbn; [ring|]. rewrite IH. apply Rplus_assoc. }
  unfold induced_norm1, induced_norm2. rewrite !G, !Rplus_0_l. split; [reflexivity|]. split; [apply sqrt_pos|].
  rewrite (map_ext _ (fun tc => cabs2 (snd tc))) by (intros tc; cbn; rewrite Rmult_1_r; apply cmod_sq). apply sqrt_sqrt.
  clear G. induction a as [|tc a IH]; cbn [map fold_right]; [apply Rle_refl|]. apply Rplus_le_le_0_compat; [apply cabs2_nonneg|exact IH].
Qed.

(** ** Concrete cases for C44 *)
Definition four : qop GZ := [([(0, Px)], (1, 0)%Z); ([(1, Py)], (2, 0)%Z); ([], (0, 3)%Z); ([(0, Pz); (2, Pz)], (-1, 0)%Z)].
Example ex_C44_groups : canonical_op (qubit_simplify gi) gz_zero four /\
  get_operator_groups pauli_eqb (qubit_simplify gi) gz_zero four 3 =
    [[([(0, Px)], (1, 0)%Z); ([(1, Py)], (2, 0)%Z)]; [([], (0, 3)%Z)]; [([(0, Pz); (2, Pz)], (-1, 0)%Z)]].
Proof.
  split; [|vm_compute; reflexivity]. split.
  - unfold wf_op; cbn. repeat constructor; cbn; intuition discriminate.
  - intros t c Hin. unfold four in Hin. repeat (destruct Hin as [Hin|Hin]; [injection Hin as <- <-; vm_compute; auto|]). destruct Hin.
Qed.
Example ex_C44_heap : binary_op pauli_eqb gz_zero ksub [(3, four); (5, four)] 3 5 = Ok ([(3, four); (5, four); (6, [])], 6) /\
  inplace pauli_eqb gz_zero ksub [(3, four); (5, four)] 3 5 = Ok [(3, []); (5, four)] /\
  inplace pauli_eqb gz_zero ksub [(3, four); (5, four)] 3 3 = Err RuntimeError.
Proof. vm_compute. auto. Qed.
Example ex_C45_exact : unit_bounded pauli_eqb [([], c1 : CC)] [([], ci); ([(0, Px)], c1)].
Proof.
  intros t [<-|[]]. unfold coef; cbn. rewrite cmod_1. split; [lra|]. unfold cmod, cabs2, ci; cbn. replace (0 * 0 + 1 * 1)%R with 1%R by ring. rewrite sqrt_1. lra.
Qed.

Print Assumptions C42_product.
Print Assumptions C42_sum.
Print Assumptions C43_product.
Print Assumptions C44_get_operator_groups.
Print Assumptions C44_binary_operators_do_not_mutate.
Print Assumptions C44_add_assoc.
Print Assumptions C45_exact.
Print Assumptions C45_compress.
