(** Evolution circuits: derivatives of expectation values. *)
From Coq Require Import Reals Lra Lia Ring Arith String ZArith.
From Verif Require Import Base BaseFacts MatModel MatFacts Cplx CircuitModel CircuitSpec OpModel OpSpec ConjProofs EvolModel EvolSpec EvolProofs.
Open Scope list_scope.
Local Open Scope nat_scope.

(** ** Derivatives of complex functions *)
Lemma hd_const c x : has_derivative (fun _ => c) x c0.
Proof. split; apply derivable_pt_lim_const. Qed.
Lemma hd_add f g x a b : has_derivative f x a -> has_derivative g x b -> has_derivative (fun y => cadd (f y) (g y)) x (cadd a b).
Proof.
  intros [A1 A2] [B1 B2]. split.
  - apply (derivable_pt_lim_plus (fun y => fst (f y)) (fun y => fst (g y))); auto.
  - apply (derivable_pt_lim_plus (fun y => snd (f y)) (fun y => snd (g y))); auto.
Qed.
Lemma hd_mul f g x a b : has_derivative f x a -> has_derivative g x b -> has_derivative (fun y => cmul (f y) (g y)) x (cadd (cmul a (g x)) (cmul (f x) b)).
Proof.
  intros [A1 A2] [B1 B2]. split; cbn [fst snd cmul cadd].
  - assert (E := derivable_pt_lim_minus _ _ _ _ _ (derivable_pt_lim_mult _ _ _ _ _ A1 B1) (derivable_pt_lim_mult _ _ _ _ _ A2 B2)). unfold minus_fct, mult_fct in E.
    replace (fst a * fst (g x) - snd a * snd (g x) + (fst (f x) * fst b - snd (f x) * snd b))%R with
      (fst a * fst (g x) + fst (f x) * fst b - (snd a * snd (g x) + snd (f x) * snd b))%R by ring. exact E.
  - assert (E := derivable_pt_lim_plus _ _ _ _ _ (derivable_pt_lim_mult _ _ _ _ _ A1 B2) (derivable_pt_lim_mult _ _ _ _ _ A2 B1)). unfold plus_fct, mult_fct in E.
    replace (fst a * snd (g x) + snd a * fst (g x) + (fst (f x) * snd b + snd (f x) * fst b))%R with
      (fst a * snd (g x) + fst (f x) * snd b + (snd a * fst (g x) + snd (f x) * fst b))%R by ring. exact E.
Qed.
Lemma hd_conj f x a : has_derivative f x a -> has_derivative (fun y => cconj (f y)) x (cconj a).
Proof. intros [A1 A2]. split; cbn [fst snd cconj]; [exact A1|]. apply (derivable_pt_lim_opp (fun y => snd (f y))); auto. Qed.
Lemma dl_ext (f g : R -> R) x a : (forall y, f y = g y) -> derivable_pt_lim f x a -> derivable_pt_lim g x a.
Proof. intros E H eps He. destruct (H eps He) as [d Hd]. exists d. intros h H1 H2. rewrite <- !E. auto. Qed.
Lemma hd_ext f g x a : (forall y, f y = g y) -> has_derivative f x a -> has_derivative g x a.
Proof. intros E [A1 A2]. split; (eapply dl_ext; [|eassumption]); intros; cbn; rewrite E; reflexivity. Qed.
Lemma hd_sum n (f : nat -> R -> C) x (a : nat -> C) : (forall k, k < n -> has_derivative (f k) x (a k)) ->
  has_derivative (fun y => bigsum (K := CC) n (fun k => f k y)) x (bigsum (K := CC) n a).
Proof.
  induction n as [|n IH]; intros H; cbn [bigsum]; [apply hd_const|]. apply (hd_add (fun y => bigsum (K := CC) n (fun k => f k y)) (f n)); auto.
Qed.

(** ** Derivatives of matrices *)
Section M.
  Context (N : nat).
  Definition mderiv (F : R -> mat CC) (x : R) (D : mat CC) : Prop :=
    (forall y, sq N (F y)) /\ sq N D /\ forall i j, i < N -> j < N -> has_derivative (fun y => ent (F y) i j) x (ent D i j).
  Lemma md_mmul F G x A B : mderiv F x A -> mderiv G x B -> mderiv (fun y => mmul (F y) (G y)) x (madd (mmul A (G x)) (mmul (F x) B)).
  Proof.
    intros (F1 & F2 & F3) (G1 & G2 & G3). split; [intros; apply sq_mmul; auto|]. split.
    { split; cbn; [apply F2|apply G1]. }
    intros i j Hi Hj. cbn [ent mmul madd].
    assert (E : (kadd (bigsum (K := CC) (nc A) (fun k => kmul (ent A i k) (ent (G x) k j))) (bigsum (K := CC) (nc (F x)) (fun k => kmul (ent (F x) i k) (ent B k j))) : CC) =
      bigsum (K := CC) N (fun k => cadd (cmul (ent A i k) (ent (G x) k j)) (cmul (ent (F x) i k) (ent B k j)))).
    { destruct F2 as [_ ->]. destruct (F1 x) as [_ ->]. symmetry. apply (bigsum_add (K := CC)). }
    rewrite E. eapply hd_ext; [|apply (hd_sum N (fun k y => cmul (ent (F y) i k) (ent (G y) k j)))].
    - intros y. destruct (F1 y) as [_ ->]. reflexivity.
    - intros k Hk. apply (hd_mul (fun y => ent (F y) i k) (fun y => ent (G y) k j)); auto.
  Qed.
  Lemma md_adjoint F x A : mderiv F x A -> mderiv (fun y => adjoint (F y)) x (adjoint A).
  Proof.
    intros (F1 & F2 & F3). split; [intros; apply sq_adjoint; auto|]. split; [apply sq_adjoint; auto|]. intros i j Hi Hj. cbn [ent adjoint].
    apply (hd_conj (fun y => ent (F y) j i)). auto.
  Qed.
  Lemma md_const A x : sq N A -> mderiv (fun _ => A) x (zeros N N).
  Proof. intros S. split; [auto|]. split; [split; reflexivity|]. intros. apply hd_const. Qed.
  Lemma md_meq F x A B : mderiv F x A -> meq A B -> mderiv F x B.
  Proof.
    intros (F1 & F2 & F3) E. assert (SB := sq_meq N _ _ E F2). split; [auto|]. split; [auto|]. intros i j Hi Hj. destruct E as (_ & _ & E).
    destruct F2 as [E1 E2]. rewrite <- E by (rewrite ?E1, ?E2; auto). auto.
  Qed.

  Lemma md_rotation P c x : sq N P -> mderiv (fun y => rotation N P (c * y)) x (mscale (K := CC) (rc c) (rotation N P (c * x + PI / 2))).
  Proof.
    intros SP. split; [intros; split; reflexivity|]. split; [split; reflexivity|]. intros i j Hi Hj.
    assert (L : derivable_pt_lim (fun y => c * y)%R x c).
    { assert (H := derivable_pt_lim_scal id c x 1 (derivable_pt_lim_id x)). rewrite Rmult_1_r in H. exact H. }
    assert (Lc : derivable_pt_lim (fun y => cos (c * y))%R x (- sin (c * x) * c)%R) by (apply (derivable_pt_lim_comp (fun y => c * y)%R cos); [exact L|apply derivable_pt_lim_cos]).
    assert (Ls : derivable_pt_lim (fun y => sin (c * y))%R x (cos (c * x) * c)%R) by (apply (derivable_pt_lim_comp (fun y => c * y)%R sin); [exact L|apply derivable_pt_lim_sin]).
    assert (H1 : has_derivative (fun y => rc (cos (c * y))) x (rc (- sin (c * x) * c))) by (split; cbn; [exact Lc|apply derivable_pt_lim_const]).
    assert (H2 : has_derivative (fun y => (0, - sin (c * y))%R) x (0, - (cos (c * x) * c))%R).
    { split; cbn [fst snd]; [apply derivable_pt_lim_const|]. apply (derivable_pt_lim_opp (fun y => sin (c * y))%R). exact Ls. }
    assert (H := hd_add _ _ _ _ _ (hd_mul _ _ _ _ _ H1 (hd_const (delta (K := CC) (Nat.eqb i j)) x)) (hd_mul _ _ _ _ _ H2 (hd_const (ent P i j) x))). cbn beta in H.
    cbn [ent mscale]. rewrite rotation_ent. rewrite cos_plus, sin_plus, cos_PI2, sin_PI2.
    match type of H with has_derivative _ _ ?d => replace (kmul _ _ : CC) with d; [exact H|] end.
    cbn [kmul CC]. apply c_eq; cbn [fst snd cmul cadd rc c0]; ring.
  Qed.
End M.

(** ** The parameter shift rule *)
Section Shift.
  Context (N : nat) (Obs : mat CC) (SO : sq N Obs).
  (** a factor of the evolution: a rotation, or None for a constant term *)
  Definition factor_mat (P : option (mat CC)) (x : R) : mat CC := match P with Some P => rotation N P x | None => eye (K := CC) N end.
  Definition wf_factor (P : option (mat CC)) : Prop := match P with Some P => sq N P | None => True end.
  Lemma factor_sq P x : sq N (factor_mat P x). Proof. destruct P; split; reflexivity. Qed.
  Fixpoint heisenberg (l : list (option (mat CC) * R)) : mat CC :=
    match l with [] => Obs | (P, x) :: l' => conj_by (factor_mat P x) (heisenberg l') end.
  Lemma heisenberg_sq l : sq N (heisenberg l).
  Proof. induction l as [|[P x] l IH]; cbn [heisenberg]; auto. apply sq_conj; auto using factor_sq. Qed.
  Definition scaled_by (y : R) (l : list (option (mat CC) * R)) : list (option (mat CC) * R) := map (fun Pc => (fst Pc, snd Pc * y)%R) l.
  Fixpoint msum (ms : list (mat CC)) : mat CC := match ms with [] => zeros N N | m :: ms' => madd m (msum ms') end.
  Lemma msum_sq ms : (forall m, In m ms -> sq N m) -> sq N (msum ms).
  Proof. destruct ms as [|m ms]; intros H; [split; reflexivity|]. exact (H m (or_introl eq_refl)). Qed.
  (** the two shifted factors of every position, with the sign and the coefficient *)
  Fixpoint shifts (y : R) (l : list (option (mat CC) * R)) : list (R * list (option (mat CC) * R)) :=
    match l with
    | [] => []
    | (P, c) :: l' =>
        (c, (P, c * y + PI / 4) :: scaled_by y l')%R :: ((- c)%R, (P, c * y - PI / 4) :: scaled_by y l')%R :: map (fun s => (fst s, (P, c * y)%R :: snd s)) (shifts y l')
    end.
  Definition shifted_sum (y : R) (l : list (option (mat CC) * R)) : mat CC :=
    msum (map (fun s => mscale (K := CC) (rc (fst s)) (heisenberg (snd s))) (shifts y l)).

  (** conjugation as a bilinear form *)
  Definition form (A B M : mat CC) : mat CC := mmul (adjoint A) (mmul M B).
  Lemma form_ent A B M i j : sq N A -> sq N B -> sq N M ->
    ent (form A B M) i j = bigsum (K := CC) N (fun k => bigsum (K := CC) N (fun l => cmul (cmul (cconj (ent A k i)) (ent M k l)) (ent B l j))).
  Proof.
    intros [A1 A2] [B1 B2] [M1 M2]. unfold form. cbn [ent mmul adjoint nc]. rewrite A1, M2. apply (bigsum_ext (K := CC)). intros k Hk. cbn [kmul CC].
    etransitivity; [apply (bigsum_mul_l (K := CC))|]. apply (bigsum_ext (K := CC)). intros l Hl. cbn. c_ring.
  Qed.
  Lemma rotation_shift P x i j :
    ent (rotation N P (x + PI / 4)) i j = cmul (rc (/ sqrt 2)) (cadd (ent (rotation N P x) i j) (ent (rotation N P (x + PI / 2)) i j)) /\
    ent (rotation N P (x - PI / 4)) i j = cmul (rc (/ sqrt 2)) (csub (ent (rotation N P x) i j) (ent (rotation N P (x + PI / 2)) i j)).
  Proof.
    rewrite !rotation_ent. unfold Rminus. rewrite !cos_plus, !sin_plus, cos_neg, sin_neg, cos_PI2, sin_PI2, cos_PI4, sin_PI4.
    split; apply c_eq; cbn [fst snd cmul cadd csub rc]; unfold Rdiv; ring.
  Qed.
  Lemma shift_identity P M x : sq N P -> sq N M -> forall i j, i < N -> j < N ->
    csub (ent (conj_by (rotation N P (x + PI / 4)) M) i j) (ent (conj_by (rotation N P (x - PI / 4)) M) i j) =
    cadd (ent (form (rotation N P (x + PI / 2)) (rotation N P x) M) i j) (ent (form (rotation N P x) (rotation N P (x + PI / 2)) M) i j).
  Proof.
    intros SP SM i j Hi Hj. assert (SR : forall z, sq N (rotation N P z)) by (intros; apply rotation_sq; auto).
    change (conj_by ?A M) with (form A A M). rewrite !form_ent by auto.
    change csub with (@ksub CC). change cadd with (@kadd CC).
    assert (BS : forall n (f g : nat -> C), @ksub CC (bigsum (K := CC) n f) (bigsum (K := CC) n g) = bigsum (K := CC) n (fun k => csub (f k) (g k))).
    { clear. intros n f g. induction n as [|n IH]; cbn [bigsum]; [cbn; c_ring|]. rewrite <- IH. cbn. c_ring. }
    rewrite BS, <- (bigsum_add (K := CC)). apply (bigsum_ext (K := CC)). intros k Hk. change csub with (@ksub CC). rewrite BS, <- (bigsum_add (K := CC)). apply (bigsum_ext (K := CC)). intros l Hl.
    destruct (rotation_shift P x k i) as [-> ->]. destruct (rotation_shift P x l j) as [-> ->].
    assert (Q : (/ sqrt 2 * / sqrt 2 = / 2)%R).
    { rewrite <- Rinv_mult. rewrite sqrt_sqrt by lra. reflexivity. }
    generalize dependent (/ sqrt 2)%R. intros h Q. generalize (ent (rotation N P x) k i) (ent (rotation N P (x + PI / 2)) k i) (ent (rotation N P x) l j) (ent (rotation N P (x + PI / 2)) l j) (ent M k l).
    intros a a' b b' m. cbn [kadd CC].
    transitivity (cmul (rc (2 * (h * h))) (cadd (cmul (cmul (cconj a') m) b) (cmul (cmul (cconj a) m) b'))).
    - apply c_eq; cbn [fst snd cmul cadd csub cconj rc]; ring.
    - rewrite Q. apply c_eq; cbn [fst snd cmul cadd csub cconj rc]; field.
  Qed.
  Lemma form_sq A B M : sq N A -> sq N B -> sq N (form A B M).
  Proof. intros [_ A2] [_ B2]. split; cbn; auto. Qed.

  Theorem parameter_shift l y : (forall Pc, In Pc l -> wf_factor (fst Pc)) ->
    mderiv N (fun z => heisenberg (scaled_by z l)) y (shifted_sum y l).
  Proof.
    induction l as [|[P c] l IH]; intros W.
    - exact (md_const N Obs y SO).
    - specialize (IH ltac:(intros; apply W; right; auto)). specialize (W (P, c) (or_introl eq_refl)). cbn [fst] in W.
      set (M := fun z => heisenberg (scaled_by z l)) in *. assert (SM : forall z, sq N (M z)) by (intros; apply heisenberg_sq).
      assert (SD : sq N (shifted_sum y l)) by apply IH.
      assert (REST : meq (msum (map (fun s => mscale (K := CC) (rc (fst s)) (heisenberg (snd s))) (map (fun s => (fst s, (P, (c * y)%R) :: snd s)) (shifts y l))))
        (conj_by (factor_mat P (c * y)) (shifted_sum y l))).
      { unfold shifted_sum. rewrite map_map. cbn [fst snd heisenberg]. clear -SO. induction (shifts y l) as [|s ss IH]; cbn [map msum].
        - symmetry. apply conj_zeros. apply factor_sq.
        - assert (S1 : sq N (mscale (K := CC) (rc (fst s)) (heisenberg (snd s)))) by apply heisenberg_sq.
          assert (S2 : sq N (msum (map (fun s => mscale (K := CC) (rc (fst s)) (heisenberg (snd s))) ss))).
          { apply msum_sq. intros m Hm. apply in_map_iff in Hm as (s' & <- & _). apply heisenberg_sq. }
          etransitivity; [|symmetry; apply (conj_madd N); [apply factor_sq|exact S1|exact S2]].
          assert (S3 := sq_conj N (factor_mat P (c * y)) (heisenberg (snd s)) (factor_sq _ _) (heisenberg_sq _)).
          assert (S4 : sq N (msum (map (fun x => mscale (K := CC) (rc (fst x)) (conj_by (factor_mat P (c * y)) (heisenberg (snd x)))) ss))).
          { apply msum_sq. intros m Hm. apply in_map_iff in Hm as (s' & <- & _). apply (sq_conj N (factor_mat P (c * y)) (heisenberg (snd s')) (factor_sq _ _) (heisenberg_sq _)). }
          destruct S3, S4. apply madd_ext; [cbn in *; congruence..| |exact IH]. symmetry. apply conj_mscale. }
      set (Sl := shifted_sum y l) in *.
      destruct P as [P|]; cbn [wf_factor] in W.
      + assert (SR : forall z, sq N (rotation N P z)) by (intros; apply rotation_sq; auto).
        assert (D1 := md_rotation N P c y W). assert (D2 := md_mmul N _ _ _ _ _ IH D1). assert (D3 := md_mmul N _ _ _ _ _ (md_adjoint N _ _ _ D1) D2). cbn beta in D3.
        destruct D3 as (T1 & T2 & T3). split; [intros z; apply (heisenberg_sq (scaled_by z ((Some P, c) :: l)))|].
        split; [apply msum_sq; intros m Hm; apply in_map_iff in Hm as (s & <- & _); apply heisenberg_sq|].
        intros i j Hi Hj. specialize (T3 i j Hi Hj).
        match type of T3 with has_derivative _ _ ?d => replace (ent (shifted_sum y ((Some P, c) :: l)) i j) with d end.
        { eapply hd_ext; [|exact T3]. intros z. cbn [scaled_by map heisenberg fst snd factor_mat]. unfold conj_by. reflexivity. }
        unfold shifted_sum. cbn [shifts map msum]. cbn [ent madd mscale fst snd heisenberg factor_mat]. destruct REST as (R1 & R2 & R3). rewrite R3.
        2,3: rewrite ?R1, ?R2; destruct (sq_conj N (factor_mat (Some P) (c * y)) Sl (factor_sq _ _) SD); congruence.
        assert (SI := shift_identity P (M y) (c * y) W (SM y) i j Hi Hj).
        change (heisenberg (scaled_by y l)) with (M y). cbn [kmul kadd CC factor_mat].
        transitivity (cadd (cmul (rc c) (csub (ent (conj_by (rotation N P (c * y + PI / 4)) (M y)) i j) (ent (conj_by (rotation N P (c * y - PI / 4)) (M y)) i j)))
          (ent (conj_by (rotation N P (c * y)) Sl) i j)); [|c_ring].
        rewrite SI.
        (* expand the product rule *)
        set (Rd := rotation N P (c * y + PI / 2)) in *. set (R0 := rotation N P (c * y)) in *.
        assert (F1 : ent (mmul (adjoint (mscale (K := CC) (rc c) Rd)) (mmul (M y) R0)) i j = cmul (rc c) (ent (form Rd R0 (M y)) i j)).
        { unfold form. cbn [ent mmul adjoint nc mscale]. etransitivity; [|symmetry; apply (bigsum_mul_l (K := CC))]. apply (bigsum_ext (K := CC)). intros k Hk. cbn [kmul kconj CC]. c_ring. }
        assert (F2 : ent (mmul (adjoint R0) (madd (mmul Sl R0) (mmul (M y) (mscale (K := CC) (rc c) Rd)))) i j =
          cadd (ent (conj_by R0 Sl) i j) (cmul (rc c) (ent (form R0 Rd (M y)) i j))).
        { unfold form, conj_by. cbn [ent mmul adjoint nc mscale madd]. etransitivity; [|apply f_equal; symmetry; apply (bigsum_mul_l (K := CC))].
          etransitivity; [|apply (bigsum_add (K := CC))]. apply (bigsum_ext (K := CC)). intros k Hk. cbn [kmul kconj kadd CC].
          assert (F3 : bigsum (K := CC) (nc (M y)) (fun k0 => cmul (ent (M y) k k0) (cmul (rc c) (ent Rd k0 j))) = cmul (rc c) (bigsum (K := CC) (nc (M y)) (fun k0 => cmul (ent (M y) k k0) (ent Rd k0 j)))).
          { symmetry. etransitivity; [apply (bigsum_mul_l (K := CC))|]. apply (bigsum_ext (K := CC)). intros q Hq. cbn. c_ring. }
          rewrite F3. c_ring. }
        cbn [ent madd]. cbn [kadd CC]. rewrite F1, F2. c_ring.
      + assert (D1 := md_const N (eye (K := CC) N) y (sq_eye N)).
        split; [intros z; apply (heisenberg_sq (scaled_by z ((None, c) :: l)))|].
        split; [apply msum_sq; intros m Hm; apply in_map_iff in Hm as (s & <- & _); apply heisenberg_sq|].
        intros i j Hi Hj.
        assert (EC : forall A, sq N A -> ent (conj_by (eye (K := CC) N) A) i j = ent A i j).
        { intros A SA. destruct (conj_eye N A SA) as (E1 & E2 & E3). destruct SA. apply E3; congruence. }
        unfold shifted_sum. cbn [shifts map msum]. cbn [ent madd mscale fst snd heisenberg factor_mat]. destruct REST as (R1 & R2 & R3). rewrite R3.
        2,3: rewrite ?R1, ?R2; destruct (sq_conj N (factor_mat None (c * y)) Sl (factor_sq _ _) SD); congruence.
        cbn [factor_mat]. rewrite !EC by auto using heisenberg_sq. destruct IH as (_ & _ & IH). specialize (IH i j Hi Hj).
        match goal with |- has_derivative _ _ ?d => replace d with (ent Sl i j) by (cbn [kadd kmul CC]; c_ring) end.
        eapply hd_ext; [|exact IH]. intros z. cbn [scaled_by map heisenberg fst snd factor_mat]. symmetry. apply EC. apply heisenberg_sq.
  Qed.
End Shift.
