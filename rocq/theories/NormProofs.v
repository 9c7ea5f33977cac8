(** Sums of powers: convexity, Minkowski's inequality, roots. *)
From Coq Require Import Reals Lra Psatz Lia Permutation.
From Verif Require Import Base BaseFacts MatModel MatFacts Cplx CmpModel CmpProofs OpModel OpSpec NormModel NormSpec.
Local Open Scope R_scope.

Lemma total_ext {X} (f g : X -> R) l : (forall x, In x l -> f x = g x) -> total f l = total g l.
Proof. intros H. unfold total. f_equal. apply map_ext_in. exact H. Qed.
Lemma total_cons {X} (f : X -> R) x l : total f (x :: l) = f x + total f l.
Proof. reflexivity. Qed.
Lemma total_app {X} (f : X -> R) l m : total f (l ++ m) = total f l + total f m.
Proof. induction l as [|x l IH]; [cbn; unfold total; cbn; lra|]. cbn [app]. rewrite !total_cons, IH. ring. Qed.
Lemma total_add {X} (f g : X -> R) l : total (fun x => f x + g x) l = total f l + total g l.
Proof. induction l as [|x l IH]; [unfold total; cbn; lra|]. rewrite !total_cons, IH. ring. Qed.
Lemma total_mul {X} c (f : X -> R) l : total (fun x => c * f x) l = c * total f l.
Proof. induction l as [|x l IH]; [unfold total; cbn; lra|]. rewrite !total_cons, IH. ring. Qed.
Lemma total_le {X} (f g : X -> R) l : (forall x, In x l -> f x <= g x) -> total f l <= total g l.
Proof. induction l as [|x l IH]; intros H; [unfold total; cbn; lra|]. rewrite !total_cons. pose proof (H x (or_introl eq_refl)). specialize (IH (fun y Hy => H y (or_intror Hy))). lra. Qed.
Lemma total_nonneg {X} (f : X -> R) l : (forall x, In x l -> 0 <= f x) -> 0 <= total f l.
Proof. intros H. replace 0 with (total (fun _ : X => 0) l); [now apply total_le|]. clear. induction l as [|x l IH]; [reflexivity|]. rewrite total_cons, IH. ring. Qed.
Lemma total_zero {X} (f : X -> R) l : (forall x, In x l -> 0 <= f x) -> total f l = 0 -> forall x, In x l -> f x = 0.
Proof.
  induction l as [|y l IH]; intros H E x Hx; [destruct Hx|]. rewrite total_cons in E. pose proof (H y (or_introl eq_refl)). pose proof (total_nonneg f l (fun z Hz => H z (or_intror Hz))).
  destruct Hx as [<-|Hx]; [lra|]. apply IH; [intros; apply H; now right|lra|exact Hx].
Qed.
Lemma total_map {X Y} (f : Y -> R) (g : X -> Y) l : total f (map g l) = total (fun x => f (g x)) l.
Proof. unfold total. rewrite map_map. reflexivity. Qed.

Lemma pow_gap x y p : 0 <= x -> 0 <= y -> 0 <= (x - y) * (x ^ p - y ^ p).
Proof.
  intros Hx Hy. destruct (Rle_dec x y) as [L|L].
  - pose proof (pow_incr x y p (conj Hx L)) as H. replace ((x - y) * (x ^ p - y ^ p)) with ((y - x) * (y ^ p - x ^ p)) by ring. apply Rmult_le_pos; lra.
  - assert (L2 : y <= x) by lra. pose proof (pow_incr y x p (conj Hy L2)) as H. apply Rmult_le_pos; lra.
Qed.
Lemma pow_convex p : forall a b x y, 0 <= a -> 0 <= b -> a + b = 1 -> 0 <= x -> 0 <= y -> (a * x + b * y) ^ S p <= a * x ^ S p + b * y ^ S p.
Proof.
  induction p as [|p IH]; intros a b x y Ha Hb E Hx Hy; [cbn; lra|].
  specialize (IH a b x y Ha Hb E Hx Hy). change ((a * x + b * y) ^ S (S p)) with ((a * x + b * y) * (a * x + b * y) ^ S p).
  assert (P : 0 <= a * x + b * y) by nra. pose proof (Rmult_le_compat_l _ _ _ P IH) as Q. eapply Rle_trans; [exact Q|].
  pose proof (pow_gap x y (S p) Hx Hy) as G. change (x ^ S (S p)) with (x * x ^ S p). change (y ^ S (S p)) with (y * y ^ S p). set (u := x ^ S p) in *. set (v := y ^ S p) in *.
  assert (D : a * (x * u) + b * (y * v) - (a * x + b * y) * (a * u + b * v) = a * b * ((x - y) * (u - v)) + (1 - (a + b)) * (a * (x * u) + b * (y * v))).
  { ring_simplify. ring. }
  rewrite E in D. assert (0 <= a * b * ((x - y) * (u - v))) by (apply Rmult_le_pos; [apply Rmult_le_pos; assumption|exact G]). lra.
Qed.
Lemma pow_zero x p : x ^ p = 0 -> x = 0.
Proof. intros H. destruct (Req_EM_T x 0) as [E|E]; [exact E|]. exfalso. exact (pow_nonzero x p E H). Qed.
Lemma pow_le_inv x y p : 0 <= x -> 0 <= y -> x ^ S p <= y ^ S p -> x <= y.
Proof.
  intros Hx Hy H. destruct (Rle_dec x y) as [L|L]; [exact L|exfalso]. apply Rnot_le_lt in L.
  assert (y ^ S p < x ^ S p); [|lra]. clear H. assert (G : forall k, 0 <= y ^ k <= x ^ k) by (intros k; split; [apply pow_le; exact Hy|apply pow_incr; lra]).
  assert (0 < x ^ p) by (apply pow_lt; lra). pose proof (G p). cbn [pow]. nra.
Qed.
Lemma pow_inj x y p : 0 <= x -> 0 <= y -> x ^ S p = y ^ S p -> x = y.
Proof. intros Hx Hy H. apply Rle_antisym; apply (pow_le_inv _ _ p); lra. Qed.

Lemma minkowski {X} p (f g : X -> R) l a b : (forall x, In x l -> 0 <= f x) -> (forall x, In x l -> 0 <= g x) -> 0 <= a -> 0 <= b ->
  a ^ S p = total (fun x => f x ^ S p) l -> b ^ S p = total (fun x => g x ^ S p) l -> total (fun x => (f x + g x) ^ S p) l <= (a + b) ^ S p.
Proof.
  intros Hf Hg Ha Hb Ea Eb.
  destruct (Req_EM_T a 0) as [Za|Na].
  { assert (Z : forall x, In x l -> f x = 0).
    { intros x Hx. apply (pow_zero _ (S p)). apply (total_zero (fun x => f x ^ S p) l); [intros; apply pow_le; auto| |exact Hx]. rewrite <- Ea, Za. cbn. ring. }
    rewrite Za, Rplus_0_l, Eb. apply Req_le, total_ext. intros x Hx. rewrite (Z x Hx), Rplus_0_l. reflexivity. }
  destruct (Req_EM_T b 0) as [Zb|Nb].
  { assert (Z : forall x, In x l -> g x = 0).
    { intros x Hx. apply (pow_zero _ (S p)). apply (total_zero (fun x => g x ^ S p) l); [intros; apply pow_le; auto| |exact Hx]. rewrite <- Eb, Zb. cbn. ring. }
    rewrite Zb, Rplus_0_r, Ea. apply Req_le, total_ext. intros x Hx. rewrite (Z x Hx), Rplus_0_r. reflexivity. }
  assert (Pa : 0 < a) by lra. assert (Pb : 0 < b) by lra. set (s := a + b).
  assert (Ps : 0 < s) by (unfold s; lra). set (u := a / s). set (v := b / s).
  assert (Hu : 0 <= u) by (unfold u; apply Rlt_le, Rdiv_lt_0_compat; assumption). assert (Hv : 0 <= v) by (unfold v; apply Rlt_le, Rdiv_lt_0_compat; assumption).
  assert (Euv : u + v = 1) by (unfold u, v, s; field; lra).
  apply Rle_trans with (total (fun x => s ^ S p * (u * / a ^ S p) * f x ^ S p + s ^ S p * (v * / b ^ S p) * g x ^ S p) l).
  - apply total_le. intros x Hx. replace (f x + g x) with (s * (u * (f x / a) + v * (g x / b))) by (unfold u, v; field; unfold s in *; repeat split; lra).
    rewrite Rpow_mult_distr. assert (H1 : 0 <= f x / a) by (apply Rmult_le_pos; [auto|apply Rlt_le, Rinv_0_lt_compat; exact Pa]). assert (H2 : 0 <= g x / b) by (apply Rmult_le_pos; [auto|apply Rlt_le, Rinv_0_lt_compat; exact Pb]).
    pose proof (pow_convex p u v _ _ Hu Hv Euv H1 H2) as C. apply Rle_trans with (s ^ S p * (u * (f x / a) ^ S p + v * (g x / b) ^ S p)); [apply Rmult_le_compat_l; [apply pow_le; lra|exact C]|].
    unfold Rdiv. rewrite !Rpow_mult_distr, !pow_inv. apply Req_le. ring.
  - rewrite total_add, !total_mul, <- Ea, <- Eb. apply Req_le. assert (a ^ S p <> 0) by (apply pow_nonzero; lra). assert (b ^ S p <> 0) by (apply pow_nonzero; lra).
    transitivity (s ^ S p * (u + v)); [field; auto|]. rewrite Euv. ring.
Qed.

(** ** The norm that the program computes *)
Lemma powerRZ_nat x p : powerRZ x (Z.of_nat p) = x ^ p.
Proof. symmetry. apply pow_powerRZ. Qed.
Lemma float_pow_nat x p : float_pow x (Z.of_nat p) = Ok (x ^ p).
Proof. unfold float_pow. destruct (Z.ltb_spec (Z.of_nat p) 0); [lia|]. change ((false && is_0 x)%bool) with false. cbn iota. rewrite powerRZ_nat. reflexivity. Qed.
Lemma fold_norm {A} p (a : sop A CC) : forall s, foldM (fun norm tc => let! x := float_pow (cmod (snd tc)) (Z.of_nat p) in Ok (norm + x)) a s = Ok (s + total (fun tc => cmod (snd tc) ^ p) a).
Proof.
  induction a as [|tc a IH]; intros s; [cbn; f_equal; unfold total; cbn; ring|]. cbn [foldM]. rewrite float_pow_nat. cbn [rbind]. rewrite IH, total_cons. f_equal. ring.
Qed.
Lemma is_0_spec x : is_0 x = true <-> x = 0.
Proof. unfold is_0. destruct (Req_EM_T x 0); split; intros; try discriminate; auto; contradiction. Qed.
Lemma root_ok s p : 0 <= s -> exists v, float_root s (Z.of_nat (S p)) = Ok v /\ 0 <= v /\ v ^ S p = s.
Proof.
  intros Hs. unfold float_root. destruct (Z.eqb_spec (Z.of_nat (S p)) 0); [lia|]. destruct (is_0 s) eqn:E.
  - apply is_0_spec in E. destruct (Z.ltb_spec (Z.of_nat (S p)) 0); [lia|]. exists 0. split; [reflexivity|]. split; [lra|]. rewrite E. cbn. ring.
  - assert (Ps : 0 < s) by (destruct Hs as [|H]; [assumption|]; rewrite <- H in E; rewrite (proj2 (is_0_spec 0) eq_refl) in E; discriminate).
    eexists. split; [reflexivity|]. split; [apply Rlt_le, exp_pos|]. rewrite <- Rpower_pow by apply exp_pos. rewrite Rpower_mult, <- INR_IZR_INZ, Rinv_l by (apply not_0_INR; lia). apply Rpower_1. exact Ps.
Qed.
Lemma total_pow_nonneg {A} p (a : sop A CC) : 0 <= total (fun tc => cmod (snd tc) ^ p) a.
Proof. apply total_nonneg. intros tc _. apply pow_le, cmod_nonneg. Qed.
Lemma norm_ok {A} (a : sop A CC) p : exists v, induced_norm a (Z.of_nat (S p)) = Ok v /\ is_norm (S p) a v.
Proof.
  unfold induced_norm. rewrite fold_norm. cbn [rbind]. rewrite Rplus_0_l. destruct (root_ok _ p (total_pow_nonneg (S p) a)) as (v & E & H1 & H2). exists v. split; [exact E|]. split; assumption.
Qed.
Lemma norm_is {A} (a : sop A CC) p v : induced_norm a (Z.of_nat (S p)) = Ok v <-> is_norm (S p) a v.
Proof.
  destruct (norm_ok a p) as (w & E & W1 & W2). split; [rewrite E; intros [= <-]; split; assumption|]. intros [V1 V2]. rewrite E. f_equal. apply (pow_inj _ _ p); [assumption|assumption|]. rewrite W2, V2. reflexivity.
Qed.

(** ** Sums over all terms *)
Section Sum.
  Context {A : Type} (aeqb : A -> A -> bool) (Ha : forall x y, aeqb x y = true <-> x = y).
  Notation teqb := (term_eqb aeqb).
  Lemma teqb_spec : forall x y, teqb x y = true <-> x = y.
  Proof.
    apply list_eqb_spec. intros [x i] [y j]. unfold factor_eqb. cbn [fst snd]. rewrite Bool.andb_true_iff, Nat.eqb_eq, Ha. split; [intros [-> ->]; reflexivity|intros [= -> ->]; split; reflexivity].
  Qed.
  Lemma total_coef (g : C -> R) : g c0 = 0 -> forall (a : sop A CC) (l : list (term A)), wf_op a -> NoDup l -> incl (dkeys a) l -> total (fun tc => g (snd tc)) a = total (fun t => g (coef aeqb a t)) l.
  Proof.
    intros G. induction a as [|[u c] a IH]; intros l W N I.
    - transitivity (total (fun _ : term A => 0) l); [|apply total_ext; intros; cbn; symmetry; exact G]. clear. induction l as [|x l IH]; [reflexivity|]. rewrite total_cons, <- IH. unfold total. cbn. ring.
    - inversion W as [|? ? N1 N2]; subst. destruct (in_split u l) as (l1 & l2 & ->); [apply I; now left|].
      rewrite total_cons. cbn [snd]. rewrite total_app, total_cons. assert (Nu : ~ In u (l1 ++ l2)) by (apply NoDup_remove_2 in N; exact N).
      assert (E : forall t, In t (l1 ++ l2) -> coef aeqb ((u, c) :: a) t = coef aeqb a t).
      { intros t Ht. unfold coef. cbn [dget]. destruct (teqb t u) eqn:Et; [|reflexivity]. apply teqb_spec in Et. subst. contradiction. }
      rewrite (IH (l1 ++ l2) N2 (NoDup_remove_1 _ _ _ N)).
      + rewrite total_app. rewrite (total_ext (fun t => g (coef aeqb ((u, c) :: a) t)) (fun t => g (coef aeqb a t)) l1) by (intros t Ht; rewrite E by (apply in_or_app; now left); reflexivity).
        rewrite (total_ext (fun t => g (coef aeqb ((u, c) :: a) t)) (fun t => g (coef aeqb a t)) l2) by (intros t Ht; rewrite E by (apply in_or_app; now right); reflexivity).
        assert (Eu : coef aeqb ((u, c) :: a) u = c) by (unfold coef; cbn [dget]; rewrite (proj2 (teqb_spec u u) eq_refl); reflexivity). rewrite Eu. ring.
      + intros t Ht. assert (t <> u) by (intros ->; apply N1; exact Ht). pose proof (I t (or_intror Ht)) as Q. apply in_app_or in Q. destruct Q as [Q|[Q|Q]]; [apply in_or_app; now left|congruence|apply in_or_app; now right].
  Qed.
  (** what an addition does to every coefficient *)
  Lemma merge_coef (f : C -> C -> C) small (d : sop A CC) tc t : wf_op d ->
    wf_op (merge_term (K := CC) aeqb small f d tc) /\
    coef aeqb (merge_term (K := CC) aeqb small f d tc) t = if teqb t (fst tc) then (let v := f (coef aeqb d (fst tc)) (snd tc) in if small v then c0 else v) else coef aeqb d t.
  Proof.
    intros W. unfold merge_term. change (match dget teqb (fst tc) d with Some c => c | None => k0 end) with (coef aeqb d (fst tc)). set (v := f (coef aeqb d (fst tc)) (snd tc)). cbn zeta.
    assert (Wd : wf_op (K := CC) (dset teqb (fst tc) v d)) by (apply dset_NoDup; [exact teqb_spec|exact W]).
    split; [destruct (small v); [apply ddel_NoDup|]; try exact teqb_spec; exact Wd|].
    unfold coef. destruct (teqb t (fst tc)) eqn:E.
    - apply teqb_spec in E. subst t. destruct (small v); [rewrite (dget_ddel_same _ teqb_spec) by exact Wd; reflexivity|]. rewrite (dget_dset_same _ teqb_spec). reflexivity.
    - assert (Ne : t <> fst tc) by (intros ->; rewrite (proj2 (teqb_spec _ _) eq_refl) in E; discriminate).
      destruct (small v); rewrite ?(dget_ddel_other _ teqb_spec) by exact Ne; rewrite (dget_dset_other _ teqb_spec) by exact Ne; reflexivity.
  Qed.
  Lemma op_add_coef small (b : sop A CC) t : forall a : sop A CC, wf_op a -> wf_op b -> wf_op (op_add (K := CC) aeqb small a b) /\
    (coef aeqb (op_add (K := CC) aeqb small a b) t = cadd (coef aeqb a t) (coef aeqb b t) \/ coef aeqb (op_add (K := CC) aeqb small a b) t = c0).
  Proof.
    unfold op_add. induction b as [|[u c] b IH]; intros a Wa Wb.
    - split; [exact Wa|]. left. cbn [fold_left]. unfold coef at 3. cbn [dget]. change (k0 : CC) with c0. destruct (coef aeqb a t). unfold cadd, c0. cbn. f_equal; ring.
    - inversion Wb as [|? ? N1 N2]; subst. cbn [fold_left]. destruct (merge_coef cadd small a (u, c) t Wa) as [W1 C1]. destruct (IH _ W1 N2) as [W2 C2]. split; [exact W2|].
      change (kadd : CC -> CC -> CC) with cadd in *. destruct C2 as [C2|C2]; [|right; exact C2]. rewrite C2, C1. cbn [fst snd].
      assert (Eb : coef aeqb ((u, c) :: b) t = if teqb t u then c else coef aeqb b t) by (unfold coef; cbn [dget]; destruct (teqb t u); reflexivity). rewrite Eb.
      destruct (teqb t u) eqn:E; [|left; reflexivity]. apply teqb_spec in E. subst t.
      assert (Z : coef aeqb b u = c0) by (unfold coef; rewrite (proj2 (dget_None _ teqb_spec u b)) by exact N1; reflexivity). rewrite Z.
      destruct (small _); [right|left]; [|destruct (cadd _ c)]; unfold cadd, c0; cbn; f_equal; ring.
  Qed.
End Sum.
