(** C93, continued: random wavefunctions. *)
From Coq Require Import String Reals ZArith Lra Lia.
From Verif Require Import Base BaseFacts MatModel CircuitModel CircuitSpec Cplx WfModel WfSpec WfProofs WfProofs2 WfProps RandWfModel.
Open Scope list_scope.

Section RandomWavefunction.
  Context {G : Type} (seeded : Z -> G) (rand : nat -> G -> G * list R) (F : string -> list C -> C).
  Local Notation create := (create_random_wavefunction seeded rand F).
  Lemma sum_scaled (l : list C) (s : R) : sum_R (map (fun z => cabs2 (fst z / s, snd z / s)%R) l) = (sum_R (map cabs2 l) * (/ s * / s))%R.
  Proof. induction l as [|[x y] l IH]; cbn [map sum_R]; [ring|]. rewrite IH. unfold cabs2. cbn [fst snd]. unfold Rdiv. ring. Qed.
  Lemma sum_nonneg (l : list C) : (0 <= sum_R (map cabs2 l))%R.
  Proof. induction l as [|z l IH]; cbn [map sum_R]; [lra|]. pose proof (cabs2_nonneg z). lra. Qed.
  Lemma sum_positive (l : list C) z : In z l -> (0 < cabs2 z)%R -> (0 < sum_R (map cabs2 l))%R.
  Proof. induction l as [|y l IH]; intros H Hz; [destruct H|]. destruct H as [->|H]; cbn [map sum_R]; [pose proof (sum_nonneg l); lra|]. pose proof (cabs2_nonneg y). specialize (IH H Hz). lra. Qed.
  (** Unless every number drawn is zero there is a wavefunction: of 2^n amplitudes whose probabilities sum to one, in the proportions drawn. *)
  Theorem C93_random_wavefunction n seed g : (forall m g, length (snd (rand m g)) = m) -> (forall m g, (0 < m)%nat -> exists x, In x (snd (rand m g)) /\ x <> 0%R) ->
    exists g' w, create n seed g = (g', Ok w) /\ length (w_amps w) = (2 ^ n)%nat /\ valid_wavefunction F w /\ numeric_probability F w = 1%R /\
      exists s, (0 < s)%R /\ w_amps w = map (fun z => ENum (fst z / s, snd z / s)%R) (combine (snd (rand (2 ^ n)%nat (wf_reseed seeded seed g))) (snd (rand (2 ^ n)%nat (fst (rand (2 ^ n)%nat (wf_reseed seeded seed g)))))).
  Proof.
    intros Hl Hp. unfold create_random_wavefunction. set (g0 := wf_reseed seeded seed g). pose proof (Hl (2 ^ n)%nat g0) as La. pose proof (Hp (2 ^ n)%nat g0) as Pa. destruct (rand (2 ^ n) g0) as [g1 a]. cbn [fst snd] in *.
    pose proof (Hl (2 ^ n)%nat g1) as Lb. destruct (rand (2 ^ n) g1) as [g2 b]. cbn [snd] in *. set (v := combine a b). assert (Lv : length v = (2 ^ n)%nat) by (unfold v; rewrite combine_length; lia).
    assert (Ps : (0 < sum_R (map cabs2 v))%R).
    { destruct (Pa (MatFacts.pow2_pos n)) as (x & Hx & Nx). assert (Hz : exists y, In (x, y) v).
      { unfold v. clear - Hx La Lb. assert (L : length a = length b) by congruence. clear La Lb. revert b L. induction a as [|x' a IH]; intros [|y b] L; try discriminate; [destruct Hx|].
        destruct Hx as [->|Hx]; [exists y; left; reflexivity|]. destruct (IH Hx b) as (y' & Hy); [cbn in L; lia|]. exists y'. right. exact Hy. }
      destruct Hz as (y & Hy). apply (sum_positive _ _ Hy). unfold cabs2. cbn [fst snd]. pose proof (Rsqr_pos_lt x Nx) as S1. pose proof (Rle_0_sqr y) as S2. unfold Rsqr in *. lra. }
    set (s := sqrt (sum_R (map cabs2 v))). assert (Hs : (0 < s)%R) by (apply sqrt_lt_R0; exact Ps). destruct (Req_EM_T s 0) as [E|_]; [lra|].
    set (arr := map (fun z => ENum (fst z / s, snd z / s)%R) v : list amp).
    assert (Sum : prob_sum F arr = 1%R).
    { unfold prob_sum, arr. rewrite map_map. cbn. rewrite sum_scaled. assert (Q : (s * s)%R = sum_R (map cabs2 v)) by (apply sqrt_sqrt; lra). rewrite <- Q. field. lra. }
    assert (Larr : length arr = (2 ^ n)%nat) by (unfold arr; rewrite <- Lv; apply map_length).
    assert (Num : forall e, In e arr -> expr_syms e = []) by (intros e He; apply in_map_iff in He as (z & <- & _); reflexivity).
    assert (Ew : mk_wf F arr = Ok {| w_repr := RNumpy; w_amps := arr |}).
    { unfold mk_wf. rewrite (proj2 (power_of_two_check (length arr))) by (exists n; exact Larr). cbn [Nat.eqb negb].
      replace (forallb is_number arr) with true by (symmetry; apply forallb_forall; intros e He; unfold is_number; rewrite (Num e He); reflexivity).
      unfold check_normalization. rewrite Sum. unfold isclose1, isclose_tol. destruct (Rle_dec (Rabs (1 - 1)) (1 / 100000000 + 1 / 100000 * 1)) as [_|N]; [reflexivity|].
      exfalso. apply N. replace (1 - 1)%R with 0%R by ring. rewrite Rabs_R0. lra. }
    exists g2, {| w_repr := RNumpy; w_amps := arr |}. rewrite Ew. split; [reflexivity|]. split; [exact Larr|].
    assert (Np : numeric_probability F {| w_repr := RNumpy; w_amps := arr |} = 1%R).
    { unfold numeric_probability. cbn [w_amps]. rewrite <- Sum. unfold prob_sum. clear - Num.
      induction arr as [|e l IH]; [reflexivity|]. cbn [fold_right map sum_R]. rewrite IH by (intros x Hx; apply Num; right; exact Hx). rewrite (Num e (or_introl eq_refl)). reflexivity. }
    split; [|split; [exact Np|exists s; split; [exact Hs|reflexivity]]]. split; [exists n; exact Larr|]. rewrite Np. split; [|intros N; exfalso; apply N; exact Num].
    intros _. replace (1 - 1)%R with 0%R by ring. rewrite Rabs_R0. lra.
  Qed.
  (** A seed other than zero decides the wavefunction, whatever was drawn before. *)
  Theorem C93_wavefunction_seed n s g1 g2 : s <> 0%Z -> create n (Some s) g1 = create n (Some s) g2.
  Proof. intros H. unfold create_random_wavefunction, wf_reseed. rewrite (proj2 (Z.eqb_neq s 0) H). reflexivity. Qed.
End RandomWavefunction.

(** A generator that counts: it meets the conditions, and with a seed of zero the wavefunction still depends on what was drawn before. *)
Definition counting (n : nat) (g : nat) : nat * list R := (S g, repeat (INR (S (g * g))) n).
Example C93_counting : (forall m g, length (snd (counting m g)) = m) /\ forall m g, (0 < m)%nat -> exists x, In x (snd (counting m g)) /\ x <> 0%R.
Proof.
  split; [intros m g; apply repeat_length|]. intros m g Hm. exists (INR (S (g * g))). split; [destruct m; [lia|left; reflexivity]|]. apply not_0_INR. discriminate.
Qed.
Theorem C93_seed_zero_refuted F : exists (g1 g2 : nat) w1 w2, snd (create_random_wavefunction (fun _ => 0%nat) counting F 0 (Some 0%Z) g1) = Ok w1 /\
  snd (create_random_wavefunction (fun _ => 0%nat) counting F 0 (Some 0%Z) g2) = Ok w2 /\ w_amps w1 <> w_amps w2.
Proof.
  destruct C93_counting as [Cl Cn]. exists 0%nat, 1%nat.
  destruct (C93_random_wavefunction (fun _ => 0%nat) counting F 0 (Some 0%Z) 0%nat Cl Cn) as (g1 & w1 & E1 & _ & _ & _ & s1 & P1 & A1).
  destruct (C93_random_wavefunction (fun _ => 0%nat) counting F 0 (Some 0%Z) 1%nat Cl Cn) as (g2 & w2 & E2 & _ & _ & _ & s2 & P2 & A2).
  exists w1, w2. rewrite E1, E2. split; [reflexivity|]. split; [reflexivity|]. rewrite A1, A2. cbn -[INR]. intros E. inversion E as [[X Y]]. clear - X Y P1 P2.
  change (INR 1) with 1%R in *. replace (INR 2) with 2%R in * by (cbn; lra). replace (INR 5) with 5%R in * by (cbn; lra).
  apply (f_equal (fun x => x * (s1 * s2))%R) in X, Y. field_simplify in X; [|lra..]. field_simplify in Y; [|lra..]. lra.
Qed.
Print Assumptions C93_random_wavefunction.
