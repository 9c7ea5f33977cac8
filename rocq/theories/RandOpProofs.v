(** Proofs for C93: random tensors. *)
From Coq Require Import ZArith Ring Lia.
From Verif Require Import Base BaseFacts MatModel MatFacts OpModel OpSpec TensorModel TensorSpec TensorProps ConvModel MolModel DiagSpec HermTensorProps RandOpModel RandOpSpec.
Open Scope list_scope.
Local Open Scope nat_scope.

Notation leq := (list_eqb Nat.eqb).
Lemma leq_iff i j : leq i j = true <-> i = j.
Proof. apply (list_eqb_spec _ nat_eqb_spec). Qed.
Lemma leq_swap (i j i' j' : list nat) : (i = j <-> i' = j') -> leq i j = leq i' j'.
Proof. intros H. apply eq_iff_eq_true. rewrite !leq_iff. exact H. Qed.
Lemma quad_inv (a b c d p q r s : nat) : [a; b; c; d] = [p; q; r; s] -> a = p /\ b = q /\ c = r /\ d = s.
Proof. intros E. repeat split; congruence. Qed.
Lemma distinct_le2 p q r s : (p = s /\ q = r) \/ (p = r /\ q = s) -> distinct [p; q; r; s] <= 2.
Proof.
  intros H. unfold distinct. assert (I : incl (uniq Nat.eqb [p; q; r; s]) [p; q]).
  { intros x Hx. apply (proj1 (uniq_In _ nat_eqb_spec _ _)) in Hx. destruct H as [[-> ->]|[-> ->]]; cbn [In] in *; repeat (destruct Hx as [Hx|Hx]; [subst; auto|]); destruct Hx. }
  apply (NoDup_incl_length (uniq_NoDup _ nat_eqb_spec _)) in I. exact I.
Qed.
Lemma distinct_different i : distinct i = different i.
Proof.
  unfold distinct, different. apply Nat.le_antisymm; apply NoDup_incl_length.
  - apply (uniq_NoDup _ nat_eqb_spec). - intros x Hx. apply nodup_In. apply (proj1 (uniq_In _ nat_eqb_spec _ _)) in Hx. exact Hx.
  - apply NoDup_nodup. - intros x Hx. apply nodup_In in Hx. apply (uniq_In _ nat_eqb_spec). exact Hx.
Qed.
Lemma different_ext i j : (forall x, In x i <-> In x j) -> different i = different j.
Proof.
  intros H. unfold different. apply Nat.le_antisymm; apply NoDup_incl_length; try apply NoDup_nodup; intros x Hx; apply nodup_In; apply nodup_In in Hx; apply H; exact Hx.
Qed.
Lemma fold_inv {X Y} (P : X -> Prop) (f : X -> Y -> X) l : (forall x y, P x -> P (f x y)) -> forall x, P x -> P (fold_left f l x).
Proof. intros H. induction l as [|y l IH]; intros x Hx; cbn; auto. Qed.

Section Arrays.
  Context {K : cring}.
  Add Ring Kring_rop0 : (kth K).
  Open Scope K_scope.
  Local Notation arr := (TensorModel.ndarray K).
  Definition sym4 (x : arr) : Prop := forall a b c d, data x [b; a; d; c] = data x [a; b; c; d] /\ data x [d; c; b; a] = kconj (data x [a; b; c; d]).
  Definition sym8 (x : arr) : Prop := forall a b c d, data x [c; b; a; d] = data x [a; b; c; d].
  Definition all_real (x : arr) : Prop := forall i, kconj (data x i) = data x i.
  Lemma assign_data (x : arr) i v j : data (assign x i v) j = if leq j i then v else data x j.
  Proof. reflexivity. Qed.
  Lemma assign_real (x : arr) i v : kconj v = v -> all_real x -> all_real (assign x i v).
  Proof. intros Hv Hx j. rewrite assign_data. destruct (leq j i); auto. Qed.
  Ltac perm := apply leq_swap; split; intros E; inversion E; reflexivity.
  Ltac nodd := repeat match goal with |- context [leq ?i ?j] => let E := fresh "E" in destruct (leq i j) eqn:E end.

  (** the operator made of the arrays *)
  Definition made (h : heap K) (c : K) (one two : arr) : heap K * ptensor K :=
    (h ++ [one; two], {| n_qubits := shape0 one; n_body_tensors := [([], Num c); (one_body, Arr (length h)); (two_body, Arr (S (length h)))] |}).
  Lemma read_one (h : heap K) one two : read (h ++ [one; two]) (length h) = one.
  Proof. unfold read. rewrite app_nth2 by lia. rewrite Nat.sub_diag. reflexivity. Qed.
  Lemma read_two (h : heap K) one two : read (h ++ [one; two]) (S (length h)) = two.
  Proof. unfold read. rewrite app_nth2 by lia. replace (S (length h) - length h)%nat with 1%nat by lia. reflexivity. Qed.
  Lemma interaction_made h c one two : interaction_operator h c one two = Ok (made h c one two).
  Proof. unfold interaction_operator, polynomial_tensor, made. cbn [rbind]. rewrite read_one. reflexivity. Qed.
  Lemma made_ok h c one two : shape0 two = shape0 one -> interaction_ok (fst (made h c one two)) (snd (made h c one two)).
  Proof.
    intros E. split; [|reflexivity]. split; [repeat constructor; cbn; intuition discriminate|].
    split; [intros k1 k2 r [E1|[E1|[E1|[]]]] [E2|[E2|[E2|[]]]]; inversion E1; inversion E2; subst; try discriminate; try reflexivity; lia|].
    split; [exists one_body, (length h); right; left; reflexivity|]. intros k e [H|[H|[H|[]]]]; inversion H; subst; cbn [fst snd made n_qubits]; [reflexivity| |]; rewrite ?read_one, ?read_two, ?app_length; cbn [length];
      repeat split; try discriminate; try lia; auto.
  Qed.
  Lemma made_value h c one two : let '(h', a) := made h c one two in
    (forall i, value h' a [] i = c) /\ (forall i, value h' a one_body i = data one i) /\ (forall i, value h' a two_body i = data two i).
  Proof. unfold made, value. cbn. rewrite read_one, read_two. auto. Qed.
  Lemma made_hermitian h c one two : kconj c = c -> (forall p q, data one [q; p] = kconj (data one [p; q])) -> sym4 two ->
    hermitian_coefficients (fst (made h c one two)) (snd (made h c one two)).
  Proof.
    intros Hc H1 H2 k i Hk Hi. pose proof (made_value h c one two) as V. destruct (made h c one two) as [h' a] eqn:E. cbn [fst snd] in *. destruct V as (V0 & V1 & V2).
    assert (Ek : dkeys (n_body_tensors a) = [[]; one_body; two_body]) by (unfold made in E; inversion E; reflexivity). rewrite Ek in Hk. destruct Hi as [Li _]. destruct Hk as [<-|[<-|[<-|[]]]].
    - rewrite !V0. exact Hc.
    - rewrite !V1. destruct i as [|p [|q [|? ?]]]; try discriminate. cbn [rev app]. symmetry. apply H1.
    - rewrite !V2. destruct i as [|p [|q [|r [|s [|? ?]]]]]; try discriminate. cbn [rev app]. symmetry. apply H2.
  Qed.

  (** *** Spin orbitals *)
  Lemma half_spec p : Nat.div2 p = orbital p.
  Proof. apply Nat.div2_div. Qed.
  Lemma even_parts p : orbital (2 * p)%nat = p /\ spin (2 * p)%nat = 0%nat.
  Proof. unfold orbital, spin. split; [rewrite Nat.mul_comm; apply Nat.div_mul; lia|rewrite Nat.mul_comm; apply Nat.mod_mul; lia]. Qed.
  Lemma odd_parts p : orbital (2 * p + 1)%nat = p /\ spin (2 * p + 1)%nat = 1%nat.
  Proof. unfold orbital, spin. split; [symmetry; apply (Nat.div_unique _ 2 p 1); lia|symmetry; apply (Nat.mod_unique _ 2 p 1); lia]. Qed.
  Lemma spin_cases p : (p = 2 * orbital p /\ spin p = 0)%nat \/ (p = 2 * orbital p + 1 /\ spin p = 1)%nat.
  Proof. unfold orbital, spin. pose proof (Nat.div_mod p 2 ltac:(lia)). pose proof (Nat.mod_upper_bound p 2 ltac:(lia)). lia. Qed.
  Definition same_spins (p q r s : nat) : bool := (Nat.eqb (spin p) (spin s) && Nat.eqb (spin q) (spin r))%bool.
  Lemma expand_at (two new : arr) i p q r s : data (expand_step two new i) [p; q; r; s] =
    if (leq i [orbital p; orbital q; orbital r; orbital s] && same_spins p q r s)%bool then data two [orbital p; orbital q; orbital r; orbital s] else data new [p; q; r; s].
  Proof.
    assert (W : forall j : list nat, length j <> 4%nat -> leq j [orbital p; orbital q; orbital r; orbital s] = false) by (intros j Hj; apply not_true_iff_false; rewrite leq_iff; intros ->; apply Hj; reflexivity).
    destruct i as [|a [|b [|c [|d [|? ?]]]]]; try (rewrite W by (cbn; lia); reflexivity). clear W. unfold expand_step. cbv zeta. rewrite !assign_data.
    destruct (leq [a; b; c; d] [orbital p; orbital q; orbital r; orbital s]) eqn:E; cbn [andb].
    - apply leq_iff in E. inversion E; subst a b c d. unfold same_spins.
      destruct (spin_cases p) as [[P1 P2]|[P1 P2]]; destruct (spin_cases q) as [[Q1 Q2]|[Q1 Q2]]; destruct (spin_cases r) as [[R1 R2]|[R1 R2]]; destruct (spin_cases s) as [[S1 S2]|[S1 S2]];
        rewrite P2, Q2, R2, S2; cbn [Nat.eqb andb]; cbn [list_eqb]; clear E P2 Q2 R2 S2; revert P1 Q1 R1 S1;
        generalize (data two [orbital p; orbital q; orbital r; orbital s]) as v; generalize (orbital p) as p', (orbital q) as q', (orbital r) as r', (orbital s) as s'; intros;
        repeat match goal with |- context [Nat.eqb ?x ?y] => first [replace (Nat.eqb x y) with true by (symmetry; apply Nat.eqb_eq; lia) | replace (Nat.eqb x y) with false by (symmetry; apply Nat.eqb_neq; lia)] end; reflexivity.
    - assert (N : forall i, i = [a; b; c; d] -> i = [orbital p; orbital q; orbital r; orbital s] -> False).
      { intros i E1 E2. apply not_true_iff_false in E. apply E. apply leq_iff. congruence. }
      nodd; try reflexivity; exfalso; match goal with H : leq _ _ = true |- _ => apply leq_iff in H; apply quad_inv in H as (-> & -> & -> & ->) end;
        apply (N [a; b; c; d] eq_refl); repeat match goal with |- context [orbital (2 * ?x)%nat] => rewrite (proj1 (even_parts x)) | |- context [orbital (2 * ?x + 1)%nat] => rewrite (proj1 (odd_parts x)) end; reflexivity.
  Qed.
  Lemma expand_loop (two : arr) l p q r s : forall new, data (fold_left (expand_step two) l new) [p; q; r; s] =
    if (memb leq [orbital p; orbital q; orbital r; orbital s] l && same_spins p q r s)%bool then data two [orbital p; orbital q; orbital r; orbital s] else data new [p; q; r; s].
  Proof.
    induction l as [|i l IH]; intros new; cbn [fold_left memb existsb]; [reflexivity|]. rewrite IH, expand_at. unfold memb.
    rewrite (leq_swap i _ [orbital p; orbital q; orbital r; orbital s] i) by (split; auto).
    cbn [existsb]. clear IH. generalize (existsb (leq [orbital p; orbital q; orbital r; orbital s]) l) as e. generalize (same_spins p q r s) as z. generalize (leq [orbital p; orbital q; orbital r; orbital s] i) as y. intros [] [] []; reflexivity.
  Qed.
  Lemma expand_shape (two : arr) l : forall new, shape0 (fold_left (expand_step two) l new) = shape0 new.
  Proof. induction l as [|i l IH]; intros new; cbn [fold_left]; [reflexivity|]. rewrite IH. destruct i as [|a [|b [|c [|d [|? ?]]]]]; reflexivity. Qed.
  Lemma orbital_lt p n : (p < 2 * n)%nat -> (orbital p < n)%nat.
  Proof. intros H. unfold orbital. apply Nat.div_lt_upper_bound; lia. Qed.
End Arrays.

Section Tensors.
  Context {K : cring} {G : Type}.
  Add Ring Kring_rop : (kth K).
  Open Scope K_scope.
  Local Notation arr := (TensorModel.ndarray K).
  Context (seeded : Z -> G) (randn : G -> G * K) (im : K).
  Hypothesis real_draws : forall g, kconj (snd (randn g)) = snd (randn g).

  Ltac perm := apply leq_swap; split; intros E; inversion E; reflexivity.
  Ltac nodd := repeat match goal with |- context [leq ?i ?j] => let E := fresh "E" in destruct (leq i j) eqn:E end.
  Definition coefficient (real : bool) (g : G) (i : list nat) : G * K :=
    let (g, x) := randn g in if (negb real && Nat.leb 3 (distinct i))%bool then let (g, y) := randn g in (g, x + im * y) else (g, x).
  Lemma coefficient_real real g i : real = true \/ (distinct i <= 2)%nat -> kconj (snd (coefficient real g i)) = snd (coefficient real g i).
  Proof.
    intros H. unfold coefficient. pose proof (real_draws g) as R. destruct (randn g) as [g1 x]. cbn [snd] in R.
    replace (negb real && Nat.leb 3 (distinct i))%bool with false; [exact R|]. destruct H as [->|H]; [reflexivity|]. symmetry. apply andb_false_iff. right. apply Nat.leb_gt. lia.
  Qed.
  Lemma draw_quad real st p q r s : two_body_draw randn im real st [p; q; r; s] =
    let gc := coefficient real (fst st) [p; q; r; s] in
    let t := assign (assign (assign (assign (snd st) [p; q; r; s] (snd gc)) [q; p; s; r] (snd gc)) [s; r; q; p] (kconj (snd gc))) [r; s; p; q] (kconj (snd gc)) in
    (fst gc, if real then assign (assign (assign (assign t [r; q; p; s] (snd gc)) [p; s; r; q] (snd gc)) [s; p; q; r] (snd gc)) [q; r; s; p] (snd gc) else t).
  Proof.
    unfold two_body_draw, coefficient. destruct (randn (fst st)) as [g1 x]. destruct (negb real && Nat.leb 3 (distinct [p; q; r; s]))%bool; [destruct (randn g1) as [g2 y]|]; destruct real; reflexivity.
  Qed.

  Lemma draw_complex (x : arr) p q r s c : ((p = s /\ q = r) \/ (p = r /\ q = s) -> kconj c = c) -> sym4 x ->
    sym4 (assign (assign (assign (assign x [p; q; r; s] c) [q; p; s; r] c) [s; r; q; p] (kconj c)) [r; s; p; q] (kconj c)).
  Proof.
    intros Hc Hx a b c' d. destruct (Hx a b c' d) as [X1 X2]. rewrite !assign_data.
    replace (leq [b; a; d; c'] [r; s; p; q]) with (leq [a; b; c'; d] [s; r; q; p]) by perm. replace (leq [b; a; d; c'] [s; r; q; p]) with (leq [a; b; c'; d] [r; s; p; q]) by perm.
    replace (leq [b; a; d; c'] [q; p; s; r]) with (leq [a; b; c'; d] [p; q; r; s]) by perm. replace (leq [b; a; d; c'] [p; q; r; s]) with (leq [a; b; c'; d] [q; p; s; r]) by perm.
    replace (leq [d; c'; b; a] [r; s; p; q]) with (leq [a; b; c'; d] [q; p; s; r]) by perm. replace (leq [d; c'; b; a] [s; r; q; p]) with (leq [a; b; c'; d] [p; q; r; s]) by perm.
    replace (leq [d; c'; b; a] [q; p; s; r]) with (leq [a; b; c'; d] [r; s; p; q]) by perm. replace (leq [d; c'; b; a] [p; q; r; s]) with (leq [a; b; c'; d] [s; r; q; p]) by perm.
    destruct (leq [a; b; c'; d] [r; s; p; q]) eqn:E1; destruct (leq [a; b; c'; d] [s; r; q; p]) eqn:E2; destruct (leq [a; b; c'; d] [q; p; s; r]) eqn:E3; destruct (leq [a; b; c'; d] [p; q; r; s]) eqn:E4;
      try (split; [auto|]; rewrite ?kconj_invol; auto; fail);
      (assert (R : kconj c = c) by (apply Hc; apply leq_iff in E1 || apply leq_iff in E2; apply leq_iff in E3 || apply leq_iff in E4; rewrite E1 in * || rewrite E2 in *;
        match goal with H : [_; _; _; _] = [_; _; _; _] |- _ => inversion H end; subst; auto)); rewrite ?R; auto.
  Qed.
  Lemma draw_real (x : arr) p q r s c : kconj c = c -> sym4 x -> sym8 x -> all_real x ->
    let t := assign (assign (assign (assign x [p; q; r; s] c) [q; p; s; r] c) [s; r; q; p] (kconj c)) [r; s; p; q] (kconj c) in
    let t := assign (assign (assign (assign t [r; q; p; s] c) [p; s; r; q] c) [s; p; q; r] c) [q; r; s; p] c in
    sym4 t /\ sym8 t /\ all_real t.
  Proof.
    intros Hc H4 H8 Hr t0 t.
    set (orb := fun i => leq i [p; q; r; s] || leq i [q; p; s; r] || leq i [s; r; q; p] || leq i [r; s; p; q] || leq i [r; q; p; s] || leq i [p; s; r; q] || leq i [s; p; q; r] || leq i [q; r; s; p]).
    assert (D : forall i, data t i = if orb i then c else data x i).
    { intros i. unfold t, t0, orb. rewrite !assign_data, Hc. nodd; reflexivity. }
    assert (O1 : forall a b c' d, orb [b; a; d; c'] = orb [a; b; c'; d]).
    { intros. unfold orb. apply eq_iff_eq_true. rewrite !orb_true_iff, !leq_iff. split; intros H; decompose [or] H; match goal with E : _ = _ |- _ => inversion E end; subst; tauto. }
    assert (O2 : forall a b c' d, orb [d; c'; b; a] = orb [a; b; c'; d]).
    { intros. unfold orb. apply eq_iff_eq_true. rewrite !orb_true_iff, !leq_iff. split; intros H; decompose [or] H; match goal with E : _ = _ |- _ => inversion E end; subst; tauto. }
    assert (O3 : forall a b c' d, orb [c'; b; a; d] = orb [a; b; c'; d]).
    { intros. unfold orb. apply eq_iff_eq_true. rewrite !orb_true_iff, !leq_iff. split; intros H; decompose [or] H; match goal with E : _ = _ |- _ => inversion E end; subst; tauto. }
    split; [|split].
    - intros a b c' d. rewrite !D, (O1 a b c' d), (O2 a b c' d). destruct (H4 a b c' d). destruct (orb [a; b; c'; d]); [split; [reflexivity|symmetry; exact Hc]|auto].
    - intros a b c' d. rewrite !D, (O3 a b c' d). destruct (orb [a; b; c'; d]); auto.
    - intros i. rewrite !D. destruct (orb i); auto.
  Qed.

  Definition two_ok (real : bool) (x : arr) : Prop := sym4 x /\ (real = true -> sym8 x /\ all_real x).
  Lemma step_ok real st i : two_ok real (snd st) -> two_ok real (snd (two_body_draw randn im real st i)) /\ shape0 (snd (two_body_draw randn im real st i)) = shape0 (snd st).
  Proof.
    intros H. destruct i as [|p [|q [|r [|s [|? ?]]]]]; try (split; [exact H|reflexivity]). rewrite draw_quad. cbv zeta. cbn [snd].
    pose proof (coefficient_real real (fst st) [p; q; r; s]) as Hc. set (c := snd (coefficient real (fst st) [p; q; r; s])) in *. destruct H as [H4 H8]. destruct real.
    - destruct (H8 eq_refl) as [Ha Hb]. split; [|reflexivity]. destruct (draw_real (snd st) p q r s c (Hc (or_introl eq_refl)) H4 Ha Hb) as (A1 & A2 & A3). split; auto.
    - split; [|reflexivity]. split; [|discriminate]. apply draw_complex; [|exact H4]. intros E. apply Hc. right. apply distinct_le2. exact E.
  Qed.
  Lemma two_body_ok real n g : let x := snd (fold_left (two_body_draw randn im real) (indices n 4) (g, zeros_array n)) in two_ok real x /\ shape0 x = n.
  Proof.
    cbv zeta. apply (fold_inv (fun st => two_ok real (snd st) /\ shape0 (snd st) = n)).
    - intros st i [H1 H2]. destruct (step_ok real st i H1) as [A B]. split; [exact A|congruence].
    - split; [|reflexivity]. split; [intros a b c d; cbn; split; [reflexivity|symmetry; apply kconj_0]|]. intros _. split; [intros a b c d; reflexivity|intros i; apply kconj_0].
  Qed.
  Lemma randn_matrix_real n g : all_real (snd (randn_matrix randn n g)) /\ shape0 (snd (randn_matrix randn n g)) = n.
  Proof.
    unfold randn_matrix. apply (fold_inv (fun st => all_real (snd st) /\ shape0 (snd st) = n)).
    - intros [g0 x] i [H1 H2]. cbn [fst snd] in *. pose proof (real_draws g0) as R. destruct (randn g0) as [g1 v]. cbn [snd] in *. split; [apply assign_real; auto|exact H2].
    - split; [intros i; apply kconj_0|reflexivity].
  Qed.
  Lemma rand_mat_real n real g : shape0 (snd (rand_mat randn im n real g)) = n /\ (real = true -> all_real (snd (rand_mat randn im n real g))).
  Proof.
    unfold rand_mat. destruct (randn_matrix_real n g) as [A B]. destruct (randn_matrix randn n g) as [g1 a]. cbn [snd] in *. destruct real; [split; auto|].
    destruct (randn_matrix randn n g1) as [g2 b]. split; [reflexivity|discriminate].
  Qed.
  Lemma hermitian_matrix n real seed g : let x := snd (random_hermitian_matrix seeded randn im n real seed g) in
    shape0 x = n /\ (forall p q, data x [q; p] = kconj (data x [p; q])) /\ (real = true -> forall p q, kconj (data x [p; q]) = data x [p; q]).
  Proof.
    unfold random_hermitian_matrix. destruct (rand_mat_real n real (reseed seeded seed g)) as [A B]. destruct (rand_mat randn im n real (reseed seeded seed g)) as [g1 a]. cbn [snd fst] in *. cbv zeta. cbn [data shape0 transposed].
    split; [reflexivity|]. split; [intros p q; rewrite kconj_add, kconj_invol; ring|]. intros R p q. rewrite kconj_add, kconj_invol, !(B R). reflexivity.
  Qed.
  Lemma antisymmetric_matrix n real seed g : let x := snd (random_antisymmetric_matrix seeded randn im n real seed g) in
    shape0 x = n /\ (forall p q, data x [q; p] = - data x [p; q]) /\ (real = true -> forall p q, kconj (data x [p; q]) = data x [p; q]).
  Proof.
    unfold random_antisymmetric_matrix. destruct (rand_mat_real n real (reseed seeded seed g)) as [A B]. destruct (rand_mat randn im n real (reseed seeded seed g)) as [g1 a]. cbn [snd fst] in *. cbv zeta. cbn [data shape0 transposed].
    split; [reflexivity|]. split; [intros p q; ring|]. intros R p q. unfold ksub in *. 
    assert (S : forall u v : K, kconj u = u -> kconj v = v -> kconj (u - v) = u - v).
    { intros u v Hu Hv. transitivity (kconj (u + (- (1)) * v)); [f_equal; ring|]. rewrite kconj_add, kconj_mul, Hu, Hv, kconj_opp, kconj_1. ring. }
    apply S; apply (B R).
  Qed.

End Tensors.
