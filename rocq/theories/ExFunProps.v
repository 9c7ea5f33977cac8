(** C103: the example functions of the history package; stated over ExFunModel.v. *)
From Coq Require Import String Ascii List ZArith NArith Bool Reals Lra Lia Permutation.
From Verif Require Import Base LiftModel LiftProofs UtilsSpec UtilsModel UtilsProofs ExFunModel.
Import ListNotations.
Open Scope list_scope.

(** ** Specification: [g] computes the gradient of [f], a function of n numbers: its i-th entry is the derivative when the i-th number alone varies *)
Definition changed (p : list R) (i : nat) (t : R) : list R := firstn i p ++ t :: skipn (S i) p.
Definition gradient_of (n : nat) (f : list R -> result R) (g : list R -> result (list R)) : Prop :=
  forall p, length p = n -> exists gr, g p = Ok gr /\ length gr = n /\
    forall i, i < n -> exists phi, (forall t, f (changed p i t) = Ok (phi t)) /\ derivable_pt_lim phi (nth i p 0%R) (nth i gr 0%R).

Local Open Scope R_scope.
Lemma square_lim a b c x : derivable_pt_lim (fun t => a * t ^ 2 + b * t + c) x (a * (2 * x) + b).
Proof.
  replace (a * (2 * x) + b) with (a * (2 * x) + b * 1 + 0) by ring.
  apply (derivable_pt_lim_plus (fun t => a * t ^ 2 + b * t) (fun _ => c)); [|apply derivable_pt_lim_const].
  apply (derivable_pt_lim_plus (fun t => a * t ^ 2) (fun t => b * t)).
  - apply (derivable_pt_lim_scal (fun t => t ^ 2)). replace (2 * x) with (INR 2 * x ^ pred 2) by (cbn; ring). apply derivable_pt_lim_pow.
  - apply (derivable_pt_lim_scal (fun t => t)). apply derivable_pt_lim_id.
Qed.
Lemma by_square (phi : R -> R) a b c x d : (forall t, phi t = a * t ^ 2 + b * t + c) -> d = a * (2 * x) + b -> derivable_pt_lim phi x d.
Proof. intros E ->. apply (derivable_pt_lim_ext (fun t => a * t ^ 2 + b * t + c)); [intros; symmetry; apply E|]. apply square_lim. Qed.

(** ** Gradients *)
Ltac entry A B C := eexists; split; [intros; reflexivity|]; cbn -[pow]; apply (by_square _ A B C); [intros; cbn -[pow]; ring|ring].
Theorem C103_function_1 : gradient_of 2 function_1 function_1_gradient.
Proof.
  intros p Hp. destruct p as [|x [|y [|? ?]]]; try discriminate. eexists. split; [reflexivity|]. split; [reflexivity|]. intros i Hi.
  destruct i as [|[|i]]; [| |lia].
  - entry 1 (- y) 0.
  - entry 0 (- x) (x ^ 2).
Qed.
Theorem C103_function2 multiplier : gradient_of 3 (function2 multiplier) (function2_gradient multiplier).
Proof.
  intros p Hp. destruct p as [|x [|y [|z [|? ?]]]]; try discriminate. eexists. split; [reflexivity|]. split; [reflexivity|]. intros i Hi.
  destruct i as [|[|[|i]]]; [| | |lia].
  - entry 0 (multiplier * (1 - y)) (multiplier * z ^ 2).
  - entry 0 (multiplier * - x) (multiplier * (x + z ^ 2)).
  - entry multiplier 0 (multiplier * (x - x * y)).
Qed.
(** Storing artifacts does not change the value, nor the gradient. *)
Theorem C103_function5 alpha store_given : gradient_of 3 (fun p => snd (function5 alpha p store_given)) (function5_gradient alpha).
Proof.
  assert (V : forall x y z, snd (function5 alpha [x; y; z] store_given) = Ok (alpha * x * y * z)).
  { intros x y z. unfold function5. cbn [at_ nth_error]. destruct (Rlt_dec 0 x); destruct store_given; reflexivity. }
  intros p Hp. destruct p as [|x [|y [|z [|? ?]]]]; try discriminate. eexists. split; [reflexivity|]. split; [reflexivity|]. intros i Hi.
  destruct i as [|[|[|i]]]; [| | |lia].
  - exists (fun t => alpha * t * y * z). split; [intros t; apply V|]. cbn -[pow]. apply (by_square _ 0 (alpha * (y * z)) 0); intros; ring.
  - exists (fun t => alpha * x * t * z). split; [intros t; apply V|]. cbn -[pow]. apply (by_square _ 0 (alpha * (x * z)) 0); intros; ring.
  - exists (fun t => alpha * x * y * t). split; [intros t; apply V|]. cbn -[pow]. apply (by_square _ 0 (alpha * (x * y)) 0); intros; ring.
Qed.
(** The artifact is the sum of the first two numbers, and is stored exactly if there is a store and the first number is positive. *)
Theorem C103_function5_artifacts alpha x y rest store_given :
  (store_given = true /\ 0 < x -> fst (function5 alpha (x :: y :: rest) store_given) = [("something"%string, x + y)]) /\
  (store_given = false \/ x <= 0 -> fst (function5 alpha (x :: y :: rest) store_given) = []).
Proof.
  unfold function5. cbn [at_ nth_error]. split.
  - intros (-> & H). destruct (Rlt_dec 0 x); [reflexivity|contradiction].
  - intros [->|H]; [now rewrite andb_false_r|]. destruct (Rlt_dec 0 x); [lra|reflexivity].
Qed.
(** With two numbers the call fails, but the artifact was stored. *)
Theorem C103_function5_short_refuted alpha x y : 0 < x -> function5 alpha [x; y] true = ([("something"%string, x + y)], Err IndexError).
Proof. intros H. unfold function5. cbn [at_ nth_error]. destruct (Rlt_dec 0 x); [reflexivity|contradiction]. Qed.

(** ** Sum of squares: never negative, zero for zeros only, the same in every order *)
Lemma squares_from l : forall s, fold_left (fun s x => s + x ^ 2) l s = s + fold_right (fun x s => x ^ 2 + s) 0 l.
Proof. induction l as [|x l IH]; intros s; cbn [fold_left fold_right]; [ring|]. rewrite IH. ring. Qed.
Lemma squares_nonneg l : 0 <= fold_right (fun x s => x ^ 2 + s) 0 l.
Proof. induction l as [|x l IH]; cbn [fold_right]; [lra|]. pose proof (pow2_ge_0 x). lra. Qed.
Theorem C103_sum_of_squares p : 0 <= sum_of_squares p /\ (sum_of_squares p = 0 <-> forall x, In x p -> x = 0) /\ (forall q, Permutation p q -> sum_of_squares q = sum_of_squares p).
Proof.
  unfold sum_of_squares. setoid_rewrite squares_from. rewrite !Rplus_0_l. split; [apply squares_nonneg|]. split.
  - split.
    + induction p as [|x p IH]; intros H y Hy; [destruct Hy|]. cbn [fold_right] in H. pose proof (pow2_ge_0 x) as P. pose proof (squares_nonneg p) as Q.
      destruct Hy as [<-|Hy]; [|apply IH; [lra|exact Hy]]. assert (Z : x ^ 2 = 0) by lra. cbn in Z. rewrite Rmult_1_r in Z. apply Rmult_integral in Z. now destruct Z.
    + induction p as [|x p IH]; intros H; [reflexivity|]. cbn [fold_right]. rewrite (H x) by now left. rewrite IH by (intros; apply H; now right). cbn. ring.
  - intros q Pq. rewrite !Rplus_0_l. induction Pq; cbn [fold_right]; [reflexivity|now rewrite IHPq|ring|congruence].
Qed.
Local Close Scope R_scope.

(** ** Bitstrings *)
Definition digit (c : ascii) : Z := if Ascii.eqb c "1" then 1%Z else 0%Z.
Definition zero_or_one (c : ascii) : Prop := c = "0"%char \/ c = "1"%char.
(** The artifact of a non-negative number is its binary representation, without leading zeros; it is forced by [function_4] exactly if the number is even; both functions double. *)
Theorem C103_bitstring n : (0 <= n)%Z -> exists s,
  function_3 n true = ([("bitstring"%string, s, false)], (2 * n)%Z) /\ (exists force, function_4 n true = ([("bitstring"%string, s, force)], (2 * n)%Z) /\ (force = true <-> Z.Even n)) /\
  function_3 n false = ([], (2 * n)%Z) /\ function_4 n false = ([], (2 * n)%Z) /\
  (forall c, In c (list_ascii_of_string s) -> zero_or_one c) /\ number_of (map digit (list_ascii_of_string s)) = n /\
  (n = 0%Z -> s = "0"%string) /\ (n <> 0%Z -> exists s', s = String "1" s').
Proof.
  intros Hn. set (l := bin_digits (Z.to_N n)).
  assert (Eb : bin n = String "0" (String "b" (string_of_list_ascii (map (fun b : bool => if b then "1" else "0")%char l)))).
  { unfold bin. rewrite (proj2 (Z.ltb_ge _ _)) by lia. rewrite Z.abs_eq by lia. reflexivity. }
  exists (string_of_list_ascii (map (fun b : bool => if b then "1" else "0")%char l)).
  unfold function_3, function_4. rewrite Eb. cbn [from_position]. split; [reflexivity|]. split; [|split; [reflexivity|split; [reflexivity|]]].
  { eexists. split; [reflexivity|]. rewrite Z.eqb_eq. rewrite Zmod_even. rewrite <- Z.even_spec. destruct (Z.even n); split; congruence. }
  rewrite list_ascii_of_string_of_list_ascii. split; [|split; [|split]].
  - intros c Hc. apply in_map_iff in Hc as ([] & <- & _); [right|left]; reflexivity.
  - rewrite map_map. rewrite (map_ext _ b2z) by (intros []; reflexivity). rewrite number_of_bits. unfold l.
    destruct (bin_digits_spec (Z.to_N n) (S (N.to_nat (Z.to_N n)))) as (E & _); [|lia|rewrite E; lia].
    eapply Nat.lt_trans; [apply Nat.lt_succ_diag_r|]. apply Nat.pow_gt_lin_r. lia.
  - intros ->. reflexivity.
  - intros N0. unfold l. destruct (Z.to_N n) as [|q] eqn:Eq; [lia|]. cbn [bin_digits].
    assert (G : forall q acc, exists r, pos_digits q acc = true :: r) by (induction q0 as [q0 IH|q0 IH|]; intros acc; cbn [pos_digits]; [apply IH|apply IH|eexists; reflexivity]).
    destruct (G q []) as (r & ->). eexists. reflexivity.
Qed.
(** For a negative number the artifact is not a bitstring: it starts with the letter b. *)
Theorem C103_bitstring_refuted n : (n < 0)%Z -> exists s, function_3 n true = ([("bitstring"%string, String "b" s, false)], (2 * n)%Z).
Proof. intros Hn. unfold function_3, bin. rewrite (proj2 (Z.ltb_lt _ _)) by lia. eexists. reflexivity. Qed.

(** ** Concrete cases *)
Example C103_case : function_3 6 true = ([("bitstring", "110", false)]%string, 12%Z) /\ function_4 6 true = ([("bitstring", "110", true)]%string, 12%Z) /\ function_3 (-5) true = ([("bitstring", "b101", false)]%string, (-10)%Z) /\
  function_1 [3; 1]%R = Ok (3 ^ 2 - 3 * 1)%R /\ sum_of_squares [3; 4]%R = 25%R.
Proof. repeat split. unfold sum_of_squares. cbn. lra. Qed.

Print Assumptions C103_function2.
Print Assumptions C103_sum_of_squares.
Print Assumptions C103_bitstring.
