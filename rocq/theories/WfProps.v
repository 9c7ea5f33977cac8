(** C19-C22: wavefunctions. *)
From Coq Require Import String NArith Nnat Reals Lra Sorting.Permutation.
From Verif Require Import Base BaseFacts MatModel MatFacts LiftModel LiftProofs CircuitModel CircuitSpec Cplx WfModel WfSpec WfProofs WfProofs2.
Open Scope list_scope.
Local Open Scope nat_scope.

Section Props.
  Context (Orc : sympy_oracle C) (F : string -> list C -> C).

  (** *** C19 *)
  (** Whatever sequence of construction, item assignment (successful or not) and binding produced it, the object is valid. *)
  Theorem C19_reachable_valid w : reachable Orc F w -> valid_wavefunction F w.
  Proof. intros H. apply reachable_inv in H. destruct H as (A & B & [D E]). split; [auto|]. split; auto. Qed.

  (** The constructor accepts exactly the valid vectors; everything else is a ValueError. *)
  Theorem C19_constructor_exact arr :
    (valid_wavefunction F {| w_repr := RSympy; w_amps := arr |} -> exists w, mk_wf F arr = Ok w /\ w_amps w = arr) /\
    (~ valid_wavefunction F {| w_repr := RSympy; w_amps := arr |} -> mk_wf F arr = Err ValueError).
  Proof.
    split.
    - intros ((n & L) & HA & HB). apply (mk_wf_total F arr n L). intros r. split; auto.
    - intros H. destruct (mk_wf F arr) as [w|e] eqn:E; [|f_equal; eapply mk_wf_err; eauto]. exfalso. apply H.
      apply mk_wf_inv in E. destruct E as (Ea & L & HR & [HA HB]). unfold all_numeric, numeric_probability in *. rewrite Ea in *.
      split; [auto|]. split; auto.
  Qed.

  (** An assignment that raises (for whatever reason) leaves the object unchanged. *)
  Theorem C19_failed_assignment_unchanged w i v w' e : wf_setitem F w i v = (w', Err e) -> w' = w.
  Proof. apply setitem_fail. Qed.

  (** An assignment is accepted exactly when the index exists, the storage can hold the value and the result is valid;
      it then changes this amplitude only. *)
  Theorem C19_assignment_exact w i v : reachable Orc F w -> forall j, py_index (length (w_amps w)) i = Some j ->
    (w_repr w = RNumpy -> expr_syms v = []) ->
    let target := {| w_repr := w_repr w; w_amps := set_nth j v (w_amps w) |} in
    (valid_wavefunction F target -> wf_setitem F w i v = (target, Ok tt)) /\
    (~ valid_wavefunction F target -> wf_setitem F w i v = (w, Err ValueError)).
  Proof.
    intros Hw j Hj Hv target. destruct (reachable_inv _ _ _ Hw) as (L & HR & HN).
    assert (HR' : repr_ok target) by (apply set_repr_ok; auto).
    assert (VN : valid_wavefunction F target <-> norm_ok F target).
    { unfold valid_wavefunction, norm_ok, target. cbn [w_amps]. rewrite set_nth_length. tauto. }
    assert (B : match w_repr w with RNumpy => negb (is_number v) | RSympy => false end = false).
    { destruct (w_repr w); [|auto]. rewrite (proj2 (is_number_syms v)); auto. }
    unfold wf_setitem. rewrite Hj, B. cbv zeta. fold target. cbn [w_repr w_amps].
    change (w_repr w) with (w_repr target). change (set_nth j v (w_amps w)) with (w_amps target).
    pose proof (check_ok F target HR') as CO. split; intros H.
    - rewrite (proj2 CO) by tauto. reflexivity.
    - destruct (check_normalization F (w_repr target) (w_amps target)) as [[]|e] eqn:Ck; [exfalso; tauto|].
      apply check_err in Ck as ->. f_equal. unfold target. cbn [w_repr w_amps]. rewrite set_nth_restore. destruct w; reflexivity.
  Qed.

  (** Binding a map that leads to an invalid vector is a ValueError; otherwise the result is the substituted vector. *)
  Theorem C19_bind_exact w m : reachable Orc F w -> ~ all_numeric w ->
    let target := {| w_repr := RSympy; w_amps := map (subs Orc m) (w_amps w) |} in
    (valid_wavefunction F target -> exists w', wf_bind Orc F w m = Ok w' /\ w_amps w' = w_amps target) /\
    (~ valid_wavefunction F target -> wf_bind Orc F w m = Err ValueError).
  Proof.
    intros Hw HA target. destruct (reachable_inv _ _ _ Hw) as (L & HR & HN).
    assert (E : wf_bind Orc F w m = mk_wf F (w_amps target)).
    { unfold wf_bind. destruct (wf_free_symbols (w_amps w)) eqn:E; [exfalso; apply HA; exact (proj1 (free_symbols_nil _) E)|].
      destruct (w_repr w) eqn:R; [exfalso; apply HA, HR; auto|reflexivity]. }
    rewrite E. apply (C19_constructor_exact (w_amps target)).
  Qed.

  (** Assigning to a slice: numpy's view is not a copy, so the "roll back" writes the new values onto themselves.  The call
      raises, and the object is left changed and invalid. *)
  Theorem C19_slice_assignment_refuted :
    exists w start vals w', reachable Orc F w /\ wf_setslice F w start vals = (w', Err ValueError) /\ w' <> w /\ ~ valid_wavefunction F w'.
  Proof.
    destruct (zero_state_spec F 1) as (l & E & El); [lia|]. cbn in El. subst l.
    exists {| w_repr := RNumpy; w_amps := [ENum c1; ENum c0] |}, 0, [ENum c1; ENum c1], {| w_repr := RNumpy; w_amps := [ENum c1; ENum c1] |}.
    split; [|split; [|split]].
    - unfold zero_state in E. cbn [Z.of_nat Z.leb Z.compare Pos.of_succ_nat] in E. eapply reach_new. exact E.
    - assert (P : check_normalization F RNumpy [ENum c1; ENum c1] = Err ValueError).
      { unfold check_normalization, isclose1, isclose_tol, prob_sum, amp_value, cabs2, c1. cbn. destruct (Rle_dec _ _) as [L|]; [|auto]. exfalso.
        rewrite Rabs_right in L; lra. }
      unfold wf_setslice. cbn [forallb is_number expr_syms andb negb length write_from set_nth w_amps skipn firstn]. unfold amp. rewrite P. reflexivity.
    - intros H. injection H as H. apply R1_neq_R0. auto.
    - intros (_ & H & _). unfold numeric_probability, amp_value, cabs2, c1 in H. cbn in H.
      assert (A : all_numeric {| w_repr := RNumpy; w_amps := [ENum c1; ENum c1] |}). { intros e [<-|[<-|[]]]; reflexivity. }
      specialize (H A). unfold c1 in H. rewrite Rabs_right in H; lra.
  Qed.

  (** *** C20 *)
  Theorem C20_dicke_state n k : 1 <= n -> k <= n ->
    exists w, dicke_state F (Z.of_nat n) (Z.of_nat k) = Ok w /\ length (w_amps w) = 2 ^ n /\
      forall i, i < 2 ^ n -> exists e, nth_error (w_amps w) i = Some e /\
        amp_value F e = if Nat.eqb (weight n i) k then rc (1 / sqrt (INR (binomial n k))) else c0.
  Proof.
    intros Hn Hk. destruct (dicke_spec F n k Hn Hk) as (w & E & _ & Ea). exists w. split; [auto|]. rewrite Ea, map_length, seq_length. split; [reflexivity|].
    intros i Hi. eexists. rewrite nth_error_map, (nth_error_nth' _ 0) by (rewrite seq_length; auto). rewrite seq_nth by auto. cbn [option_map]. split; reflexivity.
  Qed.
  (** The number of non-zero amplitudes is the binomial coefficient, and it obeys n! = C(n,k) k! (n-k)!. *)
  Theorem C20_binomial n k : k <= n -> binomial n k * (fact k * fact (n - k)) = fact n.
  Proof.
    revert k. induction n as [|n IH]; intros k Hk; [assert (k = 0) by lia; subst; reflexivity|].
    destruct k as [|k]; [cbn; lia|]. cbn [binomial]. rewrite Nat.mul_add_distr_r. replace (S n - S k) with (n - k) by lia.
    destruct (Nat.eq_dec k n) as [->|N].
    - assert (Z : forall m d, binomial m (m + S d) = 0). { clear. induction m; intros d; cbn; [auto|]. rewrite IHm. replace (S (m + S d)) with (m + S (S d)) by lia. rewrite IHm. reflexivity. }
      replace (S n) with (n + 1) at 2 by lia. rewrite (Z n 0). specialize (IH n (le_n _)). rewrite Nat.sub_diag in *. cbn [fact] in *. nia.
    - pose proof (IH k ltac:(lia)) as H1. pose proof (IH (S k) ltac:(lia)) as H2.
      assert (f1 : fact (n - k) = S (n - S k) * fact (n - S k)) by (replace (n - k) with (S (n - S k)) by lia; reflexivity).
      assert (f2 : fact (S k) = S k * fact k) by reflexivity. assert (f3 : fact (S n) = S n * fact n) by reflexivity.
      transitivity (S k * (binomial n k * (fact k * fact (n - k))) + S (n - S k) * (binomial n (S k) * (fact (S k) * fact (n - S k)))).
      + rewrite f1, f2. ring.
      + rewrite H1, H2, f3, <- Nat.mul_add_distr_r. f_equal. lia.
  Qed.
  Theorem C20_bad_arguments n k : (n <= 0 \/ k < 0 \/ n < k)%Z -> dicke_state F n k = Err ValueError.
  Proof.
    intros H. unfold dicke_state. destruct (Z.leb_spec n 0).
    - unfold zero_state. destruct (Z.leb_spec n 0); [reflexivity|lia].
    - destruct (zero_state_spec F (Z.to_nat n)) as (l & E & _); [lia|]. rewrite Z2Nat.id in E by lia. rewrite E. cbn [rbind].
      destruct (Z.ltb_spec k 0); [reflexivity|]. destruct (Z.ltb_spec n k); [reflexivity|]. lia.
  Qed.

  (** *** C21 *)
  Theorem C21_bit_reversal {A} (l : list A) n : length l = 2 ^ n ->
    exists l', flip_amplitudes l = Ok l' /\ length l' = 2 ^ n /\
      forall b, length b = n -> nth_error l' (bval b) = nth_error l (bval (rev b)).
  Proof.
    intros H. destruct l as [|d l]; [pose proof (pow2_pos n); cbn in H; lia|]. set (l0 := d :: l) in *.
    eexists. split; [apply (flip_spec l0 n d H)|]. rewrite map_length, seq_length. split; [auto|]. intros b Hb.
    assert (bval b < 2 ^ n) by (rewrite <- Hb; apply bval_lt).
    rewrite nth_error_map, (nth_error_nth' _ 0) by (rewrite seq_length; auto). rewrite seq_nth by auto. cbn [option_map Nat.add].
    unfold reverse_bits. rewrite bits_bval_n by auto. rewrite (nth_error_nth' l0 d); [reflexivity|].
    rewrite H, <- Hb, <- rev_length. apply bval_lt.
  Qed.
  Theorem C21_involution {A} (l : list A) n : length l = 2 ^ n -> rbind (flip_amplitudes l) flip_amplitudes = Ok l.
  Proof.
    intros H. destruct l as [|d l]; [pose proof (pow2_pos n); cbn in H; lia|]. set (l0 := d :: l) in *.
    rewrite (flip_spec l0 n d H). cbn [rbind]. rewrite (flip_spec _ n d) by (rewrite map_length, seq_length; auto). f_equal.
    etransitivity; [|rewrite <- (map_nth_seq d l0) at 1; reflexivity]. rewrite H. apply map_ext_in. intros i Hi. apply in_seq in Hi.
    rewrite nth_indep with (d' := nth (reverse_bits n 0) l0 d) by (rewrite map_length, seq_length; apply rev_bits_lt).
    rewrite (map_nth (fun i => nth (reverse_bits n i) l0 d)). rewrite seq_nth by apply rev_bits_lt. cbn [Nat.add]. rewrite rev_bits_inv by lia. reflexivity.
  Qed.
  Lemma flip_perm {A} (l : list A) n l' : length l = 2 ^ n -> flip_amplitudes l = Ok l' -> Permutation l' l.
  Proof.
    intros H. destruct l as [|d l]; [pose proof (pow2_pos n); cbn in H; lia|]. set (l0 := d :: l) in *.
    rewrite (flip_spec l0 n d H). intros [= <-]. transitivity (map (fun i => nth i l0 d) (seq 0 (length l0))); [|rewrite (map_nth_seq d l0); reflexivity]. rewrite H.
    rewrite <- (map_map (reverse_bits n) (fun i => nth i l0 d)). apply Permutation_map, rev_bits_perm.
  Qed.
  Lemma numprob_perm a b r1 r2 : Permutation a b -> numeric_probability F {| w_repr := r1; w_amps := a |} = numeric_probability F {| w_repr := r2; w_amps := b |}.
  Proof. unfold numeric_probability. cbn [w_amps]. induction 1; cbn [fold_right]; lra. Qed.

  (** Flipping a wavefunction always succeeds and only permutes the probabilities. *)
  Theorem C21_flip_wavefunction w : reachable Orc F w ->
    exists w', flip_wavefunction F w = Ok w' /\ flip_amplitudes (w_amps w) = Ok (w_amps w') /\
      Permutation (get_probabilities F w') (get_probabilities F w).
  Proof.
    intros Hw. pose proof (C19_reachable_valid w Hw) as ((n & L) & HA & HB).
    destruct (C21_bit_reversal (w_amps w) n L) as (l' & E & L' & _). pose proof (flip_perm _ _ _ L E) as P.
    unfold flip_wavefunction. rewrite E. cbn [rbind].
    destruct (mk_wf_total F l' n L') as (w' & Ew & Ea).
    { intros r. unfold norm_ok. rewrite (numprob_perm l' (w_amps w) r (w_repr w) P). replace {| w_repr := w_repr w; w_amps := w_amps w |} with w by (destruct w; reflexivity).
      assert (Q : all_numeric {| w_repr := r; w_amps := l' |} <-> all_numeric w).
      { unfold all_numeric. cbn [w_amps]. split; intros G e He; apply G; [apply (Permutation_in e (Permutation_sym P))|apply (Permutation_in e P)]; auto. }
      tauto. }
    exists w'. rewrite Ea. split; [auto|]. split; [auto|]. unfold get_probabilities. rewrite Ea. apply Permutation_map. auto.
  Qed.

  (** *** C22 *)
  Lemma label_spec n i : 1 <= n -> i < 2 ^ n -> outcome_label n i = rev (bits n i).
  Proof. intros Hn Hi. unfold outcome_label. change (zfill n (bin_digits (N.of_nat i))) with (basis_bitstring i n). rewrite basis_bitstring_bits; auto. Qed.
  Lemma log2_len w n : length (w_amps w) = 2 ^ n -> wf_n_qubits w = n.
  Proof. unfold wf_n_qubits. intros ->. apply Nat.log2_pow2. lia. Qed.
  (** get_outcome_probs has one entry per basis state b (qubit 0 = most significant bit of the index), labelled with the
      bits of b in reversed order, and holding the probability of b. *)
  Theorem C22_outcome_labels w n : 1 <= n -> length (w_amps w) = 2 ^ n ->
    get_outcome_probs F w = map (fun i => (rev (bits n i), nth i (get_probabilities F w) 0%R)) (seq 0 (2 ^ n)) /\
    forall b, length b = n -> dget (list_eqb Bool.eqb) (rev b) (get_outcome_probs F w) = nth_error (get_probabilities F w) (bval b).
  Proof.
    intros Hn L. assert (E : get_outcome_probs F w = map (fun i => (rev (bits n i), nth i (get_probabilities F w) 0%R)) (seq 0 (2 ^ n))).
    { unfold get_outcome_probs. rewrite (log2_len w n L), L.
      assert (LP : length (get_probabilities F w) = 2 ^ n) by (unfold get_probabilities; rewrite map_length; auto).
      assert (CE : combine (map (outcome_label n) (seq 0 (2 ^ n))) (get_probabilities F w) = map (fun i => (rev (bits n i), nth i (get_probabilities F w) 0%R)) (seq 0 (2 ^ n))).
      { rewrite <- (map_nth_seq 0%R (get_probabilities F w)) at 1. rewrite LP.
        rewrite (map_ext_in (outcome_label n) (fun i => rev (bits n i))) by (intros i Hi; apply in_seq in Hi; apply label_spec; lia).
        generalize (seq 0 (2 ^ n)). induction l as [|i l IH]; cbn; [auto|]. rewrite IH. reflexivity. }
      rewrite CE. apply dict_of_NoDup_id.
      - apply list_eqb_spec. intros [] []; cbn; split; congruence.
      - unfold dkeys. rewrite map_map. cbn [fst]. apply NoDup_map_in; [|apply seq_NoDup]. intros a b Ha Hb Eab. apply in_seq in Ha, Hb.
        apply (f_equal (@rev bool)) in Eab. rewrite !rev_involutive in Eab. apply (f_equal bval) in Eab. rewrite !bval_bits_small in Eab by lia. auto. }
    split; [auto|]. intros b Hb.
    assert (B : bval b < 2 ^ n) by (rewrite <- Hb; apply bval_lt).
    assert (LP : length (get_probabilities F w) = 2 ^ n) by (unfold get_probabilities; rewrite map_length; auto).
    rewrite (nth_error_nth' _ 0%R) by lia. apply In_dget.
    - apply list_eqb_spec. intros [] []; cbn; split; congruence.
    - rewrite E. unfold dkeys. rewrite map_map. cbn [fst]. apply NoDup_map_in; [|apply seq_NoDup]. intros x y Hx Hy Exy. apply in_seq in Hx, Hy.
      apply (f_equal (@rev bool)) in Exy. rewrite !rev_involutive in Exy. apply (f_equal bval) in Exy. rewrite !bval_bits_small in Exy by lia. auto.
    - rewrite E. apply in_map_iff. exists (bval b). split; [|apply in_seq; lia]. rewrite bits_bval_n by auto. reflexivity.
  Qed.

  (** Every sample is the bit list (qubit 0 first) of a basis state of positive probability. *)
  Theorem C22_samples choice w n n_samples s : 1 <= n -> length (w_amps w) = 2 ^ n -> samples_support choice ->
    sample_from_wavefunction F choice w n_samples = Ok s ->
    Z.of_nat (length s) = n_samples /\
    forall b, In b s -> length b = n /\ exists p, nth_error (get_probabilities F w) (bval b) = Some p /\ (0 < p)%R.
  Proof.
    intros Hn L HS. unfold sample_from_wavefunction. destruct (Z.ltb_spec n_samples 1); [discriminate|].
    destruct (C22_outcome_labels w n Hn L) as [E _]. rewrite E. rewrite !map_map. cbn [fst snd].
    destruct (choice _ _) as [pos|] eqn:Ch; cbn [rbind]; [|discriminate]. apply HS in Ch. destruct Ch as [Lp Pp].
    destruct (mapM _ pos) as [labels|] eqn:M; cbn [rbind]; [|discriminate]. intros [= <-].
    assert (LP : length (get_probabilities F w) = 2 ^ n) by (unfold get_probabilities; rewrite map_length; auto).
    split.
    - rewrite map_length. apply mapM_length in M. lia.
    - intros b Hb. apply in_map_iff in Hb. destruct Hb as (l & <- & Hl).
      assert (G : exists i, In i pos /\ match nth_error (map (fun x => rev (bits n x)) (seq 0 (2 ^ n))) i with Some l => Ok l | None => Err IndexError end = Ok l).
      { clear -M Hl. revert labels M Hl. induction pos as [|i pos IH]; intros labels M Hl; cbn in M.
        - injection M as <-. destruct Hl.
        - destruct (match nth_error _ i with Some _ => _ | None => _ end) eqn:X; cbn in M; [|discriminate]. destruct (mapM _ pos) eqn:Y; cbn in M; [|discriminate].
          injection M as <-. destruct Hl as [->|Hl]; [exists i; split; [left; auto|auto]|]. destruct (IH _ eq_refl Hl) as (k & K1 & K2). exists k. split; [right; auto|auto]. }
      destruct G as (i & Hi & X). rewrite nth_error_map in X.
      destruct (nth_error (seq 0 (2 ^ n)) i) as [k|] eqn:Sq; cbn in X; [|discriminate]. injection X as <-.
      assert (i < 2 ^ n). { assert (H1 : nth_error (seq 0 (2 ^ n)) i <> None) by congruence. apply nth_error_Some in H1. rewrite seq_length in H1. auto. }
      rewrite (nth_error_nth' _ 0) in Sq by (rewrite seq_length; auto). injection Sq as <-. rewrite seq_nth in * by auto. cbn [Nat.add].
      rewrite rev_involutive. split; [apply bits_length|]. rewrite bval_bits_small by auto.
      destruct (Pp i Hi) as (p & Ep & Hp). rewrite nth_error_map, (nth_error_nth' _ 0) in Ep by (rewrite seq_length; auto). rewrite seq_nth in Ep by auto. cbn in Ep.
      injection Ep as <-. eexists. split; [|exact Hp]. apply nth_error_nth'. lia.
  Qed.
  (** In particular a basis state is always sampled as itself. *)
  Corollary C22_basis_state_samples choice w n n_samples s b0 : 1 <= n -> length b0 = n -> length (w_amps w) = 2 ^ n -> samples_support choice ->
    (forall i p, nth_error (get_probabilities F w) i = Some p -> i <> bval b0 -> p = 0%R) ->
    sample_from_wavefunction F choice w n_samples = Ok s -> s = repeat b0 (Z.to_nat n_samples).
  Proof.
    intros Hn Hb L HS HB H. destruct (C22_samples _ _ _ _ _ Hn L HS H) as [Ls Hs].
    rewrite <- Ls, Nat2Z.id. clear H Ls. induction s as [|b s IH]; cbn; [auto|].
    assert (b = b0).
    { destruct (Hs b (or_introl eq_refl)) as (Lb & p & Ep & Hp). apply bval_inj; [congruence|]. destruct (Nat.eq_dec (bval b) (bval b0)); [auto|]. apply HB in Ep; [lra|auto]. }
    subst. f_equal. apply IH. intros; apply Hs; right; auto.
  Qed.
  Theorem C22_no_samples choice w n_samples : (n_samples < 1)%Z -> sample_from_wavefunction F choice w n_samples = Err ValueError.
  Proof. intros H. unfold sample_from_wavefunction. destruct (Z.ltb_spec n_samples 1); [reflexivity|lia]. Qed.
  (** For zero qubits the convention breaks down: the only outcome is labelled by one bit. *)
  Theorem C22_zero_qubits_refuted w e : w_amps w = [e] -> get_outcome_probs F w = [([false], cabs2 (amp_value F e))].
  Proof. intros H. unfold get_outcome_probs, wf_n_qubits, get_probabilities. rewrite H. reflexivity. Qed.
End Props.

(** *** The hypotheses are met *)
Example ex_dicke : map (weight 4) (filter (fun i => Nat.eqb (weight 4 i) 2) (seq 0 16)) = [2;2;2;2;2;2] /\ binomial 4 2 = 6 /\
  dicke_loop 17 4 3 [3%Z] = Ok [3; 5; 6; 9; 10; 12]%Z.
Proof. repeat split. Qed.
Example ex_flip : flip_amplitudes [0;1;2;3;4;5;6;7] = Ok [0;4;2;6;1;5;3;7].
Proof. reflexivity. Qed.
(** A symbolic wavefunction: [x, 0] can be constructed, and the write of a value of norm above one is rolled back. *)
Example ex_reachable F : exists w, mk_wf F [ESym "x"%string; ENum c0] = Ok w /\ w_repr w = RSympy /\ wf_setitem F w 1 (ENum (2, 0)%R) = (w, Err ValueError).
Proof.
  assert (E : mk_wf F [ESym "x"%string; ENum c0] = Ok {| w_repr := RSympy; w_amps := [ESym "x"%string; ENum c0] |}).
  { unfold mk_wf. cbn -[Rlt_dec]. destruct (Rlt_dec _ _) as [H|]; [|reflexivity]. exfalso. unfold prob_sum, amp_value, cabs2, c0 in H. cbn in H. lra. }
  eexists. split; [exact E|]. split; [reflexivity|]. unfold wf_setitem. cbn -[Rlt_dec].
  change (Pos.to_nat 1) with 1. cbn -[Rlt_dec].
  destruct (Rlt_dec _ _) as [|H]; [reflexivity|]. exfalso. apply H. unfold prob_sum, amp_value, cabs2. cbn. lra.
Qed.

Print Assumptions C19_reachable_valid.
Print Assumptions C19_slice_assignment_refuted.
Print Assumptions C20_dicke_state.
Print Assumptions C21_flip_wavefunction.
Print Assumptions C22_samples.
