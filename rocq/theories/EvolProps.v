(** Properties of evolution.py: evolution under one term (C54) and Trotter circuits with their derivatives (C55). *)
From Coq Require Import Reals Lra Lia Ring Arith String ZArith.
From Verif Require Import Base BaseFacts MatModel MatFacts LiftModel LiftSpec LiftProofs Cplx CircuitModel CircuitSpec CircuitProofs GateMatModel GateMatProofs
  DecompModel OpModel OpSpec OpProofs PauliProofs EstModel ConjProofs EstProofs EstProofs3 EstProofs4 EvolModel EvolSpec EvolProofs EvolProofs2 EvolProofs3 EvolProofs4 EvolProofs5 EvolProofs6.
Open Scope list_scope.
Local Open Scope nat_scope.

Section Props.
  Context {Num : Type} (angle : R -> Num) (T : time_ops Num) (O : sympy_oracle Num) (IR : interp (Num := Num) R) (IC : interp (Num := Num) C) (rho : sym -> R).
  Context (Hangle : forall r, i_num _ IR (angle r) = r) (HT : time_ops_sound IR rho T).
  Notation for_term := (time_evolution_for_term angle T).
  Notation evolve := (time_evolution angle T).
  Notation derivatives := (time_evolution_derivatives angle T).
  Notation run := (apply_ops O IR IC rho).
  Notation value := (eval_param IR rho).

  (** ** C54 *)
  Lemma is_exp_meq N A E F : is_exp N A E -> meq E F -> is_exp N A F.
  Proof.
    intros (E1 & E2 & E3) (M1 & M2 & M3). split; [congruence|]. split; [congruence|]. intros i j Hi Hj. rewrite <- M3 by congruence. auto.
  Qed.
  (** On every register of n qubits that holds the term, the circuit acts as the exponential of -i t c P. *)
  Theorem C54_term_evolution (t : term pauli) (c : C) time n : canonical t -> t <> [] -> snd c = 0%R -> (forall f, In f t -> fst f < n) ->
    exists circ, for_term [(t, c)] time = Ok circ /\ c_nq circ = span (map fst t) /\
    exists E, is_exp (2 ^ n) (mscale (K := CC) (0, - (value time * fst c))%R (term_matrix (K := CC) ci n t)) E /\
      forall v, vlen v = 2 ^ n -> exists w, run (c_ops circ) v = Ok w /\ veq w (mvmul E v).
  Proof.
    intros C1 Hn C2 C3. exists (term_circuit angle T time (t, c)). split; [apply for_term_circuit; auto|]. split; [destruct t; [congruence|reflexivity]|].
    assert (G : good_term n (t, c)) by (split; auto). exists (term_factor n (value time) (t, c)). split.
    - pose proof (term_factor_exp angle O IR IC rho Hangle n (value time) (t, c) G) as H. unfold term_exponential in H. cbn [fst snd] in H. destruct t; [congruence|exact H].
    - intros v Hv. apply (implements_run O IR IC rho n); auto. apply (term_implements angle T O IR IC rho Hangle HT); auto.
  Qed.
  (** The unitary of the circuit, on the qubits 0 up to the last qubit of the term. *)
  Theorem C54_term_unitary (t : term pauli) (c : C) time : canonical t -> t <> [] -> snd c = 0%R ->
    exists circ U, for_term [(t, c)] time = Ok circ /\ to_unitary O IR IC rho circ = Ok U /\
      let n := Z.to_nat (span (map fst t)) in is_exp (2 ^ n) (mscale (K := CC) (0, - (value time * fst c))%R (term_matrix (K := CC) ci n t)) U.
  Proof.
    intros C1 Hn C2. set (n := Z.to_nat (span (map fst t))).
    assert (C3 : forall f, In f t -> fst f < n) by (intros f Hf; pose proof (span_in (fst f) (map fst t) (in_map fst t f Hf)); unfold n; lia).
    assert (G : good_term n (t, c)) by (split; auto). set (circ := term_circuit angle T time (t, c)).
    assert (I : implements O IR IC rho n (c_ops circ) (term_factor n (value time) (t, c))) by (apply (term_implements angle T O IR IC rho Hangle HT); auto).
    assert (NQ : c_nq circ = Z.of_nat n) by (unfold n; rewrite Z2Nat.id by apply span_nonneg; destruct t; [congruence|reflexivity]).
    destruct I as (ms & E & EM). destruct (to_unitary_total O IR IC rho circ ms) as [U EU].
    { destruct t as [|f t]; [congruence|]. unfold circ, term_circuit; cbn [fst snd c_ops]. destruct (central_ops (Num := Num) (twice_times T time c) (f :: t) C1 Hn) as (q & Eq & _). rewrite Eq.
      intros F. apply app_eq_nil in F as [_ F]. apply app_eq_nil in F as [_ F]. discriminate. }
    { rewrite NQ. exact E. }
    exists circ, U. split; [apply for_term_circuit; auto|]. split; [exact EU|]. cbn zeta.
    apply (is_exp_meq _ _ (term_factor n (value time) (t, c))).
    - pose proof (term_factor_exp angle O IR IC rho Hangle n (value time) (t, c) G) as H. unfold term_exponential in H. cbn [fst snd] in H. destruct t; [congruence|exact H].
    - destruct (to_unitary_spec O IR IC rho circ U EU) as (ms' & E' & HU). rewrite NQ in E', HU. rewrite E in E'. injection E' as <-. symmetry.
      etransitivity; [|exact EM]. destruct HU as (_ & _ & HU). unfold pow2Z in HU. rewrite Nat2Z.id in HU. exact HU.
  Qed.
  (** A constant term gives the empty circuit, and anything but one term an error. *)
  Theorem C54_constant_term c time : for_term [([], c)] time = Ok (Build_circuit [] 0).
  Proof. reflexivity. Qed.
  Theorem C54_not_one_term op time : length op <> 1 -> for_term op time = Err ValueError.
  Proof. apply for_term_many. Qed.

  (** ** C55 *)
  Lemma real_good n (h : qop CC) : real_operator n h -> forall tc, In tc h -> good_term n tc.
  Proof. intros H [t c] Hin. apply (H t c Hin). Qed.
  (** The circuit is r repetitions of the term circuits for time t / r, in the order of the terms. *)
  Theorem C55_repetitions (h : qop CC) time r : canonical_operator h -> h <> [] -> (0 < r)%Z ->
    exists cs, mapM (fun tc => for_term [tc] (divided_by T time r)) h = Ok cs /\
      evolve h time "Trotter" r = Ok (concatenated (concat (repeat cs (Z.to_nat r)))).
  Proof.
    intros C Hn Hr. exists (slice angle T h (divided_by T time r)). split; [|apply evolution_circuit; auto].
    apply mapM_all. intros [t c] Hin. apply for_term_circuit. eapply C; eauto.
  Qed.
  (** What the circuit does to a state: the product of the exponentials of the terms for time t / r, r times. *)
  Theorem C55_trotter_product (h : qop CC) time r n : real_operator n h -> h <> [] -> (0 < r)%Z ->
    exists circ Es, evolve h time "Trotter" r = Ok circ /\ Forall2 (term_exponential n (value time / IZR r)) h Es /\
      forall v, vlen v = 2 ^ n -> exists w, run (c_ops circ) v = Ok w /\ veq w (mvmul (mpow (in_order (2 ^ n) Es) (Z.to_nat r)) v).
  Proof.
    intros C Hn Hr. assert (G := real_good n h C). set (x := (value time / IZR r)%R). exists (concatenated (concat (repeat (slice angle T h (divided_by T time r)) (Z.to_nat r)))), (map (term_factor n x) h).
    split; [apply evolution_circuit; auto; intros t c Hin; apply (C t c Hin)|]. split.
    - clear Hn. induction h as [|tc h IH]; cbn [map]; constructor; [apply (term_factor_exp angle O IR IC rho Hangle); apply G; left; auto|apply IH; [intros t c Hin; apply C; right; auto|intros; apply G; right; auto]].
    - intros v Hv. assert (SM : forall m, In m (map (term_factor n x) h) -> sq (2 ^ n) m) by (intros m Hm; apply in_map_iff in Hm as (tc & <- & _); apply term_factor_sq).
      assert (I := implements_concat O IR IC rho n _ _ (concat_Forall2 _ _ _ (Z.to_nat r) (slice_implements angle T O IR IC rho Hangle HT n x (divided_by T time r) h G ltac:(destruct HT as (_ & H2 & _); apply H2; lia)))).
      apply (implements_run O IR IC rho n); auto. eapply implements_meq; [exact I|]. apply in_order_repeat. exact SM.
  Qed.
  Theorem C55_other_methods (h : qop CC) time m r : m <> "Trotter"%string -> evolve h time m r = Err ValueError /\ derivatives h time m r = Err ValueError.
  Proof. intros H. unfold time_evolution, time_evolution_derivatives. destruct (String.eqb_spec m "Trotter"); [congruence|auto]. Qed.
  Theorem C55_nothing_to_reduce (h : qop CC) time r : h = [] \/ (r <= 0)%Z -> evolve h time "Trotter" r = Err TypeError.
  Proof.
    intros H. unfold time_evolution. cbn [String.eqb Ascii.eqb Bool.eqb negb]. unfold range_Z. destruct H as [->|H].
    - cbn [get_operators map]. induction (seq 0 (Z.to_nat r)); cbn; auto.
    - replace (Z.to_nat r) with 0 by lia. reflexivity.
  Qed.

  (** Numbers of circuits and factors: two for every term and every position, with factors + c / r and - c / r. *)
  Definition all_factors (h : qop CC) (r : Z) : list C := flat_map (fun tc => [(fst (snd tc) / IZR r, 0)%R; (- (fst (snd tc) / IZR r), 0)%R]) h.
  Definition nonzero (h : qop CC) : Prop := forall t c, In (t, c) h -> c <> c0.
  Definition shifted_of (time : param Num) (r : Z) (c : C) (s : R) : param Num := match shift_time T time r c s with Some p => p | None => time end.
  Lemma shifted_ok n (h : qop CC) time r : real_operator n h -> nonzero h -> r <> 0%Z -> forall t c s, In (t, c) h -> shift_time T time r c s = Some (shifted_of time r c s).
  Proof.
    intros C N Hr t c s Hin. unfold shifted_of. destruct (shift_time_value T IR rho HT time r c s Hr) as (p & -> & _); [apply (C t c Hin)|eapply N; eauto|reflexivity].
  Qed.
  Lemma factors_ok n (h : qop CC) time r sh : real_operator n h -> map fst (single angle T time r sh h) = all_factors h r.
  Proof.
    intros C. rewrite single_factors. unfold all_factors. assert (G := real_good n h C). clear C. induction h as [|[t c] h IH]; cbn [flat_map app]; [reflexivity|].
    rewrite IH by (intros; apply G; right; auto). destruct (G (t, c) (or_introl eq_refl)) as (_ & Hc & _). cbn [snd] in *. unfold factor_of. do 2 f_equal; [|f_equal]; apply c_eq; cbn; rewrite ?Hc; unfold Rdiv; ring.
  Qed.
  Theorem C55_derivative_counts (h : qop CC) time r n : real_operator n h -> nonzero h -> h <> [] -> (0 < r)%Z ->
    exists cs, derivatives h time "Trotter" r = Ok (cs, concat (repeat (all_factors h r) (Z.to_nat r))) /\ length cs = Z.to_nat r * (2 * length h) /\
      length (concat (repeat (all_factors h r) (Z.to_nat r))) = length cs.
  Proof.
    intros C N Hn Hr. rewrite (derivatives_circuits angle T h time r (shifted_of time r)); auto; [|intros t c Hin; apply (C t c Hin)|intros t c s Hin; apply (shifted_ok n h time r C N ltac:(lia) t c s Hin)].
    set (ds := single angle T (divided_by T time r) r (shifted_of time r) h).
    assert (EF : map fst (map (fun d => (fst d, concatenated (snd d))) ds) = all_factors h r) by (rewrite map_map; cbn [fst]; apply (factors_ok n); auto).
    assert (LF : length (all_factors h r) = 2 * length h) by (clear; unfold all_factors; induction h as [|tc h IH]; cbn [flat_map app length]; [reflexivity|rewrite IH; cbn; lia]).
    assert (LR : forall k, length (concat (repeat (all_factors h r) k)) = k * (2 * length h)) by (intros k; induction k as [|k IH]; cbn [repeat concat]; [auto|rewrite app_length, IH; lia]).
    destruct (Z.ltb_spec 1 r) as [H1|H1].
    - eexists. split; [rewrite EF; reflexivity|]. rewrite LR. split; [|symmetry]; (assert (LC : forall l, length (flat_map (fun position => map (fun d => sequence (concatenated (slice angle T h (divided_by T time 1))) (snd d) (Z.to_nat r) position) (map (fun d => (fst d, concatenated (snd d))) ds)) l) = length l * (2 * length h));
        [intros l; induction l as [|i l IH]; cbn [flat_map length]; [auto|]; rewrite app_length, IH, !map_length; unfold ds; rewrite single_length; lia|]; rewrite LC, seq_length; auto).
    - assert (r = 1%Z) as -> by lia. exists (map snd (map (fun d => (fst d, concatenated (snd d))) ds)). rewrite EF. change (Z.to_nat 1) with 1. cbn [repeat concat]. rewrite app_nil_r.
      split; [reflexivity|]. rewrite !map_length, LF. unfold ds. rewrite single_length. lia.
  Qed.
  (** With r > 1, the circuits are r slices one after the other, of which one is a circuit of the single-slice derivative. *)
  Theorem C55_derivative_sequences (h : qop CC) time r n : real_operator n h -> nonzero h -> h <> [] -> (1 < r)%Z ->
    exists cs ds rep, derivatives h time "Trotter" r = Ok (cs, concat (repeat (all_factors h r) (Z.to_nat r))) /\ length ds = 2 * length h /\
      evolve h time "Trotter" 1 = Ok rep /\
      forall position k c, position < Z.to_nat r -> nth_error ds k = Some c ->
        exists c', nth_error cs (position * (2 * length h) + k) = Some c' /\
          c_ops c' = flat_map (fun i => c_ops (if Nat.eqb i position then c else rep)) (seq 0 (Z.to_nat r)).
  Proof.
    intros C N Hn Hr. rewrite (derivatives_circuits angle T h time r (shifted_of time r)); auto; [|intros t c Hin; apply (C t c Hin)|lia|intros t c s Hin; apply (shifted_ok n h time r C N ltac:(lia) t c s Hin)].
    set (ds := single angle T (divided_by T time r) r (shifted_of time r) h).
    assert (EF : map fst (map (fun d => (fst d, concatenated (snd d))) ds) = all_factors h r) by (rewrite map_map; cbn [fst]; apply (factors_ok n); auto).
    destruct (Z.ltb_spec 1 r) as [_|H1]; [|lia].
    assert (LD : length ds = 2 * length h) by apply single_length.
    eexists _, (map (fun d => concatenated (snd d)) ds), (concatenated (slice angle T h (divided_by T time 1))).
    split; [rewrite EF; reflexivity|]. split; [rewrite map_length; exact LD|]. split.
    { rewrite evolution_circuit by (auto; try lia; intros t c Hin; apply (C t c Hin)). change (Z.to_nat 1) with 1. cbn [repeat concat]. rewrite app_nil_r. reflexivity. }
    intros position k c Hp Hk. set (rep := concatenated (slice angle T h (divided_by T time 1))). exists (sequence rep c (Z.to_nat r) position). split; [|reflexivity].
    rewrite nth_error_map in Hk. destruct (nth_error ds k) as [d|] eqn:Ed; [|discriminate]. cbn in Hk. injection Hk as <-.
    assert (Hkl : k < 2 * length h) by (rewrite <- LD; apply nth_error_Some; congruence).
    assert (G : forall m s, position < m -> nth_error (flat_map (fun p => map (fun d => sequence rep (snd d) (Z.to_nat r) p) (map (fun d => (fst d, concatenated (snd d))) ds)) (seq s m)) (position * (2 * length h) + k) =
      Some (sequence rep (concatenated (snd d)) (Z.to_nat r) (s + position))).
    { clear Hp. induction position as [|p IH]; intros m s Hm; destruct m as [|m]; try lia; cbn [seq flat_map].
      - rewrite nth_error_app1 by (rewrite !map_length; lia). cbn [Nat.mul Nat.add]. rewrite map_map, nth_error_map, Ed. cbn. rewrite Nat.add_0_r. reflexivity.
      - rewrite nth_error_app2 by (rewrite !map_length; lia). rewrite !map_length. replace (S p * (2 * length h) + k - length ds) with (p * (2 * length h) + k) by lia.
        rewrite IH by lia. do 2 f_equal. lia. }
    apply (G (Z.to_nat r) 0 Hp).
  Qed.
  (** A term with coefficient 0 is a division by zero. *)
  Theorem C55_zero_coefficient (h : qop CC) time r t c : canonical_operator h -> r <> 0%Z -> h = (t, c) :: tl h -> c = c0 ->
    derivatives h time "Trotter" r = Err ZeroDivisionError.
  Proof.
    intros C Hr Eh ->. unfold time_evolution_derivatives. cbn [String.eqb Ascii.eqb Bool.eqb negb]. rewrite get_terms by auto. rewrite Eh. cbn [map length seq combine flat_map app mapM fst snd].
    unfold derivative_circuit at 1. cbn [first_coefficient]. unfold c_div_Z, r_div_c. destruct (Z.eqb_spec r 0); [congruence|].
    destruct (Req_EM_T _ 0) as [_|N]; [reflexivity|]. exfalso. apply N. unfold cabs2; cbn. unfold Rdiv. ring.
  Qed.

  (** With one Trotter step the weighted sum of the outcomes of the circuits is the derivative of the outcome of the evolution. *)
  Lemma weighted (fs : list R) (ms : list (mat CC)) v N : length fs = length ms -> (forall m, In m ms -> sq N m) -> vlen v = N ->
    weighted_sum (map rc fs) (map (fun m => expectation_of m v) ms) = expectation_of (msum N (map (fun p => mscale (K := CC) (rc (fst p)) (snd p)) (combine fs ms))) v.
  Proof.
    intros L S Hv. rewrite (expectation_msum N); auto.
    - unfold weighted_sum. revert ms L S. induction fs as [|f fs IH]; intros [|m ms] L S; cbn [map combine fold_right fst snd] in *; auto; try discriminate. rewrite IH by (auto; intros; apply S; right; auto).
      rewrite (expectation_scale N); auto. apply S; left; auto.
    - intros m Hm. apply in_map_iff in Hm as ([f m'] & <- & Hin). apply in_combine_r in Hin. apply (S m' Hin).
  Qed.
  Theorem C55_derivative (h : qop CC) (time : R -> param Num) x n Obs v : real_operator n h -> nonzero h -> h <> [] -> (forall y, value (time y) = y) -> sq (2 ^ n) Obs -> vlen v = 2 ^ n ->
    exists (f : R -> C) cs fs gs,
      (forall y, exists circ, evolve h (time y) "Trotter" 1 = Ok circ /\ outcome O IR IC rho (c_ops circ) v Obs (f y)) /\
      derivatives h (time x) "Trotter" 1 = Ok (cs, fs) /\ Forall2 (fun c g => outcome O IR IC rho (c_ops c) v Obs g) cs gs /\
      has_derivative f x (weighted_sum fs gs).
  Proof.
    intros C N Hn Ht SO Hv. assert (G := real_good n h C). set (l := map (fun tc : term pauli * Cplx.C => (word_of n (fst tc), fst (snd tc))) h).
    assert (Wl : forall Pc, In Pc l -> wf_factor (2 ^ n) (fst Pc)).
    { intros Pc Hin. apply in_map_iff in Hin as ([t c] & <- & _). cbn [fst]. unfold word_of. destruct t; cbn [wf_factor]; [exact I|apply term_matrix_shape]. }
    assert (V1 : forall y, value (divided_by T (time y) 1) = y) by (intros y; destruct HT as (_ & H2 & _); rewrite H2 by lia; rewrite Ht; field).
    rewrite (derivatives_circuits angle T h (time x) 1 (shifted_of (time x) 1)); auto; [|intros t c Hin; apply (C t c Hin)|lia|intros t c s Hin; apply (shifted_ok n h (time x) 1 C N ltac:(lia) t c s Hin)].
    cbn [Z.ltb Z.compare Pos.compare Pos.compare_cont]. set (ds := single angle T (divided_by T (time x) 1) 1 (shifted_of (time x) 1) h).
    assert (SS := single_shifts angle T O IR IC rho Hangle HT n x (divided_by T (time x) 1) 1 (shifted_of (time x) 1) h G (V1 x)).
    assert (Sh : forall t c s, In (t, c) h -> (fst c * value (shifted_of (time x) 1 c s) = fst c * x + s * (PI / 4))%R).
    { intros t c s Hin. unfold shifted_of. destruct (shift_time_value T IR rho HT (time x) 1 c s ltac:(lia)) as (p & -> & E); [apply (C t c Hin)|eapply N; eauto|]. rewrite E, Ht. field. }
    specialize (SS Sh). match type of SS with Forall2 ?P _ _ => change (Forall2 P ds (shifts x l)) in SS end.
    exists (fun y => expectation_of (heisenberg (2 ^ n) Obs (scaled_by y l)) v).
    exists (map snd (map (fun d => (fst d, concatenated (snd d))) ds)), (map fst (map (fun d => (fst d, concatenated (snd d))) ds)), (map (fun s => expectation_of (heisenberg (2 ^ n) Obs (snd s)) v) (shifts x l)).
    split; [|split; [reflexivity|split]].
    - intros y. eexists. split; [apply evolution_circuit; auto; [intros t c Hin; apply (C t c Hin)|lia]|]. change (Z.to_nat 1) with 1. cbn [repeat concat]. rewrite app_nil_r.
      assert (I := implements_concat O IR IC rho n _ _ (slice_implements angle T O IR IC rho Hangle HT n y (divided_by T (time y) 1) h G (V1 y))).
      assert (HO := implements_outcome O IR IC rho n _ _ v Obs I Hv SO).
      replace (expectation_of (heisenberg (2 ^ n) Obs (scaled_by y l)) v) with (expectation_of (conj_by (in_order (2 ^ n) (map (term_factor n y) h)) Obs) v); [exact HO|].
      symmetry. apply (expectation_meq (2 ^ n)); [apply heisenberg_sq; auto|auto|]. etransitivity; [apply heisenberg_in_order; auto|].
      replace (map (fun Px => factor_mat (2 ^ n) (fst Px) (snd Px)) (scaled_by y l)) with (map (term_factor n y) h); [reflexivity|]. unfold scaled_by, l. rewrite !map_map. reflexivity.
    - rewrite map_map. cbn [snd]. clear -SS Hv SO. revert SS. generalize (shifts x l); intros sh SS. clearbody ds. induction SS as [|d s ds0 ss [_ I] F IH]; cbn [map]; constructor; auto.
      assert (HO := implements_outcome O IR IC rho n _ _ v Obs I Hv SO).
      match type of HO with outcome _ _ _ _ _ _ _ ?e => replace (expectation_of (heisenberg (2 ^ n) Obs (snd s)) v) with e; [exact HO|] end.
      symmetry. apply (expectation_meq (2 ^ n)); [apply heisenberg_sq; auto|auto|]. apply heisenberg_in_order; auto.
    - assert (PS := expectation_deriv (2 ^ n) _ x _ v Hv (parameter_shift (2 ^ n) Obs SO l x Wl)).
      match type of PS with has_derivative _ _ ?d => replace (weighted_sum _ _) with d; [exact PS|] end. symmetry.
      assert (EF : map fst (map (fun d => (fst d, concatenated (snd d))) ds) = map rc (map fst (shifts x l))).
      { rewrite !map_map. cbn [fst]. clear -SS. revert SS. generalize (shifts x l); intros sh SS. clearbody ds. induction SS as [|d s ds0 ss [E _] F IH]; cbn [map]; [reflexivity|]. rewrite IH, E. f_equal. apply c_eq; cbn; rewrite ?Rinv_1; ring. }
      rewrite EF. rewrite <- (map_map (fun s => heisenberg (2 ^ n) Obs (snd s)) (fun m => expectation_of m v)). rewrite (weighted _ _ v (2 ^ n)); auto.
      + unfold shifted_sum. f_equal. f_equal. generalize (shifts x l). intros ss. induction ss as [|s ss IH]; cbn [map combine fst snd]; [reflexivity|]. rewrite IH. reflexivity.
      + rewrite !map_length. reflexivity.
      + intros m Hm. apply in_map_iff in Hm as (s & <- & _). apply heisenberg_sq; auto.
  Qed.
  (** ** What does not hold *)
  (** A constant term contributes no phase: evolution under the term 1 for time pi leaves states alone instead of negating them. *)
  Theorem C54_constant_phase_refuted time : value time = PI ->
    exists circ, for_term [([], c1)] time = Ok circ /\
      exists E v w, is_exp 2 (mscale (K := CC) (0, - (value time * fst c1))%R (term_matrix (K := CC) ci 1 [])) E /\ vlen v = 2 /\ run (c_ops circ) v = Ok w /\ ~ veq w (mvmul E v).
  Proof.
    intros Ht. eexists. split; [reflexivity|]. exists (rotation 2 (term_matrix (K := CC) ci 1 []) PI), (plus_state 0), (plus_state 0). split; [|split; [reflexivity|split; [reflexivity|]]].
    - rewrite Ht. replace (PI * fst c1)%R with PI by (cbn; ring). apply rotation_is_exp; [split; reflexivity|]. cbn [term_matrix fold_right]. apply mmul_eye_l; reflexivity.
    - intros [_ F]. specialize (F 0 ltac:(cbn; lia)). cbn [vent mvmul nc rotation madd mscale eye bigsum term_matrix fold_right] in F. rewrite !rotation_ent in F by (cbn; lia).
      apply (f_equal fst) in F. cbn -[sqrt] in F. rewrite cos_PI, sin_PI, cos_0, sin_0 in F.
      assert (H : (0 < / sqrt 2)%R) by (apply Rinv_0_lt_compat, sqrt_lt_R0; lra). lra.
  Qed.

  Definition zed : qop CC := [(zword, c1)].
  Lemma zed_real : real_operator 1 zed.
  Proof. intros t c [E|[]]. injection E as <- <-. split; [|split; [reflexivity|intros f [<-|[]]; cbn; lia]]. cbn; split; [discriminate|auto]. Qed.
  Lemma zed_nonzero : nonzero zed.
  Proof. intros t c [E|[]] F. injection E as <- <-. apply (f_equal fst) in F. cbn in F. lra. Qed.
  Lemma zed_term p x : value p = x -> implements O IR IC rho 1 (c_ops (term_circuit angle T p (zword, c1))) (rotation 2 (term_matrix (K := CC) ci 1 zword) x).
  Proof.
    intros E. pose proof (term_implements angle T O IR IC rho Hangle HT 1 x p (zword, c1) (real_good 1 zed zed_real _ (or_introl eq_refl)) E) as H.
    unfold term_factor in H. cbn [fst snd zword word_of factor_mat] in H. replace (fst c1 * x)%R with x in H by (cbn; ring). exact H.
  Qed.
  Lemma zed_outcome (cs : list (circuit Num)) xs : Forall2 (fun c x => implements O IR IC rho 1 (c_ops c) (rotation 2 (term_matrix (K := CC) ci 1 zword) x)) cs xs ->
    outcome O IR IC rho (flat_map c_ops cs) (plus_state 0%R) (pauli_matrix (K := CC) ci Px) (rc (cos (2 * fold_left Rplus xs 0)%R)).
  Proof.
    intros F. assert (I : implements O IR IC rho 1 (c_ops (concatenated cs)) (in_order (2 ^ 1) (map (fun x => rotation 2 (term_matrix (K := CC) ci 1 zword) x) xs))).
    { apply implements_concat. clear -F. induction F; cbn [map]; constructor; auto. }
    destruct (implements_run O IR IC rho 1 _ _ (plus_state 0%R) I eq_refl) as (w & E & V). exists w. split; [exact E|].
    rewrite <- plus_expectation. symmetry. apply (expectation_veq 2); [split; reflexivity|destruct V as [-> _]; apply (in_order_sq 2); intros m Hm; apply in_map_iff in Hm as (z & <- & _); split; reflexivity|].
    etransitivity; [exact V|apply rotate_many].
  Qed.
  (** With two Trotter steps the weighted sum is not the derivative: for Z on one qubit at time pi / 2 the expectation value of X in the state (|0> + |1>) / sqrt 2
      has derivative 0, and the weighted sum is 2. *)
  Theorem C55_two_steps_refuted (time : R -> param Num) : (forall y, value (time y) = y) ->
    exists (h : qop CC) n Obs v (f : R -> C) cs fs gs, real_operator n h /\ nonzero h /\ h <> [] /\ sq (2 ^ n) Obs /\ vlen v = 2 ^ n /\
      (forall y, exists circ, evolve h (time y) "Trotter" 2 = Ok circ /\ outcome O IR IC rho (c_ops circ) v Obs (f y)) /\
      derivatives h (time (PI / 2)%R) "Trotter" 2 = Ok (cs, fs) /\ Forall2 (fun c g => outcome O IR IC rho (c_ops c) v Obs g) cs gs /\
      has_derivative f (PI / 2)%R c0 /\ weighted_sum fs gs = rc 2.
  Proof.
    intros Ht. set (x := (PI / 2)%R). set (sh := shifted_of (time x) 2).
    assert (DZ : forall p z, z <> 0%Z -> value (divided_by T p z) = (value p / IZR z)%R) by apply HT.
    assert (Sh : forall s, value (sh c1 s) = (x / 2 + s * (PI / 4))%R).
    { intros s. unfold sh, shifted_of. destruct (shift_time_value T IR rho HT (time x) 2 c1 s ltac:(lia) eq_refl (zed_nonzero zword c1 (or_introl eq_refl))) as (p & -> & E).
      rewrite Ht in E. cbn [fst c1 rc] in E. lra. }
    exists zed, 1, (pauli_matrix (K := CC) ci Px), (plus_state 0%R), (fun y => rc (cos (2 * y)%R)).
    set (rep := term_circuit angle T (divided_by T (time x) 1) (zword, c1)). set (up := term_circuit angle T (sh c1 1%R) (zword, c1)). set (dn := term_circuit angle T (sh c1 (-1)%R) (zword, c1)).
    assert (Irep : implements O IR IC rho 1 (c_ops rep) (rotation 2 (term_matrix (K := CC) ci 1 zword) x)) by (apply zed_term; rewrite DZ, Ht by lia; field).
    assert (Iup : implements O IR IC rho 1 (c_ops up) (rotation 2 (term_matrix (K := CC) ci 1 zword) (x / 2 + 1 * (PI / 4))%R)) by (apply zed_term; apply Sh).
    assert (Idn : implements O IR IC rho 1 (c_ops dn) (rotation 2 (term_matrix (K := CC) ci 1 zword) (x / 2 + -1 * (PI / 4))%R)) by (apply zed_term; apply Sh).
    eexists _, _, [rc (cos (2 * (x + 0 * x + x / 2 + 1 * (PI / 4)))); rc (cos (2 * (x + x / 2 + -1 * (PI / 4)))); rc (cos (2 * (x + x / 2 + 1 * (PI / 4)))); rc (cos (2 * (x + x / 2 + -1 * (PI / 4))))]%R.
    split; [apply zed_real|]. split; [apply zed_nonzero|]. split; [discriminate|]. split; [split; reflexivity|]. split; [reflexivity|]. split; [|split; [|split; [|split]]].
    - intros y. eexists. split; [apply evolution_circuit; [intros t c Hin; apply (zed_real t c Hin)|discriminate|lia]|].
      assert (Iy : implements O IR IC rho 1 (c_ops (term_circuit angle T (divided_by T (time y) 2) (zword, c1))) (rotation 2 (term_matrix (K := CC) ci 1 zword) (y / 2)%R)) by (apply zed_term; rewrite DZ, Ht by lia; reflexivity).
      replace (cos (2 * y)%R) with (cos (2 * fold_left Rplus [y / 2; y / 2]%R 0%R)%R) by (f_equal; cbn; field).
      apply (zed_outcome [term_circuit angle T (divided_by T (time y) 2) (zword, c1); term_circuit angle T (divided_by T (time y) 2) (zword, c1)]). repeat constructor; exact Iy.
    - rewrite (derivatives_circuits angle T zed (time x) 2 sh); [cbn [Z.ltb Z.compare Pos.compare Pos.compare_cont]; reflexivity|intros t c Hin; apply (zed_real t c Hin)|lia|discriminate|].
      intros t c s Hin. apply (shifted_ok 1 zed (time x) 2 zed_real zed_nonzero ltac:(lia) t c s Hin).
    - change (Z.to_nat 2) with 2. cbn [seq flat_map zed single map app fst snd sequence c_ops Nat.eqb].
      repeat constructor.
      + replace (2 * (x + 0 * x + x / 2 + 1 * (PI / 4)))%R with (2 * fold_left Rplus [x / 2 + 1 * (PI / 4); x]%R 0)%R by (cbn; ring). apply (zed_outcome [up; rep]). repeat constructor; auto.
      + replace (2 * (x + x / 2 + -1 * (PI / 4)))%R with (2 * fold_left Rplus [x / 2 + -1 * (PI / 4); x]%R 0)%R by (cbn; ring). apply (zed_outcome [dn; rep]). repeat constructor; auto.
      + replace (2 * (x + x / 2 + 1 * (PI / 4)))%R with (2 * fold_left Rplus [x; x / 2 + 1 * (PI / 4)] 0)%R by (cbn; ring). apply (zed_outcome [rep; up]). repeat constructor; auto.
      + replace (2 * (x + x / 2 + -1 * (PI / 4)))%R with (2 * fold_left Rplus [x; x / 2 + -1 * (PI / 4)] 0)%R by (cbn; ring). apply (zed_outcome [rep; dn]). repeat constructor; auto.
    - split; cbn [fst snd rc c0].
      + replace 0%R with (- sin (2 * x) * 2)%R by (unfold x; replace (2 * (PI / 2))%R with PI by field; rewrite sin_PI; ring).
        apply (derivable_pt_lim_comp (fun y => (2 * y)%R) cos); [|apply derivable_pt_lim_cos].
        assert (D := derivable_pt_lim_scal id 2 x 1 (derivable_pt_lim_id x)). rewrite Rmult_1_r in D. exact D.
      + apply derivable_pt_lim_const.
    - change (Z.to_nat 2) with 2. cbn [zed single map fst snd repeat concat app weighted_sum combine fold_right]. unfold weighted_sum. cbn [combine map fst snd fold_right].
      replace (2 * (x + 0 * x + x / 2 + 1 * (PI / 4)))%R with (2 * PI)%R by (unfold x; field). replace (2 * (x + x / 2 + 1 * (PI / 4)))%R with (2 * PI)%R by (unfold x; field).
      replace (2 * (x + x / 2 + -1 * (PI / 4)))%R with PI by (unfold x; field). rewrite cos_2PI, cos_PI. unfold factor_of. apply c_eq; cbn; field.
  Qed.
End Props.

(** ** Concrete cases *)
Section Examples.
  Definition xO : sympy_oracle R := {| order := fun m => m; simp := fun e => e; num_is_real := fun _ => true |}.
  Definition xIR : interp (Num := R) R := {| i_num := fun r : R => r; i_fun := fun _ _ => 0%R |}.
  Definition xIC : interp (Num := R) C := {| i_num := fun r : R => rc r; i_fun := fun _ _ => c0 |}.
  Definition xrho : sym -> R := fun _ => 0%R.
  Definition xT : time_ops R := {|
    twice_times := fun p c => PNum (2 * eval_param xIR xrho p * fst c)%R;
    divided_by := fun p z => PNum (eval_param xIR xrho p / IZR z)%R;
    plus_number := fun p c => PNum (eval_param xIR xrho p + fst c)%R |}.
  Example angles_ok : forall r, i_num _ xIR r = r.
  Proof. reflexivity. Qed.
  Example times_ok : time_ops_sound xIR xrho xT.
  Proof. repeat split. Qed.
  (** 0.5 X0 Y2 Z3 + 3 Z1 - 2 *)
  Definition xh : qop CC := [([(0, Px); (2, Py); (3, Pz)], rc (1 / 2)); ([(1, Pz)], rc 3); ([], rc (-2))].
  Example xh_real : real_operator 4 xh.
  Proof.
    intros t c [E|[E|[E|[]]]]; injection E as <- <-; (split; [cbn; repeat split; try discriminate; lia|split; [reflexivity|]]); intros f Hf; cbn in Hf;
      repeat match goal with H : _ \/ _ |- _ => destruct H as [<-|H] end; try contradiction; cbn; lia.
  Qed.
  Example xh_nonzero : nonzero xh.
  Proof. intros t c [E|[E|[E|[]]]] F; injection E as <- <-; apply (f_equal fst) in F; cbn in F; lra. Qed.
  Example evolution_of_a_word := C54_term_evolution (fun r => r) xT xO xIR xIC xrho angles_ok times_ok [(0, Px); (2, Py); (3, Pz)] (rc (1 / 2)) (PNum 1%R) 4
    (proj1 (xh_real _ _ (or_introl eq_refl))) ltac:(discriminate) eq_refl (proj2 (proj2 (xh_real _ _ (or_introl eq_refl)))).
  Example trotter_product := C55_trotter_product (fun r => r) xT xO xIR xIC xrho angles_ok times_ok xh (PNum 1%R) 3 4 xh_real ltac:(discriminate) eq_refl.
  Example derivative_counts := C55_derivative_counts (fun r => r) xT xIR xrho angles_ok times_ok xh (PNum 1%R) 3 4 xh_real xh_nonzero ltac:(discriminate) eq_refl.
  Example derivative_rule := C55_derivative (fun r => r) xT xO xIR xIC xrho angles_ok times_ok xh (fun y => PNum y) (1 / 3) 4 (eye (K := CC) 16) (of_list (K := CC) (repeat c1 16))
    xh_real xh_nonzero ltac:(discriminate) (fun _ => eq_refl) (conj eq_refl eq_refl) eq_refl.
  Example two_steps := C55_two_steps_refuted (fun r => r) xT xO xIR xIC xrho angles_ok times_ok (fun y => PNum y) (fun _ => eq_refl).
End Examples.

Print Assumptions C54_term_unitary.
Print Assumptions C55_trotter_product.
Print Assumptions C55_derivative.
Print Assumptions C55_two_steps_refuted.
