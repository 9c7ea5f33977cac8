(** Evolution circuits: what the circuits of time_evolution and time_evolution_derivatives do. *)
From Coq Require Import Reals Lra Lia Ring Arith String ZArith.
From Verif Require Import Base BaseFacts MatModel MatFacts LiftModel LiftSpec LiftProofs Cplx CircuitModel CircuitSpec CircuitProofs GateMatModel GateMatProofs
  DecompModel OpModel OpSpec OpProofs PauliProofs EstModel ConjProofs EstProofs EstProofs3 EstProofs4 EvolModel EvolSpec EvolProofs EvolProofs2 EvolProofs3 EvolProofs4.
Open Scope list_scope.
Local Open Scope nat_scope.

(** ** Expectation values *)
Lemma expectation_double N A v : sq N A -> vlen v = N ->
  expectation_of A v = bigsum (K := CC) N (fun i => bigsum (K := CC) N (fun j => cmul (cmul (cconj (vent v i)) (vent v j)) (ent A i j))).
Proof.
  intros [A1 A2] Hv. unfold expectation_of, inner. rewrite Hv. apply (bigsum_ext (K := CC)). intros i Hi. cbn [vent mvmul]. rewrite A2.
  etransitivity; [apply (bigsum_mul_l (K := CC))|]. apply (bigsum_ext (K := CC)). intros j Hj. cbn. c_ring.
Qed.
Lemma expectation_meq N A B v : sq N A -> vlen v = N -> meq A B -> expectation_of A v = expectation_of B v.
Proof.
  intros SA Hv E. assert (SB := sq_meq N _ _ E SA). rewrite !(expectation_double N) by auto. destruct E as (_ & _ & E). destruct SA as [S1 S2]. apply (bigsum_ext (K := CC)). intros i Hi. apply (bigsum_ext (K := CC)). intros j Hj.
  rewrite E by congruence. reflexivity.
Qed.
Lemma expectation_veq N A v w : sq N A -> vlen v = N -> veq v w -> expectation_of A v = expectation_of A w.
Proof.
  intros SA Hv [E1 E2]. rewrite (expectation_double N A v), (expectation_double N A w) by (auto; congruence). apply (bigsum_ext (K := CC)). intros i Hi. apply (bigsum_ext (K := CC)). intros j Hj.
  rewrite !E2 by congruence. reflexivity.
Qed.
Lemma expectation_conj N A U v : sq N A -> sq N U -> vlen v = N -> expectation_of A (mvmul U v) = expectation_of (conj_by U A) v.
Proof.
  intros SA SU Hv. rewrite (expectation_double N) by (auto; cbn; apply SU). rewrite (expectation_double N) by (auto using sq_conj).
  transitivity (bigsum (K := CC) N (fun i => bigsum (K := CC) N (fun j => bigsum (K := CC) N (fun a => bigsum (K := CC) N (fun b =>
    cmul (cmul (cconj (ent U i a)) (cconj (vent v a))) (cmul (cmul (ent U j b) (vent v b)) (ent A i j))))))).
  - apply (bigsum_ext (K := CC)). intros i Hi. apply (bigsum_ext (K := CC)). intros j Hj. cbn [vent mvmul]. destruct SU as [_ ->].
    change (cconj ?x) with (@kconj CC x). rewrite (bigsum_conj (K := CC)). change cmul with (@kmul CC).
    rewrite (bigsum_mul_r (K := CC)), (bigsum_mul_r (K := CC)). apply (bigsum_ext (K := CC)). intros a Ha.
    rewrite (bigsum_mul_l (K := CC)), (bigsum_mul_r (K := CC)). apply (bigsum_ext (K := CC)). intros b Hb. cbn. c_ring.
  - transitivity (bigsum (K := CC) N (fun a => bigsum (K := CC) N (fun b => bigsum (K := CC) N (fun i => bigsum (K := CC) N (fun j =>
      cmul (cmul (cconj (ent U i a)) (cconj (vent v a))) (cmul (cmul (ent U j b) (vent v b)) (ent A i j))))))).
    + transitivity (bigsum (K := CC) N (fun i => bigsum (K := CC) N (fun a => bigsum (K := CC) N (fun b => bigsum (K := CC) N (fun j =>
        cmul (cmul (cconj (ent U i a)) (cconj (vent v a))) (cmul (cmul (ent U j b) (vent v b)) (ent A i j))))))).
      * apply (bigsum_ext (K := CC)). intros i Hi. etransitivity; [apply (bigsum_swap (K := CC))|]. apply (bigsum_ext (K := CC)). intros a Ha. apply (bigsum_swap (K := CC)).
      * etransitivity; [apply (bigsum_swap (K := CC))|]. apply (bigsum_ext (K := CC)). intros a Ha. apply (bigsum_swap (K := CC)).
    + apply (bigsum_ext (K := CC)). intros a Ha. apply (bigsum_ext (K := CC)). intros b Hb. change (conj_by U A) with (form U U A). rewrite (form_ent N) by auto.
      symmetry. etransitivity; [apply (bigsum_mul_l (K := CC))|]. apply (bigsum_ext (K := CC)). intros i Hi. etransitivity; [apply (bigsum_mul_l (K := CC))|]. apply (bigsum_ext (K := CC)). intros j Hj. cbn. c_ring.
Qed.
Lemma expectation_deriv N F x D v : vlen v = N -> mderiv N F x D -> has_derivative (fun y => expectation_of (F y) v) x (expectation_of D v).
Proof.
  intros Hv (F1 & F2 & F3). rewrite (expectation_double N) by auto. eapply hd_ext; [intros y; symmetry; apply (expectation_double N); auto|].
  apply (hd_sum N (fun i y => bigsum (K := CC) N (fun j => cmul (cmul (cconj (vent v i)) (vent v j)) (ent (F y) i j)))). intros i Hi.
  apply (hd_sum N (fun j y => cmul (cmul (cconj (vent v i)) (vent v j)) (ent (F y) i j))). intros j Hj.
  assert (H := hd_mul _ _ _ _ _ (hd_const (cmul (cconj (vent v i)) (vent v j)) x) (F3 i j Hi Hj)). cbn beta in H.
  match type of H with has_derivative _ _ ?d => replace (cmul (cmul (cconj (vent v i)) (vent v j)) (ent D i j)) with d by c_ring end. exact H.
Qed.
Lemma expectation_msum N (ms : list (mat CC)) v : (forall m, In m ms -> sq N m) -> vlen v = N ->
  expectation_of (msum N ms) v = fold_right cadd c0 (map (fun m => expectation_of m v) ms).
Proof.
  intros H Hv. induction ms as [|m ms IH]; cbn [msum map fold_right].
  - rewrite (expectation_double N) by (auto; split; reflexivity). apply (bigsum_0 (K := CC)). intros i Hi. apply (bigsum_0 (K := CC)). intros j Hj. cbn. c_ring.
  - assert (SM := H m (or_introl eq_refl)). assert (SS : sq N (msum N ms)) by (apply msum_sq; intros; apply H; right; auto). rewrite <- IH by (intros; apply H; right; auto).
    rewrite (expectation_double N (madd m (msum N ms))), (expectation_double N m), (expectation_double N (msum N ms)) by auto. symmetry. etransitivity; [symmetry; apply (bigsum_add (K := CC))|].
    apply (bigsum_ext (K := CC)). intros i Hi. etransitivity; [symmetry; apply (bigsum_add (K := CC))|]. apply (bigsum_ext (K := CC)). intros j Hj. cbn. c_ring.
Qed.
Lemma expectation_scale N (c : C) A v : sq N A -> vlen v = N -> expectation_of (mscale (K := CC) c A) v = cmul c (expectation_of A v).
Proof.
  intros SA Hv. rewrite (expectation_double N (mscale (K := CC) c A)), (expectation_double N A) by auto. symmetry. etransitivity; [apply (bigsum_mul_l (K := CC))|].
  apply (bigsum_ext (K := CC)). intros i Hi. etransitivity; [apply (bigsum_mul_l (K := CC))|]. apply (bigsum_ext (K := CC)). intros j Hj. cbn. c_ring.
Qed.

(** ** Products of the matrices of the steps *)
Lemma in_order_sq N ms : (forall m, In m ms -> sq N m) -> sq N (in_order N ms).
Proof. induction ms as [|m ms IH]; intros H; cbn [in_order]; [apply sq_eye|apply sq_mmul; [apply IH; intros; apply H; right; auto|apply H; left; auto]]. Qed.
Lemma in_order_app N a b : (forall m, In m (a ++ b) -> sq N m) -> meq (in_order N (a ++ b)) (mmul (in_order N b) (in_order N a)).
Proof.
  induction a as [|m a IH]; intros H; cbn [app in_order].
  - symmetry. apply eye_r_sq, in_order_sq. auto.
  - assert (Ha : sq N (in_order N a)) by (apply in_order_sq; intros; apply H; right; apply in_app_iff; auto).
    assert (Hb : sq N (in_order N b)) by (apply in_order_sq; intros; apply H; right; apply in_app_iff; auto).
    assert (Hm : sq N m) by (apply H; left; auto).
    assert (Hab : sq N (in_order N (a ++ b))) by (apply in_order_sq; intros; apply H; right; auto).
    etransitivity; [apply (mmul_sq N); [exact Hab|exact Hm|apply IH; intros; apply H; right; auto|reflexivity]|]. apply (assoc_sq N); auto.
Qed.
Lemma in_order_repeat N l r : (forall m, In m l -> sq N m) -> meq (in_order N (concat (repeat l r))) (mpow (in_order N l) r).
Proof.
  intros H. assert (S := in_order_sq N l H). induction r as [|r IH]; cbn [repeat concat mpow].
  - destruct S as [-> _]. reflexivity.
  - assert (Hc : forall k m, In m (concat (repeat l k)) -> sq N m).
    { intros k m Hm. apply in_concat in Hm as (x & Hx & Hm). apply repeat_spec in Hx. subst x. auto. }
    etransitivity; [apply in_order_app; intros m Hm; apply in_app_iff in Hm as [Hm|Hm]; eauto|].
    apply (mmul_sq N); auto; [apply in_order_sq; apply Hc|reflexivity].
Qed.

Section Circ.
  Context {Num : Type} (angle : R -> Num) (T : time_ops Num) (O : sympy_oracle Num) (IR : interp (Num := Num) R) (IC : interp (Num := Num) C) (rho : sym -> R).
  Context (Hangle : forall r, i_num _ IR (angle r) = r) (HT : time_ops_sound IR rho T).
  Notation run := (apply_ops O IR IC rho).
  Notation impl := (implements O IR IC rho).
  Notation outcome := (outcome O IR IC rho).

  Definition word_of (n : nat) (t : term pauli) : option (mat CC) := match t with [] => None | _ => Some (term_matrix (K := CC) ci n t) end.
  Definition term_factor (n : nat) (x : R) (tc : term pauli * C) : mat CC := factor_mat (2 ^ n) (word_of n (fst tc)) (fst (snd tc) * x).
  Definition good_term (n : nat) (tc : term pauli * C) : Prop := canonical (fst tc) /\ snd (snd tc) = 0%R /\ forall f, In f (fst tc) -> fst f < n.
  Lemma term_implements n x time tc : good_term n tc -> eval_param IR rho time = x -> impl n (c_ops (term_circuit angle T time tc)) (term_factor n x tc).
  Proof.
    destruct tc as [t c]. intros (C1 & C2 & C3) E. unfold term_circuit, term_factor; cbn [fst snd] in *. destruct t as [|f t]; [apply implements_nil|].
    cbn [c_ops word_of factor_mat]. apply term_operations; auto; [discriminate|]. destruct HT as (H1 & _). rewrite H1 by auto. rewrite E. ring.
  Qed.
  Lemma term_factor_exp n x tc : good_term n tc -> term_exponential n x tc (term_factor n x tc).
  Proof.
    destruct tc as [t c]. intros (C1 & C2 & C3). unfold term_exponential, term_factor; cbn [fst snd] in *. destruct t as [|f t]; [reflexivity|].
    cbn [word_of factor_mat]. rewrite (Rmult_comm x). apply rotation_is_exp; [apply term_matrix_shape|]. eapply (word_square angle O IR IC rho Hangle); auto.
  Qed.
  Lemma term_factor_sq n x tc : sq (2 ^ n) (term_factor n x tc). Proof. apply factor_sq. Qed.
  Lemma implements_concat n (cs : list (circuit Num)) ms : Forall2 (fun c m => impl n (c_ops c) m) cs ms -> impl n (c_ops (concatenated cs)) (in_order (2 ^ n) ms).
  Proof.
    unfold concatenated; cbn [c_ops]. induction 1 as [|c m cs ms H F IH]; cbn [flat_map in_order]; [apply implements_nil|]. apply implements_app; auto.
  Qed.
  Lemma implements_gates n ops A : impl n ops A -> Forall (fun o : operation Num => match o with GateOp _ _ => True | _ => False end) ops.
  Proof.
    intros (ms & E & _). apply Forall_forall. intros o Ho. assert (exists m, lifted_matrix O IR IC rho o (Z.of_nat n) = Ok m) as [m Hm].
    { revert ms E. induction ops as [|x ops IH]; [destruct Ho|]. cbn [mapM]. intros ms E. destruct (lifted_matrix O IR IC rho x (Z.of_nat n)) as [m|] eqn:Ex; cbn [rbind] in E; [|discriminate].
      destruct (mapM _ ops) as [ms'|]; cbn [rbind] in E; [|discriminate]. destruct Ho as [->|Ho]; [eauto|]. apply (IH Ho ms'); auto. }
    destruct o; [exact I|discriminate].
  Qed.
  Lemma implements_run n ops A v : impl n ops A -> vlen v = 2 ^ n -> exists w, run ops v = Ok w /\ veq w (mvmul A v).
  Proof.
    intros I Hv. assert (S := implements_sq _ _ _ _ _ _ _ I). assert (G := implements_gates _ _ _ I). destruct I as (ms & E & EA).
    pose proof (apply_ops_spec O IR IC rho n ops G v Hv) as H. rewrite E in H. destruct H as (w & H1 & H2 & H3). exists w. split; [auto|].
    rewrite H3. apply mvmul_ext; [|exact EA|reflexivity]. destruct EA as (_ & -> & _). destruct S as [_ ->]. auto.
  Qed.
  Lemma implements_outcome n ops A v Obs : impl n ops A -> vlen v = 2 ^ n -> sq (2 ^ n) Obs -> outcome ops v Obs (expectation_of (conj_by A Obs) v).
  Proof.
    intros I Hv SO. assert (S := implements_sq _ _ _ _ _ _ _ I). destruct (implements_run n ops A v I Hv) as (w & E & V). exists w. split; [auto|].
    rewrite <- (expectation_conj (2 ^ n)) by auto. symmetry. apply (expectation_veq (2 ^ n)); auto. destruct V as [-> _]. apply S.
  Qed.
  Lemma heisenberg_in_order N Obs l : sq N Obs -> meq (heisenberg N Obs l) (conj_by (in_order N (map (fun Px => factor_mat N (fst Px) (snd Px)) l)) Obs).
  Proof.
    intros SO. induction l as [|[P x] l IH]; cbn [heisenberg map in_order fst snd].
    - symmetry. apply conj_eye. auto.
    - assert (SI : sq N (in_order N (map (fun Px => factor_mat N (fst Px) (snd Px)) l))).
      { apply in_order_sq. intros m Hm. apply in_map_iff in Hm as (y & <- & _). apply factor_sq. }
      etransitivity; [|symmetry; apply (conj_comp N); auto using factor_sq]. apply (conj_ext N); auto using factor_sq, heisenberg_sq.
  Qed.

  (** *** time_evolution *)
  Lemma slice_implements n x time h : (forall tc, In tc h -> good_term n tc) -> eval_param IR rho time = x ->
    Forall2 (fun c m => impl n (c_ops c) m) (slice angle T h time) (map (term_factor n x) h).
  Proof.
    intros H E. induction h as [|tc h IH]; cbn [slice map]; constructor; [apply term_implements; auto; apply H; left; auto|apply IH; intros; apply H; right; auto].
  Qed.
  Lemma concat_Forall2 {A B} (P : A -> B -> Prop) l m k : Forall2 P l m -> Forall2 P (concat (repeat l k)) (concat (repeat m k)).
  Proof. intros H. induction k as [|k IH]; cbn; [constructor|]. apply Forall2_app; auto. Qed.

  (** *** time_evolution_derivatives *)
  Definition shift_time (time : param Num) (order : Z) (c : C) (factor : R) : option (param Num) :=
    match c_div_Z c order with
    | None => None
    | Some r => match r_div_c PI (cmul (rc 4) r) with None => None | Some x => Some (divided_by T (plus_number T time (cmul (rc factor) x)) order) end
    end.
  Lemma cabs2_0 c : cabs2 c = 0%R -> c = c0.
  Proof. intros H. unfold cabs2 in H. apply c_eq; cbn; nra. Qed.
  Lemma shift_time_value time order c factor : order <> 0%Z -> snd c = 0%R -> c <> c0 -> exists p, shift_time time order c factor = Some p /\
    (fst c * eval_param IR rho p = fst c * (eval_param IR rho time / IZR order) + factor * (PI / 4))%R.
  Proof.
    intros Ho Hc Hn. unfold shift_time, c_div_Z, r_div_c. destruct (Z.eqb_spec order 0); [congruence|].
    assert (Ho' : IZR order <> 0%R) by (apply IZR_neq; auto). assert (Hf : fst c <> 0%R) by (intros E; apply Hn; apply c_eq; auto).
    destruct (Req_EM_T _ 0) as [E|_].
    - exfalso. apply cabs2_0 in E. apply (f_equal fst) in E. cbn in E. rewrite Hc in E. unfold Rdiv in E. rewrite !Rmult_0_l, Rminus_0_r in E.
      apply Rmult_integral in E as [E|E]; [lra|]. apply Rmult_integral in E as [E|E]; [auto|]. revert E. apply Rinv_neq_0_compat. auto.
    - eexists. split; [reflexivity|]. destruct HT as (_ & H2 & H3). rewrite H2 by auto.
      assert (SN : (snd (cmul (rc 4) (fst c / IZR order, snd c / IZR order)) = 0)%R) by (cbn; rewrite Hc; unfold Rdiv; ring).
      rewrite H3.
      + unfold cabs2. rewrite SN. cbn [fst snd cmul rc]. field. split; auto.
      + cbn [fst snd cmul rc] in *. rewrite Hc. unfold Rdiv. ring.
  Qed.
  Definition factor_of (c : C) (order : Z) (factor : R) : C := cmul (fst c / IZR order, snd c / IZR order)%R (rc factor).
  Definition with_shift (k : nat) (h : qop CC) (time : param Num) (i : nat) (p : param Num) : list (circuit Num) :=
    map (fun jt => term_circuit angle T (if Nat.eqb i (fst jt) then p else time) (snd jt)) (combine (seq k (length h)) h).
  Lemma derivative_one (h : qop CC) time order i t c factor p : canonical_operator h -> order <> 0%Z ->
    shift_time time order c factor = Some p ->
    derivative_circuit angle T (map (fun tc => [tc]) h) time order i [(t, c)] factor =
      Ok (factor_of c order factor, concatenated (with_shift 0 h (divided_by T time order) i p)).
  Proof.
    clear HT Hangle.
    intros C Ho E. unfold derivative_circuit, shift_time in *. cbn [first_coefficient]. unfold c_div_Z in *. destruct (Z.eqb_spec order 0); [congruence|].
    destruct (r_div_c PI _) as [x|]; [|discriminate]. injection E as <-. cbn [mk_circuit circuit_size_by_operations rbind].
    rewrite (fold_add (fun jt : nat * qop CC => time_evolution_for_term angle T (snd jt) (if Nat.eqb i (fst jt) then divided_by T (plus_number T time (cmul (rc factor) x)) order else divided_by T time order))
      (fun jt : nat * qop CC => match snd jt with [tc] => term_circuit angle T (if Nat.eqb i (fst jt) then divided_by T (plus_number T time (cmul (rc factor) x)) order else divided_by T time order) tc | _ => Build_circuit [] 0 end)).
    - cbn [rbind]. unfold factor_of. do 2 f_equal.
      assert (EE : forall k, map (fun jt : nat * qop CC => match snd jt with [tc] => term_circuit angle T (if Nat.eqb i (fst jt) then divided_by T (plus_number T time (cmul (rc factor) x)) order else divided_by T time order) tc | _ => Build_circuit [] 0 end)
        (combine (seq k (length (map (fun tc => [tc]) h))) (map (fun tc => [tc]) h)) = with_shift k h (divided_by T time order) i (divided_by T (plus_number T time (cmul (rc factor) x)) order)).
      { clear. unfold with_shift. induction h as [|tc h IH]; intros k; cbn [map length seq combine]; [reflexivity|]. rewrite IH. reflexivity. }
      rewrite EE. unfold concatenated. cbn [flat_map map fold_right c_ops c_nq app]. f_equal. rewrite Z.max_r; [reflexivity|]. clear. induction (map c_nq _); cbn; lia.
    - intros [j op] Hin. apply in_combine_r in Hin. apply in_map_iff in Hin as ([u d] & <- & Hin). cbn [fst snd]. split; [apply for_term_circuit; eapply C; eauto|apply term_addable].
    - split; cbn; auto; lia.
  Qed.
  (** the circuits and factors of one position, in the order of the code *)
  Fixpoint single (time : param Num) (order : Z) (shifted : C -> R -> param Num) (h : qop CC) : list (C * list (circuit Num)) :=
    match h with
    | [] => []
    | tc :: h' =>
        (factor_of (snd tc) order 1, term_circuit angle T (shifted (snd tc) 1%R) tc :: slice angle T h' time) ::
        (factor_of (snd tc) order (-1), term_circuit angle T (shifted (snd tc) (-1)%R) tc :: slice angle T h' time) ::
        map (fun d => (fst d, term_circuit angle T time tc :: snd d)) (single time order shifted h')
    end.
  Lemma with_shift_below k h time i p : i < k -> with_shift k h time i p = slice angle T h time.
  Proof.
    clear HT Hangle.
    revert k. induction h as [|tc h IH]; intros k Hi; [reflexivity|]. unfold with_shift in *. cbn [length seq combine map slice fst snd].
    destruct (Nat.eqb_spec i k); [lia|]. rewrite IH by lia. reflexivity.
  Qed.
  Lemma single_spec time order shifted h : forall k,
    flat_map (fun it : nat * (term pauli * C) => [(factor_of (snd (snd it)) order 1, with_shift k h time (fst it) (shifted (snd (snd it)) 1%R));
      (factor_of (snd (snd it)) order (-1), with_shift k h time (fst it) (shifted (snd (snd it)) (-1)%R))]) (combine (seq k (length h)) h) = single time order shifted h.
  Proof.
    clear HT Hangle.
    induction h as [|tc h IH]; intros k; [reflexivity|]. cbn [length seq combine flat_map app fst snd single].
    assert (HD : forall p, with_shift k (tc :: h) time k p = term_circuit angle T p tc :: slice angle T h time).
    { intros p. unfold with_shift. cbn [length seq combine map fst snd]. rewrite Nat.eqb_refl. f_equal. apply (with_shift_below (S k)). lia. }
    rewrite !HD. do 2 f_equal. rewrite <- (IH (S k)).
    assert (TL : forall i p, k < i -> with_shift k (tc :: h) time i p = term_circuit angle T time tc :: with_shift (S k) h time i p).
    { intros i p Hi. unfold with_shift. cbn [length seq combine map fst snd]. destruct (Nat.eqb_spec i k); [lia|]. reflexivity. }
    assert (LB : forall it : nat * (term pauli * C), In it (combine (seq (S k) (length h)) h) -> k < fst it).
    { intros [i u] Hin. apply in_combine_l in Hin. apply in_seq in Hin. cbn. lia. }
    clear -TL LB. revert LB. generalize (combine (seq (S k) (length h)) h). intros l LB. induction l as [|it l IHl]; cbn [flat_map map app]; [reflexivity|].
    rewrite !TL by (apply LB; left; auto). cbn [fst snd]. do 2 f_equal. apply IHl. intros; apply LB; right; auto.
  Qed.
  Lemma mapM_all {A B} (f : A -> result B) (g : A -> B) l : (forall x, In x l -> f x = Ok (g x)) -> mapM f l = Ok (map g l).
  Proof.
    induction l as [|x l IH]; intros H; cbn [mapM map]; [reflexivity|]. rewrite (H x) by (left; auto). cbn [rbind]. rewrite IH by (intros; apply H; right; auto). reflexivity.
  Qed.
  Lemma derivatives_single (h : qop CC) time order shifted : canonical_operator h -> order <> 0%Z ->
    (forall t c factor, In (t, c) h -> shift_time time order c factor = Some (shifted c factor)) ->
    mapM (fun p : (nat * qop CC) * R => derivative_circuit angle T (map (fun tc => [tc]) h) time order (fst (fst p)) (snd (fst p)) (snd p))
      (flat_map (fun it => [(it, 1%R); (it, (-1)%R)]) (combine (seq 0 (length (map (fun tc => [tc]) h))) (map (fun tc => [tc]) h))) =
    Ok (map (fun d => (fst d, concatenated (snd d))) (single (divided_by T time order) order shifted h)).
  Proof.
    clear HT Hangle.
    intros Cn Ho S. pose (tr := fun p : (nat * qop CC) * R => match snd (fst p) with [tc] => (factor_of (snd tc) order (snd p), concatenated (with_shift 0 h (divided_by T time order) (fst (fst p)) (shifted (snd tc) (snd p)))) | _ => (c0, Build_circuit [] 0) end).
    rewrite (mapM_all _ tr).
    - f_equal. rewrite <- (single_spec (divided_by T time order) order shifted h 0).
      assert (EE : combine (seq 0 (length (map (fun tc : term pauli * CC => [tc]) h))) (map (fun tc => [tc]) h) = map (fun it => (fst it, [snd it])) (combine (seq 0 (length h)) h)).
      { rewrite map_length. generalize 0. clear. induction h as [|tc h IH]; intros k; cbn [map length seq combine]; [reflexivity|]. rewrite IH. reflexivity. }
      rewrite EE. clear. generalize (combine (seq 0 (length h)) h). intros l. induction l as [|it l IH]; cbn [map flat_map app]; [reflexivity|]. rewrite <- IH. reflexivity.
    - intros [[i op] factor] Hin. apply in_flat_map in Hin as ([i' op'] & Hin & Hf). apply in_combine_r in Hin. apply in_map_iff in Hin as ([t c] & <- & Hin).
      assert (op = [(t, c)]) as -> by (destruct Hf as [Hf|[Hf|[]]]; congruence). cbn [tr fst snd]. apply derivative_one; auto. eapply S; eauto.
  Qed.

  (** the circuits of one position act as the factors of the parameter shift rule *)
  Lemma single_shifts n x time order shifted h : (forall tc, In tc h -> good_term n tc) -> eval_param IR rho time = x ->
    (forall t c s, In (t, c) h -> (fst c * eval_param IR rho (shifted c s) = fst c * x + s * (PI / 4))%R) ->
    Forall2 (fun d s => fst d = cmul (rc (/ IZR order)) (rc (fst s)) /\ impl n (c_ops (concatenated (snd d))) (in_order (2 ^ n) (map (fun Px => factor_mat (2 ^ n) (fst Px) (snd Px)) (snd s))))
      (single time order shifted h) (shifts x (map (fun tc => (word_of n (fst tc), fst (snd tc))) h)).
  Proof.
    intros G E S.
    assert (SL : forall h, (forall tc, In tc h -> good_term n tc) -> Forall2 (fun c m => impl n (c_ops c) m) (slice angle T h time)
      (map (fun Px => factor_mat (2 ^ n) (fst Px) (snd Px)) (scaled_by x (map (fun tc => (word_of n (fst tc), fst (snd tc))) h)))).
    { intros h' H. unfold scaled_by. rewrite !map_map. cbn [fst snd]. apply (slice_implements n x time h' H E). }
    assert (G2 : Forall2 (fun d s => fst d = cmul (rc (/ IZR order)) (rc (fst s)) /\ Forall2 (fun c m => impl n (c_ops c) m) (snd d) (map (fun Px => factor_mat (2 ^ n) (fst Px) (snd Px)) (snd s)))
      (single time order shifted h) (shifts x (map (fun tc => (word_of n (fst tc), fst (snd tc))) h))).
    { induction h as [|[t c] h IH]; cbn [single shifts map fst snd]; [constructor|].
      assert (Gt : good_term n (t, c)) by (apply G; left; auto). destruct Gt as (_ & Hc & _). cbn [snd] in Hc.
      assert (ST : forall s, impl n (c_ops (term_circuit angle T (shifted c s) (t, c))) (factor_mat (2 ^ n) (word_of n t) (fst c * x + s * (PI / 4)))).
      { intros s. rewrite <- (S t c s) by (left; auto). apply (term_implements n (eval_param IR rho (shifted c s))); [apply G; left; auto|reflexivity]. }
      constructor; [|constructor].
      - cbn [fst snd]. split; [apply c_eq; cbn; rewrite ?Hc; unfold Rdiv; ring|]. cbn [map fst snd]. constructor; [|apply SL; intros; apply G; right; auto].
        specialize (ST 1%R). rewrite Rmult_1_l in ST. exact ST.
      - cbn [fst snd]. split; [apply c_eq; cbn; rewrite ?Hc; unfold Rdiv; ring|]. cbn [map fst snd]. constructor; [|apply SL; intros; apply G; right; auto].
        specialize (ST (-1)%R). replace (fst c * x + -1 * (PI / 4))%R with (fst c * x - PI / 4)%R in ST by ring. exact ST.
      - assert (IH' := IH ltac:(intros; apply G; right; auto) ltac:(intros; apply (S t0); right; auto)). clear -IH' G E HT Hangle.
        induction IH' as [|d s ds ss [H1 H2] F IHF]; cbn [map]; constructor; auto. cbn [fst snd]. split; [auto|]. cbn [map fst snd]. constructor; auto.
        apply (term_implements n x time (t, c)); auto. apply G; left; auto. }
    clear -G2. induction G2 as [|d s ds ss [H1 H2] F IH]; constructor; auto. split; [auto|]. apply implements_concat. auto.
  Qed.
End Circ.
