(** Evolution circuits: repeated slices, and the one-qubit example. *)
From Coq Require Import Reals Lra Lia Ring Arith String ZArith.
From Verif Require Import Base BaseFacts MatModel MatFacts LiftModel LiftSpec LiftProofs Cplx CircuitModel CircuitSpec CircuitProofs GateMatModel GateMatProofs
  DecompModel OpModel OpSpec OpProofs PauliProofs EstModel ConjProofs EstProofs EstProofs3 EstProofs4 EvolModel EvolSpec EvolProofs EvolProofs2 EvolProofs3 EvolProofs4 EvolProofs5.
Open Scope list_scope.
Local Open Scope nat_scope.

Section Seq.
  Context {Num : Type} (angle : R -> Num) (T : time_ops Num).
  (** r copies of a circuit, the one at [position] replaced *)
  Definition sequence (rep d : circuit Num) (r position : nat) : circuit Num :=
    let ops := flat_map (fun i => c_ops (if Nat.eqb i position then d else rep)) (seq 0 r) in Build_circuit ops (span (flat_map (qubit_indices (Num := Num)) ops)).
  Lemma mk_circuit_gates ops : Forall (gate_op (Num := Num)) ops -> mk_circuit ops None = Ok (Build_circuit ops (span (flat_map (qubit_indices (Num := Num)) ops))).
  Proof.
    intros F. destruct ops as [|o ops]; [reflexivity|]. cbn [mk_circuit]. unfold circuit_size_by_operations, py_max.
    destruct (flat_map qubit_indices (o :: ops)) as [|q l] eqn:E.
    - exfalso. inversion F as [|? ? F1 _]; subst. destruct o as [g qs|]; [|destruct F1]. cbn in E. destruct qs; [congruence|discriminate].
    - cbn [rbind]. rewrite (span_max (q :: l)) by discriminate. reflexivity.
  Qed.
  Lemma generate_sequence rep d r position : Forall (gate_op (Num := Num)) (c_ops rep) -> Forall (gate_op (Num := Num)) (c_ops d) -> position < r ->
    generate_circuit_sequence rep d r position = Ok (sequence rep d r position).
  Proof.
    intros H1 H2 Hp. unfold generate_circuit_sequence. destruct (Nat.leb_spec r position); [lia|]. apply mk_circuit_gates. apply Forall_forall. intros o Ho.
    apply in_flat_map in Ho as (i & _ & Ho). rewrite Forall_forall in H1, H2. destruct (Nat.eqb i position); auto.
  Qed.
  Lemma term_gates time tc : Forall (gate_op (Num := Num)) (c_ops (term_circuit angle T time tc)).
  Proof.
    destruct tc as [t c]. unfold term_circuit; cbn [fst snd]. destruct t as [|f t]; [constructor|]. cbn [c_ops].
    destruct (changes_ops angle (f :: t)) as (A1 & A2 & _). destruct (cnots_ops (Num := Num) (f :: t)) as [B1 _]. destruct (rev_cnots_ops (Num := Num) (f :: t)) as [D1 _].
    apply Forall_app; split; [exact A1|]. apply Forall_app; split; [exact B1|]. apply Forall_app; split; [|apply Forall_app; split; [exact D1|exact A2]]. generalize (twice_times T time c). intros p. clear A1 A2 B1 D1. induction (f :: t) as [|g u IH]; cbn; [constructor|]. destruct u; [|exact IH].
    repeat constructor. discriminate.
  Qed.
  Lemma concatenated_gates (cs : list (circuit Num)) : (forall c, In c cs -> Forall (gate_op (Num := Num)) (c_ops c)) -> Forall (gate_op (Num := Num)) (c_ops (concatenated cs)).
  Proof.
    intros H. apply Forall_forall. intros o Ho. apply in_flat_map in Ho as (c & Hc & Ho). specialize (H c Hc). rewrite Forall_forall in H. auto.
  Qed.
  Lemma slice_gates time h : forall c, In c (slice angle T h time) -> Forall (gate_op (Num := Num)) (c_ops c).
  Proof. intros c Hc. apply in_map_iff in Hc as (tc & <- & _). apply term_gates. Qed.
  Lemma single_gates time order shifted h d : In d (single angle T time order shifted h) -> Forall (gate_op (Num := Num)) (c_ops (concatenated (snd d))).
  Proof.
    intros Hd. apply concatenated_gates. revert d Hd. induction h as [|tc h IH]; [intros ? []|]. intros d [<-|[<-|Hd]] c Hc; cbn [snd] in Hc.
    1, 2: (destruct Hc as [<-|Hc]; [apply term_gates|apply (slice_gates time h); auto]).
    apply in_map_iff in Hd as (d' & <- & Hd'). cbn [snd] in Hc. destruct Hc as [<-|Hc]; [apply term_gates|apply (IH d'); auto].
  Qed.
  Lemma derivatives_circuits (h : qop CC) time order shifted : canonical_operator h -> (0 < order)%Z -> h <> [] ->
    (forall t c factor, In (t, c) h -> shift_time T time order c factor = Some (shifted c factor)) ->
    let ds := map (fun d => (fst d, concatenated (snd d))) (single angle T (divided_by T time order) order shifted h) in
    time_evolution_derivatives angle T h time "Trotter" order =
      if (1 <? order)%Z then
        Ok (flat_map (fun position => map (fun d => sequence (concatenated (slice angle T h (divided_by T time 1))) (snd d) (Z.to_nat order) position) ds) (seq 0 (Z.to_nat order)),
            concat (repeat (map fst ds) (Z.to_nat order)))
      else Ok (map snd ds, map fst ds).
  Proof.
    intros C Ho Hn S ds. unfold time_evolution_derivatives. cbn [String.eqb Ascii.eqb Bool.eqb negb]. rewrite get_terms by auto.
    pose proof (derivatives_single angle T h time order shifted C ltac:(lia) S) as D.
    match type of D with ?l = _ => match goal with |- rbind (mapM ?f ?x) _ = _ => change (mapM f x) with l end end. rewrite D. cbn [rbind]. fold ds. destruct (1 <? order)%Z eqn:E1; [|reflexivity].
    rewrite evolution_circuit by (auto; lia). cbn [rbind].
    assert (E0 : forall X : list (circuit Num), concat (repeat X (Z.to_nat 1)) = X) by (intros; apply app_nil_r). rewrite E0. set (rep := concatenated (slice angle T h (divided_by T time 1))).
    rewrite (mapM_all _ (fun p : nat * (Cplx.C * circuit Num) => (sequence rep (snd (snd p)) (Z.to_nat order) (fst p), fst (snd p)))).
    - cbn [rbind]. unfold range_Z. do 2 f_equal.
      + generalize (seq 0 (Z.to_nat order)). intros l. induction l as [|i l IH]; cbn [flat_map map]; [reflexivity|]. rewrite !map_app, IH. f_equal. rewrite !map_map. reflexivity.
      + rewrite <- (map_const_repeat (map fst ds) (Z.to_nat order) 0). rewrite <- flat_map_concat_map. generalize (seq 0 (Z.to_nat order)). intros l. induction l as [|i l IH]; cbn [flat_map map]; [reflexivity|].
        rewrite !map_app, IH. f_equal. rewrite !map_map. reflexivity.
    - intros [position d] Hin. apply in_flat_map in Hin as (i & Hi & Hin). apply in_map_iff in Hin as (d' & E & Hd). injection E as -> ->. cbn [fst snd].
      unfold range_Z in Hi. apply in_seq in Hi. rewrite generate_sequence; [reflexivity|apply concatenated_gates, slice_gates| |lia].
      apply in_map_iff in Hd as (d0 & <- & Hd). cbn [snd]. eapply single_gates; eauto.
  Qed.
  Lemma single_factors time order shifted (h : qop CC) : map fst (single angle T time order shifted h) = flat_map (fun tc => [factor_of (snd tc) order 1; factor_of (snd tc) order (-1)]) h.
  Proof. induction h as [|tc h IH]; cbn [single map flat_map app fst]; [reflexivity|]. rewrite map_map. cbn [fst]. do 2 f_equal. exact IH. Qed.
  Lemma single_length time order shifted (h : qop CC) : length (single angle T time order shifted h) = 2 * length h.
  Proof. induction h as [|tc h IH]; cbn [single length]; [reflexivity|]. rewrite map_length, IH. lia. Qed.
End Seq.

(** ** One qubit, Z rotations *)
Section One.
  Definition zword : term pauli := [(0, Pz)].
  Definition plus_state (x : R) : vec CC := of_list (K := CC) [(/ sqrt 2 * cos x, - (/ sqrt 2 * sin x))%R; (/ sqrt 2 * cos x, / sqrt 2 * sin x)%R].
  Lemma zword_ent i j : i < 2 -> j < 2 -> ent (term_matrix (K := CC) ci 1 zword) i j = if Nat.eqb i j then (if Nat.eqb i 0 then c1 else copp c1) else c0.
  Proof. destruct i as [|[|i]], j as [|[|j]]; try lia; intros _ _; cbn; apply c_eq; cbn; ring. Qed.
  Lemma rotate_plus x y : veq (mvmul (rotation 2 (term_matrix (K := CC) ci 1 zword) x) (plus_state y)) (plus_state (y + x)).
  Proof.
    split; [reflexivity|]. cbn [vlen mvmul rotation nr madd mscale eye]. intros i Hi. cbn [vent mvmul]. cbn [nc rotation madd mscale eye bigsum]. rewrite !rotation_ent, !zword_ent by lia.
    destruct i as [|[|i]]; [| |lia]; cbn [Nat.eqb delta]; apply c_eq; cbn [fst snd kadd kmul k0 k1 CC cadd cmul copp c0 c1 rc vent of_list plus_state nth]; rewrite ?cos_plus, ?sin_plus; ring.
  Qed.
  Lemma rotate_many xs y : veq (mvmul (in_order 2 (map (fun x => rotation 2 (term_matrix (K := CC) ci 1 zword) x) xs)) (plus_state y)) (plus_state (fold_left Rplus xs y)).
  Proof.
    revert y. induction xs as [|x xs IH]; intros y; cbn [map in_order fold_left].
    - apply mvmul_eye. reflexivity.
    - etransitivity; [apply mvmul_assoc; apply (in_order_sq 2); intros m Hm; apply in_map_iff in Hm as (z & <- & _); split; reflexivity|].
      etransitivity; [apply mvmul_ext; [|reflexivity|apply rotate_plus]|apply IH].
      apply (in_order_sq 2); intros m Hm; apply in_map_iff in Hm as (z & <- & _); split; reflexivity.
  Qed.
  Lemma plus_expectation x : expectation_of (pauli_matrix (K := CC) ci Px) (plus_state x) = rc (cos (2 * x)).
  Proof.
    unfold expectation_of, inner. cbn [vlen plus_state of_list length bigsum vent mvmul nc pauli_matrix of_rows ent nth].
    assert (Q : (/ sqrt 2 * / sqrt 2 = / 2)%R) by (rewrite <- Rinv_mult, sqrt_sqrt by lra; reflexivity). rewrite cos_2a.
    apply c_eq; cbn [fst snd kadd kmul kconj k0 k1 CC cadd cmul cconj c0 c1 rc copp]; generalize dependent (/ sqrt 2)%R; intros h Q.
    - transitivity (2 * (h * h) * (cos x * cos x - sin x * sin x))%R; [ring|]. rewrite Q. field.
    - ring.
  Qed.
End One.
