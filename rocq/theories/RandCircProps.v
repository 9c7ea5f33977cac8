(** C91: random circuits. *)
From Coq Require Import String ZArith QArith Lia Reals.
From Verif Require Import Base BaseFacts MatModel CircuitModel CircuitSpec CircuitProofs GateMatModel GateMatSpec GateMatProofs GateMatProps EvolSpec EvolProofs3 CostModel RandCircModel RandCircSpec. 
From Verif Require Import Cplx.
Open Scope nat_scope. Open Scope list_scope.

Section Lists.
  Lemma list_facts w : w < 4 -> Forall (fun b => In b builtins /\ In (b_name b) gate_set /\ b_nq b = (if (Nat.eqb w 0 || Nat.eqb w 2)%bool then 1 else 2)%Z /\ b_arity b = (if (Nat.eqb w 2 || Nat.eqb w 3)%bool then 1 else 0))
    (nth w all_gates_lists []) /\ length (nth w all_gates_lists []) <> 0.
  Proof.
    intros H. destruct w as [|[|[|[|w]]]]; [..|lia]; (split; [|discriminate]);
      repeat (apply Forall_cons; [cbn -[In builtins]; split; [cbn -[args0 args1 args3]; tauto|split; [cbn; tauto|split; reflexivity]]|]); apply Forall_nil.
  Qed.
  Lemma in_some_list b : In b builtins -> In (b_name b) gate_set -> exists w j, w < 4 /\ nth_error (nth w all_gates_lists []) j = Some b.
  Proof.
    intros Hb Hs. cbn [builtins In] in Hb.
    repeat (destruct Hb as [<-|Hb]; [first [exfalso; cbn in Hs; repeat (destruct Hs as [Hs|Hs]; [discriminate|]); exact Hs
      | now (exists 0, 0; split; [lia|reflexivity]) | now (exists 0, 1; split; [lia|reflexivity]) | now (exists 0, 2; split; [lia|reflexivity]) | now (exists 0, 3; split; [lia|reflexivity])
      | now (exists 0, 4; split; [lia|reflexivity]) | now (exists 0, 5; split; [lia|reflexivity]) | now (exists 1, 0; split; [lia|reflexivity]) | now (exists 1, 1; split; [lia|reflexivity])
      | now (exists 1, 2; split; [lia|reflexivity]) | now (exists 2, 0; split; [lia|reflexivity]) | now (exists 2, 1; split; [lia|reflexivity]) | now (exists 2, 2; split; [lia|reflexivity])
      | now (exists 2, 3; split; [lia|reflexivity]) | now (exists 3, 0; split; [lia|reflexivity])]|]).
    destruct Hb.
  Qed.
End Lists.

Section C91.
  Context {G Num : Type} (in_range : Num -> bool).
  Notation circ := (circuit Num).
  Notation touched ops := (flat_map (qubit_indices (Num := Num)) ops).
  Local Open Scope Z_scope.

  Lemma add_gate (c : circ) g qs : qs <> [] -> c_nq c = span (touched (c_ops c)) ->
    circuit_add c (AddOp (GateOp g qs)) = Ok (Build_circuit (c_ops c ++ [GateOp g qs]) (span (touched (c_ops c ++ [GateOp g qs])))).
  Proof.
    intros N E. cbn [circuit_add]. unfold py_max. destruct qs as [|q qs]; [contradiction|]. cbn [rbind]. rewrite (span_max (q :: qs)) by discriminate. rewrite E, <- span_app.
    rewrite flat_map_app. cbn [flat_map qubit_indices]. rewrite app_nil_r. apply mk_circuit_Z_pos. rewrite span_app. cbn [span fold_right]. pose proof (span_nonneg (touched (c_ops c))). lia.
  Qed.

  (** ** What is drawn *)
  Section Draws.
    Context (rng : generator G Num) (Hf : fair in_range rng).
    (** one round with enough qubits *)
    Lemma round_good n (c : circ) g : 2 <= n -> c_nq c = span (touched (c_ops c)) ->
      exists o g', possible in_range n o /\ add_random_gate rng n c g = (g', Ok (Build_circuit (c_ops c ++ [o]) (span (touched (c_ops c ++ [o]))))).
    Proof.
      destruct Hf as (F1 & F2 & F3). intros Hn Hc. unfold add_random_gate. unfold bindM at 1. unfold draw at 1. cbn [length all_gates_lists].
      pose proof (F1 4%nat g ltac:(discriminate)) as W. destruct (choice rng 4 g) as [g1 w]. cbn [snd] in W.
      destruct (list_facts w W) as [L1 L2]. set (gl := nth w all_gates_lists []) in *. unfold bindM at 1. unfold draw at 1.
      pose proof (F1 (length gl) g1 L2) as J. destruct (length gl) as [|k] eqn:El; [contradiction|]. destruct (choice rng (S k) g1) as [g2 j]. cbn [snd] in J. rewrite <- El in J.
      unfold bindM at 1. destruct (nth_error gl j) as [b|] eqn:Eb; [|apply nth_error_None in Eb; lia]. unfold liftM at 1.
      rewrite Forall_forall in L1. destruct (L1 b (nth_error_In _ _ Eb)) as (B1 & B2 & B3 & B4).
      assert (Q : exists qs g3, ((if (Nat.eqb w 0 || Nat.eqb w 2)%bool then do! q := draw rng (Z.to_nat n) in retM [q] else do! (q, q') := draw_two rng (Z.to_nat n) in retM [q; q']) : M G (list nat)) g2 = (g3, Ok qs) /\
                  Z.of_nat (length qs) = b_nq b /\ NoDup qs /\ Forall (fun q => Z.of_nat q < n) qs).
      { destruct (Nat.eqb w 0 || Nat.eqb w 2)%bool.
        - unfold bindM, draw. pose proof (F1 (Z.to_nat n) g2 ltac:(lia)) as Q. destruct (Z.to_nat n) as [|n'] eqn:En; [lia|]. destruct (choice rng (S n') g2) as [g3 q]. cbn [snd] in Q. exists [q], g3. split; [reflexivity|].
          split; [rewrite B3; reflexivity|]. split; [constructor; [intros []|constructor]|]. constructor; [lia|constructor].
        - unfold bindM, draw_two. destruct (Nat.ltb (Z.to_nat n) 2) eqn:Lt; [apply Nat.ltb_lt in Lt; lia|]. pose proof (F2 (Z.to_nat n) g2 ltac:(lia)) as Q. destruct (choice_two rng (Z.to_nat n) g2) as [g3 [q q']]. cbn [snd] in Q.
          exists [q; q'], g3. split; [reflexivity|]. split; [rewrite B3; reflexivity|]. split; [constructor; [intros [E|[]]; lia|constructor; [intros []|constructor]]|]. repeat (constructor; [lia|]). constructor. }
      destruct Q as (qs & g3 & Eq & Q1 & Q2 & Q3). unfold bindM at 1. rewrite Eq.
      assert (P : exists xs g4, ((if (Nat.eqb w 2 || Nat.eqb w 3)%bool then do! x := draw_angle rng in retM [PNum x] else retM []) : M G (list (param Num))) g3 = (g4, Ok (map PNum xs)) /\
                  length xs = b_arity b /\ Forall (fun x => in_range x = true) xs).
      { destruct (Nat.eqb w 2 || Nat.eqb w 3)%bool.
        - unfold bindM, draw_angle. pose proof (F3 g3) as X. destruct (uniform rng g3) as [g4 x]. cbn [snd] in X. exists [x], g4. split; [reflexivity|]. split; [now rewrite B4|]. constructor; [exact X|constructor].
        - exists [], g3. split; [reflexivity|]. split; [now rewrite B4|constructor]. }
      destruct P as (xs & g4 & Ep & P1 & P2). unfold bindM at 1. rewrite Ep. unfold liftM. exists (GateOp (builtin_gate b (map PNum xs)) qs), g4. split; [exists b, xs, qs; repeat split; assumption|].
      rewrite add_gate; [reflexivity| |exact Hc]. intros ->. cbn in Q1. destruct (Nat.eqb w 0 || Nat.eqb w 2)%bool; lia.
    Qed.
    Lemma rounds_good n k : forall (c : circ) g, 2 <= n -> c_nq c = span (touched (c_ops c)) ->
      exists ops g', length ops = k /\ Forall (possible in_range n) ops /\ repeatM k (add_random_gate rng n) c g = (g', Ok (Build_circuit (c_ops c ++ ops) (span (touched (c_ops c ++ ops))))).
    Proof.
      induction k as [|k IH]; intros c g Hn Hc.
      - exists [], g. split; [reflexivity|]. split; [constructor|]. rewrite app_nil_r, <- Hc. destruct c. reflexivity.
      - destruct (round_good n c g Hn Hc) as (o & g1 & Po & E). cbn [repeatM]. destruct (IH (Build_circuit (c_ops c ++ [o]) (span (touched (c_ops c ++ [o])))) g1 Hn eq_refl) as (ops & g' & L & F & R).
        exists (o :: ops), g'. split; [cbn; lia|]. split; [constructor; assumption|]. unfold bindM. rewrite E, R. cbn [c_ops]. rewrite <- app_assoc. reflexivity.
    Qed.
  End Draws.

  (** With at least two qubits, whatever the generator draws, the circuit has the requested number of operations, each a gate of the set on different qubits of
      the register, with an angle in the range where the gate has a parameter; it has no free symbols. *)
  Lemma span_below l n : Forall (fun q => Z.of_nat q < n) l -> 0 <= n -> span l <= n.
  Proof. intros F Hn. induction F as [|q l H F IH]; [exact Hn|]. change (span (q :: l)) with (Z.max (Z.of_nat q + 1) (span l)). lia. Qed.
  Lemma possible_symbols n o : possible in_range n o -> op_free_symbols o = [].
  Proof.
    intros (b & xs & qs & _ & _ & -> & _). unfold op_free_symbols. cbn [op_params gate_params builtin_gate]. unfold get_free_symbols.
    assert (E : flat_map (param_syms (Num := Num)) (map PNum xs) = []) by (induction xs; [reflexivity|assumption]). rewrite E. reflexivity.
  Qed.
  Theorem C91_random (rng : generator G Num) n_qubits n_gates g : fair in_range rng -> 2 <= n_qubits ->
    exists g' (c : circ), create_random_circuit rng n_qubits n_gates g = (g', Ok c) /\ length (c_ops c) = Z.to_nat n_gates /\ Forall (possible in_range n_qubits) (c_ops c) /\
      valid_circuit c /\ least_bound (touched (c_ops c)) (c_nq c) /\ c_nq c <= n_qubits /\ circuit_free_symbols c = [].
  Proof.
    intros Hf Hn. destruct (rounds_good rng Hf n_qubits (Z.to_nat n_gates) (Build_circuit [] 0) g Hn eq_refl) as (ops & g' & L & F & R). cbn [c_ops app] in R.
    exists g', (Build_circuit ops (span (touched ops))). split; [exact R|]. cbn [c_ops c_nq]. split; [exact L|]. split; [exact F|].
    assert (Fq : Forall (fun q => Z.of_nat q < n_qubits) (touched ops)).
    { apply Forall_forall. intros q Hq. apply in_flat_map in Hq as (o & Ho & Hq). rewrite Forall_forall in F. destruct (F o Ho) as (b & xs & qs & _ & _ & -> & _ & _ & _ & _ & Q). cbn [qubit_indices] in Hq. rewrite Forall_forall in Q. apply Q, Hq. }
    split; [|split; [|split]].
    - exists ops. destruct ops as [|o ops']; [exists None; reflexivity|]. exists (Some (inject_Z (span (touched (o :: ops'))))). apply mk_circuit_Z_pos.
      inversion F as [|? ? P _]; subst. destruct P as (b & xs & qs & Hb & _ & -> & _ & _ & Q & _). destruct qs as [|q qs]; [exfalso; pose proof (builtin_nq_pos b Hb); cbn in Q; lia|]. pose proof (span_in q (touched (GateOp (builtin_gate b (map PNum xs)) (q :: qs) :: ops')) (or_introl eq_refl)). lia.
    - split; [apply span_nonneg|]. split; [intros q Hq; pose proof (span_in q _ Hq); lia|]. intros m Hm H. apply span_below; [apply Forall_forall; exact H|exact Hm].
    - apply span_below; [exact Fq|lia].
    - unfold circuit_free_symbols. cbn [c_ops]. assert (E : flat_map (op_free_symbols (Num := Num)) ops = []); [|rewrite E; reflexivity].
      clear - F. induction F as [|o ops P F IH]; [reflexivity|]. cbn [flat_map]. rewrite (possible_symbols _ _ P), IH. reflexivity.
  Qed.

  (** ** Too few qubits *)
  Theorem C91_no_qubits (rng : generator G Num) n_qubits n_gates g : fair in_range rng -> n_qubits <= 0 -> 0 < n_gates ->
    snd (create_random_circuit rng n_qubits n_gates g) = Err ValueError.
  Proof.
    intros (F1 & F2 & F3) Hn Hg. unfold create_random_circuit. unfold bindM at 1. cbn [mk_circuit circuit_size_by_operations rbind]. unfold liftM at 1.
    destruct (Z.to_nat n_gates) as [|k] eqn:Ek; [lia|]. cbn [repeatM]. unfold bindM at 1. unfold add_random_gate. unfold bindM at 1. unfold draw at 1. cbn [length all_gates_lists].
    pose proof (F1 4%nat g ltac:(discriminate)) as W. destruct (choice rng 4 g) as [g1 w]. cbn [snd] in W.
    destruct (list_facts w W) as [L1 L2]. set (gl := nth w all_gates_lists []) in *. unfold bindM at 1. unfold draw at 1.
    pose proof (F1 (length gl) g1 L2) as J. destruct (length gl) as [|k'] eqn:El; [contradiction|]. destruct (choice rng (S k') g1) as [g2 j]. cbn [snd] in J. rewrite <- El in J.
    unfold bindM at 1. destruct (nth_error gl j) as [b|] eqn:Eb; [|apply nth_error_None in Eb; lia]. unfold liftM at 1. replace (Z.to_nat n_qubits) with O by lia.
    unfold bindM at 1. destruct (Nat.eqb w 0 || Nat.eqb w 2)%bool; reflexivity.
  Qed.
End C91.

(** ** Every circuit can come up: a generator that draws what it is told *)
Section Scripted.
  Context {Num : Type} (in_range : Num -> bool) (x0 : Num) (H0 : in_range x0 = true).
  Notation script := (list nat * list Num)%type.
  Definition scripted : generator script Num := {|
    choice := fun n g => match fst g with i :: l => ((l, snd g), if Nat.ltb i n then i else O) | [] => (g, O) end;
    choice_two := fun n g => match fst g with i :: j :: l => ((l, snd g), if (Nat.ltb i n && Nat.ltb j n && negb (Nat.eqb i j))%bool then (i, j) else (0, 1)) | _ => (g, (0, 1)) end;
    uniform := fun g => match snd g with x :: xs => ((fst g, xs), if in_range x then x else x0) | [] => (g, x0) end |}.
  Lemma scripted_fair : fair in_range scripted.
  Proof.
    split; [|split].
    - intros n [l xs] Hn. cbn [scripted choice fst snd]. destruct l as [|i l]; cbn [snd]; [lia|]. destruct (Nat.ltb i n) eqn:E; [apply Nat.ltb_lt in E; exact E|lia].
    - intros n [l xs] Hn. cbn [scripted choice_two fst snd]. destruct l as [|i [|j l]]; cbn [snd]; [lia|lia|]. destruct (Nat.ltb i n && Nat.ltb j n && negb (Nat.eqb i j))%bool eqn:E; cbn [snd]; [|lia].
      apply andb_prop in E as [E E3]. apply andb_prop in E as [E1 E2]. apply Nat.ltb_lt in E1, E2. apply Bool.negb_true_iff, Nat.eqb_neq in E3. auto.
    - intros [l xs]. cbn. destruct xs as [|x xs]; cbn; [exact H0|]. destruct (in_range x) eqn:E; [exact E|exact H0].
  Qed.
  Local Open Scope Z_scope.
  Notation touched ops := (flat_map (qubit_indices (Num := Num)) ops).
  Lemma scripted_round n (c : circuit Num) o l xs : possible in_range n o -> c_nq c = span (touched (c_ops c)) ->
    exists l1 xs1, add_random_gate scripted n c (l1 ++ l, xs1 ++ xs) = ((l, xs), Ok (Build_circuit (c_ops c ++ [o]) (span (touched (c_ops c ++ [o]))))).
  Proof.
    intros (b & angles & qs & Hb & Hs & -> & La & Fa & Lq & Nq & Fq) Hc. destruct (in_some_list b Hb Hs) as (w & j & Hw & Ej). exists (w :: j :: qs), angles.
    assert (Hj : (j < length (nth w all_gates_lists []))%nat) by (apply nth_error_Some; congruence).
    destruct (list_facts w Hw) as [L1 _]. rewrite Forall_forall in L1. destruct (L1 b (nth_error_In _ _ Ej)) as (_ & _ & B3 & B4).
    unfold add_random_gate. unfold bindM at 1. unfold draw at 1. cbn [length all_gates_lists scripted choice fst snd app]. apply Nat.ltb_lt in Hw. rewrite Hw. fold all_gates_lists.
    set (gl := nth w all_gates_lists []) in *. unfold bindM at 1. unfold draw at 1. destruct (length gl) as [|k] eqn:El; [lia|]. cbn [scripted choice fst snd]. apply Nat.ltb_lt in Hj. rewrite Hj.
    unfold bindM at 1. rewrite Ej. unfold liftM at 1. rewrite B3 in Lq. rewrite B4 in La.
    assert (Q : ((if (Nat.eqb w 0 || Nat.eqb w 2)%bool then do! q := draw scripted (Z.to_nat n) in retM [q] else do! (q, q') := draw_two scripted (Z.to_nat n) in retM [q; q']) : M script (list nat)) (qs ++ l, angles ++ xs) = ((l, angles ++ xs), Ok qs)).
    { destruct (Nat.eqb w 0 || Nat.eqb w 2)%bool.
      - destruct qs as [|q [|q' qs]]; cbn [length] in Lq; [lia| |lia]. inversion Fq as [|? ? Q1 _]; subst. unfold bindM, draw. destruct (Z.to_nat n) as [|n'] eqn:En; [lia|]. cbn [app scripted choice fst snd].
        assert (E : Nat.ltb q (S n') = true) by (apply Nat.ltb_lt; lia). rewrite E. reflexivity.
      - destruct qs as [|q [|q' [|q'' qs]]]; cbn [length] in Lq; [lia|lia| |lia]. inversion Fq as [|? ? Q1 Q2]; subst. inversion Q2 as [|? ? Q3 _]; subst.
        assert (Ne : q <> q') by (intros ->; inversion Nq as [|? ? N1 _]; subst; apply N1; now left). unfold bindM, draw_two. destruct (Nat.ltb (Z.to_nat n) 2) eqn:Lt; [apply Nat.ltb_lt in Lt; lia|].
        cbn [app scripted choice_two fst snd]. assert (E1 : Nat.ltb q (Z.to_nat n) = true) by (apply Nat.ltb_lt; lia). assert (E2 : Nat.ltb q' (Z.to_nat n) = true) by (apply Nat.ltb_lt; lia).
        apply Nat.eqb_neq in Ne. rewrite E1, E2, Ne. reflexivity. }
    unfold bindM at 1. rewrite Q.
    assert (P : ((if (Nat.eqb w 2 || Nat.eqb w 3)%bool then do! x := draw_angle scripted in retM [PNum x] else retM []) : M script (list (param Num))) (l, angles ++ xs) = ((l, xs), Ok (map PNum angles))).
    { destruct (Nat.eqb w 2 || Nat.eqb w 3)%bool.
      - destruct angles as [|x [|x' angles]]; cbn [length] in La; [discriminate| |discriminate]. inversion Fa as [|? ? X _]; subst. unfold bindM, draw_angle. cbn [app scripted uniform fst snd]. rewrite X. reflexivity.
      - destruct angles; [reflexivity|discriminate]. }
    unfold bindM at 1. rewrite P. unfold liftM. rewrite add_gate; [reflexivity| |exact Hc]. intros ->. cbn in Lq. destruct (Nat.eqb w 0 || Nat.eqb w 2)%bool; lia.
  Qed.
  (** Every sequence of such operations is the circuit of some draws. *)
  Theorem C91_every_circuit n_qubits (ops : list (operation Num)) : Forall (possible in_range n_qubits) ops ->
    exists (rng : generator script Num) g g' c, fair in_range rng /\ create_random_circuit rng n_qubits (Z.of_nat (length ops)) g = (g', Ok c) /\ c_ops c = ops.
  Proof.
    intros F. exists scripted.
    assert (R : forall l xs (c : circuit Num), c_nq c = span (touched (c_ops c)) -> exists l1 xs1, repeatM (length ops) (add_random_gate scripted n_qubits) c (l1 ++ l, xs1 ++ xs) = ((l, xs), Ok (Build_circuit (c_ops c ++ ops) (span (touched (c_ops c ++ ops)))))).
    { induction F as [|o ops P F IH]; intros l xs c Hc.
      - exists [], []. cbn [length repeatM app]. rewrite app_nil_r, <- Hc. destruct c. reflexivity.
      - destruct (IH l xs (Build_circuit (c_ops c ++ [o]) (span (touched (c_ops c ++ [o])))) eq_refl) as (l1 & xs1 & E). destruct (scripted_round n_qubits c o (l1 ++ l) (xs1 ++ xs) P Hc) as (l2 & xs2 & E2).
        exists (l2 ++ l1), (xs2 ++ xs1). rewrite <- !app_assoc. cbn [length repeatM]. unfold bindM. rewrite E2, E. cbn [c_ops]. rewrite <- app_assoc. reflexivity. }
    destruct (R [] [] (Build_circuit [] 0) eq_refl) as (l1 & xs1 & E). exists (l1 ++ [], xs1 ++ []), ([], []), (Build_circuit ops (span (touched ops))). split; [exact scripted_fair|]. split; [|reflexivity].
    unfold create_random_circuit. rewrite Nat2Z.id. exact E.
  Qed.
  (** On one qubit the draws decide whether there is a circuit at all. *)
  Theorem C91_one_qubit_refuted : exists (rng : generator script Num) g, fair in_range rng /\ snd (create_random_circuit rng 1 1 g) = Err ValueError.
  Proof. exists scripted, ([1%nat], []). split; [exact scripted_fair|]. reflexivity. Qed.
  (** The circuit need not have the requested number of qubits. *)
  Theorem C91_width_refuted n_qubits : 1 < n_qubits -> exists (rng : generator script Num) g g' c, fair in_range rng /\ create_random_circuit rng n_qubits 1 g = (g', Ok c) /\ c_nq c = 1.
  Proof.
    intros Hn. exists scripted, ([0; 0; 0]%nat, []), ([], []), (Build_circuit [GateOp (builtin_gate (nth 0 builtins (Build_builtin "" "" 0 true 0 (fun _ => Err TypeError))) []) [0%nat]] 1). split; [exact scripted_fair|]. split; [|reflexivity].
    unfold create_random_circuit, bindM, liftM. cbn [mk_circuit circuit_size_by_operations rbind]. change (Z.to_nat 1) with 1%nat. cbn [repeatM]. unfold add_random_gate, bindM, draw. cbn [length all_gates_lists scripted choice fst snd Nat.ltb Nat.leb nth].
    destruct (Z.to_nat n_qubits) as [|m] eqn:E; [lia|]. reflexivity.
  Qed.
End Scripted.

(** ** The circuits are unitary *)
Section Unitary.
  Context {G Num : Type} (in_range : Num -> bool) (O : sympy_oracle Num) (IR : interp (Num := Num) R) (IC : interp (Num := Num) C) (rho : sym -> R).
  Local Open Scope Z_scope.
  Theorem C91_unitary (rng : generator G Num) n_qubits n_gates g : fair in_range rng -> 2 <= n_qubits -> 0 < n_gates ->
    exists g' c U, create_random_circuit rng n_qubits n_gates g = (g', Ok c) /\ to_unitary O IR IC rho c = Ok U /\ unitary U /\ nr U = (2 ^ Z.to_nat (c_nq c))%nat.
  Proof.
    intros Hf Hn Hg. destruct (C91_random in_range rng n_qubits n_gates g Hf Hn) as (g' & c & E & L & F & V & (B1 & B2 & B3) & _ & _).
    destruct (C08_circuit_unitary O IR IC rho c V) as (U & EU & Hu & Hr).
    - intros N. rewrite N in L. cbn in L. lia.
    - apply Forall_forall. intros o Ho. rewrite Forall_forall in F. destruct (F o Ho) as (b & xs & qs & Hb & _ & -> & La & _ & Lq & Nq & _). cbn [well_placed].
      split; [split; [apply api_plain; exact I|exists b, (map PNum xs); split; [exact Hb|split; [now rewrite map_length|reflexivity]]]|]. split; [exact Nq|]. split; [exact Lq|].
      intros q Hq. apply B2. apply in_flat_map. exists (GateOp (builtin_gate b (map PNum xs)) qs). split; [exact Ho|exact Hq].
    - exists g', c, U. split; [exact E|]. split; [exact EU|]. split; [exact Hu|exact Hr].
  Qed.
End Unitary.

(** ** Example: numbers as angles, all of them in range; the draws for CNOT on 2 and 0, RY by 5 on 1 *)
Module Example91.
  Definition rng := scripted (fun _ : Z => true) 0%Z.
  Example fair_rng : fair (fun _ => true) rng.
  Proof. now apply scripted_fair. Qed.
  Example circuit_drawn : option_map (fun c => (map (fun o => match o with GateOp g qs => (gate_name g, gate_params g, qs) | _ => (""%string, [], []) end) (c_ops c), c_nq c))
      (match snd (create_random_circuit rng 3 2 ([1; 0; 2; 0; 2; 1; 1], [5%Z])) with Ok c => Some c | Err _ => None end) =
    Some ([("CNOT"%string, [], [2; 0]); ("RY"%string, [PNum 5%Z], [1])], 3%Z).
  Proof. reflexivity. Qed.
  Example possible_cphase : possible (fun _ : Z => true) 3 (GateOp (builtin_gate (nth 17 builtins (Build_builtin "" "" 0 true 0 (fun _ => Err TypeError))) [PNum 7%Z]) [2; 1]).
  Proof.
    eexists _, [7%Z], [2; 1]. split; [|split; [|split; [reflexivity|]]].
    - cbn -[args0 args1 args3]. do 17 right. left. reflexivity.
    - cbn. tauto.
    - split; [reflexivity|]. split; [repeat constructor|]. split; [reflexivity|]. split; [repeat constructor; cbn; intuition lia|]. repeat constructor.
  Qed.
End Example91.

Print Assumptions C91_random.
Print Assumptions C91_no_qubits.
Print Assumptions C91_every_circuit.
Print Assumptions C91_one_qubit_refuted.
Print Assumptions C91_width_refuted.
Print Assumptions C91_unitary.
