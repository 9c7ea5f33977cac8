(** Evolution circuits: how the circuits are assembled. *)
From Coq Require Import Reals Lra Lia Ring Arith String ZArith.
From Verif Require Import Base BaseFacts MatModel MatFacts LiftModel LiftSpec LiftProofs Cplx CircuitModel CircuitSpec CircuitProofs GateMatModel GateMatProofs
  DecompModel OpModel OpSpec OpProofs PauliProofs EstModel ConjProofs EstProofs EstProofs3 EstProofs4 EvolModel EvolSpec EvolProofs EvolProofs2.
Open Scope list_scope.
Local Open Scope nat_scope.

Lemma span_app a b : span (a ++ b) = Z.max (span a) (span b).
Proof. unfold span. induction a as [|q a IH]; cbn [app fold_right]; [|rewrite IH]; [|lia]. induction b; cbn; lia. Qed.
Lemma span_nonneg a : (0 <= span a)%Z. Proof. induction a; cbn; lia. Qed.
Lemma span_incl a b : incl a b -> (span a <= span b)%Z.
Proof.
  assert (I : forall q b, In q b -> (Z.of_nat q + 1 <= span b)%Z).
  { clear. induction b as [|x b IH]; [intros []|]. cbn. intros [->|H]; [lia|]. specialize (IH H). unfold span in IH. lia. }
  induction a as [|q a IH]; intros H; cbn; [apply span_nonneg|].
  assert (span a <= span b)%Z by (apply IH; intros x Hx; apply H; right; auto). specialize (I q b (H q (or_introl eq_refl))). unfold span in *. lia.
Qed.
Lemma span_in q a : In q a -> (Z.of_nat q + 1 <= span a)%Z.
Proof. intros H. transitivity (span [q]); [cbn; lia|]. apply span_incl. intros x [<-|[]]; auto. Qed.
Lemma span_max qs : qs <> [] -> (Z.of_nat (max_nat qs) + 1 = span qs)%Z.
Proof.
  unfold max_nat. induction qs as [|q qs IH]; [congruence|]. intros _. destruct qs as [|r qs]; [cbn; lia|].
  cbn [fold_right span] in *. specialize (IH ltac:(discriminate)). unfold span in IH. cbn [fold_right] in IH. lia.
Qed.

Section Circ.
  Context {Num : Type} (angle : R -> Num) (T : time_ops Num).
  Notation for_term := (time_evolution_for_term angle T).
  Definition gate_op (o : operation Num) : Prop := match o with GateOp _ qs => qs <> [] | _ => False end.
  Lemma add_ops ops : Forall gate_op ops -> forall c : circuit Num, (0 <= c_nq c)%Z ->
    foldM (fun c o => circuit_add c (AddOp o)) ops c = Ok (Build_circuit (c_ops c ++ ops) (Z.max (c_nq c) (span (flat_map (qubit_indices (Num := Num)) ops)))).
  Proof.
    induction 1 as [|o ops Ho Hf IH]; intros c Hc; cbn [foldM flat_map].
    - rewrite app_nil_r. cbn. rewrite Z.max_l by lia. destruct c; reflexivity.
    - destruct o as [g qs|]; [|destruct Ho]. cbn [circuit_add]. unfold py_max. destruct qs as [|q qs]; [congruence|]. cbn [rbind].
      assert (P := span_max (q :: qs) Ho). set (m := max_nat (q :: qs)) in *. rewrite mk_circuit_Z_pos by lia. cbn [rbind]. rewrite IH by (cbn; lia).
      cbn [c_ops c_nq]. rewrite <- app_assoc, span_app. cbn [qubit_indices]. rewrite <- P. cbn [app]. do 2 f_equal. lia.
  Qed.
  Lemma changes_ops (t : term pauli) : Forall gate_op (flat_map (base_change angle) t) /\ Forall gate_op (flat_map (base_reversal angle) t) /\
    incl (flat_map (qubit_indices (Num := Num)) (flat_map (base_change angle) t)) (map fst t) /\ incl (flat_map (qubit_indices (Num := Num)) (flat_map (base_reversal angle) t)) (map fst t).
  Proof.
    induction t as [|f t (IH1 & IH2 & IH3 & IH4)]; cbn [flat_map map]; [repeat split; try constructor; apply incl_refl|].
    assert (A : Forall gate_op (base_change angle f) /\ Forall gate_op (base_reversal angle f) /\
      incl (flat_map (qubit_indices (Num := Num)) (base_change angle f)) [fst f] /\ incl (flat_map (qubit_indices (Num := Num)) (base_reversal angle f)) [fst f]).
    { unfold base_change, base_reversal. destruct (snd f); cbn; (split; [repeat constructor; cbn; discriminate|]); (split; [repeat constructor; cbn; discriminate|]); split; intros x Hx; cbn in *; auto; destruct Hx. }
    destruct A as (A1 & A2 & A3 & A4). split; [apply Forall_app; auto|]. split; [apply Forall_app; auto|]. rewrite !flat_map_app.
    split; (apply incl_app; [intros x Hx; specialize (A3 x); specialize (A4 x); cbn in A3, A4; cbn; intuition|apply incl_tl; auto]).
  Qed.
  Lemma cnots_ops (t : term pauli) : Forall gate_op (cnot_gates (Num := Num) t) /\ incl (flat_map (qubit_indices (Num := Num)) (cnot_gates t)) (map fst t).
  Proof.
    induction t as [|f t IH]; [split; [constructor|apply incl_refl]|]. destruct t as [|g t]; [split; [constructor|intros x []]|].
    destruct IH as [IH1 IH2]. change (cnot_gates (f :: g :: t)) with (GateOp (gate_CNOT (Num := Num)) [fst f; fst g] :: cnot_gates (g :: t)).
    split; [constructor; auto; discriminate|]. cbn [flat_map qubit_indices]. intros x Hx. cbn [app] in Hx. destruct Hx as [<-|[<-|Hx]]; [left; auto|right; left; auto|].
    right. apply IH2; auto.
  Qed.
  Lemma rev_cnots_ops (t : term pauli) : Forall gate_op (rev (cnot_gates (Num := Num) t)) /\ incl (flat_map (qubit_indices (Num := Num)) (rev (cnot_gates t))) (map fst t).
  Proof.
    destruct (cnots_ops t) as [H1 H2]. split; [apply Forall_rev; auto|]. intros x Hx. apply H2. apply in_flat_map in Hx as (o & Ho & Hx). apply in_flat_map.
    exists o. split; [apply in_rev; auto|auto].
  Qed.
  Lemma central_ops p (t : term pauli) : canonical t -> t <> [] -> exists q, central_gate (Num := Num) p t = [GateOp (gate_RZ p) [q]] /\ In q (map fst t) /\ forall f, In f t -> fst f <= q.
  Proof.
    induction t as [|f t IH]; [congruence|]. intros C _. destruct t as [|g t].
    - exists (fst f). split; [reflexivity|]. split; [left; auto|]. intros h [<-|[]]; auto.
    - destruct IH as (q & E & I & L); [apply C|discriminate|]. exists q. split; [exact E|]. split; [right; auto|].
      intros h [<-|Hh]; [|apply L; auto]. pose proof (canonical_head f _ C g (or_introl eq_refl)). specialize (L g (or_introl eq_refl)). lia.
  Qed.
  Lemma for_term_circuit (t : term pauli) c time : canonical t -> for_term [(t, c)] time = Ok (term_circuit angle T time (t, c)).
  Proof.
    intros C. unfold time_evolution_for_term, term_circuit. cbn [mk_circuit circuit_size_by_operations rbind fst snd]. destruct t as [|f t]; [reflexivity|].
    destruct (changes_ops (f :: t)) as (A1 & A2 & A3 & A4). destruct (cnots_ops (f :: t)) as [B1 B2]. destruct (rev_cnots_ops (f :: t)) as [D1 D2].
    destruct (central_ops (twice_times T time c) (f :: t) C ltac:(discriminate)) as (q & E & I & L).
    rewrite add_ops; [|repeat (apply Forall_app; split; auto); rewrite E; repeat constructor; discriminate|cbn; lia].
    cbn [c_ops c_nq app]. do 2 f_equal. rewrite !flat_map_app, !span_app, E.
    apply span_incl in A3, A4, B2, D2. assert (L' : span (map fst (f :: t)) = (Z.of_nat q + 1)%Z).
    { apply Z.le_antisymm; [|apply span_in; auto]. clear -L. generalize dependent (f :: t). intros u L. induction u as [|g u IH]; cbn; [lia|].
      specialize (IH ltac:(intros; apply L; right; auto)). specialize (L g (or_introl eq_refl)). unfold span in IH. lia. }
    assert (Lq : span (flat_map (qubit_indices (Num := Num)) [GateOp (gate_RZ (twice_times T time c)) [q]]) = (Z.of_nat q + 1)%Z) by (cbn; lia).
    rewrite Lq. rewrite L' in *. revert A3 A4 B2 D2.
    generalize (span (flat_map (qubit_indices (Num := Num)) (flat_map (base_change angle) (f :: t)))) (span (flat_map (qubit_indices (Num := Num)) (flat_map (base_reversal angle) (f :: t)))).
    generalize (span (flat_map (qubit_indices (Num := Num)) (cnot_gates (f :: t)))) (span (flat_map (qubit_indices (Num := Num)) (rev (cnot_gates (f :: t))))). lia.
  Qed.
  Lemma for_term_many op time : length op <> 1 -> for_term op time = Err ValueError.
  Proof. intros H. destruct op as [|[t c] [|? ?]]; cbn in *; congruence. Qed.

  (** circuits that may be added to others *)
  Definition addable (c : circuit Num) : Prop := (0 <= c_nq c)%Z /\ (c_nq c = 0%Z -> c_ops c = []).
  Lemma term_addable time tc : addable (term_circuit angle T time tc).
  Proof.
    destruct tc as [[|f t] c]; split; cbn; auto; [lia|pose proof (span_nonneg (map fst t)); unfold span in *; lia|].
    intros E. exfalso. pose proof (span_nonneg (map fst t)) as S. unfold span in S. cbn in E. lia.
  Qed.
  Lemma add_circuits (a b : circuit Num) : addable a -> addable b -> circuit_add a (AddCircuit b) = Ok (Build_circuit (c_ops a ++ c_ops b) (Z.max (c_nq a) (c_nq b))) /\
    addable (Build_circuit (c_ops a ++ c_ops b) (Z.max (c_nq a) (c_nq b))).
  Proof.
    intros [A1 A2] [B1 B2]. cbn [circuit_add]. destruct (Z.eq_dec (Z.max (c_nq a) (c_nq b)) 0) as [E|N].
    - rewrite A2, B2 by lia. cbn [app]. split; [apply mk_circuit_Z_nil; lia|]. split; cbn; auto; lia.
    - split; [apply mk_circuit_Z_pos; lia|]. split; cbn; [lia|intros; lia].
  Qed.
  Lemma concatenated_app (a b : list (circuit Num)) : concatenated (a ++ b) = Build_circuit (c_ops (concatenated a) ++ c_ops (concatenated b)) (Z.max (c_nq (concatenated a)) (c_nq (concatenated b))).
  Proof.
    unfold concatenated; cbn [c_ops c_nq]. rewrite flat_map_app. f_equal. rewrite map_app. induction (map c_nq a) as [|x l IH]; cbn [app fold_right]; [|lia].
    assert (H : (0 <= fold_right Z.max 0 (map c_nq b))%Z) by (clear; induction (map c_nq b); cbn; lia). lia.
  Qed.
  Lemma concatenated_one (c : circuit Num) : addable c -> concatenated [c] = c.
  Proof. intros [H _]. unfold concatenated; cbn. rewrite app_nil_r, Z.max_l by lia. destruct c; reflexivity. Qed.
  Lemma concatenated_addable (cs : list (circuit Num)) : Forall addable cs -> addable (concatenated cs).
  Proof.
    induction 1 as [|c cs Hc Hf IH]; [split; cbn; auto; lia|]. change (c :: cs) with ([c] ++ cs). rewrite concatenated_app, concatenated_one by auto.
    apply add_circuits; auto.
  Qed.
  Lemma fold_add {B} (f : B -> result (circuit Num)) (g : B -> circuit Num) l : (forall x, In x l -> f x = Ok (g x) /\ addable (g x)) -> forall acc, addable acc ->
    foldM (fun acc x => let! c := f x in circuit_add acc (AddCircuit c)) l acc = Ok (concatenated (acc :: map g l)).
  Proof.
    intros H. induction l as [|x l IH]; intros acc Ha; cbn [foldM map]; [rewrite concatenated_one; auto|].
    destruct (H x (or_introl eq_refl)) as [Ex Ax]. rewrite Ex. cbn [rbind]. destruct (add_circuits acc (g x) Ha Ax) as [E1 E2]. rewrite E1. cbn [rbind].
    rewrite IH by (auto; intros; apply H; right; auto). f_equal.
    change (acc :: g x :: map g l) with ([acc; g x] ++ map g l). rewrite concatenated_app. change ([acc; g x]) with ([acc] ++ [g x]). rewrite concatenated_app.
    rewrite !concatenated_one by auto. change (?a :: map g l) with ([a] ++ map g l). rewrite concatenated_app, concatenated_one by auto. reflexivity.
  Qed.
  Lemma reduce_circuits (cs : list (circuit Num)) : Forall addable cs -> cs <> [] -> reduce_add (map Ok cs) = Ok (concatenated cs).
  Proof.
    destruct cs as [|c cs]; [congruence|]. intros F _. inversion F as [|? ? F1 F2]; subst. cbn [map reduce_add rbind].
    rewrite (fold_add (fun x => x) (fun x => match x with Ok c => c | Err _ => c end)).
    - rewrite map_map. rewrite map_id. reflexivity.
    - intros x Hx. apply in_map_iff in Hx as (c' & <- & Hc). split; [auto|]. rewrite Forall_forall in F2. auto.
    - auto.
  Qed.
  Definition canonical_operator (h : qop CC) : Prop := forall t c, In (t, c) h -> canonical t.
  Lemma get_terms (h : qop CC) : canonical_operator h -> get_operators (qubit_simplify (K := CC) ci) h = map (fun tc => [tc]) h.
  Proof.
    intros H. apply map_ext_in. intros [t c] Hin. unfold mk_op. cbn [fst snd]. rewrite canonical_simplify by (eapply H; eauto). reflexivity.
  Qed.
  (** one Trotter step *)
  Definition slice (h : qop CC) (time : param Num) : list (circuit Num) := map (term_circuit angle T time) h.
  Lemma slice_addable h time : Forall addable (slice h time).
  Proof. apply Forall_forall. intros c Hc. apply in_map_iff in Hc as (tc & <- & _). apply term_addable. Qed.
  Lemma map_const_repeat {A} (x : A) n k : map (fun _ => x) (seq k n) = repeat x n.
  Proof. revert k. induction n as [|n IH]; intros k; cbn; [auto|]. rewrite IH. reflexivity. Qed.
  Lemma evolution_circuit (h : qop CC) time r : canonical_operator h -> h <> [] -> (0 < r)%Z ->
    time_evolution angle T h time "Trotter" r = Ok (concatenated (concat (repeat (slice h (divided_by T time r)) (Z.to_nat r)))).
  Proof.
    intros C N Hr. unfold time_evolution. cbn [String.eqb Ascii.eqb Bool.eqb negb]. rewrite get_terms by auto. rewrite map_map.
    rewrite (flat_map_ext _ (fun _ => map Ok (slice h (divided_by T time r)))).
    2:{ intros _. unfold slice. rewrite map_map. apply map_ext_in. intros [t c] Hin. apply for_term_circuit. eapply C; eauto. }
    rewrite flat_map_concat_map. unfold range_Z. rewrite map_const_repeat.
    assert (E : concat (repeat (map Ok (slice h (divided_by T time r))) (Z.to_nat r)) = map Ok (concat (repeat (slice h (divided_by T time r)) (Z.to_nat r)))).
    { generalize (Z.to_nat r). intros k. induction k as [|k IH]; cbn; [auto|]. rewrite IH, map_app. reflexivity. }
    rewrite E. apply reduce_circuits.
    - apply Forall_concat. apply Forall_forall. intros l Hl. apply repeat_spec in Hl. subst l. apply slice_addable.
    - destruct (Z.to_nat r) eqn:Er; [lia|]. destruct h as [|tc h]; [congruence|]. cbn. discriminate.
  Qed.
End Circ.
