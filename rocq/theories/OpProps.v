(** Properties C42-C45: symbolic operators. *)
From Coq Require Import Reals Permutation Sorted Ring Lra.
From Verif Require Import Base BaseFacts MatModel MatFacts LiftSpec LiftProofs Cplx CmpModel CmpProofs GaussZ OpModel OpSpec OpProofs PauliProofs OpProofs2.
Open Scope list_scope.
Local Open Scope nat_scope.

(** ** C42: qubit operators behave like their matrices *)
Section C42.
  Context {K : cring} (im : K) (Him : kmul im im = kopp k1) (n : nat).
  Add Ring Kring_c42 : (kth K).
  Notation M := (qop_matrix im n).
  Notation mul := (op_mul pauli_eqb (qubit_simplify im)).

  Theorem C42_product (a b : qop K) : on_qubits n a -> on_qubits n b -> meq (M (mul a b)) (mmul (M a) (M b)).
  Proof. apply qop_mul_matrix, Him. Qed.
  Theorem C42_sum small (a b : qop K) : exists pruned : qop K,
    Forall (fun tc => small (snd tc) = true) pruned /\ incl (map fst pruned) (dkeys b) /\ (length pruned <= length b)%nat /\
    meq (madd (M (op_add pauli_eqb small a b)) (M pruned)) (madd (M a) (M b)).
  Proof.
    destruct (qop_merge_matrix im n kadd small k1 a b) as (r & H1 & H2 & Hl & H3); [intros; ring|]. exists r. split; [auto|]. split; [auto|]. split; [auto|].
    etransitivity; [exact H3|]. split; [auto|]. split; [auto|]. intros i j _ _. cbn. ring.
  Qed.
  Theorem C42_difference small (a b : qop K) : exists pruned : qop K,
    Forall (fun tc => small (snd tc) = true) pruned /\ incl (map fst pruned) (dkeys b) /\ (length pruned <= length b)%nat /\
    meq (madd (M (op_sub pauli_eqb small a b)) (M pruned)) (msub (M a) (M b)).
  Proof.
    destruct (qop_merge_matrix im n ksub small (kopp k1) a b) as (r & H1 & H2 & Hl & H3); [intros; ring|]. exists r. split; [auto|]. split; [auto|]. split; [auto|].
    etransitivity; [exact H3|]. split; [auto|]. split; [auto|]. intros i j _ _. cbn. ring.
  Qed.
  (** without small coefficients the sum and the difference are exact *)
  Corollary C42_sum_exact (a b : qop K) : meq (M (op_add pauli_eqb (fun _ => false) a b)) (madd (M a) (M b)) /\
    meq (M (op_sub pauli_eqb (fun _ => false) a b)) (msub (M a) (M b)).
  Proof.
    split; [destruct (C42_sum (fun _ => false) a b) as (r & H1 & _ & _ & H3)|destruct (C42_difference (fun _ => false) a b) as (r & H1 & _ & _ & H3)];
      (destruct r as [|tc r]; [|inversion H1; discriminate]); (etransitivity; [|exact H3]);
      apply (meq_qop n); try (cbn; apply qop_matrix_shape); try apply qop_matrix_shape; intros i j _ _; cbn; ring.
  Qed.
  Theorem C42_scalar (a : qop K) c : meq (M (op_scale a c)) (mscale c (M a)) /\ meq (M (op_neg a)) (mscale (kopp k1) (M a)).
  Proof. split; apply qop_scale_matrix. Qed.
  Theorem C42_constructor t c : (forall f, In f t -> fst f < n) ->
    meq (M (mk_op (qubit_simplify im) t c)) (mscale c (term_matrix im n t)).
  Proof. apply mk_op_matrix, Him. Qed.
  (** Adding a scalar adds that multiple of the identity. *)
  Theorem C42_add_scalar (a : qop K) c :
    meq (M (add_scalar pauli_eqb a c)) (madd (M a) (mscale c (eye (2 ^ n)))) /\
    meq (M (sub_scalar pauli_eqb a c)) (msub (M a) (mscale c (eye (2 ^ n)))).
  Proof.
    unfold add_scalar, sub_scalar, set_constant, constant.
    split; (apply (meq_qop n); try (cbn; apply qop_matrix_shape); try apply qop_matrix_shape; intros i j _ _;
      rewrite qop_matrix_ent, (lval_dset pauli_eqb pauli_eqb_spec); cbn [ent madd msub mscale]; rewrite qop_matrix_ent; cbn [term_matrix fold_right]; ring).
  Qed.
  Theorem C42_power (a : qop K) k : on_qubits n a ->
    exists r, op_pow pauli_eqb (qubit_simplify im) a (Z.of_nat k) = Ok r /\ meq (M r) (mpow (M a) k).
  Proof.
    intros Ha. unfold op_pow. assert (E : (Z.of_nat k <? 0)%Z = false) by (apply Z.ltb_ge; lia). rewrite E, Nat2Z.id. eexists; split; [reflexivity|].
    apply (pow_matrix im Him n a k Ha).
  Qed.
  (** Products stay on the same qubits, list each term once and have their terms in canonical form. *)
  Theorem C42_product_form (a b : qop K) : (on_qubits n a -> on_qubits n b -> on_qubits n (mul a b)) /\ wf_op (mul a b) /\
    forall t c, In (t, c) (mul a b) -> canonical t.
  Proof.
    split; [apply mul_on_qubits|]. split; [apply (mul_wf pauli_eqb pauli_eqb_spec)|]. unfold op_mul.
    assert (G : forall l d, (forall t c, In (t, c) d -> canonical t) -> forall t c, In (t, c) (fold_left (fun d lt => fold_left (fun d rt =>
        let '(c, t) := qubit_simplify im (fst lt ++ fst rt) (kmul (snd lt) (snd rt)) in accumulate_term pauli_eqb t c d) b d) l d) -> canonical t).
    { induction l as [|lt l IH]; intros d Hd; cbn [fold_left]; [auto|]. apply IH. clear IH. revert d Hd. generalize b as m.
      induction m as [|rt m IH]; intros d Hd; cbn [fold_left]; [auto|]. apply IH. clear IH.
      pose proof (simplify_canonical im (fst lt ++ fst rt) (kmul (snd lt) (snd rt))) as Q. destruct (qubit_simplify _ _ _) as [c t]. cbn [snd] in Q.
      assert (Gset : forall v (e : qop K), (forall t c, In (t, c) e -> canonical t) -> forall t' c', In (t', c') (dset (term_eqb pauli_eqb) t v e) -> canonical t').
      { clear - Q. intros v e He t' c' Hin.
        assert (Hk : In t' (dkeys (dset (term_eqb pauli_eqb) t v e))) by (apply in_map_iff; exists (t', c'); auto).
        apply (In_dkeys_dset _ (term_eqb_spec _ pauli_eqb_spec)) in Hk as [->|Hk]; [auto|]. apply in_map_iff in Hk as ([t0 c0] & <- & Hin'). eapply He; eauto. }
      unfold accumulate_term. destruct (dget _ _ _); apply Gset; auto. }
    apply G. intros t c [].
  Qed.
End C42.

Definition x0y1 : qop GZ := [([(0, Px); (1, Py)], (2, 0)%Z); ([], (0, 1)%Z)].
Definition y0 : qop GZ := [([(0, Py)], (1, 1)%Z); ([(1, Py)], (0, 3)%Z)].
(** (2 X0 Y1 + i) * ((1+i) Y0 + 3i Y1) = (-2+2i) Z0 Y1 + 6i X0 + (-1+i) Y0 - 3 Y1 *)
Example ex_C42_product : gi = (0, 1)%Z /\ kmul gi gi = kopp (k1 (c := GZ)) /\ on_qubits 2 x0y1 /\ on_qubits 2 y0 /\
  op_mul pauli_eqb (qubit_simplify gi) x0y1 y0 =
    [([(0, Pz); (1, Py)], (-2, 2)%Z); ([(0, Px)], (0, 6)%Z); ([(0, Py)], (-1, 1)%Z); ([(1, Py)], (-3, 0)%Z)].
Proof.
  split; [reflexivity|]. split; [reflexivity|].
  assert (H : forall a : qop GZ, forallb (fun tc => forallb (fun f => fst f <? 2) (fst tc)) a = true -> on_qubits 2 a).
  { intros a Ha t c Hin f Hf. rewrite forallb_forall in Ha. specialize (Ha _ Hin). cbn in Ha. rewrite forallb_forall in Ha. apply Nat.ltb_lt, Ha, Hf. }
  split; [apply H; reflexivity|]. split; [apply H; reflexivity|]. vm_compute. reflexivity.
Qed.
Example ex_C42_sum : op_add pauli_eqb gz_zero x0y1 [([(0, Px); (1, Py)], (-2, 0)%Z); ([(1, Pz)], (1, 0)%Z)] = [([], (0, 1)%Z); ([(1, Pz)], (1, 0)%Z)].
Proof. vm_compute. reflexivity. Qed.

(** ** C43: Ising operators *)
Theorem C43_product {K : cring} (s : nat -> bool) (a b : isop K) :
  isop_value s (op_mul zact_eqb ising_simplify a b) = kmul (isop_value s a) (isop_value s b).
Proof. apply isop_mul_value. Qed.
(** simplification keeps exactly the qubits with an odd power, in increasing order, and the coefficient *)
Theorem C43_simplify {K : cring} (t : term zact) (c : K) :
  let '(c', t') := ising_simplify t c in
  c' = c /\ StronglySorted lt (map fst t') /\ forall i, In i (map fst t') <-> Nat.odd (length (filter (fun f => Nat.eqb (fst f) i) t)) = true.
Proof.
  unfold ising_simplify. split; [auto|]. rewrite map_map. cbn [fst]. rewrite map_id. split.
  - apply sort_nat_sorted. apply NoDup_filter, uniq_NoDup, nat_eqb_spec.
  - intros i. rewrite (sort_by_perm Nat.leb). rewrite filter_In, (uniq_In _ nat_eqb_spec). unfold power_of. split; [tauto|]. intros H. split; [|auto].
    destruct (filter (fun f => Nat.eqb (fst f) i) t) as [|f l] eqn:E; [discriminate|].
    assert (Hf : In f (filter (fun f => Nat.eqb (fst f) i) t)) by (rewrite E; left; auto). apply filter_In in Hf as [H1 H2]. apply Nat.eqb_eq in H2 as <-. apply in_map; auto.
Qed.
Theorem C43_sum {K : cring} small (a b : isop K) (s : nat -> bool) : exists pruned : isop K,
  Forall (fun tc => small (snd tc) = true) pruned /\ incl (map fst pruned) (dkeys b) /\ (length pruned <= length b)%nat /\
  kadd (isop_value s (op_add zact_eqb small a b)) (isop_value s pruned) = kadd (isop_value s a) (isop_value s b).
Proof.
  assert (Hf : forall x y : K, kadd x y = kadd x (kmul k1 y)). { intros. f_equal. symmetry. apply (Rmul_1_l (kth K)). }
  destruct (lval_merge zact_eqb zact_eqb_spec (zterm_value s) kadd small k1 Hf b a) as (r & H1 & H2 & Hl & H3).
  exists r. split; [auto|]. split; [auto|]. split; [auto|]. rewrite !isop_value_lval. unfold op_add. rewrite H3. f_equal. apply (Rmul_1_l (kth K)).
Qed.
Example ex_C43 : op_mul zact_eqb ising_simplify [([(3, ZZ); (1, ZZ)], (2, 0)%Z : GZ)] [([(1, ZZ); (0, ZZ)], (0, 5)%Z); ([(3, ZZ)], (1, 0)%Z)]
  = [([(0, ZZ); (3, ZZ)], (0, 10)%Z); ([(1, ZZ)], (2, 0)%Z)].
Proof. vm_compute. reflexivity. Qed.

(** ** C44: arithmetic of symbolic operators of any kind *)
Section C44.
  Context {K : cring} {A : Type} (aeqb : A -> A -> bool) (Ha : eqb_spec_of aeqb) (simplify : term A -> K -> K * term A) (small : K -> bool).
  Add Ring Kring_c44 : (kth K).
  Notation op := (sop A K).
  Notation teqb := (term_eqb aeqb).
  Notation cf := (coef aeqb).
  Notation add := (op_add aeqb small).
  Notation sub := (op_sub aeqb small).

  (** Coefficients of sums and differences: added (subtracted) termwise; a result is dropped only when it is small. *)
  Theorem C44_add_coefficients (a b : op) t : wf_op a -> wf_op b -> wf_op (add a b) /\
    (cf (add a b) t = kadd (cf a t) (cf b t) \/ (small (kadd (cf a t) (cf b t)) = true /\ In t (dkeys b) /\ ~ In t (dkeys (add a b)) /\ cf (add a b) t = k0)).
  Proof.
    intros Wa Wb. split; [apply merge_wf; auto|]. unfold op_add. rewrite (merge_coef aeqb Ha) by auto.
    assert (Cb : cf b t = match dget teqb t b with Some c => c | None => k0 end) by reflexivity. rewrite Cb. clear Cb. destruct (dget teqb t b) as [c|] eqn:E; [|left; ring]. cbn zeta.
    destruct (small (kadd (cf a t) c)) eqn:S; [|left; auto]. right. split; [auto|]. split; [eapply dget_Some_key; eauto using (term_eqb_spec aeqb Ha)|]. split; [|auto].
    apply (dget_None teqb (term_eqb_spec aeqb Ha)). rewrite (merge_get aeqb Ha) by auto. rewrite E. cbn zeta. now rewrite S.
  Qed.
  Theorem C44_sub_coefficients (a b : op) t : wf_op a -> wf_op b -> wf_op (sub a b) /\
    (cf (sub a b) t = ksub (cf a t) (cf b t) \/ (small (ksub (cf a t) (cf b t)) = true /\ In t (dkeys b) /\ ~ In t (dkeys (sub a b)) /\ cf (sub a b) t = k0)).
  Proof.
    intros Wa Wb. split; [apply merge_wf; auto|]. unfold op_sub. rewrite (merge_coef aeqb Ha) by auto.
    assert (Cb : cf b t = match dget teqb t b with Some c => c | None => k0 end) by reflexivity. rewrite Cb. clear Cb. destruct (dget teqb t b) as [c|] eqn:E; [|left; ring]. cbn zeta.
    destruct (small (ksub (cf a t) c)) eqn:S; [|left; auto]. right. split; [auto|]. split; [eapply dget_Some_key; eauto using (term_eqb_spec aeqb Ha)|]. split; [|auto].
    apply (dget_None teqb (term_eqb_spec aeqb Ha)). rewrite (merge_get aeqb Ha) by auto. rewrite E. cbn zeta. now rewrite S.
  Qed.
  (** Addition of operators without small coefficients is commutative. *)
  Theorem C44_add_comm (a b : op) : wf_op a -> wf_op b -> (forall t c, In (t, c) a \/ In (t, c) b -> small c = false) ->
    forall t, dget teqb t (add a b) = dget teqb t (add b a).
  Proof.
    intros Wa Wb Hs t. unfold op_add. rewrite !(merge_get aeqb Ha) by auto. unfold coef.
    destruct (dget teqb t a) as [x|] eqn:Ea, (dget teqb t b) as [y|] eqn:Eb; cbn zeta; auto.
    - replace (kadd y x) with (kadd x y) by ring. auto.
    - replace (kadd k0 x) with x by ring. rewrite (Hs t x); auto. left. eapply dget_In; eauto using (term_eqb_spec aeqb Ha).
    - replace (kadd k0 y) with y by ring. rewrite (Hs t y); auto. right. eapply dget_In; eauto using (term_eqb_spec aeqb Ha).
  Qed.
  Theorem C44_sub_self (a : op) : wf_op a -> small k0 = true -> sub a a = [].
  Proof.
    intros W S. assert (N : forall t, dget teqb t (sub a a) = None).
    { intros t. unfold op_sub. rewrite (merge_get aeqb Ha) by auto. destruct (dget teqb t a) as [c|] eqn:E; [|auto]. unfold coef. rewrite E. cbn zeta.
      replace (ksub c c) with (k0 (c := K)) by ring. now rewrite S. }
    destruct (sub a a) as [|[t c] l] eqn:E; [auto|]. specialize (N t). cbn in N. rewrite (eqb_spec_refl _ (term_eqb_spec aeqb Ha)) in N. discriminate.
  Qed.
  (** In place, x -= x fails on every non-zero operator instead of giving zero. *)
  Theorem C44_inplace_self_subtraction_refuted (h : heap (K := K) (A := A)) r t c l : small k0 = true -> dget Nat.eqb r h = Some ((t, c) :: l) ->
    inplace aeqb small ksub h r r = Err RuntimeError.
  Proof.
    intros S E. unfold inplace, deref. rewrite E. cbn [rbind]. rewrite Nat.eqb_refl. cbn [existsb snd].
    replace (ksub c c) with (k0 (c := K)) by ring. now rewrite S.
  Qed.
  (** Binary operators return a new object and leave every existing one as it was. *)
  Theorem C44_binary_operators_do_not_mutate f (h : heap (K := K) (A := A)) r1 r2 a b : dget Nat.eqb r1 h = Some a -> dget Nat.eqb r2 h = Some b ->
    exists h' r, binary_op aeqb small f h r1 r2 = Ok (h', r) /\ dget Nat.eqb r h = None /\
      dget Nat.eqb r h' = Some (fold_left (merge_term aeqb small f) b a) /\ forall r', r' <> r -> dget Nat.eqb r' h' = dget Nat.eqb r' h.
  Proof.
    intros E1 E2. unfold binary_op, deref. rewrite E1. cbn [rbind].
    assert (F : forall r, In r (map fst h) -> r <> fresh h). { intros r Hr. unfold fresh. apply max_nat_ge in Hr. lia. }
    assert (N2 : r2 <> fresh h). { apply F. apply (dget_Some_key Nat.eqb nat_eqb_spec) in E2. exact E2. }
    unfold inplace, deref. rewrite (dget_dset_same _ nat_eqb_spec). cbn [rbind]. rewrite (dget_dset_other _ nat_eqb_spec), E2 by auto. cbn [rbind].
    destruct (Nat.eqb_spec (fresh h) r2) as [Q|_]; [congruence|]. do 2 eexists. split; [reflexivity|]. split.
    - apply (dget_None _ nat_eqb_spec). intros Hin. exact (F _ Hin eq_refl).
    - split; [apply (dget_dset_same _ nat_eqb_spec)|]. intros r' Hr. rewrite !(dget_dset_other _ nat_eqb_spec) by auto. reflexivity.
  Qed.
  (** In-place operators change only the left operand. *)
  Theorem C44_inplace_only_left f (h h' : heap (K := K) (A := A)) r1 r2 : inplace aeqb small f h r1 r2 = Ok h' ->
    forall r, r <> r1 -> dget Nat.eqb r h' = dget Nat.eqb r h.
  Proof.
    unfold inplace, deref. destruct (dget Nat.eqb r1 h); cbn [rbind]; [|discriminate]. destruct (dget Nat.eqb r2 h); cbn [rbind]; [|discriminate].
    intros E r Hr. destruct (Nat.eqb r1 r2); [destruct (existsb _ _); [discriminate|]|]; injection E as <-; apply (dget_dset_other _ nat_eqb_spec); auto.
  Qed.
  (** Splitting into one-term operators and into groups. *)
  Definition canonical_op (a : op) : Prop := wf_op a /\ forall t c, In (t, c) a -> simplify t c = (c, t) /\ small c = false.
  Theorem C44_get_operators (a : op) : canonical_op a ->
    get_operators simplify a = map (fun tc => [tc]) a /\ accumulate aeqb small (get_operators simplify a) = a.
  Proof.
    intros H. split; [|apply accumulate_clean; auto]. apply map_ext_in. intros [t c] Hin. unfold mk_op. cbn [fst snd]. now rewrite (proj1 (proj2 H t c Hin)).
  Qed.
  Theorem C44_get_operator_groups (a : op) g : canonical_op a ->
    concat (get_operator_groups aeqb simplify small a g) = a /\
    length (get_operator_groups aeqb simplify small a g) = Nat.min (Nat.max 1 (Z.to_nat g)) (length a) /\
    forall p, In p (get_operator_groups aeqb simplify small a g) -> p <> [] /\
      length a / length (get_operator_groups aeqb simplify small a g) <= length p <= S (length a / length (get_operator_groups aeqb simplify small a g)).
  Proof.
    intros H. unfold get_operator_groups.
    assert (Eg : (if (g <? 1)%Z then 1 else Z.to_nat g) = Nat.max 1 (Z.to_nat g)) by (destruct (Z.ltb_spec g 1); lia). rewrite Eg.
    set (k := Nat.min _ _). assert (Hk : k = 0 /\ a = [] \/ 0 < k <= length a).
    { subst k. destruct a; [left; split; [cbn; lia|auto]|right; cbn [length]; lia]. }
    destruct Hk as [[-> ->]|Hk]; [cbn; repeat split; auto; contradiction|].
    destruct (take_groups_concat aeqb Ha simplify small (map (fun i => range_len i (length a) k) (seq 0 k)) a H) as [E1 E2].
    { apply sum_range. lia. }
    assert (L : length (take_groups aeqb small (map (fun i => range_len i (length a) k) (seq 0 k)) (get_operators simplify a)) = k).
    { apply (f_equal (@length _)) in E2. rewrite !map_length, seq_length in E2. exact E2. }
    split; [exact E1|]. split; [exact L|]. rewrite L. intros p Hp. apply (in_map (@length _)) in Hp. rewrite E2 in Hp. apply in_map_iff in Hp as (i & Ei & Hi).
    apply in_seq in Hi. rewrite range_len_closed in Ei by lia. split; [|destruct (i <? length a mod k); lia].
    assert (1 <= length a / k) by (apply Nat.div_le_lower_bound; lia). intros ->. cbn [length] in Ei. lia.
  Qed.
  Theorem C44_power_negative (a : op) k : (k < 0)%Z -> op_pow aeqb simplify a k = Err ValueError.
  Proof. intros H. unfold op_pow. now rewrite (proj2 (Z.ltb_lt _ _) H). Qed.
  Theorem C44_power_succ (a p : op) k : (0 <= k)%Z -> op_pow aeqb simplify a k = Ok p ->
    op_pow aeqb simplify a (k + 1) = Ok (op_mul aeqb simplify p a) /\ op_pow aeqb simplify a 0 = Ok (identity_op simplify).
  Proof.
    intros Hk. unfold op_pow. rewrite (proj2 (Z.ltb_ge _ _) Hk), (proj2 (Z.ltb_ge (k + 1) 0)) by lia. intros [= <-].
    replace (Z.to_nat (k + 1)) with (S (Z.to_nat k)) by lia. split; reflexivity.
  Qed.
  (** many_body_order is the length of a longest term whose coefficient is not small *)
  Theorem C44_many_body_order (a : op) m : many_body_order small a = Ok m -> a <> [] ->
    (exists t c, In (t, c) a /\ small c = false /\ length t = m) /\ forall t c, In (t, c) a -> small c = false -> length t <= m.
  Proof.
    intros E Ne. unfold many_body_order in E. destruct a as [|tc0 a0]; [congruence|]. cbv beta iota in E. set (a := tc0 :: a0) in *. clearbody a. clear tc0 a0 Ne.
    set (l := map (fun tc : list (factor A) * K => length (fst tc)) (filter (fun tc => negb (small (snd tc))) a)) in *.
    assert (G : forall l x y, fold_left Nat.max l x = y -> In y (x :: l) /\ forall z, In z (x :: l) -> z <= y).
    { clear. induction l as [|z l IH]; intros x y E; cbn in E; [subst; split; [left; auto|intros z [->|[]]; auto]|].
      apply IH in E as [E1 E2]. split.
      - destruct E1 as [E1|E1]; [|right; right; auto]. destruct (Nat.max_spec x z) as [[_ Q]|[_ Q]]; rewrite Q in E1; [right; left|left]; auto.
      - intros w [->|[->|Hw]]; [specialize (E2 _ (or_introl eq_refl)); lia|specialize (E2 _ (or_introl eq_refl)); lia|apply E2; right; auto]. }
    assert (Gl : In m l /\ forall z, In z l -> z <= m). { clearbody l. destruct l as [|x l0]; [discriminate E|]. injection E as E. apply G; auto. }
    destruct Gl as [G1 G2]. split.
    - apply in_map_iff in G1 as ([t c] & <- & Hin). apply filter_In in Hin as [Hin Hs]. exists t, c. cbn in *. destruct (small c); try discriminate. auto.
    - intros t c Hin Hs. apply G2. apply in_map_iff. exists (t, c). split; [auto|]. apply filter_In. split; [auto|]. cbn. now rewrite Hs.
  Qed.
End C44.
(** Associativity up to pruning: with complex coefficients, both ways of adding three operators agree within four tolerances. *)
Section C44R.
  Context {A : Type} (aeqb : A -> A -> bool) (Ha : eqb_spec_of aeqb) (tol : R) (Htol : (0 < tol)%R).
  Notation add := (op_add (K := CC) aeqb (is_small tol)).
  Lemma is_small_iff v : is_small tol v = true <-> (cmod v < tol)%R.
  Proof. unfold is_small, Rlt_bool. destruct (Rlt_dec _ _); split; auto; discriminate. Qed.
  Lemma cmod_opp v : cmod (copp v) = cmod v.
  Proof. unfold cmod, cabs2; cbn. f_equal. ring. Qed.
  Theorem C44_add_error (a b : sop A CC) t : wf_op a -> wf_op b ->
    (cmod (csub (coef aeqb (add a b) t) (cadd (coef aeqb a t) (coef aeqb b t))) < tol)%R.
  Proof.
    intros Wa Wb. destruct (C44_add_coefficients aeqb Ha (is_small tol) a b t Wa Wb) as [_ [E|(S & _ & _ & E)]]; rewrite E.
    - change (@kadd CC) with cadd. generalize (coef (K := CC) aeqb a t : C), (coef (K := CC) aeqb b t : C). intros p q. replace (csub _ _) with c0 by c_ring. rewrite cmod_0. auto.
    - apply is_small_iff in S. change (@kadd CC) with cadd in S. change (@k0 CC) with c0. revert S. generalize (coef (K := CC) aeqb a t : C), (coef (K := CC) aeqb b t : C). intros p q S.
      replace (csub c0 _) with (copp (cadd p q)) by c_ring. rewrite cmod_opp. exact S.
  Qed.
  Theorem C44_add_assoc (a b c : sop A CC) t : wf_op a -> wf_op b -> wf_op c ->
    (cmod (csub (coef aeqb (add (add a b) c) t) (coef aeqb (add a (add b c)) t)) < 4 * tol)%R.
  Proof.
    intros Wa Wb Wc. pose proof (proj1 (C44_add_coefficients aeqb Ha (is_small tol) a b t Wa Wb)) as Wab.
    pose proof (proj1 (C44_add_coefficients aeqb Ha (is_small tol) b c t Wb Wc)) as Wbc.
    pose proof (C44_add_error (add a b) c t Wab Wc) as E1. pose proof (C44_add_error a b t Wa Wb) as E2.
    pose proof (C44_add_error a (add b c) t Wa Wbc) as E3. pose proof (C44_add_error b c t Wb Wc) as E4.
    set (x := coef aeqb (add (add a b) c) t) in *. set (y := coef aeqb (add a (add b c)) t) in *. set (u := coef aeqb (add a b) t) in *. set (v := coef aeqb (add b c) t) in *.
    set (p := coef aeqb a t) in *. set (q := coef aeqb b t) in *. set (r := coef aeqb c t) in *. clearbody x y u v p q r.
    replace (csub x y) with (cadd (cadd (csub x (cadd u r)) (csub u (cadd p q))) (copp (cadd (csub y (cadd p v)) (csub v (cadd q r))))) by c_ring.
    pose proof (cmod_add (cadd (csub x (cadd u r)) (csub u (cadd p q))) (copp (cadd (csub y (cadd p v)) (csub v (cadd q r))))) as T1.
    pose proof (cmod_add (csub x (cadd u r)) (csub u (cadd p q))) as T2. pose proof (cmod_add (csub y (cadd p v)) (csub v (cadd q r))) as T3.
    rewrite cmod_opp in T1. cbn [car CC] in *. lra.
  Qed.
End C44R.
(** Exact associativity fails because intermediate small coefficients are dropped. *)
Theorem C44_add_assoc_exact_refuted : exists a b c : sop pauli CC, wf_op a /\ wf_op b /\ wf_op c /\
  op_add pauli_eqb (is_small 1) (op_add pauli_eqb (is_small 1) a b) c <> op_add pauli_eqb (is_small 1) a (op_add pauli_eqb (is_small 1) b c).
Proof.
  exists [([], (1/2, 0)%R)], [([], (-1/2, 0)%R)], [([], (1/2, 0)%R)]. do 3 (split; [repeat constructor; auto|]).
  assert (S : forall x : R, (-1 < x < 1)%R -> is_small 1 (x, 0%R) = true).
  { intros x Hx. apply is_small_iff. assert (Hm : (cmod (x, 0%R) * cmod (x, 0%R) < 1)%R) by (rewrite cmod_sq; unfold cabs2; cbn; nra). pose proof (cmod_nonneg (x, 0%R)). nra. }
  assert (M1 : forall x y : R, (-1 < x + y < 1)%R -> merge_term pauli_eqb (is_small 1) kadd [([], (x, 0)%R : CC)] ([], (y, 0)%R) = []).
  { intros x y H. unfold merge_term. cbn [fst snd dget term_eqb list_eqb]. replace (@kadd CC (x, 0)%R (y, 0)%R) with ((x + y)%R, 0%R) by (apply c_eq; cbn; ring).
    rewrite S by auto. reflexivity. }
  match goal with |- ?f (?f ?a ?b) ?c <> _ => assert (E1 : f a b = []) by exact (M1 (1/2)%R (-1/2)%R ltac:(lra)); assert (E2 : f b c = []) by exact (M1 (-1/2)%R (1/2)%R ltac:(lra)) end.
  rewrite E1, E2. unfold op_add; cbn [fold_left]. unfold merge_term. cbn [fst snd dget term_eqb list_eqb]. replace (@kadd CC k0 (1/2, 0)%R) with ((1/2)%R, 0%R) by (apply c_eq; cbn; ring). rewrite S by lra. discriminate.
Qed.
