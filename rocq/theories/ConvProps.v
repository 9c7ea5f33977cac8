(** Theorems for C53: conversions of operators to dictionaries and back, and between fermion operators and polynomial tensors; over ConvModel.v and ConvSpec.v.
    [small] is the pruning test abs(c) < EQ_TOLERANCE. *)
From Coq Require Import String ZArith Lia Sorted.
From Verif Require Import Base BaseFacts MatModel Json OpModel OpSpec OpProofs PauliProofs EstProofs3 FermiModel FermiSpec FermiProofs FermiProofs2 FermiProps
  TensorModel TensorSpec TensorProofs TensorProps ConvModel ConvSpec ConvProofs GaussQ.
From Verif Require UtilsModel UtilsProps MeasProps.
Local Open Scope nat_scope.
Local Open Scope list_scope.

(** ** Dictionaries *)
Section C53dict.
  Context {K : cring} {R : Type} (py : pynum K R) (HP : parts_of_numbers py) (im : K) (small : K -> bool).
  (** A qubit operator written to a dictionary and read back has the same terms, coefficients and order, without the terms whose coefficient is small. *)
  Theorem C53_qubit_round_trip schema (a : qop K) : wf_op a -> (forall t c, In (t, c) a -> canonical t) ->
    dict_to_operator py pauli_eqb (qubit_simplify im) small pauli_of_name (operator_to_dict py pauli_name schema a) = Ok (not_small_terms small a) /\
    ((forall t c, In (t, c) a -> small c = false) -> dict_to_operator py pauli_eqb (qubit_simplify im) small pauli_of_name (operator_to_dict py pauli_name schema a) = Ok a).
  Proof.
    intros W H.
    assert (E : dict_to_operator py pauli_eqb (qubit_simplify im) small pauli_of_name (operator_to_dict py pauli_name schema a) = Ok (not_small_terms small a)).
    { apply dict_back; auto using pauli_eqb_spec. intros t c Hin. specialize (H _ _ Hin). split; [apply canonical_simplify; auto|]. intros f Hf.
      assert (N : snd f <> Pid). { clear -H Hf. induction t as [|g t IH]; [destruct Hf|]. destruct H as (H1 & _ & H2). destruct Hf as [<-|Hf]; auto. }
      destruct (snd f); try reflexivity. congruence. }
    split; [exact E|]. intros Hs. rewrite E. f_equal. apply not_small_id. exact Hs.
  Qed.
  Theorem C53_ising_round_trip schema (a : isop K) : wf_op a -> (forall t c, In (t, c) a -> ising_canonical t) ->
    dict_to_operator py zact_eqb ising_simplify small z_of_name (operator_to_dict py z_name schema a) = Ok (not_small_terms small a) /\
    ((forall t c, In (t, c) a -> small c = false) -> dict_to_operator py zact_eqb ising_simplify small z_of_name (operator_to_dict py z_name schema a) = Ok a).
  Proof.
    intros W H.
    assert (E : dict_to_operator py zact_eqb ising_simplify small z_of_name (operator_to_dict py z_name schema a) = Ok (not_small_terms small a)).
    { apply dict_back; auto using zact_eqb_spec. intros t c Hin. split; [apply (ising_simplify_sorted small); exact (H t c Hin)|]. intros f _. destruct (snd f). reflexivity. }
    split; [exact E|]. intros Hs. rewrite E. f_equal. apply not_small_id. exact Hs.
  Qed.
End C53dict.

Section C53interaction.
  Context {K : cring} (isz : K -> bool) (Hz : forall x, isz x = true -> x = k0).
  (** the complex number a Python number is *)
  Definition as_complex (c : K + K * K) : K * K := match c with inl x => (x, k0) | inr z => z end.
  (** An interaction operator comes back with the same constant and the same arrays (values, shapes and dtypes). *)
  Theorem C53_interaction_round_trip schema (o : interaction) : MeasProps.storable (i_one o) -> MeasProps.storable (i_two o) ->
    exists o', dict_to_interaction isz (interaction_to_dict schema o) = Ok o' /\ as_complex (i_constant o') = as_complex (i_constant o) /\ i_one o' = i_one o /\ i_two o' = i_two o.
  Proof.
    intros H1 H2. pose proof (MeasProps.storable_round_trip isz _ H1) as E1. pose proof (MeasProps.storable_round_trip isz _ H2) as E2.
    unfold dict_to_interaction, interaction_to_dict, array_field, jitem, jget. cbn [dget String.eqb Ascii.eqb Bool.eqb rbind]. rewrite E1, E2. destruct (i_constant o) as [x|[x y]]; cbn [scalar_array].
    - rewrite UtilsProps.C26_real_round_trip by (cbn; lia). cbn. eexists. split; [reflexivity|]. auto.
    - rewrite UtilsProps.C26_scalar_complex. destruct (isz y) eqn:Y; cbn; eexists; (split; [reflexivity|]); cbn; auto. rewrite (Hz _ Y). auto.
  Qed.
End C53interaction.

(** ** Tensors *)
Section C53tensor.
  Context {K : cring} (small isz : K -> bool) (Hz : forall x, isz x = true -> x = k0) (H0 : small k0 = true).
  Open Scope K_scope.
  Notation op := (fop K).
  (** The fermion operator of a tensor has the tensor's entries as coefficients, without the small ones. *)
  Theorem C53_operator_of_tensor h (a : ptensor K) : tensor_ok h a ->
    exists o, get_fermion_operator small isz h a = Ok o /\ wf_op o /\ on_qubits (n_qubits a) o /\
      (forall t, within (n_qubits a) t -> coef Bool.eqb o t = if small (tensor_value h a t) then 0 else tensor_value h a t).
  Proof.
    intros (N & _). destruct (get_fermion_operator_spec small isz h a Hz H0 N) as (o & E & W & Hin & C). exists o. split; [exact E|]. split; [exact W|]. split; [|exact C].
    intros t c Ht f Hf. destruct (Hin _ _ Ht) as (X & _). unfold within in X. rewrite Forall_forall in X. auto.
  Qed.
  Lemma count_acc (a : op) : forall m, let r := fold_left (fun n (tc : term bool * K) => fold_left (fun n (f : factor bool) => if (n <? fst f + 1)%nat then (fst f + 1)%nat else n) (fst tc) n) a m in
    (m <= r)%nat /\ (forall t c f, In (t, c) a -> In f t -> (fst f < r)%nat) /\ (forall b, (m <= b)%nat -> on_qubits b a -> (r <= b)%nat).
  Proof.
    assert (T : forall (t : term bool) m, let r := fold_left (fun n (f : factor bool) => if (n <? fst f + 1)%nat then (fst f + 1)%nat else n) t m in
      (m <= r)%nat /\ (forall f, In f t -> (fst f < r)%nat) /\ (forall b, (m <= b)%nat -> (forall f, In f t -> (fst f < b)%nat) -> (r <= b)%nat)).
    { induction t as [|f t IH]; intros m; cbn [fold_left]; [cbn; split; [lia|]; split; [intros f []|auto]|]. cbn zeta.
      destruct (IH (if (m <? fst f + 1)%nat then (fst f + 1)%nat else m)) as (A & B & C). cbn zeta in A, B, C. destruct (Nat.ltb_spec m (fst f + 1)).
      - split; [lia|]. split; [intros g [<-|Hg]; [lia|auto]|]. intros b Hb Hf. apply C; [specialize (Hf f (or_introl eq_refl)); lia|intros; apply Hf; right; auto].
      - split; [lia|]. split; [intros g [<-|Hg]; [lia|auto]|]. intros b Hb Hf. apply C; [lia|intros; apply Hf; right; auto]. }
    induction a as [|[t c] a IH]; intros m; cbn [fold_left]; [cbn; split; [lia|]; split; [intros t c f []|auto]|]. cbn [fst]. cbn zeta.
    destruct (T t m) as (A & B & C). cbn zeta in A, B, C. set (m' := fold_left _ t m) in *. destruct (IH m') as (A' & B' & C'). cbn zeta in A', B', C'.
    split; [lia|]. split.
    - intros u d f [E|Hin] Hf; [inversion E; subst; specialize (B f Hf); lia|eapply B'; eauto].
    - intros b Hb Ho. apply C'; [apply C; auto; intros f Hf; eapply Ho; [left; eauto|auto]|intros u d Hu; eapply Ho; right; eauto].
  Qed.
  Lemma count_on (a : op) : on_qubits (fermion_count_qubits a) a.
  Proof. destruct (count_acc a 0) as (_ & B & _). intros t c Hin f Hf. eapply B; eauto. Qed.
  Lemma count_least (a : op) b : on_qubits b a -> (fermion_count_qubits a <= b)%nat.
  Proof. destruct (count_acc a 0) as (_ & _ & C). intros H. apply C; auto. lia. Qed.
  (** the number of qubits a conversion uses *)
  Definition size_used (a : op) (n : option nat) : nat := match n with None => fermion_count_qubits a | Some m => m end.
  Lemma argument_ok (a : op) n : on_qubits (size_used a n) a -> n_qubits_argument a n = Ok (size_used a n).
  Proof.
    intros H. apply count_least in H. unfold n_qubits_argument. fold (size_used a n). destruct (Nat.ltb_spec (size_used a n) (fermion_count_qubits a)); [lia|reflexivity].
  Qed.
  Theorem C53_too_few_qubits h (a : op) m : ~ on_qubits m a -> get_interaction_operator small h a (Some m) = Err ValueError /\ get_polynomial_tensor small h a (Some m) = Err ValueError.
  Proof.
    intros H. assert (E : n_qubits_argument a (Some m) = Err ValueError); [|unfold get_interaction_operator, get_polynomial_tensor; rewrite E; auto].
    unfold n_qubits_argument. destruct (Nat.ltb_spec m (fermion_count_qubits a)); [reflexivity|]. exfalso. apply H. intros t c Hin f Hf. pose proof (count_on a t c Hin f Hf). lia.
  Qed.
  Lemma coef_dget (a : op) t : coef Bool.eqb a t = match dget (term_eqb Bool.eqb) t a with Some c => c | None => 0 end.
  Proof. unfold coef. destruct (dget _ t a); reflexivity. Qed.
  Lemma st_zero n t : st_value (0, (zeros_array n, zeros_array (K := K) n)) t = 0.
  Proof. unfold st_value. cbn [fst snd zeros_array data]. destruct (key_eqb (map snd t) []), (key_eqb (map snd t) [true; false]), (key_eqb (map snd t) [true; true; false; false]); reflexivity. Qed.
  (** The interaction operator of a fermion operator holds the coefficients of its normal form, and nothing that existed before is changed. *)
  Theorem C53_interaction_of_operator h (a : op) n : on_qubits (size_used a n) a -> (forall t c, In (t, c) (normal_ordered small a) -> interaction_term t) ->
    exists h' p, get_interaction_operator small h a n = Ok (h', p) /\ tensor_ok h' p /\ n_qubits p = size_used a n /\ preserved h h' /\
      forall t, tensor_value h' p t = coef Bool.eqb (normal_ordered small a) t.
  Proof.
    intros Hn Hi. unfold get_interaction_operator. rewrite argument_ok by auto. cbn [rbind]. set (m := size_used a n).
    destruct (C46_normal small a) as (Nn & Wn & Sn & _).
    destruct (gio_fold small (normal_ordered small a) (0, (zeros_array m, zeros_array m)) Wn) as ([c [o w]] & E & S1 & S2 & V); [intros t c Hin; split; [eapply Sn|eapply Hi]; eauto|].
    rewrite E. cbn [rbind fst snd zeros_array shape0] in *. destruct (three_keys small isz h c o w m S1 S2) as (T1 & T2 & T3).
    unfold polynomial_tensor. rewrite read_new. cbn [rbind n_qubits]. rewrite S1. eexists _, _. split; [reflexivity|]. split; [exact T1|]. split; [reflexivity|]. split; [exact T2|].
    intros t. rewrite T3. destruct (interaction_dec t) as [Ht|Ht].
    - rewrite V by auto. rewrite st_zero. symmetry. apply coef_dget.
    - rewrite coef_not_In.
      + unfold st_value. cbn [fst snd]. rewrite !key_neq; [reflexivity| | |]; intros X; apply Ht; unfold interaction_term; auto.
      + intros X. apply in_map_iff in X as ([u d] & E1 & X). cbn in E1. subst u. apply Ht. eapply Hi; eauto.
  Qed.
  (** A term of any other kind in the normal form is an error. *)
  Theorem C53_interaction_error h (a : op) n t c : on_qubits (size_used a n) a -> In (t, c) (normal_ordered small a) -> ~ interaction_term t ->
    get_interaction_operator small h a n = Err GenericException.
  Proof.
    intros Hn Hin Ht. unfold get_interaction_operator. rewrite argument_ok by auto. cbn [rbind]. destruct (C46_normal small a) as (Nn & Wn & Sn & _). rewrite gio_fold_bad; eauto.
  Qed.
  (** The polynomial tensor of a fermion operator holds the coefficients of its normal form. *)
  Theorem C53_tensor_of_operator h (a : op) n : on_qubits (size_used a n) a -> (exists t c, In (t, c) (normal_ordered small a) /\ t <> []) ->
    exists h' p, get_polynomial_tensor small h a n = Ok (h', p) /\ tensor_ok h' p /\ n_qubits p = size_used a n /\ preserved h h' /\
      forall t, tensor_value h' p t = coef Bool.eqb (normal_ordered small a) t.
  Proof.
    intros Hn (t0 & c0 & Hin & Ht). unfold get_polynomial_tensor. rewrite argument_ok by auto. cbn [rbind]. set (m := size_used a n).
    destruct (C46_normal small a) as (Nn & Wn & Sn & _).
    assert (I : loop_ok h m (h, [])). { split; [constructor|]. split; [intros k1 k2 r []|]. split; [intros r _; reflexivity|]. split; [cbn; lia|]. intros k e []. }
    destruct (gpt_fold small isz h m (normal_ordered small a) (h, []) Wn I) as (G1 & G2 & G3). destruct (fold_left (gpt_step m) (normal_ordered small a) (h, [])) as [h' d].
    destruct (make_tensor h m h' d G1) as [E T].
    { exists (map snd t0). split; [apply G3; right; eauto|]. destruct t0; [congruence|discriminate]. }
    rewrite E. cbn [rbind]. eexists _, _. split; [reflexivity|]. split; [exact T|]. split; [reflexivity|]. split; [apply G1|]. intros t. rewrite coef_dget. exact (G2 t).
  Qed.
  (** Operators without any ladder operator in their normal form have no polynomial tensor. *)
  Theorem C53_constants_have_no_tensor h (a : op) n : on_qubits (size_used a n) a -> (forall t c, In (t, c) (normal_ordered small a) -> t = []) ->
    get_polynomial_tensor small h a n = Err StopIteration.
  Proof.
    intros Hn H. unfold get_polynomial_tensor. rewrite argument_ok by auto. cbn [rbind]. destruct (C46_normal small a) as (_ & Wn & _). destruct (normal_ordered small a) as [|[t c] l]; [reflexivity|].
    rewrite (H t c) in * by (left; auto). destruct l as [|[u d] l]; [reflexivity|]. exfalso. rewrite (H u d) in Wn by (right; left; auto). unfold wf_op in Wn. cbn in Wn.
    apply NoDup_cons_iff in Wn as [Wn _]. apply Wn. left. reflexivity.
  Qed.
  Lemma normal_on m (a : op) : on_qubits m a -> on_qubits m (normal_ordered small a).
  Proof.
    intros Ha. destruct (normal_ordered_ok small (on_modes m) (on_modes_perm m) (on_modes_del m) a Ha) as [G _]. intros t c Hin.
    destruct (good_In _ bool_eqb_spec _ _ _ G t c Hin) as [[_ X] _]. exact X.
  Qed.
  Lemma back_coef h (p : ptensor K) (b : op) : tensor_ok h p -> on_qubits (n_qubits p) b -> (forall t c, In (t, c) b -> small c = false) -> wf_op b ->
    (forall t, tensor_value h p t = coef Bool.eqb b t) -> exists o, get_fermion_operator small isz h p = Ok o /\ wf_op o /\ forall t, coef Bool.eqb o t = coef Bool.eqb b t.
  Proof.
    intros Hp Hb Sb Wb V. destruct (C53_operator_of_tensor h p Hp) as (o & E & W & On & C). exists o. split; [exact E|]. split; [exact W|]. intros t.
    destruct (list_dec t (dkeys b)) as [X|X].
    - apply in_map_iff in X as ([u c] & Eu & X). cbn in Eu. subst u. rewrite C by (apply Forall_forall; intros f Hf; eapply Hb; eauto). rewrite V. rewrite (coef_In b t c) by auto.
      rewrite (Sb _ _ X). reflexivity.
    - rewrite (coef_not_In b t X). destruct (list_dec t (dkeys o)) as [Y|Y]; [|apply coef_not_In; auto]. apply in_map_iff in Y as ([u c] & Eu & Y). cbn in Eu. subst u.
      rewrite C by (apply Forall_forall; intros f Hf; eapply On; eauto). rewrite V, (coef_not_In b t X), H0. reflexivity.
  Qed.
  (** To a tensor and back: the normal form of the operator.  (By C46 it denotes the same operator.) *)
  Theorem C53_operator_round_trip h (a : op) n : on_qubits (size_used a n) a ->
    ((forall t c, In (t, c) (normal_ordered small a) -> interaction_term t) ->
       exists h' p o, get_interaction_operator small h a n = Ok (h', p) /\ get_fermion_operator small isz h' p = Ok o /\ wf_op o /\
         forall t, coef Bool.eqb o t = coef Bool.eqb (normal_ordered small a) t) /\
    ((exists t c, In (t, c) (normal_ordered small a) /\ t <> []) ->
       exists h' p o, get_polynomial_tensor small h a n = Ok (h', p) /\ get_fermion_operator small isz h' p = Ok o /\ wf_op o /\
         forall t, coef Bool.eqb o t = coef Bool.eqb (normal_ordered small a) t).
  Proof.
    intros Hn. destruct (C46_normal small a) as (_ & Wn & Sn & _). split; intros H.
    - destruct (C53_interaction_of_operator h a n Hn H) as (h' & p & E & T & Q & _ & V). destruct (back_coef h' p (normal_ordered small a) T) as (o & E2 & W & C); auto; [rewrite Q; apply normal_on; auto|].
      exists h', p, o. auto.
    - destruct (C53_tensor_of_operator h a n Hn H) as (h' & p & E & T & Q & _ & V). destruct (back_coef h' p (normal_ordered small a) T) as (o & E2 & W & C); auto; [rewrite Q; apply normal_on; auto|].
      exists h', p, o. auto.
  Qed.
  (** A tensor whose non-zero entries stand at normal ordered products and are not small. *)
  Definition normal_tensor (h : heap K) (p : ptensor K) : Prop :=
    forall t, within (n_qubits p) t -> tensor_value h p t = 0 \/ (normal_term t /\ small (tensor_value h p t) = false).
  (** To an operator and back, with the size given: the same entries. *)
  Theorem C53_tensor_round_trip h (p : ptensor K) : tensor_ok h p -> normal_tensor h p ->
    exists o, get_fermion_operator small isz h p = Ok o /\
      ((forall t, within (n_qubits p) t -> tensor_value h p t = 0 \/ interaction_term t) ->
         exists h' p', get_interaction_operator small h o (Some (n_qubits p)) = Ok (h', p') /\ n_qubits p' = n_qubits p /\ tensor_ok h' p' /\
           forall t, within (n_qubits p) t -> tensor_value h' p' t = tensor_value h p t) /\
      ((exists t, within (n_qubits p) t /\ t <> [] /\ tensor_value h p t <> 0) ->
         exists h' p', get_polynomial_tensor small h o (Some (n_qubits p)) = Ok (h', p') /\ n_qubits p' = n_qubits p /\ tensor_ok h' p' /\
           forall t, within (n_qubits p) t -> tensor_value h' p' t = tensor_value h p t).
  Proof.
    intros Hp Hn. pose proof Hp as (N & _). destruct (get_fermion_operator_spec small isz h p Hz H0 N) as (o & E & W & Hin & C). exists o. split; [exact E|].
    assert (On : on_qubits (size_used o (Some (n_qubits p))) o) by (intros t c Ht f Hf; destruct (Hin _ _ Ht) as (X & _); unfold within in X; rewrite Forall_forall in X; apply X; auto).
    assert (F : forall t c, In (t, c) o -> within (n_qubits p) t /\ tensor_value h p t = c /\ c <> 0).
    { intros t c Ht. destruct (Hin _ _ Ht) as (Hw & _ & Hs). split; [exact Hw|]. pose proof (C t Hw) as X. rewrite (coef_In o t c W Ht) in X.
      destruct (small (tensor_value h p t)) eqn:S; [subst; congruence|]. split; [auto|]. intros ->. congruence. }
    assert (Fx : normal_ordered small o = o).
    { apply C46_fixed; auto; [|intros t c Ht; apply (Hin _ _ Ht)]. intros t c Ht. destruct (F _ _ Ht) as (F1 & F2 & F3). destruct (Hn t F1) as [X|[X _]]; [congruence|exact X]. }
    assert (V : forall t, within (n_qubits p) t -> coef Bool.eqb o t = tensor_value h p t).
    { intros t Hw. rewrite C by auto. destruct (Hn t Hw) as [X|[_ X]]; [rewrite X, H0; reflexivity|rewrite X; reflexivity]. }
    split; intros H.
    - destruct (C53_interaction_of_operator h o (Some (n_qubits p)) On) as (h' & p' & G1 & G2 & G3 & _ & G4).
      { rewrite Fx. intros t c Ht. destruct (F _ _ Ht) as (F1 & F2 & F3). destruct (H t F1) as [X|X]; [congruence|exact X]. }
      exists h', p'. split; [exact G1|]. split; [exact G3|]. split; [exact G2|]. intros t Hw. rewrite G4, Fx. auto.
    - destruct (C53_tensor_of_operator h o (Some (n_qubits p)) On) as (h' & p' & G1 & G2 & G3 & _ & G4).
      { rewrite Fx. destruct H as (t & Hw & Ht & Hv). destruct (list_dec t (dkeys o)) as [X|X]; [|rewrite <- V, coef_not_In in Hv by auto; congruence].
        apply in_map_iff in X as ([u c] & Eu & X). cbn in Eu. subst u. eauto. }
      exists h', p'. split; [exact G1|]. split; [exact G3|]. split; [exact G2|]. intros t Hw. rewrite G4, Fx. auto.
  Qed.
End C53tensor.

(** ** Concrete cases *)
Definition q0 : Qcanon.Qc := fst (k0 : GQ).
Definition py_gq : pynum GQ Qcanon.Qc :=
  {| is_complex := fun c : GQ => negb (Qcanon.Qc_eq_bool (snd c) (q0)); re := fun c : GQ => fst c; imag := fun c : GQ => snd c; zero_r := fun y => Qcanon.Qc_eq_bool y (q0);
     of_real := fun x => (x, q0) : GQ; times_1j := fun y => (q0, y) : GQ |}.
Example C53_example_numbers : parts_of_numbers py_gq.
Proof.
  split.
  - intros [x y]. cbn. apply injective_projections; cbn [fst snd]; [rewrite Qcanon.Qcplus_comm|]; rewrite Qcanon.Qcplus_0_l; reflexivity.
  - intros [x y] H. cbn in *. apply negb_false_iff in H. apply Qcanon.Qc_eq_bool_correct in H. subst. reflexivity.
  - intros y H. cbn in *. apply Qcanon.Qc_eq_bool_correct in H. subst. reflexivity.
Qed.
Definition ex_qop : qop GQ := [([(0, Px); (3, Pz)], gq 1 2); ([], gq 8 0); ([(2, Py)], gq 0 0)].
Example C53_example_qubit : wf_op ex_qop /\ (forall t c, In (t, c) ex_qop -> canonical t) /\
  dict_to_operator py_gq pauli_eqb (qubit_simplify qi) gq_zero pauli_of_name (operator_to_dict py_gq pauli_name "zapata-v1-qubit_op" ex_qop) = Ok (firstn 2 ex_qop).
Proof.
  assert (W : wf_op ex_qop) by (repeat constructor; cbn; intuition discriminate).
  assert (C : forall t c, In (t, c) ex_qop -> canonical t). { intros t c [H|[H|[H|[]]]]; inversion H; subst; cbn; repeat split; try discriminate; lia. }
  split; [exact W|]. split; [exact C|]. destruct (C53_qubit_round_trip py_gq C53_example_numbers qi gq_zero "zapata-v1-qubit_op" ex_qop W C) as [E _]. rewrite E. reflexivity.
Qed.
(** 2 a0^ a1 a1^ a0 + 1: its normal form has the kinds an interaction operator can hold *)
Definition ex_fop : fop GQ := [([(0, true); (1, false); (1, true); (0, false)], gq 8 0); ([], gq 4 0)].
Example C53_example_operator : on_qubits (size_used ex_fop (Some 3)) ex_fop /\ (forall t c, In (t, c) (normal_ordered gq_zero ex_fop) -> interaction_term t) /\
  exists h' p, get_interaction_operator gq_zero [] ex_fop (Some 3) = Ok (h', p) /\ n_qubits p = 3 /\ gq_eqb (tensor_value h' p [(0, true); (0, false)]) (gq 8 0) = true /\
    gq_eqb (tensor_value h' p [(1, true); (0, true); (1, false); (0, false)]) (gq 8 0) = true.
Proof.
  split; [|split].
  - intros t c [H|[H|[]]] f Hf; inversion H; subst; cbn in Hf; intuition (subst; cbn; lia).
  - assert (E : dkeys (normal_ordered gq_zero ex_fop) = [[(0, true); (0, false)]; [(1, true); (0, true); (1, false); (0, false)]; []]) by (vm_compute; reflexivity).
    intros t c H. apply (in_map fst) in H. unfold dkeys in E. rewrite E in H. cbn in H. destruct H as [<-|[<-|[<-|[]]]]; unfold interaction_term; cbn; auto.
  - assert (B : match get_interaction_operator gq_zero [] ex_fop (Some 3) with
      | Ok (h', p) => Nat.eqb (n_qubits p) 3 && gq_eqb (tensor_value h' p [(0, true); (0, false)]) (gq 8 0) &&
          gq_eqb (tensor_value h' p [(1, true); (0, true); (1, false); (0, false)]) (gq 8 0)
      | Err _ => false end = true) by (vm_compute; reflexivity).
    destruct (get_interaction_operator gq_zero [] ex_fop (Some 3)) as [[h' p]|]; [|discriminate]. exists h', p. split; [reflexivity|].
    apply andb_prop in B as [B B3]. apply andb_prop in B as [B1 B2]. apply Nat.eqb_eq in B1. auto.
Qed.
Lemma ex_a_entries t : within 2 t -> tensor_value ex_heap ex_a t = k0 \/ (t = [] \/ t = [(0, true); (1, false)]).
Proof.
  intros _. unfold tensor_value, value. cbn [n_body_tensors ex_a dget]. destruct (key_eqb (map snd t) []) eqn:E1.
  - apply key_eqb_spec in E1. destruct t; [auto|discriminate].
  - destruct (key_eqb (map snd t) [true; false]) eqn:E2; [|auto]. apply key_eqb_spec in E2. destruct t as [|[i b] [|[j d] [|? ?]]]; try discriminate. cbn in E2. inversion E2; subst.
    cbn. destruct i as [|i]; [|auto]. destruct j as [|[|j]]; auto.
Qed.
Example C53_example_tensor : tensor_ok ex_heap ex_a /\ normal_tensor gq_zero ex_heap ex_a /\ (forall t, within (n_qubits ex_a) t -> tensor_value ex_heap ex_a t = k0 \/ interaction_term t) /\
  (exists t, within (n_qubits ex_a) t /\ t <> [] /\ tensor_value ex_heap ex_a t <> k0).
Proof.
  split; [apply C52_example_ok|]. split; [|split].
  - intros t Ht. destruct (ex_a_entries t Ht) as [H|[->| ->]]; [auto|right|right].
    + split; [intros i j f g _ Hi; destruct i; discriminate|reflexivity].
    + split; [|reflexivity]. intros i j f g L Hi Hj. destruct i as [|[|i]]; [|destruct j as [|[|[|j]]]; try lia; discriminate|destruct i; discriminate]. destruct j as [|[|j]]; [lia| |destruct j; discriminate].
      inversion Hi; inversion Hj; subst. cbn. auto.
  - intros t Ht. destruct (ex_a_entries t Ht) as [H|[->| ->]]; [auto|right|right]; unfold interaction_term; cbn; auto.
  - exists [(0, true); (1, false)]. split; [repeat constructor; cbn; lia|]. split; [discriminate|]. intros H. apply (f_equal fst), (f_equal (fun q => QArith_base.Qnum (Qcanon.this q))) in H. vm_compute in H. discriminate.
Qed.
(** Without the size the tensor may come back smaller: the constant 1 on two modes comes back on none. *)
Definition ex_const : ptensor GQ := {| n_qubits := 2; n_body_tensors := [([], Num (gq 4 0)); ([true; false], Arr 0)] |}.
Theorem C53_size_inferred_refuted : exists (h : heap GQ) p o h' p', tensor_ok h p /\ normal_tensor gq_zero h p /\ get_fermion_operator gq_zero gq_zero h p = Ok o /\
  get_interaction_operator gq_zero h o None = Ok (h', p') /\ n_qubits p' <> n_qubits p.
Proof.
  pose (o := match get_fermion_operator gq_zero gq_zero [zeros_array 2] ex_const with Ok o => o | Err _ => [] end).
  pose (res := match get_interaction_operator gq_zero [zeros_array 2] o None with Ok r => r | Err _ => ([], ex_const) end).
  exists [zeros_array 2], ex_const, o, (fst res), (snd res).
  assert (V : forall t, tensor_value [zeros_array 2] ex_const t = if key_eqb (map snd t) [] then gq 4 0 else k0).
  { intros t. unfold tensor_value, value. cbn [n_body_tensors ex_const dget]. destruct (key_eqb (map snd t) []); [reflexivity|]. destruct (key_eqb (map snd t) [true; false]); reflexivity. }
  split; [|split; [|split; [|split]]].
  - split; [repeat constructor; cbn; intuition discriminate|]. split; [intros k1 k2 r H1 H2; cbn in H1, H2; intuition congruence|]. split; [exists [true; false], 0; cbn; auto|].
    intros k e H. cbn in H. destruct H as [H|[H|[]]]; injection H as <- <-; cbn; repeat split; auto; discriminate.
  - intros t Ht. rewrite V. destruct (key_eqb (map snd t) []) eqn:E; [|auto]. apply key_eqb_spec in E. destruct t; [|discriminate]. right. split; [intros i j f g _ Hi; destruct i; discriminate|reflexivity].
  - unfold o. assert (B : match get_fermion_operator gq_zero gq_zero [zeros_array 2] ex_const with Ok _ => true | Err _ => false end = true) by (vm_compute; reflexivity).
    destruct (get_fermion_operator gq_zero gq_zero [zeros_array 2] ex_const); [reflexivity|discriminate].
  - unfold res. assert (B : match get_interaction_operator gq_zero [zeros_array 2] o None with Ok _ => true | Err _ => false end = true) by (vm_compute; reflexivity).
    destruct (get_interaction_operator gq_zero [zeros_array 2] o None) as [[h' p']|]; [reflexivity|discriminate].
  - assert (E : n_qubits (snd res) = 0) by (vm_compute; reflexivity). rewrite E. discriminate.
Qed.
(** An entry at a product that is not normal ordered moves: a0 a1^ comes back as - a1^ a0. *)
Definition ex_two : ptensor GQ := {| n_qubits := 2; n_body_tensors := [([], Num (gq 0 0)); ([false; true], Arr 0)] |}.
Theorem C53_unordered_entries_refuted : exists (h : heap GQ) p o h' p' t, tensor_ok h p /\ get_fermion_operator gq_zero gq_zero h p = Ok o /\
  get_polynomial_tensor gq_zero h o (Some (n_qubits p)) = Ok (h', p') /\ within (n_qubits p) t /\ tensor_value h' p' t <> tensor_value h p t.
Proof.
  pose (hp := [ex_array (gq 4 0)]).
  pose (o := match get_fermion_operator gq_zero gq_zero hp ex_two with Ok o => o | Err _ => [] end).
  pose (res := match get_polynomial_tensor gq_zero hp o (Some (n_qubits ex_two)) with Ok r => r | Err _ => ([], ex_two) end).
  exists hp, ex_two, o, (fst res), (snd res), [(0, false); (1, true)]. split; [|split; [|split; [|split]]].
  - split; [repeat constructor; cbn; intuition discriminate|]. split; [intros k1 k2 r H1 H2; cbn in H1, H2; intuition congruence|]. split; [exists [false; true], 0; cbn; auto|].
    intros k e H. cbn in H. destruct H as [H|[H|[]]]; injection H as <- <-; cbn; repeat split; auto; discriminate.
  - unfold o. assert (B : match get_fermion_operator gq_zero gq_zero hp ex_two with Ok _ => true | Err _ => false end = true) by (vm_compute; reflexivity).
    destruct (get_fermion_operator gq_zero gq_zero hp ex_two); [reflexivity|discriminate].
  - unfold res. assert (B : match get_polynomial_tensor gq_zero hp o (Some (n_qubits ex_two)) with Ok _ => true | Err _ => false end = true) by (vm_compute; reflexivity).
    destruct (get_polynomial_tensor gq_zero hp o (Some (n_qubits ex_two))) as [[h' p']|]; [reflexivity|discriminate].
  - repeat constructor; cbn; lia.
  - intros H. apply (f_equal fst), (f_equal (fun q => QArith_base.Qnum (Qcanon.this q))) in H. vm_compute in H. discriminate.
Qed.
(** the identity has no polynomial tensor *)
Example C53_example_constant : get_polynomial_tensor gq_zero [] [([], gq 4 0)] (Some 2) = Err StopIteration.
Proof.
  assert (B : match get_polynomial_tensor gq_zero [] [([], gq 4 0)] (Some 2) with Err StopIteration => true | _ => false end = true) by (vm_compute; reflexivity).
  destruct (get_polynomial_tensor gq_zero [] [([], gq 4 0)] (Some 2)) as [|[]]; discriminate || reflexivity.
Qed.
Print Assumptions C53_qubit_round_trip.
Print Assumptions C53_ising_round_trip.
Print Assumptions C53_interaction_round_trip.
Print Assumptions C53_operator_round_trip.
Print Assumptions C53_tensor_round_trip.
