(** Theorems for C46 (normal ordering) and C47 (Jordan-Wigner), stated over FermiModel.v and FermiSpec.v.
    [small] is the pruning test abs(c) < EQ_TOLERANCE of operator sums.  Each theorem holds for every such test, up to an operator whose
    coefficients are all small (the pruned ones); when only 0 is small it is exact. *)
From Coq Require Import NArith Permutation Sorted Ring.
From Verif Require Import Base BaseFacts MatModel MatFacts LiftSpec LiftProofs OpModel OpSpec OpProofs PauliProofs OpProofs2 ConjProofs
  FermiModel FermiSpec FermiProofs FermiProofs2 FermiProofs3 FermiProofs4 PauliBasis FermiProofs6 FermiProofs7 GaussQ.
Open Scope list_scope.
Local Open Scope nat_scope.

(** ** C46 *)
Section C46.
  Context {K : cring} (small : K -> bool) (n : nat).
  Add Ring Kring_fp : (kth K).
  Notation F := (fop_matrix (K := K) n).
  (** The result denotes the operator given, up to the pruned terms. *)
  Theorem C46_same_operator (a : fop K) : on_qubits n a -> exists r : fop K, all_small small r /\ (length r <= drop_bound a)%nat /\ normal_op r /\ meq (madd (F (normal_ordered small a)) (F r)) (F a).
  Proof. apply normal_ordered_matrix. Qed.
  Theorem C46_same_operator_exact (a : fop K) : on_qubits n a -> only_zero small -> meq (F (normal_ordered small a)) (F a).
  Proof. intros Ha Hz. destruct (C46_same_operator a Ha) as (r & H1 & _ & _ & E). apply (fop_exact small n _ _ r); auto; apply fop_shape. Qed.
  (** Every term of it is in normal order, has a coefficient that is not small, and appears once; is_normal_ordered recognises exactly normal order. *)
  Theorem C46_normal (a : fop K) : normal_op (normal_ordered small a) /\ wf_op (normal_ordered small a) /\
    (forall t c, In (t, c) (normal_ordered small a) -> small c = false) /\ is_normal_ordered (normal_ordered small a) = true.
  Proof.
    destruct (normal_ordered_ok small (fun _ => True)) with (a := a) as [G _]; auto.
    assert (N : normal_op (normal_ordered small a)) by (intros t c Hin; apply sorted_normal; destruct (good_In _ bool_eqb_spec _ _ _ G t c Hin) as [[X _] _]; exact X).
    split; [exact N|]. split; [apply G|]. split; [|apply is_normal_ordered_spec; exact N]. intros t c Hin. apply (good_In _ bool_eqb_spec _ _ _ G t c Hin).
  Qed.
  Theorem C46_recognised (a : fop K) : is_normal_ordered a = true <-> normal_op a.
  Proof. apply is_normal_ordered_spec. Qed.
  (** Normal ordering twice is normal ordering once; an operator in normal order is not changed. *)
  Theorem C46_fixed (a : fop K) : wf_op a -> normal_op a -> (forall t c, In (t, c) a -> small c = false) -> normal_ordered small a = a.
  Proof. intros W N H. apply (normal_ordered_id small (fun _ => True)); auto. intros t c Hin. split; [apply sorted_normal; eapply N; eauto|eapply H; eauto]. Qed.
  Theorem C46_idempotent (a : fop K) : normal_ordered small (normal_ordered small a) = normal_ordered small a.
  Proof. destruct (C46_normal a) as (N & W & H & _). apply C46_fixed; auto. Qed.
  (** The normal form decides equality of the operators denoted. *)
  Theorem C46_unique (a b : fop K) : on_qubits n a -> on_qubits n b -> only_zero small ->
    (meq (F a) (F b) <-> forall t, coef Bool.eqb (normal_ordered small a) t = coef Bool.eqb (normal_ordered small b) t).
  Proof.
    intros Ha Hb Hz. pose proof (C46_same_operator_exact a Ha Hz) as Ea. pose proof (C46_same_operator_exact b Hb Hz) as Eb.
    destruct (normal_ordered_ok small (on_modes n) (on_modes_perm n) (on_modes_del n) a Ha) as [Ga _].
    destruct (normal_ordered_ok small (on_modes n) (on_modes_perm n) (on_modes_del n) b Hb) as [Gb _].
    split.
    - intros E. apply (normal_unique n); [apply Ga|apply Gb|exact (good_keys _ bool_eqb_spec _ _ _ Ga)|exact (good_keys _ bool_eqb_spec _ _ _ Gb)|].
      etransitivity; [exact Ea|]. etransitivity; [exact E|]. symmetry; exact Eb.
    - intros E. etransitivity; [symmetry; exact Ea|]. etransitivity; [|exact Eb]. split; [rewrite !(proj1 (fop_shape n _)); auto|]. split; [rewrite !(proj2 (fop_shape n _)); auto|].
      intros i j _ _. rewrite !fop_ent.
      assert (X : forall (c : fop K), wf_op c -> forall (l : list fterm) phi, NoDup l -> incl (dkeys c) l -> lval phi c = fold_right (fun t s => kadd (kmul (coef Bool.eqb c t) (phi t)) s) k0 l).
      { clear. intros c W l phi. revert c W. induction l as [|t l IH]; intros c W N I.
        - destruct c as [|[u v] c]; [reflexivity|]. exfalso. apply (I u). left; auto.
        - cbn [fold_right]. inversion N as [|? ? Nt Nl]; subst.
          assert (G : lval phi c = kadd (kmul (coef Bool.eqb c t) (phi t)) (lval phi (ddel (term_eqb Bool.eqb) t c))).
          { unfold coef. rewrite (lval_ddel Bool.eqb bool_eqb_spec phi t c). destruct (dget (term_eqb Bool.eqb) t c); ring. }
          rewrite G, (IH (ddel (term_eqb Bool.eqb) t c)); auto.
          + f_equal. clear G. assert (Nt' : forall u, In u l -> u <> t) by (intros u Hu ->; auto). clear -Nt'. induction l as [|u l IHl]; cbn [fold_right]; [reflexivity|].
            f_equal; [|apply IHl; intros; apply Nt'; right; auto]. f_equal. unfold coef. rewrite (dget_ddel_other _ (term_eqb_spec _ bool_eqb_spec)); [reflexivity|]. apply Nt'. left; auto.
          + apply ddel_NoDup; auto.
          + intros u Hu. assert (Hu2 := Hu). apply In_dkeys_ddel in Hu2. destruct (I u Hu2) as [<-|Iu]; [|auto]. exfalso.
            apply (dget_None _ (term_eqb_spec _ bool_eqb_spec)) in Hu; [auto|]. apply (dget_ddel_same _ (term_eqb_spec _ bool_eqb_spec)), W. }
      set (l := uniq (term_eqb Bool.eqb) (dkeys (normal_ordered small a) ++ dkeys (normal_ordered small b))).
      assert (Nl : NoDup l) by (apply uniq_NoDup, term_eqb_spec, bool_eqb_spec).
      assert (Il : forall x, In x (dkeys (normal_ordered small a) ++ dkeys (normal_ordered small b)) -> In x l) by (intros x Hx; apply (uniq_In _ (term_eqb_spec _ bool_eqb_spec)); auto).
      rewrite (X _ (proj1 Ga) l), (X _ (proj1 Gb) l); auto; [|intros x Hx; apply Il, in_or_app; auto..].
      clear -E. induction l as [|t l IH]; cbn [fold_right]; [reflexivity|]. rewrite E, IH. reflexivity.
  Qed.
  (** Chemist order: a two-body number conserving operator is rewritten as an operator denoting the same, whose terms alternate creation and
      annihilation; any other operator is a TypeError. *)
  Definition two_body_term (t : fterm) : Prop := (length t = 0 \/ length t = 2 \/ length t = 4) /\ 2 * length (filter snd t) = length t.
  Lemma two_body_balanced t : two_body_term t <-> balanced t.
  Proof.
    assert (C : charge t = (Z.of_nat (length t) - 2 * Z.of_nat (length (filter snd t)))%Z).
    { induction t as [|[q d] t IH]; [reflexivity|]. cbn [charge fold_right filter length snd]. fold (charge t). destruct d; cbn [length]; lia. }
    unfold two_body_term, balanced. cbn [In]. lia.
  Qed.
  Theorem C46_chemist (a : fop K) : on_qubits n a -> (forall t c, In (t, c) a -> two_body_term t) ->
    exists o r : fop K, chemist_ordered small a = Ok o /\ all_small small r /\ (length r <= 2 * length (normal_ordered small a) + drop_bound a)%nat /\ meq (madd (F o) (F r)) (F a) /\ wf_op o /\
      forall t c, In (t, c) o -> small c = false /\ (map snd t = [] \/ map snd t = [true; false] \/ map snd t = [true; false; true; false]).
  Proof.
    intros Ha Hb. destruct (chemist_ok small n a) as (o & r & H1 & H2 & H3 & H4); auto.
    { apply two_body_spec. intros t c Hin. apply two_body_balanced. eapply Hb; eauto. }
    exists o, r. destruct H4 as [H4 H5]. split; [auto|]. split; [auto|]. split; [auto|]. split; [auto|]. split; [apply H2|]. intros t c H. split; [apply (good_In _ bool_eqb_spec _ _ _ H2 t c H)|].
    destruct (good_In _ bool_eqb_spec _ _ _ H2 t c H) as [[_ C] _]. unfold chemist_term in C. cbn [In] in C. intuition.
  Qed.
  Theorem C46_chemist_error (a : fop K) t c : In (t, c) a -> ~ two_body_term t -> chemist_ordered small a = Err TypeError.
  Proof.
    intros Hin Ht. unfold chemist_ordered. destruct (is_two_body_number_conserving a false) eqn:E; [|reflexivity]. exfalso. apply Ht, two_body_balanced.
    eapply two_body_spec; eauto.
  Qed.
End C46.


(** Concrete case: a_0 a_1 a_1^ a_2^ = - a_2^ a_0 + a_2^ a_1^ a_1 a_0 *)
Definition example_op : fop GQ := [([(0, false); (1, false); (1, true); (2, true)], gq 4 0); ([(1, true); (1, true)], gq 4 0)].
Example C46_case : gq_same Bool.eqb (normal_ordered gq_zero example_op)
    [([(2, true); (0, false)], gq (-4) 0); ([(2, true); (1, true); (1, false); (0, false)], gq 4 0)] = true /\
  on_qubits 3 example_op /\ only_zero gq_zero /\ is_normal_ordered example_op = false.
Proof.
  split; [vm_compute; reflexivity|]. split; [|split; [exact gq_zero_spec|reflexivity]]. intros t c [H|[H|[]]] f Hf; inversion H; subst; cbn in Hf; intuition; subst; cbn; lia.
Qed.
Example C46_chemist_case : match chemist_ordered gq_zero [([(2, true); (1, true); (1, false); (0, false)], gq 4 0)] with
  | Ok o => gq_same Bool.eqb o [([(2, true); (0, false)], gq 4 0); ([(2, true); (1, false); (1, true); (0, false)], gq (-4) 0)] | Err _ => false end = true.
Proof. vm_compute. reflexivity. Qed.

Print Assumptions C46_same_operator.
Print Assumptions C46_same_operator_exact.
Print Assumptions C46_normal.
Print Assumptions C46_recognised.
Print Assumptions C46_fixed.
Print Assumptions C46_idempotent.
Print Assumptions C46_unique.
Print Assumptions C46_chemist.
Print Assumptions C46_chemist_error.
