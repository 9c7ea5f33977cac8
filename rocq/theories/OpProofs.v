(** Proofs about symbolic operators. *)
From Coq Require Import Reals Permutation Sorted Ring Lra.
From Verif Require Import Base BaseFacts MatModel MatFacts LiftSpec LiftProofs Cplx CmpModel CmpProofs OpModel OpSpec.
Open Scope list_scope.
Local Open Scope nat_scope.

Lemma factor_eqb_spec {A} (aeqb : A -> A -> bool) : eqb_spec_of aeqb -> eqb_spec_of (factor_eqb aeqb).
Proof.
  intros H [i a] [j b]. unfold factor_eqb; cbn. rewrite andb_true_iff, Nat.eqb_eq, (H a b). split; [intros [-> ->]; auto|intros [= -> ->]; auto].
Qed.
Lemma term_eqb_spec {A} (aeqb : A -> A -> bool) : eqb_spec_of aeqb -> eqb_spec_of (term_eqb aeqb).
Proof. intros H. apply list_eqb_spec, factor_eqb_spec, H. Qed.
Lemma pauli_eqb_spec : eqb_spec_of pauli_eqb.
Proof. intros a b; destruct a, b; vm_compute; split; intro E; try reflexivity; discriminate E. Qed.
Lemma zact_eqb_spec : eqb_spec_of zact_eqb.
Proof. intros a b; destruct a, b; vm_compute; split; intro E; try reflexivity; discriminate E. Qed.

(** ** Linear functionals of operators *)
Section Lin.
  Context {K : cring} {A : Type} (aeqb : A -> A -> bool) (Ha : eqb_spec_of aeqb).
  Add Ring Kring_op : (kth K).
  Open Scope K_scope.
  Notation op := (sop A K).
  Notation teqb := (term_eqb aeqb).
  Let Ht : eqb_spec_of teqb := term_eqb_spec aeqb Ha.
  Context (phi : term A -> K).
  Fixpoint lval (a : op) : K := match a with [] => 0 | tc :: a' => snd tc * phi (fst tc) + lval a' end.

  Lemma lval_app (a b : op) : lval (a ++ b) = lval a + lval b.
  Proof. induction a as [|tc a IH]; cbn; [ring|]. rewrite IH. ring. Qed.
  Lemma lval_dset t c (d : op) :
    lval (dset teqb t c d) = lval d - (match dget teqb t d with Some c0 => c0 | None => 0 end) * phi t + c * phi t.
  Proof.
    induction d as [|[t' c'] d IH]; cbn; [ring|]. destruct (teqb t t') eqn:E; cbn.
    - apply Ht in E as <-. ring.
    - rewrite IH. ring.
  Qed.
  Lemma lval_ddel t (d : op) :
    lval (ddel teqb t d) = lval d - (match dget teqb t d with Some c0 => c0 | None => 0 end) * phi t.
  Proof.
    induction d as [|[t' c'] d IH]; cbn; [ring|]. destruct (teqb t t') eqn:E; cbn.
    - apply Ht in E as <-. ring.
    - rewrite IH. ring.
  Qed.
  Lemma lval_accumulate_term t c (d : op) : lval (accumulate_term aeqb t c d) = lval d + c * phi t.
  Proof. unfold accumulate_term. destruct (dget teqb t d) as [c0|] eqn:E; rewrite lval_dset, E; ring. Qed.
  Lemma lval_scale (a : op) c : lval (op_scale a c) = lval a * c.
  Proof. induction a as [|tc a IH]; cbn; [ring|]. fold (op_scale a c). rewrite IH. ring. Qed.

  (** sums and differences: what is pruned is a list of small entries *)
  Lemma lval_merge_term f (small : K -> bool) sg (d : op) t c : (forall x y, f x y = x + sg * y) ->
    let v := f (match dget teqb t d with Some c0 => c0 | None => 0 end) c in
    lval (merge_term aeqb small f d (t, c)) + (if small v then v * phi t else 0) = lval d + sg * c * phi t.
  Proof.
    intros Hf v. unfold merge_term. cbn [fst snd]. fold v. cbn zeta.
    assert (Hv : v = (match dget teqb t d with Some c0 => c0 | None => 0 end) + sg * c) by apply Hf.
    destruct (small v); rewrite ?lval_ddel, ?(dget_dset_same _ Ht), lval_dset, Hv; ring.
  Qed.
  Lemma lval_merge f (small : K -> bool) sg : (forall x y, f x y = x + sg * y) ->
    forall (b a : op), exists r : op, Forall (fun tc => small (snd tc) = true) r /\ incl (map fst r) (dkeys b) /\ (length r <= length b)%nat /\
      lval (fold_left (merge_term aeqb small f) b a) + lval r = lval a + sg * lval b.
  Proof.
    intros Hf b. induction b as [|[t c] b IH]; intros a; cbn [fold_left].
    - exists []. split; [constructor|]. split; [intros ? []|]. split; [cbn; lia|]. cbn. ring.
    - destruct (IH (merge_term aeqb small f a (t, c))) as (r & Hr & Hi & Hl & E).
      pose proof (lval_merge_term f small sg a t c Hf) as M. cbn zeta in M. set (v := f _ c) in *.
      destruct (small v) eqn:S.
      + exists ((t, v) :: r). split; [constructor; auto|]. split; [|split; [cbn [length]; lia|]].
        * intros x [<-|Hx]; [left; auto|right; auto].
        * cbn [lval fst snd].
          transitivity (lval (fold_left (merge_term aeqb small f) b (merge_term aeqb small f a (t, c))) + lval r + v * phi t); [ring|].
          rewrite E. transitivity (lval (merge_term aeqb small f a (t, c)) + v * phi t + sg * lval b); [ring|]. rewrite M. ring.
      + exists r. split; [auto|]. split; [intros x Hx; right; auto|]. split; [cbn [length]; lia|]. rewrite E. cbn [lval fst snd].
        transitivity (lval (merge_term aeqb small f a (t, c)) + 0 + sg * lval b); [ring|]. rewrite M. ring.
  Qed.
  (** products *)
  Section Mul.
    Context (simplify : term A -> K -> K * term A) (P : term A -> Prop).
    Context (Hs : forall t c, P t -> let '(c', t') := simplify t c in c' * phi t' = c * phi t).
    Definition lprod (a b : op) : K :=
      fold_right (fun lt v => fold_right (fun rt w => snd lt * snd rt * phi (fst lt ++ fst rt) + w) 0 b + v) 0 a.
    Lemma lval_mul (a b : op) : (forall lt rt, In lt a -> In rt b -> P (fst lt ++ fst rt)) ->
      lval (op_mul aeqb simplify a b) = lprod a b.
    Proof.
      intros HP. unfold op_mul.
      assert (G : forall l d, (forall lt rt, In lt l -> In rt b -> P (fst lt ++ fst rt)) -> lval (fold_left (fun d lt => fold_left (fun d rt =>
        let '(c, t) := simplify (fst lt ++ fst rt) (snd lt * snd rt) in accumulate_term aeqb t c d) b d) l d) = lval d + lprod l b).
      { clear a HP. induction l as [|lt l IH]; intros d HP; cbn [fold_left lprod fold_right]; [ring|].
        rewrite IH by (intros; apply HP; [right|]; auto). fold (lprod l b).
        assert (G : forall m d, (forall rt, In rt m -> P (fst lt ++ fst rt)) -> lval (fold_left (fun d rt =>
          let '(c, t) := simplify (fst lt ++ fst rt) (snd lt * snd rt) in accumulate_term aeqb t c d) m d)
          = lval d + fold_right (fun rt w => snd lt * snd rt * phi (fst lt ++ fst rt) + w) 0 m).
        { clear - Hs Ht. induction m as [|rt m IHm]; intros d HP; cbn [fold_left fold_right]; [ring|].
          rewrite IHm by (intros; apply HP; right; auto).
          specialize (Hs (fst lt ++ fst rt) (snd lt * snd rt) (HP rt (or_introl eq_refl))).
          destruct (simplify _ _) as [c t]. rewrite lval_accumulate_term, Hs. ring. }
        rewrite G by (intros; apply HP; [left|]; auto). ring. }
      rewrite G by auto. cbn. ring.
    Qed.
  End Mul.
End Lin.

(** ** Coefficients after an addition or subtraction *)
Section Coef.
  Context {K : cring} {A : Type} (aeqb : A -> A -> bool) (Ha : eqb_spec_of aeqb).
  Add Ring Kring_op2 : (kth K).
  Open Scope K_scope.
  Notation op := (sop A K).
  Notation teqb := (term_eqb aeqb).
  Let Ht : eqb_spec_of teqb := term_eqb_spec aeqb Ha.

  Lemma merge_term_wf f small (d : op) tc : wf_op d -> wf_op (merge_term aeqb small f d tc).
  Proof.
    intros H. unfold merge_term. cbn zeta. destruct (small _); [apply ddel_NoDup|]; auto using (dset_NoDup teqb Ht).
    apply (dset_NoDup teqb Ht); auto.
  Qed.
  Lemma merge_wf f small (b a : op) : wf_op a -> wf_op (fold_left (merge_term aeqb small f) b a).
  Proof. revert a; induction b as [|tc b IH]; intros a H; cbn; [auto|]. apply IH, merge_term_wf, H. Qed.
  Lemma merge_term_other f small (d : op) tc t : t <> fst tc -> dget teqb t (merge_term aeqb small f d tc) = dget teqb t d.
  Proof.
    intros N. unfold merge_term. cbn zeta. destruct (small _); rewrite ?(dget_ddel_other teqb Ht), (dget_dset_other teqb Ht); auto.
  Qed.
  Lemma merge_term_same f small (d : op) t c : wf_op d ->
    dget teqb t (merge_term aeqb small f d (t, c)) = let v := f (coef aeqb d t) c in if small v then None else Some v.
  Proof.
    intros H. unfold merge_term, coef. cbn [fst snd]. cbn zeta. destruct (small _).
    - apply (dget_ddel_same teqb Ht), (dset_NoDup teqb Ht), H.
    - apply (dget_dset_same teqb Ht).
  Qed.
  Lemma merge_get f small (b a : op) t : wf_op a -> wf_op b ->
    dget teqb t (fold_left (merge_term aeqb small f) b a) =
    match dget teqb t b with
    | None => dget teqb t a
    | Some c => let v := f (coef aeqb a t) c in if small v then None else Some v
    end.
  Proof.
    revert a; induction b as [|[t' c] b IH]; intros a Wa Wb; cbn [fold_left]; [reflexivity|].
    inversion Wb as [|x y Hn Hb]; subst. rewrite IH by (auto using merge_term_wf). cbn [dget].
    destruct (teqb t t') eqn:E.
    - apply Ht in E as <-. apply (dget_None teqb Ht) in Hn. rewrite Hn. apply merge_term_same; auto.
    - pose proof (proj1 (eqb_spec_false teqb Ht t t') E) as N. unfold coef. rewrite merge_term_other by auto. reflexivity.
  Qed.
  Lemma merge_coef f small (b a : op) t : wf_op a -> wf_op b ->
    coef aeqb (fold_left (merge_term aeqb small f) b a) t =
    match dget teqb t b with
    | None => coef aeqb a t
    | Some c => let v := f (coef aeqb a t) c in if small v then 0 else v
    end.
  Proof.
    intros Wa Wb. unfold coef at 1. rewrite merge_get by auto. destruct (dget teqb t b); [|reflexivity]. cbn zeta. destruct (small _); reflexivity.
  Qed.
  Lemma mul_wf simplify (a b : op) : wf_op (op_mul aeqb simplify a b).
  Proof.
    unfold op_mul. assert (G : forall l d, wf_op d -> wf_op (fold_left (fun d lt => fold_left (fun d rt =>
        let '(c, t) := simplify (fst lt ++ fst rt) (snd lt * snd rt) in accumulate_term aeqb t c d) b d) l d)).
    { induction l as [|lt l IH]; intros d Hd; cbn [fold_left]; [auto|]. apply IH. clear IH. revert d Hd. generalize b as m.
      induction m as [|rt m IH]; intros d Hd; cbn [fold_left]; [auto|]. apply IH. destruct (simplify _ _). unfold accumulate_term.
      destruct (dget _ _ _); apply (dset_NoDup teqb Ht); auto. }
    apply G. constructor.
  Qed.
  Lemma scale_wf (a : op) c : wf_op a -> wf_op (op_scale a c).
  Proof. unfold wf_op, op_scale, dkeys. rewrite map_map. cbn. auto. Qed.
  Lemma scale_coef (a : op) c t : coef aeqb (op_scale a c) t = coef aeqb a t * c.
  Proof. unfold coef. induction a as [|[t' c'] a IH]; cbn; [ring|]. destruct (teqb t t'); auto. Qed.
End Coef.
