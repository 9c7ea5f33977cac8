(** C53, continued: the conversions between tensors and fermion operators keep the operator. *)
From Coq Require Import Ring.
From Verif Require Import Base BaseFacts MatModel MatFacts LiftSpec LiftProofs OpModel OpSpec OpProofs PauliProofs OpProofs2 FermiModel FermiSpec FermiProofs FermiProofs2 FermiProofs6 FermiProofs7 FermiProps
  TensorModel TensorSpec TensorProofs TensorProps ConvModel ConvSpec ConvProofs ConvProps DiagSpec ActsProofs GaussQ.
Open Scope list_scope.
Local Open Scope nat_scope.

(** The number of elements of a tensor. *)
Definition elements {K : cring} (a : ptensor K) : nat := fold_right (fun kv s => n_qubits a ^ length (fst kv) + s) 0 (n_body_tensors a).

Section Acts.
  Context {K : cring} (small isz : K -> bool) (Hz : forall x, isz x = true -> x = k0) (H0 : small k0 = true).
  Add Ring Kring_acts2 : (kth K).
  Open Scope K_scope.
  Notation op := (fop K).
  Lemma indices_length n m : length (indices n m) = (n ^ m)%nat.
  Proof.
    induction m as [|m IH]; [reflexivity|]. cbn [indices Nat.pow]. assert (G : forall s l, length (flat_map (fun i => map (cons i) (indices n m)) (seq s l)) = (l * n ^ m)%nat); [|apply G].
    intros s l. revert s. induction l as [|l IHl]; intros s; [reflexivity|]. cbn [seq flat_map]. rewrite app_length, map_length, IHl, IH. cbn. lia.
  Qed.
  Lemma all_terms_length (h : heap K) a : length (all_terms h a) = elements a.
  Proof.
    unfold all_terms, elements. induction (n_body_tensors a) as [|kv d IH]; [reflexivity|]. cbn [flat_map fold_right]. rewrite app_length, IH. unfold key_terms. rewrite map_length, indices_length. reflexivity.
  Qed.
  Theorem C53_operator_of_tensor_acts (h : heap K) (a : ptensor K) : tensor_ok h a ->
    exists (o r : op), get_fermion_operator small isz h a = Ok o /\ all_small small r /\ (length r <= elements a)%nat /\ on_qubits (n_qubits a) r /\
      forall x y, ent (fop_matrix (n_qubits a) o) (bval x) (bval y) + ent (fop_matrix (n_qubits a) r) (bval x) (bval y) = tensor_entry h a x y.
  Proof.
    intros Ha. destruct (C53_operator_of_tensor small isz Hz H0 h a Ha) as (o & E & W & Ho & C). set (T := all_terms h a). assert (N : NoDup (dkeys (n_body_tensors a))) by apply Ha.
    pose proof (all_terms_wf h a N) as WT. fold T in WT. exists o, (filter (fun tc : term bool * K => small (snd tc)) T). split; [exact E|]. split; [|split; [|split]].
    - apply Forall_forall. intros tc Hin. apply filter_In in Hin. apply Hin.
    - rewrite <- (all_terms_length h a). fold T. clearbody T. clear. induction T as [|tc T IH]; cbn [filter length]; [lia|]. destruct (small (snd tc)); cbn [length]; lia.
    - intros t c Hin f Hf. apply filter_In in Hin as [Hin _]. assert (X : In t (dkeys T)) by (apply in_map_iff; exists (t, c); auto). apply all_terms_In in X as [_ X]. unfold within in X. rewrite Forall_forall in X. auto.
    - intros x y. rewrite tensor_entry_lval, !fop_ent. fold T. set (phi := fun t => ent (fterm_matrix (n_qubits a) t) (bval x) (bval y)).
      assert (S1 : lval phi T = lval phi (not_small_terms small T) + lval phi (filter (fun tc : term bool * K => small (snd tc)) T)).
      { clearbody T. clear. unfold not_small_terms. induction T as [|tc T IH]; [cbn; ring|]. cbn [filter lval]. rewrite IH. destruct (small (snd tc)); cbn [negb lval]; ring. }
      rewrite S1. f_equal. apply lval_same; [exact W| |].
      + unfold wf_op, not_small_terms in *. clearbody T. clear - WT. unfold dkeys in *. induction T as [|tc T IH]; [constructor|]. cbn [map] in WT. inversion WT as [|? ? Hk Hn]; subst. cbn [filter]. destruct (negb (small (snd tc))); [|auto].
        cbn [map]. constructor; [|auto]. intros X. apply Hk. apply in_map_iff in X as (u & Eu & X). apply filter_In in X as [X _]. apply in_map_iff. eauto.
      + intros t Hin. assert (Hw : within (n_qubits a) t).
        { destruct Hin as [Hin|Hin].
          - apply in_map_iff in Hin as ([u c] & <- & Hin). apply Forall_forall. intros f Hf. eapply Ho; eauto.
          - assert (X : In t (dkeys T)). { unfold dkeys in *. apply in_map_iff in Hin as (u & Eu & Hin). apply filter_In in Hin as [Hin _]. apply in_map_iff. eauto. } apply all_terms_In in X. apply X. }
        rewrite (C t Hw), (coef_not_small small T t H0 WT). unfold T. rewrite all_terms_coef by auto. reflexivity.
  Qed.
  Corollary C53_operator_of_tensor_acts_exact (h : heap K) (a : ptensor K) : only_zero small -> tensor_ok h a ->
    exists o : op, get_fermion_operator small isz h a = Ok o /\ forall x y, ent (fop_matrix (n_qubits a) o) (bval x) (bval y) = tensor_entry h a x y.
  Proof.
    intros Hs Ha. destruct (C53_operator_of_tensor_acts h a Ha) as (o & r & E & R & _ & _ & V). exists o. split; [exact E|]. intros x y. rewrite <- V, (fop_ent _ r), (lval_small small _ r R Hs). ring.
  Qed.
  Theorem C53_interaction_of_operator_acts (h : heap K) (a : op) n : on_qubits (size_used a n) a -> (forall t c, In (t, c) (normal_ordered small a) -> interaction_term t) ->
    exists h' p (r : op), get_interaction_operator small h a n = Ok (h', p) /\ tensor_ok h' p /\ n_qubits p = size_used a n /\ preserved h h' /\ all_small small r /\ (length r <= drop_bound a)%nat /\
      forall x y, length x = size_used a n -> length y = size_used a n ->
        tensor_entry h' p x y + ent (fop_matrix (size_used a n) r) (bval x) (bval y) = ent (fop_matrix (size_used a n) a) (bval x) (bval y).
  Proof.
    intros Ho Hi. destruct (C53_interaction_of_operator small (fun _ => false) (fun x E => False_rect _ (Bool.diff_false_true E)) H0 h a n Ho Hi) as (h' & p & E & T & S1 & P & V). destruct (C46_same_operator small (size_used a n) a Ho) as (r & R1 & R2 & _ & M).
    exists h', p, r. repeat (split; [assumption|]). intros x y Hx Hy. rewrite <- (acts_as h' p (normal_ordered small a)).
    - rewrite S1. destruct M as (_ & _ & M). specialize (M (bval x) (bval y)). cbn [nr nc madd ent] in M. apply M; rewrite (proj1 (fop_shape _ _)) || rewrite (proj2 (fop_shape _ _)); [rewrite <- Hx|rewrite <- Hy]; apply bval_lt.
    - apply T.
    - apply C46_normal.
    - rewrite S1. destruct (normal_ordered_ok small (on_modes (size_used a n)) (on_modes_perm _) (on_modes_del _) a Ho) as [G _]. intros t c Hin f Hf. destruct (good_In _ bool_eqb_spec _ _ _ G t c Hin) as [[_ X] _]. apply X, Hf.
    - intros t _. symmetry. apply V.
  Qed.
  Theorem C53_tensor_of_operator_acts (h : heap K) (a : op) n : on_qubits (size_used a n) a -> (exists t c, In (t, c) (normal_ordered small a) /\ t <> []) ->
    exists h' p (r : op), get_polynomial_tensor small h a n = Ok (h', p) /\ tensor_ok h' p /\ n_qubits p = size_used a n /\ preserved h h' /\ all_small small r /\ (length r <= drop_bound a)%nat /\
      forall x y, length x = size_used a n -> length y = size_used a n ->
        tensor_entry h' p x y + ent (fop_matrix (size_used a n) r) (bval x) (bval y) = ent (fop_matrix (size_used a n) a) (bval x) (bval y).
  Proof.
    intros Ho Hi. destruct (C53_tensor_of_operator small (fun _ => false) (fun x E => False_rect _ (Bool.diff_false_true E)) H0 h a n Ho Hi) as (h' & p & E & T & S1 & P & V). destruct (C46_same_operator small (size_used a n) a Ho) as (r & R1 & R2 & _ & M).
    exists h', p, r. repeat (split; [assumption|]). intros x y Hx Hy. rewrite <- (acts_as h' p (normal_ordered small a)).
    - rewrite S1. destruct M as (_ & _ & M). specialize (M (bval x) (bval y)). cbn [nr nc madd ent] in M. apply M; rewrite (proj1 (fop_shape _ _)) || rewrite (proj2 (fop_shape _ _)); [rewrite <- Hx|rewrite <- Hy]; apply bval_lt.
    - apply T.
    - apply C46_normal.
    - rewrite S1. destruct (normal_ordered_ok small (on_modes (size_used a n)) (on_modes_perm _) (on_modes_del _) a Ho) as [G _]. intros t c Hin f Hf. destruct (good_In _ bool_eqb_spec _ _ _ G t c Hin) as [[_ X] _]. apply X, Hf.
    - intros t _. symmetry. apply V.
  Qed.
End Acts.
Print Assumptions C53_operator_of_tensor_acts.
Print Assumptions C53_interaction_of_operator_acts.
Print Assumptions C53_tensor_of_operator_acts.
