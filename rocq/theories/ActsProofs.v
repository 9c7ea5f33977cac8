(** The operator a tensor stands for, as a sum of terms. *)
From Coq Require Import Ring Permutation.
From Verif Require Import Base BaseFacts MatModel MatFacts LiftSpec LiftProofs OpModel OpSpec OpProofs PauliProofs OpProofs2 FermiModel FermiSpec FermiProofs FermiProofs2 FermiProofs6
  TensorModel TensorSpec TensorProofs TensorProps ConvModel ConvSpec ConvProofs ConvProps DiagSpec.
Open Scope list_scope.
Local Open Scope nat_scope.

Section Acts.
  Context {K : cring}.
  Add Ring Kring_acts : (kth K).
  Open Scope K_scope.
  Notation op := (fop K).
  Notation teqb := (term_eqb Bool.eqb).
  Let Ht : eqb_spec_of teqb := term_eqb_spec _ bool_eqb_spec.

  (** Operators with the same coefficients have the same value. *)
  Lemma ddel_keys t (b : op) : NoDup (dkeys b) -> NoDup (dkeys (ddel teqb t b)) /\ forall u, In u (dkeys (ddel teqb t b)) -> In u (dkeys b) /\ u <> t.
  Proof.
    induction b as [|[k v] b IH]; intros N; [split; [constructor|intros u []]|]. inversion N as [|? ? Hk Hn]; subst. destruct (IH Hn) as [I1 I2]. cbn [ddel]. destruct (teqb t k) eqn:E.
    - apply Ht in E. subst k. split; [exact Hn|]. intros u Hu. split; [right; exact Hu|]. intros ->. contradiction.
    - cbn [dkeys map fst]. fold (dkeys (ddel teqb t b)). assert (Ne : k <> t) by (intros ->; rewrite (proj2 (Ht t t) eq_refl) in E; discriminate). split.
      + constructor; [|exact I1]. intros X. apply Hk. apply I2, X.
      + intros u [<-|Hu]; [split; [left; reflexivity|exact Ne]|]. destruct (I2 u Hu). split; [right; assumption|assumption].
  Qed.
  Lemma ddel_coef t u (b : op) : u <> t -> coef Bool.eqb (ddel teqb t b) u = coef Bool.eqb b u.
  Proof.
    intros N. unfold coef. induction b as [|[k v] b IH]; [reflexivity|]. cbn [ddel]. destruct (teqb t k) eqn:E.
    - apply Ht in E. subst k. cbn [dget]. destruct (teqb u t) eqn:E; [apply Ht in E; congruence|]. reflexivity.
    - cbn [dget]. destruct (teqb u k); [reflexivity|exact IH].
  Qed.
  Lemma lval_zero phi (b : op) : wf_op b -> (forall t, In t (dkeys b) -> coef Bool.eqb b t = 0) -> lval phi b = 0.
  Proof.
    intros W H. assert (G : forall t c, In (t, c) b -> c = 0).
    { intros t c Hin. rewrite <- (coef_In b t c W Hin). apply H. apply in_map_iff. exists (t, c). auto. }
    clear W H. induction b as [|[t c] b IH]; [reflexivity|]. cbn [lval fst snd]. rewrite (G t c) by (left; reflexivity). rewrite IH by (intros; eapply G; right; eauto). ring.
  Qed.
  Lemma lval_same phi (a : op) : forall b, wf_op a -> wf_op b -> (forall t, In t (dkeys a) \/ In t (dkeys b) -> coef Bool.eqb a t = coef Bool.eqb b t) -> lval phi a = lval phi b.
  Proof.
    induction a as [|[t c] a IH]; intros b Wa Wb H.
    - symmetry. apply lval_zero; auto. intros t Hin. rewrite <- H by auto. reflexivity.
    - assert (Wa0 : NoDup (dkeys ((t, c) :: a))) by exact Wa. inversion Wa0 as [|? ? Hk Hn]; subst. destruct (ddel_keys t b Wb) as [W' Hin'].
      assert (Ec : coef Bool.eqb ((t, c) :: a) t = c) by (unfold coef; cbn [dget]; rewrite (proj2 (Ht t t) eq_refl); reflexivity).
      cbn [lval fst snd]. rewrite (IH (ddel teqb t b) Hn W').
      + rewrite (lval_ddel _ bool_eqb_spec). pose proof (H t (or_introl (or_introl eq_refl))) as Q. rewrite Ec in Q. unfold coef in Q. rewrite <- Q. ring.
      + intros u Hu. assert (Nu : u <> t) by (destruct Hu as [Hu|Hu]; [intros ->; contradiction|apply Hin', Hu]).
        rewrite ddel_coef by auto. rewrite <- H by (destruct Hu as [Hu|Hu]; [left; right; exact Hu|right; apply Hin', Hu]).
        unfold coef. cbn [dget]. destruct (teqb u t) eqn:E; [apply Ht in E; congruence|reflexivity].
  Qed.

  (** All the terms of a tensor. *)
  Definition key_terms (h : heap K) (n : nat) (kv : key * entry K) : op := map (fun i => (combine i (fst kv), element h (snd kv) i)) (indices n (length (fst kv))).
  Definition all_terms (h : heap K) (a : ptensor K) : op := flat_map (key_terms h (n_qubits a)) (n_body_tensors a).
  Lemma lval_sum_over phi n m (g : list nat -> term bool * K) : lval phi (map g (indices n m)) = sum_over n m (fun i => snd (g i) * phi (fst (g i))).
  Proof.
    revert g. induction m as [|m IH]; intros g; [cbn; ring|]. cbn [indices sum_over].
    assert (G : forall s l, lval phi (map g (flat_map (fun i => map (cons i) (indices n m)) (seq s l))) = bigsum l (fun p => sum_over n m (fun i => snd (g ((s + p)%nat :: i)) * phi (fst (g ((s + p)%nat :: i)))))).
    { intros s l. revert s. induction l as [|l IHl]; intros s; [reflexivity|]. rewrite seq_S, flat_map_app, map_app, lval_app, IHl. cbn [flat_map bigsum]. rewrite app_nil_r, map_map.
      assert (E : lval phi (map (fun x => g ((s + l)%nat :: x)) (indices n m)) = sum_over n m (fun i => snd (g ((s + l)%nat :: i)) * phi (fst (g ((s + l)%nat :: i))))) by apply (IH (fun x => g ((s + l)%nat :: x))).
      rewrite E. ring. }
    apply G.
  Qed.
  Lemma tensor_entry_lval h (a : ptensor K) x y : tensor_entry h a x y = lval (fun t => ent (fterm_matrix (n_qubits a) t) (bval x) (bval y)) (all_terms h a).
  Proof.
    unfold tensor_entry, all_terms. induction (n_body_tensors a) as [|kv d IH]; [reflexivity|]. cbn [fold_right flat_map]. rewrite lval_app, IH. f_equal. unfold key_terms. rewrite lval_sum_over. reflexivity.
  Qed.
  Lemma all_terms_In h (a : ptensor K) t : In t (dkeys (all_terms h a)) <-> has_key a (map snd t) /\ within (n_qubits a) t.
  Proof.
    unfold all_terms, dkeys. split.
    - intros H. apply in_map_iff in H as ([u c] & <- & H). cbn [fst]. apply in_flat_map in H as ([k e] & Hk & H). unfold key_terms in H. cbn [fst snd] in H. apply in_map_iff in H as (i & E & Hi). inversion E; subst.
      apply in_indices in Hi as [Hl Hi]. rewrite combine_snd by auto. split; [apply in_map_iff; exists (k, e); auto|]. unfold within. rewrite Forall_forall in *. intros [p d] Hf. cbn [fst]. apply in_combine_l in Hf. auto.
    - intros [Hk Hw]. apply in_map_iff in Hk as ([k e] & Ek & Hk). cbn in Ek. subst k. apply in_map_iff. exists (t, element h e (map fst t)). split; [reflexivity|]. apply in_flat_map. exists (map snd t, e). split; [exact Hk|].
      unfold key_terms. cbn [fst snd]. apply in_map_iff. exists (map fst t). split; [rewrite combine_split; reflexivity|]. apply in_indices. split; [rewrite !map_length; reflexivity|]. apply Forall_map. exact Hw.
  Qed.
  Lemma all_terms_wf h (a : ptensor K) : NoDup (dkeys (n_body_tensors a)) -> wf_op (all_terms h a).
  Proof.
    unfold all_terms, wf_op. generalize (n_qubits a) as n. intros n. induction (n_body_tensors a) as [|[k e] d IH]; intros N; [constructor|]. inversion N as [|? ? Hk Hn]; subst. cbn [flat_map]. unfold dkeys. rewrite map_app. apply NoDup_app; [| |].
    - unfold key_terms. rewrite map_map. cbn [fst]. 
      assert (G : forall l : list (list nat), (forall i, In i l -> length i = length k) -> NoDup l -> NoDup (map (fun i => combine i k) l)).
      { induction l as [|i l IHl]; intros Hl Nl; [constructor|]. inversion Nl as [|? ? Hi Hn']; subst. cbn [map]. constructor; [|apply IHl; auto; intros; apply Hl; right; auto].
        intros X. apply in_map_iff in X as (j & E & Hj). apply Hi. assert (Q : map fst (combine j k) = map fst (combine i k)) by congruence. rewrite !combine_fst in Q by (apply Hl; cbn; auto). subst j. exact Hj. }
      apply G; [|apply indices_NoDup]. intros i Hi. apply in_indices in Hi. apply Hi.
    - apply IH, Hn.
    - intros t H1 H2. apply in_map_iff in H1 as ([u c] & <- & H1). cbn [fst] in H2. apply in_map_iff in H1 as (i & E & Hi). inversion E; subst. apply in_indices in Hi as [Hl _]. cbn [fst] in *.
      apply in_map_iff in H2 as ([u c] & Eu & H2). cbn [fst] in Eu. apply in_flat_map in H2 as ([k' e'] & Hk' & H2). unfold key_terms in H2. cbn [fst snd] in H2. apply in_map_iff in H2 as (j & E' & Hj). inversion E'; subst. apply in_indices in Hj as [Lj _].
      apply Hk. apply in_map_iff. exists (k', e'). split; [|exact Hk']. cbn [fst]. rewrite <- (combine_snd j k') by auto. rewrite H0. apply combine_snd. exact Hl.
  Qed.
  Lemma all_terms_coef h (a : ptensor K) t : NoDup (dkeys (n_body_tensors a)) -> within (n_qubits a) t -> coef Bool.eqb (all_terms h a) t = tensor_value h a t.
  Proof.
    intros N Hw. unfold tensor_value, value. destruct (dget key_eqb (map snd t) (n_body_tensors a)) as [e|] eqn:G.
    - apply (coef_In _ _ _ (all_terms_wf h a N)). apply (dget_In _ key_eqb_spec) in G. apply in_flat_map. exists (map snd t, e). split; [exact G|]. unfold key_terms. cbn [fst snd]. apply in_map_iff. exists (map fst t).
      split; [rewrite combine_split; reflexivity|]. apply in_indices. split; [rewrite !map_length; reflexivity|]. apply Forall_map. exact Hw.
    - apply coef_not_In. intros X. apply all_terms_In in X as [X _]. apply (dget_None _ key_eqb_spec) in G. contradiction.
  Qed.
  (** An operator with the tensor's numbers as coefficients is the operator the tensor stands for. *)
  Lemma acts_as h (a : ptensor K) (o : op) x y : NoDup (dkeys (n_body_tensors a)) -> wf_op o -> on_qubits (n_qubits a) o -> (forall t, within (n_qubits a) t -> coef Bool.eqb o t = tensor_value h a t) ->
    ent (fop_matrix (n_qubits a) o) (bval x) (bval y) = tensor_entry h a x y.
  Proof.
    intros N W Ho H. rewrite tensor_entry_lval, fop_ent. apply lval_same; auto; [apply all_terms_wf; auto|]. intros t Hin.
    assert (Hw : within (n_qubits a) t). { destruct Hin as [Hin|Hin]; [|apply all_terms_In in Hin; apply Hin]. apply in_map_iff in Hin as ([u c] & <- & Hin). unfold within. apply Forall_forall. intros f Hf. eapply Ho; eauto. }
    rewrite H, all_terms_coef by auto. reflexivity.
  Qed.
End Acts.
