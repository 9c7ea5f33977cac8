(** Theorems for C52 (arithmetic of polynomial tensors), stated over TensorModel.v and TensorSpec.v. *)
From Coq Require Import ZArith Ring.
From Verif Require Import Base BaseFacts MatModel MatFacts GaussQ TensorModel TensorSpec TensorProofs.
Open Scope list_scope.
Local Open Scope nat_scope.

Section C52.
  Context {K : cring}.
  Add Ring Kring_c52 : (kth K).
  Open Scope K_scope.
  Notation dict := (list (key * entry K)).

  Lemma ok_parts h (a : ptensor K) : tensor_ok h a -> NoDup (dkeys (n_body_tensors a)) /\ unshared (n_body_tensors a) /\ valid h (n_body_tensors a) /\
    (forall k e, In (k, e) (n_body_tensors a) -> sized (n_qubits a) h e) /\ (forall k e, In (k, e) (n_body_tensors a) -> kind e = negb (key_eqb k [])).
  Proof.
    intros (N & U & _ & H). split; [auto|]. split; [auto|]. split; [|split]; intros k e Hin; specialize (H _ _ Hin); destruct e; cbn; auto; try tauto; [subst; reflexivity|].
    destruct H as [H _]. destruct k; [congruence|reflexivity].
  Qed.
  Lemma ok_build h n (d : dict) : NoDup (dkeys d) -> unshared d -> (exists k r, In (k, Arr r) d) -> valid h d -> (forall k e, In (k, e) d -> sized n h e /\ kind e = negb (key_eqb k [])) ->
    tensor_ok h {| n_qubits := n; n_body_tensors := d |}.
  Proof.
    intros N U X V H. split; [auto|]. split; [auto|]. split; [auto|]. cbn [n_body_tensors n_qubits]. intros k e Hin. pose proof (V _ _ Hin) as L. destruct (H _ _ Hin) as [S Kk].
    destruct e as [c|r]; cbn in *.
    - destruct k; [auto|discriminate].
    - split; [destruct k; [discriminate|congruence]|]. auto.
  Qed.
  Lemma preserved_app h (t : heap K) : preserved h (h ++ t).
  Proof. intros r Hr. apply read_app. exact Hr. Qed.
  Lemma copy_ok : step_ok (fun h e => match e with Num c => (Num c, h) | Arr r => alloc h (read h r) end) (fun x : K => x).
  Proof. split; [reflexivity|]. intros h r. exists (read h r). auto. Qed.
  Lemma ufunc1_ok (f : K -> K) : step_ok (ufunc1 f) f.
  Proof. split; [reflexivity|]. intros h r. eexists. split; [reflexivity|]. cbn. auto. Qed.
  (** a copy denotes the same numbers in arrays of its own *)
  Lemma deepcopy_spec h (a : ptensor K) : tensor_ok h a -> exists t a', deepcopy h a = (h ++ t, a') /\ n_qubits a' = n_qubits a /\ dkeys (n_body_tensors a') = dkeys (n_body_tensors a) /\
    tensor_ok (h ++ t) a' /\ (forall k r, In (k, Arr r) (n_body_tensors a') -> (length h <= r)%nat) /\ (forall k i, value (h ++ t) a' k i = value h a k i).
  Proof.
    intros H. destruct (ok_parts h a H) as (N & U & V & S & Kk). unfold deepcopy.
    destruct (map_entries_spec _ _ copy_ok (n_qubits a) h (n_body_tensors a) V S) as (t & d & E & E1 & E2 & E3 & E4 & E5 & E6 & E7 & E8). rewrite E.
    exists t, (with_tensors a d). split; [reflexivity|]. split; [reflexivity|]. split; [exact E1|]. split; [|split; [exact E4|intros k i; apply E8]].
    apply ok_build; auto.
    - rewrite E1. exact N.
    - destruct H as (_ & _ & (k & r & Hin) & _). destruct (E7 _ _ Hin) as (r' & X). eauto.
    - intros k e Hin. split; [eauto|]. destruct (E6 _ _ Hin) as (e' & X & Y). rewrite Y. eauto.
  Qed.
  Lemma merge_spec f h (a b : ptensor K) : tensor_ok h a -> tensor_ok h b -> n_qubits a = n_qubits b ->
    exists t c, merge f h a b = Ok (h ++ t, c) /\ n_qubits c = n_qubits a /\ (forall k, has_key c k <-> has_key a k \/ has_key b k) /\
      (disjoint_arrays (n_body_tensors a) (n_body_tensors b) -> tensor_ok (h ++ t) c) /\
      (forall k i, value (h ++ t) c k i = merged f h (n_body_tensors a) (n_body_tensors b) k i).
  Proof.
    intros Ha Hb En. destruct (ok_parts h a Ha) as (Na & Ua & Va & Sa & Ka). destruct (ok_parts h b Hb) as (Nb & Ub & Vb & Sb & Kb). rewrite <- En in Sb.
    destruct (merge_fold f (n_qubits a) (n_body_tensors b) h (n_body_tensors a) Nb Na Va Vb Sa Sb Ka Kb) as (t & d & E & E1 & E2 & E3 & E4 & E5 & E6 & E7).
    exists t, (with_tensors a d). split; [unfold merge; rewrite En, Nat.eqb_refl; cbn [negb]; rewrite E; reflexivity|]. split; [reflexivity|]. split; [exact E4|]. split; [|exact E3].
    intros D. apply ok_build; auto. destruct Ha as (_ & _ & (k & r & Hin) & _). 
    assert (X : In k (dkeys d)) by (apply E4; left; apply in_map_iff; exists (k, Arr r); auto). apply in_map_iff in X as ([k' e] & Ek & X). cbn in Ek. subst k'.
    destruct (E5 _ _ X) as [_ Y]. pose proof (Ka _ _ Hin) as Z. cbn in Z. rewrite <- Z in Y. destruct e as [|r']; [discriminate|]. eauto.
  Qed.

  Lemma value_absent h (a : ptensor K) k i : ~ has_key a k -> value h a k i = 0.
  Proof. intros H. unfold value. rewrite (proj2 (dget_None _ key_eqb_spec k _) H). reflexivity. Qed.
  Lemma merged_value f h (a b : ptensor K) k i : merged f h (n_body_tensors a) (n_body_tensors b) k i =
    match dget key_eqb k (n_body_tensors b) with
    | None => value h a k i
    | Some _ => match dget key_eqb k (n_body_tensors a) with Some _ => f (value h a k i) (value h b k i) | None => value h b k i end
    end.
  Proof. unfold merged, value, vald. destruct (dget key_eqb k (n_body_tensors b)), (dget key_eqb k (n_body_tensors a)); reflexivity. Qed.
  Lemma merged_add h (a b : ptensor K) k i : merged kadd h (n_body_tensors a) (n_body_tensors b) k i = value h a k i + value h b k i.
  Proof. rewrite merged_value. unfold value. destruct (dget key_eqb k (n_body_tensors b)), (dget key_eqb k (n_body_tensors a)); ring. Qed.
  Lemma ok_app h t (a : ptensor K) : tensor_ok h a -> tensor_ok (h ++ t) a.
  Proof.
    intros (N & U & X & H). split; [auto|]. split; [auto|]. split; [auto|]. intros k e Hin. specialize (H _ _ Hin). destruct e; [auto|]. rewrite read_app, app_length by tauto.
    repeat split; try tauto. lia.
  Qed.
  Lemma value_app h t (a : ptensor K) k i : tensor_ok h a -> value (h ++ t) a k i = value h a k i.
  Proof. intros H. destruct (ok_parts h a H) as (_ & _ & V & _). apply (vald_app h t (n_body_tensors a) k i V). Qed.

  (** Sums.  The result is again a tensor, and everything that existed before is unchanged. *)
  Theorem C52_sum h (a b : ptensor K) : tensor_ok h a -> tensor_ok h b -> n_qubits a = n_qubits b ->
    exists h' c, add h a b = Ok (h', c) /\ tensor_ok h' c /\ n_qubits c = n_qubits a /\ preserved h h' /\ forall k i, value h' c k i = value h a k i + value h b k i.
  Proof.
    intros Ha Hb En. unfold add. destruct (deepcopy_spec h a Ha) as (t & a' & E & E1 & E2 & E3 & E4 & E5). rewrite E.
    assert (D : disjoint_arrays (n_body_tensors a') (n_body_tensors b)).
    { intros k1 k2 r H1 H2. apply E4 in H1. destruct (ok_parts h b Hb) as (_ & _ & V & _). apply V in H2. cbn in H2. lia. }
    destruct (merge_spec kadd (h ++ t) a' b E3 (ok_app _ _ _ Hb)) as (t' & c & F & F1 & F2 & F3 & F4); [congruence|]. unfold iadd. rewrite F.
    exists ((h ++ t) ++ t'), c. split; [reflexivity|]. split; [apply F3, D|]. split; [congruence|]. split; [rewrite <- app_assoc; apply preserved_app|].
    intros k i. rewrite F4, merged_add, E5, value_app by auto. reflexivity.
  Qed.
  (** In-place sums. *)
  Theorem C52_inplace_sum h (a b : ptensor K) : tensor_ok h a -> tensor_ok h b -> n_qubits a = n_qubits b ->
    exists h' c, iadd h a b = Ok (h', c) /\ n_qubits c = n_qubits a /\ preserved h h' /\ (forall k i, value h' c k i = value h a k i + value h b k i) /\
      (disjoint_arrays (n_body_tensors a) (n_body_tensors b) -> tensor_ok h' c).
  Proof.
    intros Ha Hb En. destruct (merge_spec kadd h a b Ha Hb En) as (t & c & F & F1 & F2 & F3 & F4). exists (h ++ t), c. split; [exact F|]. split; [exact F1|].
    split; [apply preserved_app|]. split; [|exact F3]. intros k i. rewrite F4. apply merged_add.
  Qed.
  Theorem C52_sizes_must_agree h (a b : ptensor K) : n_qubits a <> n_qubits b -> add h a b = Err TypeError /\ sub h a b = Err TypeError /\ mul h a b = Err TypeError.
  Proof.
    intros Ne. assert (X : n_qubits (snd (deepcopy h a)) = n_qubits a). { unfold deepcopy. destruct (map_entries _ h (n_body_tensors a)). reflexivity. }
    unfold add, sub, mul. destruct (deepcopy h a) as [h' a']. cbn [snd] in X. unfold iadd, isub, imul, merge. rewrite X. destruct (Nat.eqb_spec (n_qubits a) (n_qubits b)); [contradiction|]. auto.
  Qed.
  (** Differences: what the code computes for every key.  A key the first operand lacks gets the second operand's entries without a sign. *)
  Theorem C52_difference_entries h (a b : ptensor K) : tensor_ok h a -> tensor_ok h b -> n_qubits a = n_qubits b ->
    exists h' c, sub h a b = Ok (h', c) /\ tensor_ok h' c /\ n_qubits c = n_qubits a /\ preserved h h' /\
      (forall k i, has_key a k -> value h' c k i = value h a k i - value h b k i) /\ (forall k i, ~ has_key a k -> value h' c k i = value h b k i).
  Proof.
    intros Ha Hb En. unfold sub. destruct (deepcopy_spec h a Ha) as (t & a' & E & E1 & E2 & E3 & E4 & E5). rewrite E.
    assert (D : disjoint_arrays (n_body_tensors a') (n_body_tensors b)).
    { intros k1 k2 r H1 H2. apply E4 in H1. destruct (ok_parts h b Hb) as (_ & _ & V & _). apply V in H2. cbn in H2. lia. }
    destruct (merge_spec ksub (h ++ t) a' b E3 (ok_app _ _ _ Hb)) as (t' & c & F & F1 & F2 & F3 & F4); [congruence|]. unfold isub. rewrite F.
    exists ((h ++ t) ++ t'), c. split; [reflexivity|]. split; [apply F3, D|]. split; [congruence|]. split; [rewrite <- app_assoc; apply preserved_app|].
    split; intros k i Hk; rewrite F4, merged_value, E5, (value_app h t b) by auto.
    - destruct (dget key_eqb k (n_body_tensors a')) as [e|] eqn:G; [|apply (dget_None _ key_eqb_spec) in G; rewrite E2 in G; contradiction].
      destruct (dget key_eqb k (n_body_tensors b)) eqn:Gb; [reflexivity|]. assert (Z : value h b k i = 0) by (unfold value; rewrite Gb; reflexivity). rewrite Z. ring.
    - unfold has_key in Hk. rewrite <- E2 in Hk. rewrite (proj2 (dget_None _ key_eqb_spec k _) Hk). rewrite (value_absent h a) by (unfold has_key; rewrite <- E2; exact Hk).
      unfold value. destruct (dget key_eqb k (n_body_tensors b)); reflexivity.
  Qed.
  (** So a difference is entrywise as soon as the first operand has all keys of the second. *)
  Theorem C52_difference h (a b : ptensor K) : tensor_ok h a -> tensor_ok h b -> n_qubits a = n_qubits b -> (forall k, has_key b k -> has_key a k) ->
    exists h' c, sub h a b = Ok (h', c) /\ tensor_ok h' c /\ preserved h h' /\ forall k i, value h' c k i = value h a k i - value h b k i.
  Proof.
    intros Ha Hb En Hk. destruct (C52_difference_entries h a b Ha Hb En) as (h' & c & E & O & _ & P & V1 & V2). exists h', c. split; [auto|]. split; [auto|]. split; [auto|].
    intros k i. destruct (in_dec (list_eq_dec Bool.bool_dec) k (dkeys (n_body_tensors a))) as [H|H]; [apply V1, H|].
    rewrite V2 by exact H. rewrite (value_absent h a k i) by exact H. rewrite (value_absent h b k i) by (intros X; apply H, Hk, X). ring.
  Qed.
  (** Elementwise functions: negation and the like. *)
  Theorem C52_elementwise f h (a : ptensor K) : tensor_ok h a -> exists h' c, with_function_applied_elementwise f h a = Ok (h', c) /\ tensor_ok h' c /\ n_qubits c = n_qubits a /\ preserved h h' /\
    (forall k, has_key c k <-> has_key a k) /\ forall k i, has_key a k -> value h' c k i = f (value h a k i).
  Proof.
    intros H. destruct (ok_parts h a H) as (N & U & V & S & Kk). unfold with_function_applied_elementwise.
    destruct (map_entries_spec _ _ (ufunc1_ok f) (n_qubits a) h (n_body_tensors a) V S) as (t & d & E & E1 & E2 & E3 & E4 & E5 & E6 & E7 & E8). rewrite E.
    assert (OK : tensor_ok (h ++ t) {| n_qubits := n_qubits a; n_body_tensors := d |}).
    { apply ok_build; auto.
      - rewrite E1. exact N.
      - destruct H as (_ & _ & (k & r & Hin) & _). destruct (E7 _ _ Hin) as (r' & X). eauto.
      - intros k e Hin. split; [eauto|]. destruct (E6 _ _ Hin) as (e' & X & Y). rewrite Y. eauto. }
    assert (P : polynomial_tensor (h ++ t) d = Ok {| n_qubits := n_qubits a; n_body_tensors := d |}).
    { destruct OK as (N' & _ & (k & r & Hin) & W). cbn [n_body_tensors n_qubits] in *. unfold polynomial_tensor. destruct d as [|[k0 e0] d]; [destruct Hin|].
      destruct k0 as [|x k0].
      - destruct d as [|[k1 e1] d].
        + destruct Hin as [Hin|[]]. injection Hin as <- ->. destruct (W [] (Arr r)) as [X _]; [left; auto|congruence].
        + pose proof (W k1 e1 (or_intror (or_introl eq_refl))) as W1. destruct e1 as [c|r1]; [|cbn [rbind]; destruct W1 as (_ & _ & ->); reflexivity].
          subst k1. inversion N' as [|? ? N1 _]. exfalso. apply N1. left. reflexivity.
      - pose proof (W (x :: k0) e0 (or_introl eq_refl)) as W1. destruct e0 as [c|r1]; [discriminate|]. cbn [rbind]. destruct W1 as (_ & _ & ->). reflexivity. }
    rewrite P. cbn [rbind]. eexists _, _. split; [reflexivity|]. split; [exact OK|]. split; [reflexivity|]. split; [apply preserved_app|].
    split; [intros k; unfold has_key; cbn [n_body_tensors]; rewrite E1; tauto|].
    intros k i Hk. unfold value at 1. cbn [n_body_tensors]. fold (vald (h ++ t) d k i). rewrite E8. unfold value. destruct (dget key_eqb k (n_body_tensors a)) eqn:G; [reflexivity|].
    apply (dget_None _ key_eqb_spec) in G. contradiction.
  Qed.
  Theorem C52_negation h (a : ptensor K) : tensor_ok h a -> exists h' c, neg h a = Ok (h', c) /\ tensor_ok h' c /\ n_qubits c = n_qubits a /\ preserved h h' /\
    (forall k, has_key c k <-> has_key a k) /\ forall k i, value h' c k i = - value h a k i.
  Proof.
    intros H. destruct (C52_elementwise kopp h a H) as (h' & c & E & O & N & P & Hk & V). exists h', c. repeat (split; [assumption|]).
    intros k i. destruct (in_dec (list_eq_dec Bool.bool_dec) k (dkeys (n_body_tensors a))) as [X|X]; [apply V, X|].
    rewrite (value_absent h a k i X), (value_absent h' c k i); [ring|]. intros Y. apply X, Hk, Y.
  Qed.
  (** a - b = a + (-b) under the same condition on keys. *)
  Theorem C52_difference_is_sum_with_negative h (a b : ptensor K) : tensor_ok h a -> tensor_ok h b -> n_qubits a = n_qubits b -> (forall k, has_key b k -> has_key a k) ->
    exists h1 c h2 b' h3 s, sub h a b = Ok (h1, c) /\ neg h b = Ok (h2, b') /\ add h2 a b' = Ok (h3, s) /\ same_values h1 c h3 s.
  Proof.
    intros Ha Hb En Hk. destruct (C52_difference_entries h a b Ha Hb En) as (h1 & c & E & O & Nc & P & _).
    destruct (C52_difference h a b Ha Hb En Hk) as (h1' & c' & E' & _ & _ & V). rewrite E in E'. injection E' as <- <-.
    destruct (C52_negation h b Hb) as (h2 & b' & F & Ob & Nb & Pb & _ & Vb).
    assert (Ha2 : tensor_ok h2 a /\ forall k i, value h2 a k i = value h a k i).
    { unfold neg, with_function_applied_elementwise in F. destruct (ok_parts h b Hb) as (_ & _ & Vv & S & _).
      destruct (map_entries_spec _ _ (ufunc1_ok kopp) (n_qubits b) h (n_body_tensors b) Vv S) as (t & d & Em & _). rewrite Em in F. destruct (polynomial_tensor (h ++ t) d); [|discriminate].
      injection F as <- _. split; [apply ok_app, Ha|]. intros k i. apply value_app, Ha. }
    destruct Ha2 as [Ha2 Va2]. destruct (C52_sum h2 a b' Ha2 Ob) as (h3 & s & G & Os & Ns & Ps & Vs); [congruence|].
    exists h1, c, h2, b', h3, s. repeat (split; [assumption|]). split; [congruence|]. intros k i. rewrite V, Vs, Vb, Va2. ring.
  Qed.

  (** Multiplication and division by a number: [f] is the operation on one element.  In place, the arrays of the object change and no others do. *)
  Theorem C52_inplace_scaling f h (a : ptensor K) : f 0 = 0 -> tensor_ok h a -> exists h' c, inplace f h a = (h', c) /\ tensor_ok h' c /\ n_qubits c = n_qubits a /\
    (forall k i, value h' c k i = f (value h a k i)) /\ (forall r, ~ (exists k, In (k, Arr r) (n_body_tensors a)) -> read h' r = read h r).
  Proof.
    intros Hf H. destruct (ok_parts h a H) as (N & U & V & S & Kk).
    destruct (inplace_fold f (n_body_tensors a) h (n_body_tensors a) N N (fun _ _ x => x) U V) as (h' & d & E & E1 & E2 & E3 & E4 & E5 & E6).
    exists h', (with_tensors a d). split; [unfold inplace; rewrite E; reflexivity|]. split; [|split; [reflexivity|split; [|exact E5]]].
    - split; [cbn [with_tensors n_body_tensors]; rewrite E2; exact N|]. split; [intros k1 k2 r H1 H2; apply E3 in H1, H2; eapply U; eauto|].
      split; [destruct H as (_ & _ & (k & r & Hin) & _); exists k, r; apply E3, Hin|]. intros k e Hin. cbn [with_tensors n_qubits].
      destruct e as [c|r].
      + assert (Ik : In k (dkeys (n_body_tensors a))) by (rewrite <- E2; apply in_map_iff; exists (k, Num c); auto). apply in_map_iff in Ik as ([k' e'] & Ek & Ik). cbn in Ek. subst k'.
        destruct H as (_ & _ & _ & W). specialize (W _ _ Ik). destruct e' as [c'|r']; [exact W|]. apply E3 in Ik.
        assert (X : Num c = Arr r'); [|discriminate]. apply (In_dget _ key_eqb_spec) in Ik; [|cbn [with_tensors n_body_tensors]; rewrite E2; exact N]. apply (In_dget _ key_eqb_spec) in Hin; [|cbn [with_tensors n_body_tensors]; rewrite E2; exact N]. cbn in Hin. congruence.
      + apply E3 in Hin. destruct H as (_ & _ & _ & W). specialize (W _ _ Hin). cbn in W. rewrite E1, E4. exact W.
    - intros k i. unfold value at 1. cbn [with_tensors n_body_tensors]. fold (vald h' d k i). rewrite E6. unfold value. fold (vald h (n_body_tensors a) k i).
      destruct (memb key_eqb k (dkeys (n_body_tensors a))) eqn:M; [reflexivity|]. unfold vald. assert (X : ~ In k (dkeys (n_body_tensors a))).
      { intros X. apply (memb_In _ key_eqb_spec) in X. congruence. }
      rewrite (proj2 (dget_None _ key_eqb_spec k _) X). symmetry. exact Hf.
  Qed.
  Theorem C52_scaling h (a : ptensor K) m : tensor_ok h a -> exists h' c, mul_number h a m = (h', c) /\ tensor_ok h' c /\ n_qubits c = n_qubits a /\ preserved h h' /\
    forall k i, value h' c k i = value h a k i * m.
  Proof.
    intros H. unfold mul_number. destruct (deepcopy_spec h a H) as (t & a' & E & E1 & E2 & E3 & E4 & E5). rewrite E.
    destruct (C52_inplace_scaling (fun x => x * m) (h ++ t) a') as (h' & c & F & F1 & F2 & F3 & F4); [ring|auto|]. exists h', c. split; [exact F|]. split; [auto|]. split; [congruence|].
    split; [|intros k i; rewrite F3, E5; reflexivity]. intros r Hr. rewrite F4; [apply read_app, Hr|]. intros [k Hk]. apply E4 in Hk. lia.
  Qed.
  (** Sums and differences with a number change the constant. *)
  Lemma set_constant_spec h (a : ptensor K) c : tensor_ok h a -> tensor_ok h (set_constant a c) /\ forall k i, value h (set_constant a c) k i = if key_eqb k [] then c else value h a k i.
  Proof.
    intros H. split.
    - destruct (ok_parts h a H) as (N & U & V & S & Kk). destruct H as (_ & _ & (k & r & Hin) & W). unfold set_constant.
      assert (X : forall k r, In (k, Arr r) (dset key_eqb [] (Num c) (n_body_tensors a)) <-> In (k, Arr r) (n_body_tensors a)).
      { intros k1 r1. split; intros Y.
        - apply In_dset in Y as [[_ Y]|Y]; [discriminate|auto].
        - apply (dget_In _ key_eqb_spec). rewrite (dget_dset_other _ key_eqb_spec); [apply (In_dget _ key_eqb_spec); auto|]. specialize (W _ _ Y). cbn in W. tauto. }
      split; [apply dset_NoDup; auto|]. split; [intros k1 k2 r1 H1 H2; apply X in H1, H2; eapply U; eauto|]. split; [exists k, r; apply X; auto|].
      intros k1 e1 H1. apply In_dset in H1 as [[-> ->]|H1]; [reflexivity|]. apply (W _ _ H1).
    - intros k i. apply (vald_dset h (n_body_tensors a) [] (Num c) k i).
  Qed.
  Lemma constant_value h (a : ptensor K) : tensor_ok h a -> constant a = Ok (value h a [] []).
  Proof.
    intros H. unfold constant, value. destruct (dget key_eqb [] (n_body_tensors a)) as [e|] eqn:G; [|reflexivity]. apply (dget_In _ key_eqb_spec) in G.
    destruct H as (_ & _ & _ & W). specialize (W _ _ G). destruct e; [reflexivity|]. destruct W as [W _]. congruence.
  Qed.
  Theorem C52_sum_with_number h (a : ptensor K) c : tensor_ok h a -> exists h' s, add_number h a c = Ok (h', s) /\ tensor_ok h' s /\ preserved h h' /\
    forall k i, value h' s k i = value h a k i + (if key_eqb k [] then c else 0).
  Proof.
    intros H. unfold add_number. destruct (deepcopy_spec h a H) as (t & a' & E & E1 & E2 & E3 & E4 & E5). rewrite E. unfold iadd_number. rewrite (constant_value (h ++ t)) by auto. cbn [rbind].
    eexists _, _. split; [reflexivity|]. split; [apply set_constant_spec; auto|]. split; [apply preserved_app|]. intros k i. rewrite (proj2 (set_constant_spec _ _ _ E3)), E5, E5.
    destruct (key_eqb k []) eqn:X; [|ring]. apply key_eqb_spec in X. subst k. f_equal. 
    rewrite <- !E5. unfold value. destruct (dget key_eqb [] (n_body_tensors a')) as [e|] eqn:G; [|reflexivity]. apply (dget_In _ key_eqb_spec) in G.
    destruct E3 as (_ & _ & _ & W). specialize (W _ _ G). destruct e; [reflexivity|]. destruct W as [W _]. congruence.
  Qed.
  Theorem C52_difference_with_number h (a : ptensor K) c : tensor_ok h a -> exists h' s, sub_number h a c = Ok (h', s) /\ tensor_ok h' s /\ preserved h h' /\
    forall k i, value h' s k i = value h a k i - (if key_eqb k [] then c else 0).
  Proof.
    intros H. unfold sub_number. destruct (deepcopy_spec h a H) as (t & a' & E & E1 & E2 & E3 & E4 & E5). rewrite E. unfold isub_number. rewrite (constant_value (h ++ t)) by auto. cbn [rbind].
    eexists _, _. split; [reflexivity|]. split; [apply set_constant_spec; auto|]. split; [apply preserved_app|]. intros k i. rewrite (proj2 (set_constant_spec _ _ _ E3)), E5, E5.
    destruct (key_eqb k []) eqn:X; [|ring]. apply key_eqb_spec in X. subst k. f_equal.
    rewrite <- !E5. unfold value. destruct (dget key_eqb [] (n_body_tensors a')) as [e|] eqn:G; [|reflexivity]. apply (dget_In _ key_eqb_spec) in G.
    destruct E3 as (_ & _ & _ & W). specialize (W _ _ G). destruct e; [reflexivity|]. destruct W as [W _]. congruence.
  Qed.
  Theorem C52_number_minus_tensor h (a : ptensor K) c : tensor_ok h a -> exists h' s, rsub_number h a c = Ok (h', s) /\ tensor_ok h' s /\ preserved h h' /\
    forall k i, value h' s k i = (if key_eqb k [] then c else 0) - value h a k i.
  Proof.
    intros H. unfold rsub_number. destruct (C52_scaling h a (- (1)) H) as (h1 & a1 & E & O & N & P & V). rewrite E. destruct (C52_sum_with_number h1 a1 c O) as (h2 & s & F & Os & Ps & Vs).
    exists h2, s. split; [exact F|]. split; [auto|]. split.
    - intros r Hr. rewrite Ps; [apply P, Hr|]. unfold mul_number in E. destruct (deepcopy_spec h a H) as (t & a' & Ed & _ & _ & Od & _). rewrite Ed in E.
      destruct (ok_parts _ _ Od) as (N' & U' & V' & _).
      destruct (inplace_fold (fun x => x * - (1)) (n_body_tensors a') (h ++ t) (n_body_tensors a') N' N' (fun _ _ x => x) U' V') as (h' & d & E' & E1 & _).
      unfold imul_number, inplace in E. rewrite E' in E. injection E as <- _. rewrite E1, app_length. lia.
    - intros k i. rewrite Vs, V. ring.
  Qed.
  (** Products of tensors are entrywise. *)
  Theorem C52_product h (a b : ptensor K) : tensor_ok h a -> tensor_ok h b -> n_qubits a = n_qubits b ->
    exists h' c, mul h a b = Ok (h', c) /\ tensor_ok h' c /\ n_qubits c = n_qubits a /\ preserved h h' /\ forall k i, value h' c k i = value h a k i * value h b k i.
  Proof.
    intros Ha Hb En. unfold mul. destruct (deepcopy_spec h a Ha) as (t & a' & E & E1 & E2 & E3 & E4 & E5). rewrite E.
    destruct (ok_parts _ _ E3) as (Na & Ua & Va & Sa & Ka). destruct (ok_parts _ _ (ok_app h t b Hb)) as (Nb & Ub & Vb & Sb & Kb).
    rewrite <- En, <- E1 in Sb.
    destruct (times_fold (n_qubits a') b (n_body_tensors a') (h ++ t) (n_body_tensors a') Na Na (fun _ _ x => x) Va Vb Sa Sb Ka Kb Ua) as (t' & d & F & F1 & F2 & F3 & F4 & F5).
    exists ((h ++ t) ++ t'), (with_tensors a' d). split; [unfold imul; rewrite E1, En, Nat.eqb_refl; cbn [negb]; rewrite F; reflexivity|].
    split; [|split; [exact E1|split; [rewrite <- app_assoc; apply preserved_app|]]].
    - apply ok_build; auto; [rewrite F1; exact Na|]. destruct E3 as (_ & _ & (k & r & Hin) & _).
      assert (X : In k (dkeys d)) by (rewrite F1; apply in_map_iff; exists (k, Arr r); auto). apply in_map_iff in X as ([k' e] & Ek & X). cbn in Ek. subst k'.
      destruct (F4 _ _ X) as [_ Y]. pose proof (Ka _ _ Hin) as Z. cbn in Z. rewrite <- Z in Y. destruct e as [|r']; [discriminate|]. eauto.
    - intros k i. unfold value at 1. cbn [with_tensors n_body_tensors]. fold (vald ((h ++ t) ++ t') d k i). rewrite F5.
      change (vald (h ++ t) (n_body_tensors a') k i) with (value (h ++ t) a' k i). change (vald (h ++ t) (n_body_tensors b) k i) with (value (h ++ t) b k i).
      rewrite E5, (value_app h t b) by auto. destruct (memb key_eqb k (dkeys (n_body_tensors a'))) eqn:M; [reflexivity|].
      assert (X : ~ has_key a k). { unfold has_key. rewrite <- E2. intros X. apply (memb_In _ key_eqb_spec) in X. congruence. }
      rewrite (value_absent h a k i X). ring.
  Qed.
  (** Equality: true exactly when all corresponding entries are within the tolerance. *)
  Lemma in_indices n m : forall i, In i (indices n m) <-> length i = m /\ Forall (fun x => x < n)%nat i.
  Proof.
    induction m as [|m IH]; intros i; cbn [indices].
    - split; [intros [<-|[]]; auto|]. intros [H _]. destruct i; [left; auto|discriminate].
    - rewrite in_flat_map. split.
      + intros (x & Hx & Hi). apply in_seq in Hx. apply in_map_iff in Hi as (j & <- & Hj). apply IH in Hj as [L F]. split; [cbn; lia|]. constructor; [lia|auto].
      + intros [L F]. destruct i as [|x j]; [discriminate|]. inversion F; subst. exists x. split; [apply in_seq; lia|]. apply in_map, IH. split; [cbn in L; lia|auto].
  Qed.
  Theorem C52_equality (tiny : K -> bool) h (a b : ptensor K) : tiny 0 = true -> (forall x, tiny (- x) = tiny x) -> (0 < n_qubits a)%nat -> n_qubits a = n_qubits b ->
    exists v, eqb_tensor tiny h a b = Ok v /\
      (v = true <-> forall k i, length i = length k -> Forall (fun x => x < n_qubits a)%nat i -> tiny (value h a k i - value h b k i) = true).
  Proof.
    intros T0 Ts Hn En. unfold eqb_tensor. rewrite <- En, Nat.eqb_refl. cbn [negb].
    set (keys := uniq key_eqb _).
    set (F := fun k => all_tiny tiny (n_qubits a) k (fun i => match dget key_eqb k (n_body_tensors a), dget key_eqb k (n_body_tensors b) with
          | Some x, Some y => element h x i - element h y i | Some x, None => element h x i | None, Some y => element h y i | None, None => 0 end)).
    assert (E : mapM (fun k => if Nat.eqb (length (indices (n_qubits a) (length k))) O then Err ValueError else Ok (F k)) keys = Ok (map F keys)).
    { clearbody keys. induction keys as [|k keys IH]; [reflexivity|]. cbn [mapM map]. destruct (Nat.eqb_spec (length (indices (n_qubits a) (length k))) 0) as [Z|_].
      - exfalso. assert (X : In (repeat O (length k)) (indices (n_qubits a) (length k))).
        { apply in_indices. split; [apply repeat_length|]. apply Forall_forall. intros x Hx. apply repeat_spec in Hx. lia. }
        destruct (indices (n_qubits a) (length k)); [destruct X|discriminate].
      - cbn [rbind]. rewrite IH. reflexivity. }
    unfold F in E at 1. rewrite E. cbn [rbind]. eexists. split; [reflexivity|]. rewrite forallb_forall. split.
    - intros H k i L B. destruct (in_dec (list_eq_dec Bool.bool_dec) k (dkeys (n_body_tensors a) ++ dkeys (n_body_tensors b))) as [X|X].
      + assert (Y : F k = true) by (apply H, in_map, (uniq_In _ key_eqb_spec), X). unfold F, all_tiny in Y. rewrite forallb_forall in Y.
        specialize (Y i (proj2 (in_indices _ _ i) (conj L B))). unfold value. destruct (dget key_eqb k (n_body_tensors a)) as [x|], (dget key_eqb k (n_body_tensors b)) as [y|].
        * exact Y.
        * replace (element h x i - 0) with (element h x i) by ring. exact Y.
        * replace (0 - element h y i) with (- element h y i) by ring. rewrite Ts. exact Y.
        * replace (0 - 0 : K) with (0 : K) by ring. exact Y.
      + rewrite (value_absent h a), (value_absent h b) by (intros Y; apply X, in_or_app; auto). replace (0 - 0 : K) with (0 : K) by ring. exact T0.
    - intros H v Hv. apply in_map_iff in Hv as (k & <- & _). unfold F, all_tiny. apply forallb_forall. intros i Hi. apply in_indices in Hi as [L B]. specialize (H k i L B).
      unfold value in H. destruct (dget key_eqb k (n_body_tensors a)) as [x|], (dget key_eqb k (n_body_tensors b)) as [y|].
      * exact H.
      * replace (element h x i - 0) with (element h x i) in H by ring. exact H.
      * replace (0 - element h y i) with (- element h y i) in H by ring. rewrite Ts in H. exact H.
      * exact T0.
  Qed.
  Theorem C52_sizes_differ_not_equal (tiny : K -> bool) h (a b : ptensor K) : n_qubits a <> n_qubits b -> eqb_tensor tiny h a b = Ok false.
  Proof. intros Ne. unfold eqb_tensor. destruct (Nat.eqb_spec (n_qubits a) (n_qubits b)); [contradiction|reflexivity]. Qed.
End C52.

(** ** The claims that fail *)
Definition ex_array (c : GQ) : ndarray GQ := {| shape0 := 2; data := fun i => match i with [0; 1] => c | _ => k0 end |}.
Definition ex_heap : heap GQ := [ex_array (gq 4 0); ex_array (gq 8 0)].
Definition ex_a : ptensor GQ := {| n_qubits := 2; n_body_tensors := [([], Num (gq 4 0)); ([true; false], Arr 0)] |}.
Definition ex_b : ptensor GQ := {| n_qubits := 2; n_body_tensors := [([], Num (gq 0 4)); ([false; true], Arr 1)] |}.
Example C52_example_ok : tensor_ok ex_heap ex_a /\ tensor_ok ex_heap ex_b.
Proof.
  split.
  - split; [repeat constructor; cbn; intuition discriminate|]. split; [intros k1 k2 r H1 H2; cbn in H1, H2; intuition congruence|]. split; [exists [true; false], 0; cbn; auto|].
    intros k e H. cbn in H. destruct H as [H|[H|[]]]; injection H as <- <-; cbn; repeat split; auto; discriminate.
  - split; [repeat constructor; cbn; intuition discriminate|]. split; [intros k1 k2 r H1 H2; cbn in H1, H2; intuition congruence|]. split; [exists [false; true], 1; cbn; auto|].
    intros k e H. cbn in H. destruct H as [H|[H|[]]]; injection H as <- <-; cbn; repeat split; auto; discriminate.
Qed.
(** a - b is not entrywise when b has a key a lacks: the entry keeps its sign *)
Theorem C52_difference_refuted : exists (h : heap GQ) a b h' c k i, tensor_ok h a /\ tensor_ok h b /\ n_qubits a = n_qubits b /\ sub h a b = Ok (h', c) /\
  value h' c k i <> ksub (value h a k i) (value h b k i).
Proof.
  eexists ex_heap, ex_a, ex_b, _, _, [false; true], [0; 1]. split; [apply C52_example_ok|]. split; [apply C52_example_ok|]. split; [reflexivity|]. split; [reflexivity|].
  intros H. apply (f_equal fst), (f_equal (fun q => QArith_base.Qnum (Qcanon.this q))) in H. vm_compute in H. discriminate.
Qed.
(** the arrays of a sum may be those of the second operand: doubling the sum in place then changes that operand *)
Theorem C52_sum_is_independent_refuted : exists (h : heap GQ) a b h1 c h2 c' k i, tensor_ok h a /\ tensor_ok h b /\ add h a b = Ok (h1, c) /\
  imul_number h1 c (kadd k1 k1) = (h2, c') /\ value h1 b k i = value h b k i /\ value h2 b k i <> value h b k i.
Proof.
  eexists ex_heap, ex_a, ex_b, _, _, _, _, [false; true], [0; 1]. split; [apply C52_example_ok|]. split; [apply C52_example_ok|]. split; [reflexivity|]. split; [reflexivity|]. split; [reflexivity|].
  intros H. apply (f_equal fst), (f_equal (fun q => QArith_base.Qnum (Qcanon.this q))) in H. vm_compute in H. discriminate.
Qed.
Example C52_example_sum : exists h' c, add ex_heap ex_a ex_b = Ok (h', c) /\ value h' c [true; false] [0; 1] = gq 4 0 /\ gq_eqb (value h' c [] []) (gq 4 4) = true.
Proof. eexists _, _. split; [reflexivity|]. split; vm_compute; reflexivity. Qed.
(** the condition on keys of [C52_difference]: a tensor with the keys of both *)
Definition ex_heap2 : heap GQ := ex_heap ++ [ex_array (gq 1 1); ex_array (gq 2 0)].
Definition ex_c : ptensor GQ := {| n_qubits := 2; n_body_tensors := [([false; true], Arr 2); ([], Num (gq 1 0)); ([true; false], Arr 3)] |}.
Example C52_example_difference : exists h' c, tensor_ok ex_heap2 ex_c /\ tensor_ok ex_heap2 ex_b /\ (forall k, has_key ex_b k -> has_key ex_c k) /\ sub ex_heap2 ex_c ex_b = Ok (h', c) /\
  gq_eqb (value h' c [false; true] [0; 1]) (gq (-7) 1) = true.
Proof.
  eexists _, _. split; [|split; [|split; [|split; [reflexivity|vm_compute; reflexivity]]]].
  - split; [repeat constructor; cbn; intuition discriminate|]. split; [intros k1 k2 r H1 H2; cbn in H1, H2; intuition congruence|]. split; [exists [true; false], 3; cbn; auto|].
    intros k e H. cbn in H. destruct H as [H|[H|[H|[]]]]; injection H as <- <-; cbn; repeat split; auto; discriminate.
  - apply ok_app. apply C52_example_ok.
  - intros k H. unfold has_key in *. cbn in *. destruct H as [<-|[<-|[]]]; auto.
Qed.
Print Assumptions C52_sum.
Print Assumptions C52_difference_is_sum_with_negative.
Print Assumptions C52_product.
Print Assumptions C52_equality.
