From Coq Require Import String ZArith Lia Permutation FinFun.
From Verif Require Import Base BaseFacts MatModel Json OpModel OpSpec OpProofs PauliProofs FermiModel FermiSpec FermiProofs TensorModel TensorSpec TensorProofs TensorProps ConvModel ConvSpec UtilsProofs.
Local Open Scope nat_scope.
Local Open Scope list_scope.

Section AddFilter.
  Context {K : cring} (small : K -> bool) {A : Type} (aeqb : A -> A -> bool) (Ha : forall x y, aeqb x y = true <-> x = y).
  Open Scope K_scope.
  Add Ring KrConv : (kth K).
  Notation op := (sop A K).
  Lemma ddel_last (t : term A) (c : K) (o : op) : ~ In t (dkeys o) -> ddel (term_eqb aeqb) t (o ++ [(t, c)]) = o.
  Proof.
    induction o as [|[u x] o IH]; intros N; cbn [ddel app dkeys map fst] in *.
    - rewrite (proj2 (term_eqb_spec _ Ha _ _) eq_refl). reflexivity.
    - destruct (term_eqb aeqb t u) eqn:E; [apply (term_eqb_spec _ Ha) in E; exfalso; apply N; left; auto|]. rewrite IH; [reflexivity|intros X; apply N; right; exact X].
  Qed.
  Lemma add_one (o : op) t c : ~ In t (dkeys o) -> op_add aeqb small o [(t, c)] = o ++ not_small_terms small [(t, c)].
  Proof.
    intros N. unfold op_add. cbn [fold_left]. unfold merge_term. cbn [fst snd]. cbn zeta.
    rewrite (proj2 (dget_None _ (term_eqb_spec _ Ha) t o) N). assert (E : 0 + c = c) by ring. rewrite E.
    rewrite (dset_app_new _ (term_eqb_spec _ Ha)) by exact N. unfold not_small_terms. cbn [filter fst snd]. destruct (small c); cbn [negb]; [|reflexivity].
    rewrite ddel_last by exact N. rewrite app_nil_r. reflexivity.
  Qed.
  Lemma not_small_keys (a : op) t : In t (dkeys (not_small_terms small a)) -> In t (dkeys a).
  Proof. intros H. apply in_map_iff in H as ([u c] & E & H). apply filter_In in H as [H _]. apply in_map_iff. eauto. Qed.
  Lemma add_filter (a o : op) : NoDup (dkeys o ++ dkeys a) -> fold_left (fun o (tc : term A * K) => op_add aeqb small o [tc]) a o = o ++ not_small_terms small a.
  Proof.
    revert o; induction a as [|[t c] a IH]; intros o N; cbn [fold_left]; [rewrite app_nil_r; reflexivity|].
    cbn [dkeys map fst] in N. fold (dkeys a) in N.
    rewrite add_one by (apply NoDup_remove_2 in N; rewrite in_app_iff in N; tauto).
    rewrite IH.
    - rewrite <- app_assoc. f_equal. unfold not_small_terms. cbn [filter fst snd]. destruct (small c); reflexivity.
    - unfold not_small_terms. cbn [filter fst snd]. destruct (small c); cbn [negb].
      + rewrite app_nil_r. apply NoDup_remove_1 in N. exact N.
      + unfold dkeys at 1. rewrite map_app. cbn [map fst]. rewrite <- app_assoc. exact N.
  Qed.
  Lemma not_small_id (a : op) : (forall t c, In (t, c) a -> small c = false) -> not_small_terms small a = a.
  Proof.
    unfold not_small_terms. induction a as [|[t c] a IH]; intros H; cbn [filter]; [auto|]. cbn [snd]. rewrite (H t c) by (left; reflexivity). cbn [negb].
    rewrite IH; [reflexivity|intros; eapply H; right; eauto].
  Qed.
  Lemma not_small_wf (a : op) : wf_op a -> wf_op (not_small_terms small a).
  Proof.
    unfold wf_op, not_small_terms. induction a as [|[t c] a IH]; intros H; cbn [filter]; [auto|]. cbn [dkeys map fst] in H. apply NoDup_cons_iff in H as [H1 H2].
    cbn [snd]. destruct (negb (small c)); [|auto]. cbn [dkeys map fst]. constructor; auto. intros X. apply H1. apply not_small_keys. exact X.
  Qed.
End AddFilter.

(** ** Dictionaries *)
Section DictProofs.
  Context {K : cring} {R : Type} (py : pynum K R) (HP : parts_of_numbers py) {A : Type} (aeqb : A -> A -> bool) (Ha : forall x y, aeqb x y = true <-> x = y)
          (simplify : term A -> K -> K * term A) (small : K -> bool) (action_name : A -> string) (action_of : string -> option A).
  Open Scope K_scope.
  Add Ring KrConv2 : (kth K).
  Lemma coefficient_back c : coefficient_of_json py (coefficient_to_json py c) = Ok c.
  Proof.
    unfold coefficient_to_json. destruct (is_complex py c) eqn:E; cbn.
    - destruct (zero_r py (imag py c)) eqn:Z; f_equal; [|symmetry; apply HP]. rewrite (complex_parts py HP c) at 2. rewrite (zero_part py HP _ Z). ring.
    - f_equal. symmetry. apply HP; auto.
  Qed.
  Lemma factor_back (f : factor A) : action_of (action_name (snd f)) = Some (snd f) -> factor_of_json action_of (factor_to_json (R := R) action_name f) = Ok f.
  Proof.
    intros H. destruct f as [q a]. unfold factor_of_json, factor_to_json. cbn in *. rewrite H. destruct (Z.ltb_spec (Z.of_nat q) 0); [lia|]. rewrite Nat2Z.id. reflexivity.
  Qed.
  Lemma term_back (t : term A) c : (forall f, In f t -> action_of (action_name (snd f)) = Some (snd f)) ->
    term_of_json py action_of (term_to_json py action_name (t, c)) = Ok (t, c).
  Proof.
    intros H. unfold term_of_json, term_to_json. cbn [as_dict rbind fst snd]. unfold jitem, jget. cbn [dget String.eqb Ascii.eqb Bool.eqb rbind as_list].
    rewrite coefficient_back. cbn [rbind]. assert (E : mapM (factor_of_json action_of) (map (factor_to_json (R := R) action_name) t) = Ok t); [|rewrite E; reflexivity].
    induction t as [|f t IH]; cbn [map mapM]; [auto|]. rewrite factor_back by (apply H; left; auto). cbn [rbind]. rewrite IH by (intros; apply H; right; auto). reflexivity.
  Qed.
  Lemma dict_back schema (a : sop A K) : wf_op a -> (forall t c, In (t, c) a -> simplify t c = (c, t) /\ forall f, In f t -> action_of (action_name (snd f)) = Some (snd f)) ->
    dict_to_operator py aeqb simplify small action_of (operator_to_dict py action_name schema a) = Ok (not_small_terms small a).
  Proof.
    intros W H. unfold dict_to_operator, operator_to_dict, jitem, jget. cbn [dget String.eqb Ascii.eqb Bool.eqb rbind as_list].
    assert (G : forall (l : sop A K) o, (forall t c, In (t, c) l -> simplify t c = (c, t) /\ forall f, In f t -> action_of (action_name (snd f)) = Some (snd f)) ->
      foldM (fun acc j => let! tc := term_of_json py action_of j in Ok (op_add aeqb small acc (mk_op simplify (fst tc) (snd tc)))) (map (term_to_json py action_name) l) o
      = Ok (fold_left (fun o (tc : term A * K) => op_add aeqb small o [tc]) l o)).
    { induction l as [|[t c] l IH]; intros o Hl; cbn [map foldM fold_left]; [auto|]. destruct (Hl t c) as [H1 H2]; [left; auto|]. rewrite term_back by auto. cbn [rbind fst snd].
      unfold mk_op. rewrite H1. apply IH. intros; apply Hl; right; auto. }
    rewrite G by auto. f_equal. rewrite add_filter by auto. reflexivity.
  Qed.
End DictProofs.

(** ** Tensors *)
Section TensorConv.
  Context {K : cring} (small isz : K -> bool).
  Open Scope K_scope.
  Add Ring KrConv3 : (kth K).
  Notation op := (fop K).
  Lemma combine_fst (i : list nat) (k : list bool) : length i = length k -> map fst (combine i k) = i.
  Proof. revert k; induction i as [|x i IH]; intros [|b k] H; cbn in *; try discriminate; [auto|]. f_equal. auto. Qed.
  Lemma combine_snd (i : list nat) (k : list bool) : length i = length k -> map snd (combine i k) = k.
  Proof. revert k; induction i as [|x i IH]; intros [|b k] H; cbn in *; try discriminate; [auto|]. f_equal. auto. Qed.
  Lemma combine_split (t : term bool) : combine (map fst t) (map snd t) = t.
  Proof. induction t as [|[i b] t IH]; cbn; [auto|]. rewrite IH. reflexivity. Qed.
  Lemma in_iterate h (a : ptensor K) t : NoDup (dkeys (n_body_tensors a)) -> In t (iterate isz h a) <->
    has_key a (map snd t) /\ (t = [] \/ (t <> [] /\ within (n_qubits a) t /\ isz (tensor_value h a t) = false)).
  Proof.
    intros N. unfold iterate. rewrite in_flat_map. split.
    - intros ([k e] & Hin & Ht). cbn [fst snd] in Ht.
      assert (Hin' : In (k, e) (n_body_tensors a)) by (eapply Permutation_in; [apply sort_by_perm|exact Hin]).
      destruct k as [|b k].
      + destruct Ht as [<-|[]]. split; [|left; auto]. apply in_map_iff. exists ([], e). auto.
      + apply in_map_iff in Ht as (i & <- & Hi). apply filter_In in Hi as [Hi Hz]. apply in_indices in Hi as [Hl Hi].
        rewrite combine_snd by auto. split; [apply in_map_iff; exists (b :: k, e); auto|]. right. split; [destruct i; [discriminate|cbn; discriminate]|].
        split.
        * unfold within. apply Forall_forall. intros f Hf. rewrite Forall_forall in Hi. apply Hi. rewrite <- (combine_fst i (b :: k)) by auto. apply in_map. exact Hf.
        * unfold tensor_value, value. rewrite combine_snd, combine_fst by auto. rewrite (In_dget _ key_eqb_spec _ _ _ N Hin'). apply negb_true_iff. exact Hz.
    - intros [Hk Ht]. apply in_map_iff in Hk as ([k e] & Ek & Hin). cbn in Ek. subst k. exists (map snd t, e). split; [eapply Permutation_in; [apply Permutation_sym, sort_by_perm|exact Hin]|].
      cbn [fst snd]. destruct Ht as [->|(Hne & Hw & Hz)]; [left; reflexivity|]. destruct t as [|f t]; [congruence|]. cbn [map]. change (snd f :: map snd t) with (map snd (f :: t)).
      apply in_map_iff. exists (map fst (f :: t)). split; [apply combine_split|]. apply filter_In. split.
      + apply in_indices. split; [rewrite !map_length; reflexivity|]. apply Forall_map. exact Hw.
      + unfold tensor_value, value in Hz. rewrite (In_dget _ key_eqb_spec _ _ _ N Hin) in Hz. rewrite Hz. reflexivity.
  Qed.
  Lemma indices_NoDup n m : NoDup (indices n m).
  Proof.
    induction m as [|m IH]; [repeat constructor; intros []|]. cbn [indices].
    assert (G : forall l : list nat, NoDup l -> NoDup (flat_map (fun i => map (cons i) (indices n m)) l)); [|apply G, seq_NoDup].
    induction l as [|x l IHl]; intros N; [constructor|]. apply NoDup_cons_iff in N as [N1 N2]. cbn [flat_map]. apply NoDup_app; auto.
    - apply FinFun.Injective_map_NoDup; auto. intros u v E. congruence.
    - intros u Hu Hv. apply in_map_iff in Hu as (i & <- & _). apply in_flat_map in Hv as (y & Hy & Hv). apply in_map_iff in Hv as (j & E & _). congruence.
  Qed.
  Lemma iterate_NoDup h (a : ptensor K) : NoDup (dkeys (n_body_tensors a)) -> NoDup (iterate isz h a).
  Proof.
    intros N. unfold iterate. set (l := sort_by _ _).
    assert (N' : NoDup (dkeys l)) by (eapply Permutation_NoDup; [|exact N]; apply Permutation_map, Permutation_sym, sort_by_perm).
    clearbody l. clear N. induction l as [|[k e] l IH]; [constructor|]. cbn [dkeys map fst] in N'. apply NoDup_cons_iff in N' as [N1 N2]. cbn [flat_map fst snd]. apply NoDup_app; auto.
    - destruct k as [|b k]; [repeat constructor; intros []|].
      assert (G : forall L : list (list nat), NoDup L -> (forall i, In i L -> length i = length (b :: k)) -> NoDup (map (fun i => combine i (b :: k)) L)).
      { induction L as [|i L IHL]; intros NL HL; [constructor|]. apply NoDup_cons_iff in NL as [NL1 NL2]. cbn [map]. constructor; [|apply IHL; auto; intros; apply HL; right; auto].
        intros X. apply in_map_iff in X as (j & E & Hj). apply NL1. rewrite <- (combine_fst i (b :: k)) by (apply HL; left; auto). rewrite <- E.
        rewrite combine_fst by (apply HL; right; auto). exact Hj. }
      apply G; [apply NoDup_filter, indices_NoDup|]. intros i Hi. apply filter_In in Hi as [Hi _]. apply in_indices in Hi. tauto.
    - intros t Ht Hl. apply N1.
      assert (Et : map snd t = k).
      { destruct k as [|b k]; [destruct Ht as [<-|[]]; reflexivity|]. apply in_map_iff in Ht as (i & <- & Hi). apply filter_In in Hi as [Hi _]. apply in_indices in Hi as [Hi _]. apply combine_snd; auto. }
      apply in_flat_map in Hl as ([k' e'] & Hin & Ht'). cbn [fst snd] in Ht'.
      assert (Et' : map snd t = k').
      { destruct k' as [|b' k']; [destruct Ht' as [<-|[]]; reflexivity|]. apply in_map_iff in Ht' as (i & <- & Hi). apply filter_In in Hi as [Hi _]. apply in_indices in Hi as [Hi _]. apply combine_snd; auto. }
      apply in_map_iff. exists (k', e'). split; [cbn; congruence|auto].
  Qed.
  Lemma get_fermion_operator_eq h (a : ptensor K) : NoDup (dkeys (n_body_tensors a)) ->
    get_fermion_operator small isz h a = Ok (not_small_terms small (map (fun t => (t, tensor_value h a t)) (iterate isz h a))).
  Proof.
    intros N. unfold get_fermion_operator.
    assert (G : forall l (o : op), (forall t, In t l -> has_key a (map snd t)) ->
      foldM (fun o args => let! c := getitem h a args in Ok (fermion_add small o (fermion_op args c))) l o
      = Ok (fold_left (fun o (tc : term bool * K) => op_add Bool.eqb small o [tc]) (map (fun t => (t, tensor_value h a t)) l) o)).
    { induction l as [|t l IH]; intros o Hl; [reflexivity|]. cbn [foldM map fold_left].
      assert (E : getitem h a t = Ok (tensor_value h a t)).
      { pose proof (Hl t (or_introl eq_refl)) as X. unfold getitem, tensor_value, value. destruct (dget key_eqb (map snd t) (n_body_tensors a)) eqn:E; [reflexivity|].
        apply (dget_None _ key_eqb_spec) in E. contradiction. }
      rewrite E. cbn [rbind]. apply IH. intros; apply Hl; right; auto. }
    rewrite G by (intros t Ht; apply in_iterate in Ht; tauto). f_equal. rewrite (add_filter small Bool.eqb bool_eqb_spec); [reflexivity|].
    cbn [dkeys map app]. unfold dkeys. rewrite map_map. cbn [fst]. rewrite map_id. apply iterate_NoDup; auto.
  Qed.
  Lemma coef_not_small (a : op) t : small 0 = true -> wf_op a -> coef Bool.eqb (not_small_terms small a) t = if small (coef Bool.eqb a t) then 0 else coef Bool.eqb a t.
  Proof.
    intros H0 W. unfold coef. destruct (dget _ t a) as [c|] eqn:E.
    - apply (dget_In _ (term_eqb_spec _ bool_eqb_spec)) in E. destruct (small c) eqn:S.
      + destruct (dget _ t (not_small_terms small a)) as [d|] eqn:D; [|reflexivity]. apply (dget_In _ (term_eqb_spec _ bool_eqb_spec)) in D. apply filter_In in D as [D D']. cbn in D'.
        pose proof (In_dget _ (term_eqb_spec _ bool_eqb_spec) _ _ _ W D) as X. pose proof (In_dget _ (term_eqb_spec _ bool_eqb_spec) _ _ _ W E) as Y. rewrite X in Y. inversion Y; subst. rewrite S in D'. discriminate.
      + erewrite (In_dget _ (term_eqb_spec _ bool_eqb_spec) t c); [reflexivity|apply not_small_wf; auto|]. apply filter_In. cbn. rewrite S. auto.
    - rewrite H0. destruct (dget _ t (not_small_terms small a)) as [d|] eqn:D; [|reflexivity]. apply (dget_In _ (term_eqb_spec _ bool_eqb_spec)) in D. apply filter_In in D as [D _].
      apply (dget_None _ (term_eqb_spec _ bool_eqb_spec)) in E. exfalso. apply E. apply in_map_iff. exists (t, d). auto.
  Qed.
  Lemma coef_In (a : op) t c : wf_op a -> In (t, c) a -> coef Bool.eqb a t = c.
  Proof. intros W H. unfold coef. rewrite (In_dget _ (term_eqb_spec _ bool_eqb_spec) t c a W H). reflexivity. Qed.
  Lemma coef_not_In (a : op) t : ~ In t (dkeys a) -> coef Bool.eqb a t = 0.
  Proof. intros H. unfold coef. rewrite (proj2 (dget_None _ (term_eqb_spec _ bool_eqb_spec) t a) H). reflexivity. Qed.
  Lemma list_dec (t : term bool) (l : list (term bool)) : In t l \/ ~ In t l.
  Proof. destruct (memb (term_eqb Bool.eqb) t l) eqn:E; [left|right]; [apply (memb_In _ (term_eqb_spec _ bool_eqb_spec)); auto|]. intros X. apply (memb_In _ (term_eqb_spec _ bool_eqb_spec)) in X. congruence. Qed.
  Lemma term_dec (t u : term bool) : t = u \/ t <> u.
  Proof. destruct (term_eqb Bool.eqb t u) eqn:E; [left; apply (term_eqb_spec _ bool_eqb_spec); auto|right]. intros ->. rewrite (proj2 (term_eqb_spec _ bool_eqb_spec u u) eq_refl) in E. discriminate. Qed.
  (** the operator of a tensor *)
  Lemma get_fermion_operator_spec h (a : ptensor K) : (forall x, isz x = true -> x = 0) -> small 0 = true -> NoDup (dkeys (n_body_tensors a)) ->
    exists o, get_fermion_operator small isz h a = Ok o /\ wf_op o /\ (forall t c, In (t, c) o -> within (n_qubits a) t /\ has_key a (map snd t) /\ small c = false) /\
      (forall t, within (n_qubits a) t -> coef Bool.eqb o t = if small (tensor_value h a t) then 0 else tensor_value h a t).
  Proof.
    intros Hz H0 N. set (l := map (fun t => (t, tensor_value h a t)) (iterate isz h a)).
    assert (W : wf_op l) by (unfold wf_op, dkeys, l; rewrite map_map; cbn [fst]; rewrite map_id; apply iterate_NoDup; auto).
    exists (not_small_terms small l). split; [apply get_fermion_operator_eq; auto|]. split; [apply not_small_wf; auto|]. split.
    - intros t c H. apply filter_In in H as [H Hs]. apply in_map_iff in H as (u & E & Hu). inversion E; subst. apply in_iterate in Hu as [H1 H2]; auto. split; [|split; [auto|apply negb_true_iff; exact Hs]].
      destruct H2 as [->|H2]; [constructor|tauto].
    - intros t Hw. rewrite coef_not_small by auto. destruct (list_dec t (iterate isz h a)) as [Hi|Hi].
      + rewrite (coef_In l t (tensor_value h a t)); auto. unfold l. apply in_map_iff. eauto.
      + rewrite coef_not_In by (unfold l, dkeys; rewrite map_map; cbn [fst]; rewrite map_id; auto). rewrite H0.
        assert (E : tensor_value h a t = 0); [|rewrite E, H0; reflexivity].
        destruct (dget key_eqb (map snd t) (n_body_tensors a)) as [e|] eqn:E; [|unfold tensor_value, value; rewrite E; reflexivity].
        assert (Hk : has_key a (map snd t)) by (apply (dget_In _ key_eqb_spec) in E; apply in_map_iff; exists (map snd t, e); auto).
        destruct (isz (tensor_value h a t)) eqn:Z; [auto|]. exfalso. apply Hi. apply in_iterate; auto. split; [auto|]. destruct (term_dec t []); [auto|right; auto].
  Qed.

  (** the loop of get_interaction_operator *)
  Notation state := (K * (TensorModel.ndarray K * TensorModel.ndarray K))%type.
  Definition st_value (st : state) (t : term bool) : K :=
    if key_eqb (map snd t) [] then fst st
    else if key_eqb (map snd t) [true; false] then data (fst (snd st)) (map fst t)
    else if key_eqb (map snd t) [true; true; false; false] then data (snd (snd st)) (map fst t) else 0.
  Lemma key_refl k : key_eqb k k = true.
  Proof. apply key_eqb_spec. reflexivity. Qed.
  Lemma key_neq k l : k <> l -> key_eqb k l = false.
  Proof. intros H. destruct (key_eqb k l) eqn:E; [apply key_eqb_spec in E; contradiction|reflexivity]. Qed.
  Lemma term_split (t u : term bool) : map fst t = map fst u -> map snd t = map snd u -> t = u.
  Proof. intros H1 H2. rewrite <- (combine_split t), <- (combine_split u), H1, H2. reflexivity. Qed.
  Lemma assign_data (x : TensorModel.ndarray K) u v i : data (assign x u v) i = if list_eqb Nat.eqb i u then v else data x i.
  Proof. reflexivity. Qed.
  Lemma gio_one (st : state) t c : small c = false -> interaction_term t -> exists st', gio_step small st (t, c) = Ok st' /\
    shape0 (fst (snd st')) = shape0 (fst (snd st)) /\ shape0 (snd (snd st')) = shape0 (snd (snd st)) /\
    forall u, interaction_term u -> st_value st' u = if term_eqb Bool.eqb u t then c else st_value st u.
  Proof.
    intros Hs Ht. destruct st as [c0 [o w]]. unfold gio_step. rewrite Hs.
    assert (D : forall u, term_eqb Bool.eqb u t = true <-> map fst u = map fst t /\ map snd u = map snd t).
    { intros u. pose proof (term_eqb_spec _ bool_eqb_spec u t) as TS. rewrite TS. split; [intros ->; auto|intros [A B]; apply term_split; auto]. }
    destruct Ht as [E|[E|E]].
    - assert (L : length t = O) by (etransitivity; [symmetry; apply (map_length snd)|rewrite E; reflexivity]). rewrite L. eexists. split; [reflexivity|]. split; [reflexivity|]. split; [reflexivity|]. intros u Hu. unfold st_value. cbn [fst snd].
      destruct (term_eqb Bool.eqb u t) eqn:X.
      + apply D in X as [_ X]. rewrite X, E. reflexivity.
      + destruct (key_eqb (map snd u) []) eqn:Y; [|reflexivity]. apply key_eqb_spec in Y. destruct u; [|discriminate]. destruct t; [|discriminate]. discriminate.
    - assert (L : length t = 2%nat) by (etransitivity; [symmetry; apply (map_length snd)|rewrite E; reflexivity]). rewrite L, E. cbn [list_eqb Bool.eqb andb]. eexists. split; [reflexivity|]. split; [reflexivity|]. split; [reflexivity|]. intros u Hu. unfold st_value. cbn [fst snd].
      destruct (term_eqb Bool.eqb u t) eqn:X.
      + apply D in X as [X1 X2]. rewrite X2, E. cbn [key_eqb list_eqb Bool.eqb andb]. rewrite assign_data, X1. rewrite (proj2 (list_eqb_spec _ Nat.eqb_eq _ _) eq_refl). reflexivity.
      + destruct (key_eqb (map snd u) []) eqn:Y; [reflexivity|]. destruct (key_eqb (map snd u) [true; false]) eqn:Y2; [|reflexivity]. apply key_eqb_spec in Y2.
        rewrite assign_data. destruct (list_eqb Nat.eqb (map fst u) (map fst t)) eqn:Q; [|reflexivity]. apply (list_eqb_spec _ Nat.eqb_eq) in Q.
        exfalso. assert (true = false); [rewrite <- X; symmetry; apply D; split; congruence|discriminate].
    - assert (L : length t = 4%nat) by (etransitivity; [symmetry; apply (map_length snd)|rewrite E; reflexivity]). rewrite L, E. cbn [list_eqb Bool.eqb andb]. eexists. split; [reflexivity|]. split; [reflexivity|]. split; [reflexivity|]. intros u Hu. unfold st_value. cbn [fst snd].
      destruct (term_eqb Bool.eqb u t) eqn:X.
      + apply D in X as [X1 X2]. rewrite X2, E. cbn [key_eqb list_eqb Bool.eqb andb]. rewrite assign_data, X1. rewrite (proj2 (list_eqb_spec _ Nat.eqb_eq _ _) eq_refl). reflexivity.
      + destruct (key_eqb (map snd u) []) eqn:Y; [reflexivity|]. destruct (key_eqb (map snd u) [true; false]) eqn:Y2; [reflexivity|].
        destruct (key_eqb (map snd u) [true; true; false; false]) eqn:Y3; [|reflexivity]. apply key_eqb_spec in Y3.
        rewrite assign_data. destruct (list_eqb Nat.eqb (map fst u) (map fst t)) eqn:Q; [|reflexivity]. apply (list_eqb_spec _ Nat.eqb_eq) in Q.
        exfalso. assert (true = false); [rewrite <- X; symmetry; apply D; split; congruence|discriminate].
  Qed.
  Lemma gio_bad (st : state) t c : small c = false -> ~ interaction_term t -> gio_step small st (t, c) = Err GenericException.
  Proof.
    intros Hs Ht. destruct st as [c0 [o w]]. unfold gio_step. rewrite Hs. destruct t as [|f1 [|f2 [|f3 [|f4 [|f5 t]]]]]; cbn [length]; try reflexivity.
    - exfalso. apply Ht. left. reflexivity.
    - destruct (list_eqb Bool.eqb (map snd [f1; f2]) [true; false]) eqn:E; [|reflexivity]. apply (list_eqb_spec _ bool_eqb_spec) in E. exfalso. apply Ht. right. left. exact E.
    - destruct (list_eqb Bool.eqb (map snd [f1; f2; f3; f4]) [true; true; false; false]) eqn:E; [|reflexivity]. apply (list_eqb_spec _ bool_eqb_spec) in E. exfalso. apply Ht. right. right. exact E.
  Qed.
  Lemma gio_fold (l : op) : forall st, wf_op l -> (forall t c, In (t, c) l -> small c = false /\ interaction_term t) -> exists st', foldM (gio_step small) l st = Ok st' /\
    shape0 (fst (snd st')) = shape0 (fst (snd st)) /\ shape0 (snd (snd st')) = shape0 (snd (snd st)) /\
    forall u, interaction_term u -> st_value st' u = match dget (term_eqb Bool.eqb) u l with Some c => c | None => st_value st u end.
  Proof.
    induction l as [|[t c] l IH]; intros st W H; cbn [foldM].
    - exists st. cbn. auto.
    - destruct (H t c) as [H1 H2]; [left; auto|]. destruct (gio_one st t c H1 H2) as (st1 & E & S1 & S2 & V). rewrite E. cbn [rbind].
      unfold wf_op in W. cbn [dkeys map fst] in W. apply NoDup_cons_iff in W as [W1 W2].
      destruct (IH st1) as (st' & E' & S1' & S2' & V'); [exact W2|intros; apply H; right; auto|].
      exists st'. split; [exact E'|]. split; [congruence|]. split; [congruence|]. intros u Hu. rewrite V' by auto. cbn [dget]. destruct (term_eqb Bool.eqb u t) eqn:X.
      + apply (term_eqb_spec _ bool_eqb_spec) in X. subst u. rewrite (proj2 (dget_None _ (term_eqb_spec _ bool_eqb_spec) t l) W1). rewrite V by auto.
        rewrite (proj2 (term_eqb_spec _ bool_eqb_spec t t) eq_refl). reflexivity.
      + destruct (dget _ u l); [reflexivity|]. rewrite V by auto. rewrite X. reflexivity.
  Qed.
  Lemma interaction_dec t : interaction_term t \/ ~ interaction_term t.
  Proof.
    unfold interaction_term. destruct (key_eqb (map snd t) []) eqn:E1; [apply key_eqb_spec in E1; auto|]. destruct (key_eqb (map snd t) [true; false]) eqn:E2; [apply key_eqb_spec in E2; auto|].
    destruct (key_eqb (map snd t) [true; true; false; false]) eqn:E3; [apply key_eqb_spec in E3; auto|]. right. intros [X|[X|X]]; rewrite X in *; discriminate.
  Qed.
  Lemma gio_fold_bad (l : op) : forall st, (forall t c, In (t, c) l -> small c = false) -> (exists t c, In (t, c) l /\ ~ interaction_term t) -> foldM (gio_step small) l st = Err GenericException.
  Proof.
    induction l as [|[t c] l IH]; intros st H (u & d & Hin & Hu); [destruct Hin|]. cbn [foldM]. assert (Hs : small c = false) by (eapply H; left; eauto).
    destruct (interaction_dec t) as [Ht|Ht].
    - destruct (gio_one st t c Hs Ht) as (st' & E & _). rewrite E. cbn [rbind]. apply IH; [intros; eapply H; right; eauto|]. destruct Hin as [E2|Hin]; [inversion E2; subst; contradiction|eauto].
    - rewrite gio_bad by auto. reflexivity.
  Qed.
  Lemma three_keys h (c : K) o w n : shape0 o = n -> shape0 w = n -> let h' := h ++ [o; w] in
    let p := {| n_qubits := n; n_body_tensors := [([], Num c); ([true; false], Arr (length h)); ([true; true; false; false], Arr (S (length h)))] |} in
    tensor_ok h' p /\ preserved h h' /\ forall t, tensor_value h' p t = st_value (c, (o, w)) t.
  Proof.
    intros Ho Hw h' p.
    assert (R1 : read h' (length h) = o) by (unfold h'; apply read_new).
    assert (R2 : read h' (S (length h)) = w).
    { unfold h'. change (h ++ [o; w]) with (h ++ [o] ++ [w]). rewrite app_assoc. replace (S (length h)) with (length (h ++ [o])) by (rewrite app_length; cbn; lia). apply read_new. }
    assert (L : length h' = (2 + length h)%nat) by (unfold h'; rewrite app_length; cbn; lia).
    split; [|split].
    - split; [|split; [|split]].
      + unfold p. cbn. repeat constructor; cbn; intuition discriminate.
      + intros k1 k2 r H1 H2. cbn in H1, H2. destruct H1 as [H1|[H1|[H1|[]]]], H2 as [H2|[H2|[H2|[]]]]; try discriminate; inversion H1; inversion H2; try congruence; lia.
      + exists [true; false], (length h). cbn. auto.
      + intros k e [H|[H|[H|[]]]]; inversion H; subst k e; [reflexivity| |].
        * rewrite R1, L. split; [discriminate|]. split; [lia|]. exact Ho.
        * rewrite R2, L. split; [discriminate|]. split; [lia|]. exact Hw.
    - intros r Hr. unfold h'. apply read_app. exact Hr.
    - intros t. unfold tensor_value, value, st_value. unfold p. cbn [n_body_tensors dget fst snd]. destruct (key_eqb (map snd t) []); [reflexivity|].
      destruct (key_eqb (map snd t) [true; false]); [cbn [element]; rewrite R1; reflexivity|]. destruct (key_eqb (map snd t) [true; true; false; false]); [cbn [element]; rewrite R2; reflexivity|]. reflexivity.
  Qed.

  (** the loop of get_polynomial_tensor *)
  Notation dict := (list (key * entry K)).
  Definition loop_ok (h0 : heap K) (n : nat) (st : heap K * dict) : Prop :=
    NoDup (dkeys (snd st)) /\ unshared (snd st) /\ preserved h0 (fst st) /\ (length h0 <= length (fst st))%nat /\
    forall k e, In (k, e) (snd st) -> match e with Num _ => k = [] | Arr r => k <> [] /\ (length h0 <= r < length (fst st))%nat /\ shape0 (read (fst st) r) = n end.
  Definition loop_value (st : heap K * dict) (t : term bool) : K := vald (fst st) (snd st) (map snd t) (map fst t).
  Lemma gpt_one h0 n st (t : term bool) c : loop_ok h0 n st -> loop_ok h0 n (gpt_step n st (t, c)) /\
    (forall u, loop_value (gpt_step n st (t, c)) u = if term_eqb Bool.eqb u t then c else loop_value st u) /\
    (forall k, In k (dkeys (snd (gpt_step n st (t, c)))) <-> In k (dkeys (snd st)) \/ k = map snd t).
  Proof.
    destruct st as [h d]. intros (N & U & P & L & H). cbn [fst snd] in N, U, P, L, H.
    assert (D : forall u, term_eqb Bool.eqb u t = true <-> map fst u = map fst t /\ map snd u = map snd t).
    { intros u. pose proof (term_eqb_spec _ bool_eqb_spec u t) as TS. rewrite TS. split; [intros ->; auto|intros [A B]; apply term_split; auto]. }
    unfold gpt_step. cbn [fst snd]. destruct t as [|f t].
    - split; [|split].
      + split; [apply dset_NoDup; auto|]. split.
        * intros k1 k2 r H1 H2. cbn in H1, H2. apply In_dset in H1 as [[_ H1]|H1]; [discriminate|]. apply In_dset in H2 as [[_ H2]|H2]; [discriminate|]. eapply U; eauto.
        * split; [exact P|]. split; [exact L|]. intros k e He. cbn [fst snd] in *. apply In_dset in He as [[-> ->]|He]; [reflexivity|exact (H _ _ He)].
      + intros u. unfold loop_value. cbn [fst snd]. rewrite vald_dset. destruct u as [|g u]; reflexivity.
      + intros k. cbn [snd]. rewrite (In_dkeys_dset _ key_eqb_spec). cbn [map]. tauto.
    - set (t0 := f :: t) in *. set (k := map snd t0). assert (Kn : k <> []) by discriminate.
      set (st1 := match dget key_eqb k d with Some _ => (h, d) | None => (h ++ [zeros_array n], dset key_eqb k (Arr (length h)) d) end).
      assert (G : loop_ok h0 n st1 /\ (forall u, loop_value st1 u = loop_value (h, d) u) /\ (exists r, In (k, Arr r) (snd st1)) /\ (forall k', In k' (dkeys (snd st1)) <-> In k' (dkeys d) \/ k' = k)).
      { unfold st1. destruct (dget key_eqb k d) as [e|] eqn:E.
        - assert (Hin : In (k, e) d) by (apply (dget_In _ key_eqb_spec); auto). split; [repeat split; auto; apply P|]. split; [reflexivity|]. split.
          + pose proof (H _ _ Hin) as X. destruct e as [c0|r]; [congruence|]. exists r. exact Hin.
          + intros k'. cbn [snd]. split; [auto|]. intros [X| ->]; [auto|]. apply in_map_iff. exists (k, e). auto.
        - assert (Nk : ~ In k (dkeys d)) by (apply (dget_None _ key_eqb_spec); auto).
          assert (V : valid h d) by (intros k' e' Hin; specialize (H _ _ Hin); destruct e'; cbn; [auto|tauto]).
          split; [|split; [|split]].
          + split; [apply dset_NoDup; auto|]. cbn [fst snd]. split; [|split; [|split]].
            * intros k1 k2 r H1 H2. apply In_dset in H1 as [[-> H1]|H1]; apply In_dset in H2 as [[-> H2]|H2]; [auto| | |eapply U; eauto].
              -- inversion H1; subst r. specialize (H _ _ H2). cbn in H. lia.
              -- inversion H2; subst r. specialize (H _ _ H1). cbn in H. lia.
            * intros r Hr. rewrite read_app by lia. apply P; auto.
            * rewrite app_length. lia.
            * intros k' e' Hin. apply In_dset in Hin as [[-> ->]|Hin]; [rewrite read_new, app_length; cbn; repeat split; auto; lia|]. specialize (H _ _ Hin). destruct e'; [auto|].
              rewrite read_app, app_length by tauto. repeat split; try tauto. lia.
          + intros u. unfold loop_value. cbn [fst snd]. rewrite vald_dset. destruct (key_eqb (map snd u) k) eqn:X.
            * apply key_eqb_spec in X. rewrite X. cbn [element]. rewrite read_new. unfold vald. rewrite E. reflexivity.
            * apply vald_app. exact V.
          + exists (length h). cbn [snd]. apply (dget_In _ key_eqb_spec). apply (dget_dset_same _ key_eqb_spec).
          + intros k'. cbn [snd]. rewrite (In_dkeys_dset _ key_eqb_spec). tauto. }
      clearbody st1. destruct st1 as [h1 d1]. destruct G as ((N1 & U1 & P1 & L1 & H1) & G2 & (r & Hr) & G4). cbn [fst snd] in *.
      rewrite (In_dget _ key_eqb_spec _ _ _ N1 Hr). pose proof (H1 _ _ Hr) as (_ & Lr & Sr). cbn [fst snd].
      split; [|split].
      + split; [exact N1|]. split; [exact U1|]. cbn [fst snd]. split; [|split].
        * intros s Hs. rewrite read_write_other by lia. apply P1; auto.
        * rewrite write_length. exact L1.
        * intros k' e' Hin. specialize (H1 _ _ Hin). destruct e' as [|s]; [auto|]. rewrite write_length. repeat split; try tauto. destruct (Nat.eq_dec r s) as [->|Ne].
          -- rewrite read_write_same by lia. exact Sr.
          -- rewrite read_write_other by auto. tauto.
      + intros u. rewrite <- G2. unfold loop_value, vald. cbn [fst snd]. destruct (dget key_eqb (map snd u) d1) as [e|] eqn:E.
        * apply (dget_In _ key_eqb_spec) in E. destruct e as [c0|s].
          -- cbn [element]. specialize (H1 _ _ E). cbn in H1. destruct (term_eqb Bool.eqb u t0) eqn:X; [|reflexivity]. apply D in X as [_ X]. fold k in X. congruence.
          -- cbn [element]. destruct (Nat.eq_dec r s) as [->|Ne].
             ++ assert (Ek : map snd u = k) by (eapply U1; eauto). rewrite read_write_same by lia. rewrite assign_data. destruct (term_eqb Bool.eqb u t0) eqn:X.
                ** apply D in X as [X _]. rewrite X, (proj2 (list_eqb_spec _ Nat.eqb_eq _ _) eq_refl). reflexivity.
                ** destruct (list_eqb Nat.eqb (map fst u) (map fst t0)) eqn:Q; [|reflexivity]. apply (list_eqb_spec _ Nat.eqb_eq) in Q. exfalso.
                   assert (true = false); [rewrite <- X; symmetry; apply D; split; auto|discriminate].
             ++ rewrite read_write_other by auto. destruct (term_eqb Bool.eqb u t0) eqn:X; [|reflexivity]. apply D in X as [_ X]. fold k in X. rewrite X in E.
                pose proof (In_dget _ key_eqb_spec _ _ _ N1 E) as Y. pose proof (In_dget _ key_eqb_spec _ _ _ N1 Hr) as Z. congruence.
        * destruct (term_eqb Bool.eqb u t0) eqn:X; [|reflexivity]. apply D in X as [_ X]. fold k in X. rewrite X in E. apply (dget_None _ key_eqb_spec) in E. exfalso. apply E.
          apply in_map_iff. exists (k, Arr r). auto.
      + exact G4.
  Qed.
  Lemma gpt_fold h0 n (l : op) : forall st, wf_op l -> loop_ok h0 n st -> loop_ok h0 n (fold_left (gpt_step n) l st) /\
    (forall u, loop_value (fold_left (gpt_step n) l st) u = match dget (term_eqb Bool.eqb) u l with Some c => c | None => loop_value st u end) /\
    (forall k, In k (dkeys (snd (fold_left (gpt_step n) l st))) <-> In k (dkeys (snd st)) \/ exists t c, In (t, c) l /\ k = map snd t).
  Proof.
    induction l as [|[t c] l IH]; intros st W H; cbn [fold_left].
    - split; [auto|]. split; [reflexivity|]. intros k. split; [auto|]. intros [X|(t & c & [] & _)]; auto.
    - destruct (gpt_one h0 n st t c H) as (G1 & G2 & G3). unfold wf_op in W. cbn [dkeys map fst] in W. apply NoDup_cons_iff in W as [W1 W2].
      destruct (IH (gpt_step n st (t, c)) W2 G1) as (F1 & F2 & F3). split; [exact F1|]. split.
      + intros u. rewrite F2. cbn [dget]. destruct (term_eqb Bool.eqb u t) eqn:X.
        * apply (term_eqb_spec _ bool_eqb_spec) in X. subst u. rewrite (proj2 (dget_None _ (term_eqb_spec _ bool_eqb_spec) t l) W1). rewrite G2.
          rewrite (proj2 (term_eqb_spec _ bool_eqb_spec t t) eq_refl). reflexivity.
        * destruct (dget _ u l); [reflexivity|]. rewrite G2, X. reflexivity.
      + intros k. rewrite F3, G3. split.
        * intros [[X| ->]|(u & d & X & E)]; [auto|right; exists t, c; split; [left; auto|auto]|right; exists u, d; split; [right; auto|auto]].
        * intros [X|(u & d & [X|X] & E)]; [auto|inversion X; subst; auto|right; eauto].
  Qed.
  Lemma make_tensor h0 n h (d : dict) : loop_ok h0 n (h, d) -> (exists k, In k (dkeys d) /\ k <> []) ->
    polynomial_tensor h d = Ok {| n_qubits := n; n_body_tensors := d |} /\ tensor_ok h {| n_qubits := n; n_body_tensors := d |}.
  Proof.
    intros (N & U & P & L & H) (k & Hk & Kn). cbn [fst snd] in *.
    assert (A : forall k e, In (k, e) d -> k <> [] -> exists r, e = Arr r /\ shape0 (read h r) = n).
    { intros k' e Hin Hne. specialize (H _ _ Hin). destruct e as [|r]; [contradiction|]. exists r. tauto. }
    apply in_map_iff in Hk as ([k' e] & E & Hin). cbn in E. subst k'. split.
    - unfold polynomial_tensor. destruct d as [|[k1 e1] d]; [destruct Hin|]. destruct k1 as [|b k1].
      + destruct d as [|[k2 e2] d]; [destruct Hin as [E|[]]; inversion E; subst; contradiction|].
        assert (k2 <> []) by (intros ->; cbn in N; apply NoDup_cons_iff in N as [N _]; apply N; left; reflexivity).
        destruct (A k2 e2) as (r & -> & <-); [right; left; auto|auto|]. reflexivity.
      + destruct (A (b :: k1) e1) as (r & -> & <-); [left; auto|discriminate|]. reflexivity.
    - destruct (A k e Hin Kn) as (r & -> & _). split; [exact N|]. split; [exact U|]. split; [exists k, r; exact Hin|]. intros k' e' Hin'. cbn [n_qubits n_body_tensors] in *. specialize (H _ _ Hin'). destruct e'; [auto|].
      repeat split; try tauto.
  Qed.
End TensorConv.
