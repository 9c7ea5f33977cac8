(** Normal-ordered forms are unique; [is_normal_ordered]; chemist ordering. *)
From Coq Require Import Permutation Sorted Ring.
From Verif Require Import Base BaseFacts MatModel MatFacts LiftSpec LiftProofs OpModel OpSpec OpProofs PauliProofs OpProofs2 FermiModel FermiSpec FermiProofs FermiProofs2.
Open Scope list_scope.
Local Open Scope nat_scope.

(** ** The order test *)
Lemma bad_pair_before f g : bad_pair f g = false <-> before f g.
Proof.
  unfold bad_pair, before. destruct f as [p []], g as [q []]; cbn; rewrite ?Nat.leb_gt; intuition discriminate.
Qed.
Lemma term_not_normal_spec t : term_not_normal t = false <-> sorted_term t.
Proof.
  assert (A : term_not_normal t = false <-> forall j f g, nth_error t j = Some f -> nth_error t (S j) = Some g -> before f g).
  { unfold term_not_normal. split.
    - intros H j f g Hf Hg. apply bad_pair_before. destruct (bad_pair f g) eqn:B; [|reflexivity]. rewrite <- H. symmetry.
      assert (L : S j < length t) by (apply nth_error_Some; congruence).
      apply existsb_exists. exists (S j). split; [apply in_seq; lia|]. apply existsb_exists. exists (S j). split; [rewrite <- in_rev; apply in_seq; lia|].
      unfold adjacent_bad. replace (S j - 1) with j by lia. rewrite Hf, Hg. exact B.
    - intros H. apply not_true_iff_false. intros E. apply existsb_exists in E as (i & Hi & E). apply existsb_exists in E as (j & Hj & E).
      rewrite <- in_rev in Hj. apply in_seq in Hj. unfold adjacent_bad in E. destruct (nth_error t (j - 1)) as [f|] eqn:Ef; [|discriminate].
      destruct (nth_error t j) as [g|] eqn:Eg; [|discriminate]. replace j with (S (j - 1)) in Eg by lia. specialize (H _ _ _ Ef Eg). apply bad_pair_before in H. congruence. }
  rewrite A. clear A. split.
  - induction t as [|x t IH]; intros H; [constructor|]. assert (Hs : sorted_term t) by (apply IH; intros j f g Hf Hg; apply (H (S j)); auto).
    constructor; [auto|]. destruct t as [|y t]; [constructor|]. assert (Hb : before x y) by (apply (H 0); reflexivity).
    constructor; [auto|]. inversion Hs; subst. eapply Forall_impl; [|eassumption]. intros z Hz. eapply before_trans; eauto.
  - intros H j f g Hf Hg. apply sorted_normal in H. eapply (H j (S j)); eauto.
Qed.
Lemma is_normal_ordered_spec {K : cring} (a : fop K) : is_normal_ordered a = true <-> normal_op a.
Proof.
  unfold is_normal_ordered. rewrite negb_true_iff. split.
  - intros H t c Hin. apply sorted_normal, term_not_normal_spec. destruct (term_not_normal t) eqn:E; [|reflexivity]. rewrite <- H. symmetry.
    apply existsb_exists. exists (t, c). auto.
  - intros H. apply not_true_iff_false. intros E. apply existsb_exists in E as ([t c] & Hin & E). specialize (H t c Hin).
    apply (proj2 (sorted_normal t)), (proj2 (term_not_normal_spec t)) in H. cbn [fst] in E. rewrite H in E. discriminate.
Qed.

(** ** Sorted terms: creators, then annihilators *)
Definition creators (t : term bool) : list nat := map fst (filter (fun f : factor bool => snd f) t).
Definition annihilators (t : term bool) : list nat := map fst (filter (fun f : factor bool => negb (snd f)) t).
Definition tagged (d : bool) (l : list nat) : term bool := map (fun p => (p, d)) l.
Lemma sorted_split t : sorted_term t -> t = tagged true (creators t) ++ tagged false (annihilators t) /\
  StronglySorted gt (creators t) /\ StronglySorted gt (annihilators t).
Proof.
  induction 1 as [|[p d] t Hs (IH & H1 & H2) Hf]; [split; [reflexivity|split; constructor]|]. rewrite Forall_forall in Hf. destruct d.
  - cbn [creators annihilators filter snd negb map fst tagged app]. fold (creators t). fold (annihilators t). split; [f_equal; exact IH|]. split; [|auto].
    constructor; [auto|]. apply Forall_forall. intros q Hq. apply in_map_iff in Hq as ([q' e] & <- & Hq). apply filter_In in Hq as [Hq He]. cbn in *. subst e.
    apply (Hf _ Hq).
  - assert (C : creators t = []).
    { unfold creators. destruct (filter (fun f : factor bool => snd f) t) as [|[q e] l] eqn:E; [reflexivity|]. exfalso.
      assert (Hq : In (q, e) (filter (fun f : factor bool => snd f) t)) by (rewrite E; left; auto). apply filter_In in Hq as [Hq He]. cbn in He. subst e. apply (Hf _ Hq). }
    cbn [creators annihilators filter snd negb map fst tagged app]. fold (creators t). fold (annihilators t). rewrite C in *. cbn [tagged map app] in *.
    split; [f_equal; exact IH|]. split; [constructor|]. constructor; [auto|]. apply Forall_forall. intros q Hq. apply in_map_iff in Hq as ([q' e] & <- & Hq).
    apply filter_In in Hq as [Hq He]. cbn in *. destruct e; [discriminate|]. apply (Hf _ Hq).
Qed.
Lemma gt_sorted_NoDup l : StronglySorted gt l -> NoDup l.
Proof. induction 1 as [|x l Hs IH Hf]; constructor; auto. intros Hin. rewrite Forall_forall in Hf. specialize (Hf _ Hin). lia. Qed.
Lemma gt_sorted_eq l : forall m, StronglySorted gt l -> StronglySorted gt m -> (forall x, In x l <-> In x m) -> l = m.
Proof.
  induction l as [|x l IH]; intros [|y m] Hl Hm H; auto.
  - exfalso. apply (H y). left; auto.
  - exfalso. apply (H x). left; auto.
  - inversion Hl as [|? ? Hl' Fl]; inversion Hm as [|? ? Hm' Fm]; subst. rewrite Forall_forall in Fl, Fm.
    assert (x = y) as ->.
    { destruct (proj1 (H x) (or_introl eq_refl)) as [->|Hx]; [auto|]. destruct (proj2 (H y) (or_introl eq_refl)) as [->|Hy]; [auto|].
      specialize (Fl _ Hy). specialize (Fm _ Hx). lia. }
    f_equal. apply IH; auto. intros z. split; intros Hz.
    + destruct (proj1 (H z) (or_intror Hz)) as [->|]; auto. specialize (Fl _ Hz). lia.
    + destruct (proj2 (H z) (or_intror Hz)) as [->|]; auto. specialize (Fm _ Hz). lia.
Qed.

Section Ind.
  Context {K : cring} (n : nat).
  Add Ring Kring_f5 : (kth K).
  Open Scope K_scope.
  Notation F := (fterm_matrix (K := K) n).
  Notation M := (fop_matrix (K := K) n).
  (** the action of a term on a basis state *)
  Fixpoint fact (t : fterm) : list bool -> K * list bool :=
    match t with [] => fun b => (1, b) | f :: t' => mcomp (ladder_act f) (fact t') end.
  Lemma fact_length t c : length (snd (fact t c)) = length c.
  Proof. induction t as [|f t IH]; cbn; [auto|]. rewrite setb_length. auto. Qed.
  Lemma fterm_mono t : on_modes n t -> meq (F t) (mono n (fact t)).
  Proof.
    induction t as [|f t IH]; intros H; cbn [fterm_matrix fold_right fact].
    - symmetry. apply mono_eye.
    - fold (F t). etransitivity; [|apply mono_mmul; [apply ladder_keeps|intros c Hc; rewrite fact_length; auto]].
      apply mmul_ext; [cbn; symmetry; apply fterm_shape| |].
      + apply ladder_mono. apply H. left; auto.
      + apply IH. intros g Hg. apply H. right; auto.
  Qed.
  Lemma fact_app t u c : fact (t ++ u) c = mcomp (fact t) (fact u) c.
  Proof.
    induction t as [|f t IH]; cbn [app fact].
    - unfold mcomp. cbn. destruct (fact u c) as [a b]; cbn. f_equal. ring.
    - unfold mcomp in *. cbn [fst snd]. rewrite IH. cbn [fst snd]. apply pair_equal_spec; split; [ring|reflexivity].
  Qed.
  Lemma fact_tagged_nth d l : forall c q, (forall p, In p l -> p < length c) -> q < length c ->
    nth q (snd (fact (tagged d l) c)) false = if memb Nat.eqb q l then d else nth q c false.
  Proof.
    induction l as [|p l IH]; intros c q Hl Hq; [reflexivity|].
    change (snd (fact (tagged d (p :: l)) c)) with (setb p d (snd (fact (tagged d l) c))).
    assert (Hp : p < length c) by (apply Hl; left; auto).
    rewrite nth_setb by (rewrite fact_length; auto). cbn [memb]. destruct (Nat.eqb_spec q p) as [->|N].
    - unfold memb. cbn [existsb]. rewrite Nat.eqb_refl. reflexivity.
    - rewrite IH; auto; [|intros r Hr; apply Hl; right; auto]. apply Nat.eqb_neq in N. unfold memb. cbn [existsb]. rewrite N. reflexivity.
  Qed.
  Lemma fact_tagged_zero d l c p : (forall p, In p l -> p < length c) -> In p l -> nth p c false = d -> fst (fact (tagged d l) c) = 0.
  Proof.
    induction l as [|q l IH]; intros Hl Hp Hc; [destruct Hp|].
    change (fst (fact (tagged d (q :: l)) c)) with (fst (ladder_act (K := K) (q, d) (snd (fact (tagged d l) c))) * fst (fact (tagged d l) c)).
    assert (Hl' : forall p, In p l -> p < length c) by (intros r Hr; apply Hl; right; auto).
    destruct (in_dec Nat.eq_dec p l) as [Hi|Hi]; [rewrite IH by auto; ring|]. destruct Hp as [->|Hp]; [|contradiction].
    cbn [ladder_act fst snd]. rewrite fact_tagged_nth; auto; [|apply Hl; left; auto].
    assert (E : (if memb Nat.eqb p l then d else nth p c false) = d) by (destruct (memb _ _ _); auto). rewrite E.
    assert (E2 : Bool.eqb d (negb d) = false) by (destruct d; auto). rewrite E2. ring.
  Qed.
  Lemma fact_tagged_unit d l c : NoDup l -> (forall p, In p l -> p < length c) -> (forall p, In p l -> nth p c false = negb d) ->
    exists s, fst (fact (tagged d l) c) = sgn s.
  Proof.
    induction 1 as [|q l Hq Hn IH]; intros Hl Hc; [exists false; reflexivity|].
    destruct IH as [s Es]; [intros r Hr; apply Hl; right; auto|intros r Hr; apply Hc; right; auto|].
    change (fst (fact (tagged d (q :: l)) c)) with (fst (ladder_act (K := K) (q, d) (snd (fact (tagged d l) c))) * fst (fact (tagged d l) c)).
    cbn [ladder_act fst snd]. rewrite fact_tagged_nth; [|intros r Hr; apply Hl; right; auto|apply Hl; left; auto].
    assert (E : memb Nat.eqb q l = false).
    { apply not_true_iff_false. intros E. apply Hq. apply (memb_In _ nat_eqb_spec), E. }
    rewrite E, (Hc q) by (left; auto). rewrite Bool.eqb_reflx, Es. exists (xorb (odd_count (firstn q (snd (fact (tagged d l) c)))) s). symmetry. apply sgn_xorb.
  Qed.
  Definition occ (l : list nat) : list bool := map (fun i => memb Nat.eqb i l) (seq 0 n).
  Lemma occ_length l : length (occ l) = n.
  Proof. unfold occ. rewrite map_length, seq_length. reflexivity. Qed.
  Lemma occ_lt l : (bval (occ l) < 2 ^ n)%nat.
  Proof. pose proof (bval_lt (occ l)) as H. rewrite occ_length in H. exact H. Qed.
  Lemma occ_nth l q : q < n -> nth q (occ l) false = memb Nat.eqb q l.
  Proof.
    intros H. unfold occ. rewrite (nth_indep _ false (memb Nat.eqb O l)) by (rewrite map_length, seq_length; auto).
    rewrite (map_nth (fun i => memb Nat.eqb i l)), seq_nth by auto. reflexivity.
  Qed.
  (** matrix elements between the states given by the creators and annihilators of sorted terms *)
  Lemma fterm_elem t S T : sorted_term t -> on_modes n t -> (forall p, In p T -> p < n) ->
    (forall p, In p (annihilators t) -> In p T) -> (forall p, In p T -> In p (annihilators t)) ->
    exists s, ent (F t) (bval (occ S)) (bval (occ T)) = if list_eqb Bool.eqb (occ S) (occ (creators t)) then sgn s else 0.
  Proof.
    intros Hs Hn HT HA1 HA2. destruct (sorted_split t Hs) as (Et & Sc & Sa).
    assert (HnC : forall p, In p (creators t) -> p < n) by (intros p Hp; apply in_map_iff in Hp as (f & <- & Hf); apply filter_In in Hf as [Hf _]; auto).
    assert (HnA : forall p, In p (annihilators t) -> p < n) by auto.
    destruct (fterm_mono t Hn) as (_ & _ & E).
    rewrite E by (rewrite ?(proj1 (fterm_shape n t)), ?(proj2 (fterm_shape n t)); apply occ_lt).
    rewrite mono_ent by (rewrite ?fact_length, ?occ_length; auto). rewrite Et, fact_app. unfold mcomp. cbn [fst snd].
    set (c := snd (fact (tagged false (annihilators t)) (occ T))).
    assert (Lc : length c = n) by (unfold c; rewrite fact_length; apply occ_length).
    assert (Hc : forall q, q < n -> nth q c false = false).
    { intros q Hq. unfold c. rewrite fact_tagged_nth by (rewrite occ_length; auto). destruct (memb Nat.eqb q (annihilators t)) eqn:Em; [auto|].
      rewrite occ_nth by auto. destruct (memb Nat.eqb q T) eqn:Em2; [|auto]. apply (memb_In _ nat_eqb_spec) in Em2. apply HA2 in Em2.
      apply (memb_In _ nat_eqb_spec) in Em2. congruence. }
    assert (Ec : snd (fact (tagged true (creators t)) c) = occ (creators t)).
    { apply bits_ext; [rewrite fact_length, occ_length; auto|]. intros i Hi. rewrite fact_length, Lc in Hi.
      rewrite fact_tagged_nth by (rewrite Lc; auto). rewrite occ_nth, Hc by auto. destruct (memb _ _ _); auto. }
    rewrite Ec. destruct (fact_tagged_unit true (creators t) c) as [s1 E1]; [apply gt_sorted_NoDup; auto|rewrite Lc; auto|intros; apply Hc; auto|].
    destruct (fact_tagged_unit false (annihilators t) (occ T)) as [s2 E2]; [apply gt_sorted_NoDup; auto|rewrite occ_length; auto| |].
    { intros p Hp. rewrite occ_nth by auto. cbn. apply (memb_In _ nat_eqb_spec). auto. }
    rewrite E1, E2. rewrite <- sgn_xorb. exists (xorb s1 s2). rewrite <- Et. reflexivity.
  Qed.
  Lemma fterm_elem_zero t S T p : sorted_term t -> on_modes n t -> In p (annihilators t) -> ~ In p T ->
    ent (F t) (bval (occ S)) (bval (occ T)) = 0.
  Proof.
    intros Hs Hn Hp HT. destruct (sorted_split t Hs) as (Et & Sc & Sa).
    assert (HnA : forall p, In p (annihilators t) -> p < n) by (intros q Hq; apply in_map_iff in Hq as (f & <- & Hf); apply filter_In in Hf as [Hf _]; auto).
    destruct (fterm_mono t Hn) as (_ & _ & E).
    rewrite E by (rewrite ?(proj1 (fterm_shape n t)), ?(proj2 (fterm_shape n t)); apply occ_lt).
    rewrite mono_ent by (rewrite ?fact_length, ?occ_length; auto). rewrite Et, fact_app. unfold mcomp. cbn [fst snd].
    rewrite (fact_tagged_zero false (annihilators t) (occ T) p); [|rewrite occ_length; auto|auto|].
    - destruct (list_eqb _ _ _); ring.
    - rewrite occ_nth by auto. apply not_true_iff_false. intros G. apply HT. apply (memb_In _ nat_eqb_spec), G.
  Qed.
  Lemma lval_single (phi : fterm -> K) (a : fop K) t : wf_op a -> (forall u c, In (u, c) a -> u <> t -> c * phi u = 0) ->
    lval phi a = coef Bool.eqb a t * phi t.
  Proof.
    unfold coef. induction a as [|[u c] a IH]; intros W H; cbn [lval dget fst snd]; [ring|].
    inversion W as [|? ? Hu Wa]; subst. destruct (term_eqb Bool.eqb t u) eqn:E.
    - apply (term_eqb_spec _ bool_eqb_spec) in E as ->.
      assert (Z : lval phi a = 0). { rewrite IH; auto; [|intros v d Hv Nv; apply H; [right|]; auto]. rewrite (proj2 (dget_None _ (term_eqb_spec _ bool_eqb_spec) u a) Hu). ring. }
      rewrite Z. ring.
    - rewrite (H u c); [|left; auto|intros ->; rewrite (eqb_spec_refl _ (term_eqb_spec _ bool_eqb_spec)) in E; discriminate].
      rewrite IH; auto; [ring|]. intros v d Hv Nv. apply H; [right|]; auto.
  Qed.
  Lemma independent (a : fop K) : wf_op a -> (forall t, In t (dkeys a) -> P (on_modes n) t) ->
    (forall i j, (i < 2 ^ n)%nat -> (j < 2 ^ n)%nat -> ent (M a) i j = 0) -> forall t c, In (t, c) a -> c = 0.
  Proof.
    intros W Ha HM.
    assert (G : forall k t c, In (t, c) a -> length (annihilators t) = k -> c = 0); [|intros t c Hin; eapply G; eauto].
    induction k as [k IH] using (well_founded_induction lt_wf). intros t c Hin Hk.
    assert (Key : forall u d, In (u, d) a -> P (on_modes n) u) by (intros u d Hu; apply Ha; apply in_map_iff; exists (u, d); auto).
    destruct (Key t c Hin) as [Hs Hn]. destruct (sorted_split t Hs) as (Et & Sc & Sa).
    set (S := creators t). set (T := annihilators t).
    assert (HT : forall p, In p T -> p < n) by (intros q Hq; apply in_map_iff in Hq as (f & <- & Hf); apply filter_In in Hf as [Hf _]; auto).
    assert (B : forall l, (bval (occ l) < 2 ^ n)%nat) by (intros l; apply occ_lt).
    pose proof (HM (bval (occ S)) (bval (occ T)) (B S) (B T)) as Z. rewrite fop_ent in Z. rewrite (lval_single _ a t) in Z; auto.
    - unfold coef in Z. rewrite (In_dget _ (term_eqb_spec _ bool_eqb_spec) t c a W Hin) in Z.
      destruct (fterm_elem t S T Hs Hn HT) as [s Es]; auto. rewrite Es in Z.
      rewrite (eqb_spec_refl _ (list_eqb_spec _ bool_eqb_spec)) in Z. transitivity (c * sgn s * sgn s); [|rewrite Z; ring].
      transitivity (c * (sgn s * sgn s)); [rewrite sgn_sq; ring|ring].
    - intros u d Hu Nu. destruct (Key u d Hu) as [Hsu Hnu].
      destruct (Nat.lt_ge_cases (length (annihilators u)) k) as [L|L]; [rewrite (IH _ L u d Hu eq_refl); ring|].
      destruct (forallb (fun p => memb Nat.eqb p T) (annihilators u)) eqn:Sub.
      + rewrite forallb_forall in Sub.
        assert (I1 : forall p, In p (annihilators u) -> In p T) by (intros p Hp; apply (memb_In _ nat_eqb_spec), Sub, Hp).
        destruct (sorted_split u Hsu) as (Eu & Scu & Sau).
        assert (I2 : incl T (annihilators u)). { apply NoDup_length_incl; [apply gt_sorted_NoDup; auto| |exact I1]. fold T in Hk. lia. }
        destruct (fterm_elem u S T Hsu Hnu HT I1 I2) as [s Es]. rewrite Es.
        destruct (list_eqb Bool.eqb (occ S) (occ (creators u))) eqn:Eo; [|ring]. exfalso. apply Nu.
        apply (list_eqb_spec _ bool_eqb_spec) in Eo.
        assert (HC : forall v, on_modes n v -> forall p, In p (creators v) -> p < n) by (intros v Hv p Hp; apply in_map_iff in Hp as (f & <- & Hf); apply filter_In in Hf as [Hf _]; auto).
        assert (EC : creators u = creators t).
        { apply gt_sorted_eq; auto. intros p. rewrite <- !(memb_In _ nat_eqb_spec). destruct (Nat.lt_ge_cases p n) as [Lp|Lp].
          - rewrite <- !(occ_nth _ p) by auto. fold S. rewrite Eo. tauto.
          - rewrite !(memb_In _ nat_eqb_spec). split; intros Hp; [apply (HC u Hnu) in Hp|apply (HC t Hn) in Hp]; lia. }
        assert (EA : annihilators u = annihilators t) by (apply gt_sorted_eq; auto; intros p; split; [apply I1|apply I2]).
        rewrite Eu, Et, EC, EA. reflexivity.
      + assert (X : exists p, In p (annihilators u) /\ ~ In p T).
        { clear - Sub. induction (annihilators u) as [|p l IHl]; [discriminate|]. cbn [forallb] in Sub. destruct (memb Nat.eqb p T) eqn:E.
          - destruct IHl as (q & H1 & H2); [exact Sub|]. exists q. split; [right|]; auto.
          - exists p. split; [left; auto|]. intros Hp. apply (memb_In _ nat_eqb_spec) in Hp. congruence. }
        destruct X as (p & Hp & Np). rewrite (fterm_elem_zero u S T p) by auto. ring.
  Qed.
  (** two normal-ordered operators with the same matrix have the same coefficients *)
  Lemma normal_unique (a b : fop K) : wf_op a -> wf_op b -> (forall t, In t (dkeys a) -> P (on_modes n) t) -> (forall t, In t (dkeys b) -> P (on_modes n) t) ->
    meq (M a) (M b) -> forall t, coef Bool.eqb a t = coef Bool.eqb b t.
  Proof.
    intros Wa Wb Ha Hb (_ & _ & HM) t.
    set (d := op_sub Bool.eqb (fun _ => false) a b : fop K).
    assert (Wd : wf_op d) by (apply (merge_wf Bool.eqb bool_eqb_spec); auto).
    assert (G : good Bool.eqb (fun _ => false) (P (on_modes n)) d).
    { apply (merge_good _ bool_eqb_spec); auto. split; [auto|]. intros u c Hu. split; [|auto]. apply Ha. eapply dget_Some_key; [apply (term_eqb_spec _ bool_eqb_spec)|eauto]. }
    assert (V : forall phi, lval phi d = lval phi a - lval phi b).
    { intros phi. destruct (merge_uniform Bool.eqb bool_eqb_spec ksub (fun _ => false) (kopp 1) b a) as (r & H1 & _ & H3); [intros; ring|].
      destruct r as [|x r]; [|inversion H1; discriminate]. specialize (H3 phi). cbn [lval] in H3. unfold d, op_sub.
      transitivity (lval phi (fold_left (merge_term Bool.eqb (fun _ => false) ksub) b a) + 0); [ring|]. rewrite H3. ring. }
    assert (Z : forall u c, In (u, c) d -> c = 0).
    { apply independent; auto; [apply (good_keys _ bool_eqb_spec _ _ _ G)|]. intros i j Hi Hj. rewrite fop_ent, V, <- !fop_ent. rewrite HM; [ring| |];
        rewrite ?(proj1 (fop_shape n a)), ?(proj2 (fop_shape n a)); auto. }
    assert (C : coef Bool.eqb d t = coef Bool.eqb a t - coef Bool.eqb b t).
    { unfold d, op_sub. rewrite (merge_coef Bool.eqb bool_eqb_spec) by auto. unfold coef. destruct (dget (term_eqb Bool.eqb) t b) as [c|]; cbn; [reflexivity|]. destruct (dget _ t a); ring. }
    assert (C0 : coef Bool.eqb d t = 0).
    { unfold coef. destruct (dget (term_eqb Bool.eqb) t d) as [c|] eqn:E; [|auto]. apply dget_In in E; [|apply (term_eqb_spec _ bool_eqb_spec)]. eapply Z; eauto. }
    transitivity (coef Bool.eqb a t - 0); [ring|]. rewrite <- C0, C. ring.
  Qed.
End Ind.

(** ** Chemist ordering *)
Definition chemist_term (t : term bool) : Prop := In (map snd t) [[]; [true; false]; [true; false; true; false]].
Definition charge (t : term bool) : Z := fold_right (fun (f : factor bool) z => ((if snd f then -1 else 1) + z)%Z) 0%Z t.
Definition balanced (t : term bool) : Prop := In (length t) [0; 2; 4] /\ charge t = 0%Z.
Lemma charge_app t u : charge (t ++ u) = (charge t + charge u)%Z.
Proof. unfold charge in *. induction t as [|f t IH]; cbn in *; [auto|]. rewrite IH. lia. Qed.
Lemma charge_perm t u : Permutation t u -> charge t = charge u.
Proof. unfold charge. induction 1; cbn; lia. Qed.
Lemma balanced_perm t u : Permutation t u -> balanced t -> balanced u.
Proof. intros Hp [H1 H2]. unfold balanced. rewrite <- (Permutation_length Hp), <- (charge_perm t u Hp). auto. Qed.
Lemma balanced_del l x y r : fst x = fst y -> snd x <> snd y -> balanced (l ++ x :: y :: r) -> balanced (l ++ r).
Proof.
  intros _ Hd [H1 H2]. split.
  - rewrite app_length in *. cbn [length In] in *. lia.
  - rewrite charge_app in *. cbn [charge fold_right] in H2. fold (charge r) in H2. destruct x as [p []], y as [q []]; cbn [snd] in *; try congruence; lia.
Qed.
Lemma charge_fold t : fold_left (fun s (f : factor bool) => (s + sign_of (if snd f then 1 else 0))%Z) t 0%Z = charge t.
Proof.
  assert (G : forall t z, fold_left (fun s (f : factor bool) => (s + sign_of (if snd f then 1 else 0))%Z) t z = (z + charge t)%Z).
  { clear t. induction t as [|[p d] t IH]; intros z; cbn [fold_left charge fold_right snd]; [lia|]. rewrite IH. fold (charge t). destruct d; cbn [sign_of Nat.even]; lia. }
  rewrite G. lia.
Qed.
Lemma two_body_spec {K : cring} (a : fop K) : is_two_body_number_conserving a false = true <-> forall t c, In (t, c) a -> balanced t.
Proof.
  unfold is_two_body_number_conserving. rewrite forallb_forall. split.
  - intros H t c Hin. specialize (H _ Hin). cbn [fst snd] in H. cbn zeta in H. rewrite charge_fold in H.
    rewrite !andb_true_iff, !orb_true_iff, !Nat.eqb_eq, Z.eqb_eq in H. destruct H as [[H1 H2] _]. split; [cbn; lia|auto].
  - intros H [t c] Hin. destruct (H t c Hin) as [H1 H2]. cbn [fst snd]. cbn zeta. rewrite charge_fold, H2.
    rewrite !andb_true_iff, !orb_true_iff, !Nat.eqb_eq, Z.eqb_eq. cbn in H1. cbn [negb]. repeat split; auto. lia.
Qed.
Section Chem.
  Context {K : cring} (small : K -> bool) (n : nat).
  Add Ring Kring_f6 : (kth K).
  Open Scope K_scope.
  Notation M := (fop_matrix (K := K) n).
  Definition Qc (t : fterm) : Prop := on_modes n t /\ balanced t.
  Definition Pc (t : fterm) : Prop := on_modes n t /\ chemist_term t.
  Lemma cadd_spec (a b : fop K) : good Bool.eqb small Pc a -> (forall t, In t (dkeys b) -> Pc t) ->
    good Bool.eqb small Pc (fermion_add small a b) /\ exists r : fop K, Forall (fun tc => small (snd tc) = true) r /\ (forall t, In t (dkeys r) -> Pc t) /\ (length r <= length b)%nat /\
      forall phi, lval phi (fermion_add small a b) + lval phi r = lval phi a + lval phi b.
  Proof.
    intros Ga Hb. split; [apply (merge_good _ bool_eqb_spec); auto|].
    destruct (add_count Bool.eqb bool_eqb_spec small b a) as (r & H1 & H2 & Hl & H3). exists r. split; [auto|]. split; [|auto]. intros t Ht. apply Hb, H2, Ht.
  Qed.
  Lemma chemist_step (t : fterm) (c : K) (o : fop K) : sorted_term t -> Qc t -> good Bool.eqb small Pc o ->
    exists (o' r : fop K), match t with
        | [] => Ok (fermion_add small o (fermion_op t c))
        | [_; _] => Ok (fermion_add small o (fermion_op t c))
        | t0 :: t1 :: t2 :: t3 :: _ =>
            let o' := if Nat.eqb (fst t1) (fst t2) then fermion_add small o (fermion_op [t0; t3] c) else o in
            Ok (fermion_add small o' (fermion_op [t0; t2; t1; t3] (kopp c)))
        | _ => Err IndexError
        end = Ok o' /\ good Bool.eqb small Pc o' /\ Forall (fun tc => small (snd tc) = true) r /\ (length r <= 2)%nat /\
      forall phi, carf (on_modes n) phi -> lval phi o' + lval phi r = lval phi o + c * phi t.
  Proof.
    intros Hs [Hn [Hl Hc]] Go.
    assert (S1 : forall u d, Pc u -> exists r : fop K, good Bool.eqb small Pc (fermion_add small o (fermion_op u d)) /\ Forall (fun tc => small (snd tc) = true) r /\ (length r <= 1)%nat /\
      forall phi, lval phi (fermion_add small o (fermion_op u d)) + lval phi r = lval phi o + d * phi u).
    { intros u d Hu. destruct (cadd_spec o (fermion_op u d) Go) as (G1 & r & R1 & _ & Rl & V). { intros v [<-|[]]. exact Hu. }
      exists r. split; [exact G1|]. split; [exact R1|]. split; [exact Rl|]. intros phi. rewrite V. cbn [fermion_op mk_op fermion_simplify lval fst snd]. ring. }
    apply sorted_normal in Hs.
    assert (B : forall i j f g, i < j -> nth_error t i = Some f -> nth_error t j = Some g -> before f g) by exact Hs.
    destruct t as [|x [|y [|z [|w [|? ?]]]]]; cbn [length In] in Hl; try lia.
    - destruct (S1 [] c) as (r & G1 & R1 & Rl & V). { split; [exact Hn|left; reflexivity]. } exists (fermion_add small o (fermion_op [] c)), r. auto 8.
    - assert (Pt : Pc [x; y]).
      { split; [exact Hn|]. right; left. destruct x as [p []], y as [q []]; cbn in Hc; try lia; [reflexivity|]. exfalso. apply (B 0%nat 1%nat (p, false) (q, true)); auto. }
      destruct (S1 [x; y] c Pt) as (r & G1 & R1 & Rl & V). exists (fermion_add small o (fermion_op [x; y] c)), r. auto 8.
    - assert (Ax : snd x = true /\ snd y = true /\ snd z = false /\ snd w = false).
      { assert (B1 := B 0%nat 1%nat x y ltac:(lia) eq_refl eq_refl). assert (B2 := B 1%nat 2%nat y z ltac:(lia) eq_refl eq_refl). assert (B3 := B 2%nat 3%nat z w ltac:(lia) eq_refl eq_refl).
        unfold before in *. destruct x as [p []], y as [q []], z as [p' []], w as [q' []]; cbn in *; try contradiction; try lia; auto. }
      destruct Ax as (A0 & A1 & A2 & A3).
      assert (C2 : Pc [x; z; y; w]).
      { split; [|right; right; left; cbn; congruence]. intros f Hf. apply Hn. cbn in *. tauto. }
      assert (C1 : Pc [x; w]). { split; [|right; left; cbn; congruence]. intros f Hf. apply Hn. cbn in *. tauto. }
      cbn zeta.
      assert (Step2 : forall (o1 r1 : fop K) v, good Bool.eqb small Pc o1 -> Forall (fun tc => small (snd tc) = true) r1 -> (length r1 <= 1)%nat ->
        (forall phi, carf (on_modes n) phi -> lval phi o1 + lval phi r1 = lval phi o + v * (c * phi [x; w])) -> v = car y z ->
        exists (o' r : fop K), Ok (fermion_add small o1 (fermion_op [x; z; y; w] (kopp c))) = Ok o' /\ good Bool.eqb small Pc o' /\ Forall (fun tc => small (snd tc) = true) r /\ (length r <= 2)%nat /\
          forall phi, carf (on_modes n) phi -> lval phi o' + lval phi r = lval phi o + c * phi [x; y; z; w]).
      { intros o1 r1 v G1 R1 Rl1 V1 Ev. destruct (cadd_spec o1 (fermion_op [x; z; y; w] (kopp c)) G1) as (G2 & r2 & R2 & _ & Rl2 & V2). { intros u [<-|[]]. exact C2. }
        eexists _, (r1 ++ r2). split; [reflexivity|]. split; [exact G2|]. split; [apply Forall_app; auto|]. split; [rewrite app_length; cbn [fermion_op mk_op fermion_simplify length] in Rl2; lia|]. intros phi Hp. rewrite lval_app.
        transitivity (lval phi (fermion_add small o1 (fermion_op [x; z; y; w] (kopp c))) + lval phi r2 + lval phi r1); [ring|]. rewrite V2.
        transitivity (lval phi o1 + lval phi r1 - c * phi [x; z; y; w]); [cbn [fermion_op mk_op fermion_simplify lval fst snd]; ring|].
        rewrite V1 by auto. pose proof (carf_swap _ phi Hp [x] y z [w] Hn) as C. cbn [app] in C. rewrite Ev.
        transitivity (lval phi o + c * (car y z * phi [x; w]) - c * phi [x; z; y; w]); [ring|]. rewrite <- C. ring. }
      destruct (Nat.eqb_spec (fst y) (fst z)) as [E|E].
      + destruct (S1 [x; w] c C1) as (r1 & G1 & R1 & Rl1 & V1). apply (Step2 _ r1 1 G1 R1 Rl1).
        * intros phi Hp. rewrite V1. ring.
        * unfold car. rewrite E, Nat.eqb_refl, A1, A2. reflexivity.
      + apply (Step2 o [] 0 Go); [constructor|cbn; lia| |].
        * intros phi Hp. cbn [lval]. ring.
        * unfold car. apply Nat.eqb_neq in E. rewrite E. reflexivity.
  Qed.
  Lemma chemist_ok (a : fop K) : is_two_body_number_conserving a false = true -> on_qubits n a ->
    exists o r : fop K, chemist_ordered small a = Ok o /\ good Bool.eqb small Pc o /\
      Forall (fun tc => small (snd tc) = true) r /\ (length r <= 2 * length (normal_ordered small a) + drop_bound a)%nat /\ meq (madd (M o) (M r)) (M a).
  Proof.
    intros H2 Ha. unfold chemist_ordered. rewrite H2. cbn [negb]. pose proof (proj1 (two_body_spec a) H2) as Bal.
    destruct (normal_ordered_ok small Qc) with (a := a) as (Gn & r0 & [R0 _] & Rl0 & V0).
    { intros t u Hp [Q1 Q2]. split; [eapply on_modes_perm; eauto|eapply balanced_perm; eauto]. }
    { intros l x y r E1 E2 [Q1 Q2]. split; [eapply on_modes_del; eauto|eapply balanced_del; eauto]. }
    { intros t c Hin. split; [intros f Hf; eapply Ha; eauto|eapply Bal; eauto]. }
    assert (G : forall (b o : fop K), (forall t c, In (t, c) b -> sorted_term t /\ Qc t) -> good Bool.eqb small Pc o ->
      exists (o' r : fop K), foldM (fun o (tc : fterm * K) =>
        match fst tc with
        | [] => Ok (fermion_add small o (fermion_op (fst tc) (snd tc)))
        | [_; _] => Ok (fermion_add small o (fermion_op (fst tc) (snd tc)))
        | t0 :: t1 :: t2 :: t3 :: _ =>
            let o' := if Nat.eqb (fst t1) (fst t2) then fermion_add small o (fermion_op [t0; t3] (snd tc)) else o in
            Ok (fermion_add small o' (fermion_op [t0; t2; t1; t3] (kopp (snd tc))))
        | _ => Err IndexError
        end) b o = Ok o' /\ good Bool.eqb small Pc o' /\ Forall (fun tc => small (snd tc) = true) r /\ (length r <= 2 * length b)%nat /\
        forall phi, carf (on_modes n) phi -> lval phi o' + lval phi r = lval phi o + lval phi b).
    { induction b as [|[t c] b IH]; intros o Hb Go; cbn [foldM fst snd].
      - exists o, []. split; [auto|]. split; [auto|]. split; [constructor|]. split; [cbn; lia|]. intros phi _. cbn. ring.
      - destruct (Hb t c (or_introl eq_refl)) as [Hs HQ]. destruct (chemist_step t c o Hs HQ Go) as (o1 & r1 & E1 & G1 & R1 & Rl1 & V1). 
        destruct (IH o1 (fun u d Hu => Hb u d (or_intror Hu)) G1) as (o2 & r2 & E2 & G2 & R2 & Rl2 & V2).
        exists o2, (r1 ++ r2). split.
        { rewrite <- E2. match goal with |- rbind ?X ?g = _ => transitivity (rbind (Ok o1) g); [apply (f_equal (fun z => rbind z g)); exact E1|reflexivity] end. }
        split; [auto|]. split; [apply Forall_app; auto|]. split; [rewrite app_length; cbn [length]; lia|]. intros phi Hp. rewrite lval_app. cbn [lval fst snd].
        transitivity (lval phi o2 + lval phi r2 + lval phi r1); [ring|]. rewrite V2 by auto.
        transitivity (lval phi o1 + lval phi r1 + lval phi b); [ring|]. rewrite V1 by auto. ring. }
    destruct (G (normal_ordered small a) []) as (o & r & E & Go & R & Rl & V); [|apply good_nil|].
    { intros t c Hin. apply (good_In _ bool_eqb_spec _ _ _ Gn) in Hin as [[H HQ] _]. auto. }
    exists o, (r ++ r0). split; [exact E|]. split; [auto|]. split; [apply Forall_app; auto|]. split; [rewrite app_length; lia|].
    split; [cbn; rewrite !(proj1 (fop_shape _ _)); auto|]. split; [cbn; rewrite !(proj2 (fop_shape _ _)); auto|]. intros i j Hi Hj. cbn [nr nc madd] in Hi, Hj.
    rewrite (proj1 (fop_shape _ _)) in Hi. rewrite (proj2 (fop_shape _ _)) in Hj. cbn [ent madd]. rewrite !fop_ent, lval_app.
    pose proof (mat_carf (K := K) n i j Hi Hj) as Hp.
    match goal with |- lval ?phi o + _ = _ => transitivity (lval phi o + lval phi r + lval phi r0); [ring|]; rewrite V by auto; cbn [lval];
      transitivity (lval phi (normal_ordered small a) + lval phi r0); [ring|] end.
    apply V0. destruct Hp as [C1 C2]. split; [intros l x y s [HQ _]; apply C1; auto|intros l x s [HQ _]; apply C2; auto].
  Qed.
End Chem.
