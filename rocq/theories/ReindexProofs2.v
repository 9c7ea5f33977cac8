(** Exact results of the reindexing helpers. *)
From Coq Require Import Permutation Sorted Ring.
From Verif Require Import Base BaseFacts MatModel MatFacts LiftSpec LiftProofs OpModel OpSpec OpProofs PauliProofs OpProofs2 ConjProofs
  FermiModel FermiSpec FermiProofs FermiProofs2 FermiProofs4 PauliBasis FermiProofs6 ReindexModel ReindexProofs.
Open Scope list_scope.
Local Open Scope nat_scope.

Section Exact.
  Context {K : cring} (small : K -> bool) {A : Type} (aeqb : A -> A -> bool) (Ha : eqb_spec_of aeqb).
  Add Ring Kring_re : (kth K).
  Notation op := (sop A K).
  Lemma add_fresh (o : op) t c : ~ In t (dkeys o) -> small c = false -> op_add aeqb small o [(t, c)] = o ++ [(t, c)].
  Proof.
    intros Hn Hs. unfold op_add. cbn [fold_left]. unfold merge_term. cbn [fst snd]. cbn zeta. rewrite (proj2 (dget_None _ (term_eqb_spec _ Ha) t o)) by auto.
    assert (E : kadd k0 c = c) by ring. rewrite E, Hs. apply (dset_app_new _ (term_eqb_spec _ Ha)). auto.
  Qed.
  (** adding, one by one, single-term operators with distinct keys *)
  Lemma add_all (g : term A -> term A) (a : op) : wf_op a -> (forall t u, In t (dkeys a) -> In u (dkeys a) -> g t = g u -> t = u) -> (forall t c, In (t, c) a -> small c = false) ->
    fold_left (fun o (tc : term A * K) => op_add aeqb small o [(g (fst tc), snd tc)]) a [] = map (fun tc => (g (fst tc), snd tc)) a.
  Proof.
    intros W Hg Hs.
    assert (G : forall a o : op, NoDup (dkeys o ++ map g (dkeys a)) -> (forall t c, In (t, c) a -> small c = false) ->
      fold_left (fun o (tc : term A * K) => op_add aeqb small o [(g (fst tc), snd tc)]) a o = o ++ map (fun tc => (g (fst tc), snd tc)) a).
    { clear a W Hg Hs. induction a as [|[t c] a IH]; intros o N Hs; cbn [fold_left map fst snd]; [rewrite app_nil_r; reflexivity|]. cbn [dkeys map] in N. fold (dkeys a) in N.
      rewrite add_fresh; [|apply NoDup_remove_2 in N; rewrite in_app_iff in N; tauto|eapply Hs; left; reflexivity].
      rewrite IH; [rewrite <- app_assoc; reflexivity| |intros; eapply Hs; right; eauto]. unfold dkeys at 1. rewrite map_app. cbn [map fst]. rewrite <- app_assoc. exact N. }
    apply G; auto. cbn. apply NoDup_map_inj'; auto.
  Qed.
End Exact.

Lemma sorted_perm_eq (t u : term pauli) : canonical u -> Permutation t u -> StronglySorted (fun f g => index_leb f g = true) t -> t = u.
Proof.
  intros Hu P S. apply (canonical_ext t u); auto.
  - apply sorted_canonical; auto.
    + eapply Permutation_NoDup; [apply Permutation_map; symmetry; exact P|]. apply canonical_NoDup; auto.
    + intros f Hf. apply (Permutation_in _ P) in Hf. destruct f as [q p]. apply (canonical_at u q p Hu) in Hf. apply Hf.
  - assert (Ht : canonical t).
    { apply sorted_canonical; auto.
      + eapply Permutation_NoDup; [apply Permutation_map; symmetry; exact P|]. apply canonical_NoDup; auto.
      + intros f Hf. apply (Permutation_in _ P) in Hf. destruct f as [q p]. apply (canonical_at u q p Hu) in Hf. apply Hf. }
    intros q. destruct (pauli_eqb (at_q t q) Pid) eqn:E.
    + apply pauli_eqb_spec in E. destruct (pauli_eqb (at_q u q) Pid) eqn:E2; [apply pauli_eqb_spec in E2; congruence|].
      exfalso. assert (In (q, at_q u q) u) by (apply canonical_at; auto; split; auto; intros G; rewrite G in E2; discriminate).
      apply (Permutation_in _ (Permutation_sym P)) in H. apply (canonical_at t) in H; auto. destruct H as [H1 H2]. congruence.
    + assert (In (q, at_q t q) t) by (apply canonical_at; auto; split; auto; intros G; rewrite G in E; discriminate).
      apply (Permutation_in _ P) in H. apply (canonical_at u) in H; auto. destruct H as [H _]. auto.
Qed.

Section QubitExact.
  Context {K : cring} (im : K) (small : K -> bool) (n : nat) (s : nat -> nat) (Hs : moves n s).
  Definition moved (t : term pauli) : term pauli := sort_by index_leb (rename s t).
  Definition clean_on (a : qop K) : Prop := wf_op a /\ on_qubits n a /\ forall t c, In (t, c) a -> canonical t /\ small c = false.
  Lemma moved_perm t : Permutation (moved t) (rename s t).
  Proof. apply sort_by_perm. Qed.
  Lemma rename_fst (t : term pauli) : map fst (rename s t) = map s (map fst t).
  Proof. unfold rename. rewrite !map_map. reflexivity. Qed.
  Lemma rename_NoDup (t : term pauli) : canonical t -> (forall f, In f t -> fst f < n) -> NoDup (map fst (rename s t)) /\ forall f, In f (rename s t) -> snd f <> Pid.
  Proof.
    intros Hc Hn. split.
    - rewrite rename_fst. apply NoDup_map_inj'; [|apply canonical_NoDup; auto]. intros x y Hx Hy. apply in_map_iff in Hx as (f & <- & Hf). apply in_map_iff in Hy as (g & <- & Hg). apply Hs; auto.
    - intros f Hf. apply in_map_iff in Hf as ([q p] & <- & Hg). cbn. apply (canonical_at t q p Hc) in Hg. apply Hg.
  Qed.
  Lemma moved_canonical t : canonical t -> (forall f, In f t -> fst f < n) -> canonical (moved t).
  Proof.
    intros Hc Hn. destruct (rename_NoDup t Hc Hn) as [H1 H2]. apply sorted_canonical; [| |apply index_sort_sorted].
    - eapply Permutation_NoDup; [apply Permutation_map; symmetry; apply moved_perm|auto].
    - intros f Hf. apply H2. eapply Permutation_in; [apply moved_perm|auto].
  Qed.
  Lemma moved_inj t u : canonical t -> canonical u -> (forall f, In f t -> fst f < n) -> (forall f, In f u -> fst f < n) -> moved t = moved u -> t = u.
  Proof.
    intros Ct Cu Nt Nu E. assert (P : Permutation (rename s t) (rename s u)) by (rewrite <- (moved_perm t), <- (moved_perm u), E; reflexivity).
    apply sorted_perm_eq; [auto| |rewrite <- (canonical_sorted t Ct); apply index_sort_sorted].
    apply NoDup_Permutation; try (eapply NoDup_map_inv; apply canonical_NoDup; auto). intros [q p]. split; intros H.
    - assert (H' : In (s q, p) (rename s u)) by (eapply Permutation_in; [exact P|]; apply in_map_iff; exists (q, p); auto).
      apply in_map_iff in H' as ([r p'] & E' & Hr). cbn in E'. inversion E'; subst. apply (proj2 Hs) in H1; [subst; auto|apply (Nu _ Hr)|apply (Nt _ H)].
    - assert (H' : In (s q, p) (rename s t)) by (eapply Permutation_in; [symmetry; exact P|]; apply in_map_iff; exists (q, p); auto).
      apply in_map_iff in H' as ([r p'] & E' & Hr). cbn in E'. inversion E'; subst. apply (proj2 Hs) in H1; [subst; auto|apply (Nt _ Hr)|apply (Nu _ H)].
  Qed.
  Lemma renamed_map (a : qop K) : clean_on a -> renamed s im small a = map (fun tc => (moved (fst tc), snd tc)) a.
  Proof.
    intros (W & Hon & H). unfold renamed.
    transitivity (fold_left (fun o (tc : term pauli * K) => op_add pauli_eqb small o [(moved (fst tc), snd tc)]) a []).
    - assert (G : forall (b o : qop K), incl b a ->
        fold_left (fun o (tc : term pauli * K) => op_add pauli_eqb small o (mk_op (qubit_simplify im) (rename s (fst tc)) (snd tc))) b o =
        fold_left (fun o (tc : term pauli * K) => op_add pauli_eqb small o [(moved (fst tc), snd tc)]) b o).
      { induction b as [|[t c] b IH]; intros o I; cbn [fold_left fst snd]; [auto|]. rewrite IH by (intros x Hx; apply I; right; auto). f_equal.
        destruct (H t c (I _ (or_introl eq_refl))) as [Ct _]. assert (Nt : forall f, In f t -> fst f < n) by (eapply Hon; apply I; left; reflexivity).
        destruct (rename_NoDup t Ct Nt) as [N1 N2]. unfold mk_op. rewrite (simplify_distinct im (rename s t) c N1 N2). reflexivity. }
      apply G. intros x Hx. auto.
    - apply (add_all small pauli_eqb pauli_eqb_spec moved a W).
      + intros t u Ht Hu. apply in_map_iff in Ht as ([t' c] & E & Ht). apply in_map_iff in Hu as ([u' d] & E2 & Hu). cbn in E, E2. subst.
        apply moved_inj; try (eapply H; eauto); eapply Hon; eauto.
      + intros t c Hin. eapply H; eauto.
  Qed.
  Lemma renamed_clean (a : qop K) : clean_on a -> clean_on (renamed s im small a).
  Proof.
    intros Hcl. rewrite renamed_map by auto. destruct Hcl as (W & Hon & H). split; [|split].
    - unfold wf_op, dkeys in *. rewrite map_map. cbn [fst]. rewrite <- (map_map fst moved). apply NoDup_map_inj'; auto.
      intros t u Ht Hu. apply in_map_iff in Ht as ([t' c] & E & Ht). apply in_map_iff in Hu as ([u' d] & E2 & Hu). cbn in E, E2. subst.
      apply moved_inj; try (eapply H; eauto); eapply Hon; eauto.
    - intros t c Hin. apply in_map_iff in Hin as ([u d] & E & Hu). inversion E; subst. intros f Hf. apply (Permutation_in _ (moved_perm _)) in Hf.
      apply in_map_iff in Hf as (g & <- & Hg). cbn. apply Hs. eapply Hon; eauto.
    - intros t c Hin. apply in_map_iff in Hin as ([u d] & E & Hu). inversion E; subst. destruct (H u c Hu) as [H1 H2]. split; [|auto]. apply moved_canonical; auto. eapply Hon; eauto.
  Qed.
End QubitExact.
Lemma moved_back n s s' (t : term pauli) : moves n s -> moves n s' -> (forall q, q < n -> s' (s q) = q) -> canonical t -> (forall f, In f t -> fst f < n) -> moved s' (moved s t) = t.
Proof.
  intros M M' E Ct Nt. apply sorted_perm_eq; auto; [|apply index_sort_sorted]. rewrite (moved_perm s').
  assert (P : Permutation (rename s' (moved s t)) (rename s' (rename s t))) by (apply Permutation_map, moved_perm). rewrite P.
  unfold rename. rewrite map_map. cbn [fst snd]. rewrite (map_ext_in _ (fun f => f)); [rewrite map_id; reflexivity|]. intros [q p] Hf. cbn. rewrite E; auto. apply (Nt _ Hf).
Qed.
Lemma renamed_back {K : cring} (im : K) small n s s' (a : qop K) : moves n s -> moves n s' -> (forall q, q < n -> s' (s q) = q) -> clean_on small n a ->
  renamed s' im small (renamed s im small a) = a.
Proof.
  intros M M' E Hcl. rewrite (renamed_map im small n s' M') by (apply renamed_clean; auto). rewrite (renamed_map im small n s M) by auto. rewrite map_map. cbn [fst snd].
  rewrite (map_ext_in _ (fun tc => tc)); [apply map_id|]. intros [t c] Hin. cbn [fst snd]. destruct Hcl as (_ & Hon & H). rewrite (moved_back n); auto; [eapply H; eauto|eapply Hon; eauto].
Qed.

(** ** Widths *)
Lemma fermion_count_spec {K : cring} (a : fop K) n : fermion_count_qubits a <= n <-> on_qubits n a.
Proof.
  unfold fermion_count_qubits.
  assert (T : forall (t : fterm) m, fold_left (fun n (f : factor bool) => if n <? fst f + 1 then fst f + 1 else n) t m <= n <-> m <= n /\ forall f, In f t -> fst f < n).
  { induction t as [|f t IH]; intros m; cbn [fold_left]; [split; [intros; split; [auto|intros f []]|tauto]|]. rewrite IH.
    assert (X : (forall g, In g (f :: t) -> fst g < n) <-> fst f < n /\ forall g, In g t -> fst g < n).
    { split; [intros H; split; [apply H; left; auto|intros; apply H; right; auto]|intros [H1 H2] g [<-|Hg]; auto]. }
    rewrite X. destruct (Nat.ltb_spec m (fst f + 1)) as [L|L]; split; intros [H1 H2]; (split; [lia|try split; try tauto; try lia]). }
  assert (G : forall (b : fop K) m, fold_left (fun n (tc : fterm * K) => fold_left (fun n (f : factor bool) => if n <? fst f + 1 then fst f + 1 else n) (fst tc) n) b m <= n <-> m <= n /\ on_qubits n b).
  { induction b as [|[t c] b IH]; intros m; cbn [fold_left fst]; [split; [intros; split; [auto|intros t c []]|tauto]|]. rewrite IH, T. split.
    - intros [[H1 H2] H3]. split; [auto|]. intros u d [E|H]; [inversion E; subst; auto|eapply H3; eauto].
    - intros [H1 H2]. split; [split; [auto|]|]; [eapply H2; left; reflexivity|intros u d H; eapply H2; right; eauto]. }
  rewrite G. split; [tauto|]. split; [lia|auto].
Qed.
Lemma map_fst_combine {A B} (l : list A) : forall m : list B, length l = length m -> map fst (combine l m) = l.
Proof. induction l as [|x l IH]; intros [|y m] E; try discriminate; cbn; [auto|]. f_equal. apply IH. cbn in E. lia. Qed.
Lemma last_max (t : term pauli) f l : canonical t -> rev t = f :: l -> forall g, In g t -> fst g <= fst f.
Proof.
  intros Hc E g Hg. assert (Et : t = rev l ++ [f]) by (rewrite <- (rev_involutive t), E; reflexivity). clear E. subst t. apply in_app_or in Hg as [Hg|[<-|[]]]; [|lia].
  induction (rev l) as [|h m IH]; [destruct Hg|]. cbn [app] in Hc. destruct Hg as [<-|Hg]; [|apply IH; auto; apply Hc].
  assert (L : fst h < fst f) by (apply (canonical_head h (m ++ [f]) Hc), in_or_app; right; left; auto). lia.
Qed.
Lemma sorted_count_spec {K : cring} (a : qop K) n : (forall t c, In (t, c) a -> canonical t) -> (sorted_count_qubits a <= n <-> on_qubits n a).
Proof.
  intros Hcan. unfold sorted_count_qubits.
  assert (G : forall (b : qop K) m, incl b a -> (fold_left (fun n (tc : term pauli * K) => match rev (fst tc) with [] => n | f :: _ => if n <? fst f + 1 then fst f + 1 else n end) b m <= n <-> m <= n /\ on_qubits n b)).
  { induction b as [|[t c] b IH]; intros m I; cbn [fold_left fst]; [split; [intros; split; [auto|intros t c []]|tauto]|]. rewrite IH by (intros x Hx; apply I; right; auto).
    assert (Ct : canonical t) by (eapply Hcan, I; left; reflexivity).
    assert (T : match rev t with [] => m | f :: _ => if m <? fst f + 1 then fst f + 1 else m end <= n <-> m <= n /\ forall f, In f t -> fst f < n).
    { destruct (rev t) as [|f l] eqn:E.
      - assert (t = []) by (rewrite <- (rev_involutive t), E; reflexivity). subst. split; [intros; split; [auto|intros f []]|tauto].
      - assert (Hf : In f t) by (apply in_rev; rewrite E; left; auto). pose proof (last_max t f l Ct E) as Mx.
        destruct (Nat.ltb_spec m (fst f + 1)) as [L|L]; split; intros H; [split; [lia|intros g Hg; specialize (Mx g Hg); lia]|destruct H as [H1 H2]; specialize (H2 f Hf); lia|split; [lia|intros g Hg; specialize (Mx g Hg); lia]|lia]. }
    rewrite T. split.
    - intros [[H1 H2] H3]. split; [auto|]. intros u d [E|H]; [inversion E; subst; auto|eapply H3; eauto].
    - intros [H1 H2]. split; [split; [auto|]|]; [eapply H2; left; reflexivity|intros u d H; eapply H2; right; eauto]. }
  rewrite G by (intros x Hx; auto). split; [tauto|]. split; [lia|auto].
Qed.

(** ** up_then_down *)
Lemma up_then_down_cases i n : up_then_down i n = if Nat.even i then i / 2 else i / 2 + (n + 1) / 2.
Proof.
  unfold up_then_down. destruct (Nat.even i) eqn:E.
  - apply Nat.even_spec in E as [k ->]. rewrite (Nat.mul_comm 2 k), Nat.mod_mul by lia. reflexivity.
  - assert (O : Nat.odd i = true) by (unfold Nat.odd; rewrite E; reflexivity). apply Nat.odd_spec in O as [k ->].
    rewrite (Nat.mul_comm 2 k), (Nat.add_comm (k * 2) 1), Nat.mod_add by lia. reflexivity.
Qed.
Lemma half_bounds n : 2 * ((n + 1) / 2) = n \/ 2 * ((n + 1) / 2) = n + 1.
Proof. pose proof (Nat.div_mod_eq (n + 1) 2). pose proof (Nat.mod_upper_bound (n + 1) 2). lia. Qed.
Lemma up_then_down_moves n : moves n (fun i => up_then_down i n).
Proof.
  pose proof (half_bounds n) as HB. set (h := (n + 1) / 2) in *.
  assert (R : forall i, exists k, (i = 2 * k /\ up_then_down i n = k) \/ (i = 2 * k + 1 /\ up_then_down i n = k + h)).
  { intros i. rewrite up_then_down_cases. fold h. destruct (Nat.even i) eqn:E.
    - apply Nat.even_spec in E as [k ->]. exists k. left. split; [auto|]. rewrite Nat.mul_comm, Nat.div_mul by lia. auto.
    - assert (O : Nat.odd i = true) by (unfold Nat.odd; rewrite E; reflexivity). apply Nat.odd_spec in O as [k ->]. exists k. right. split; [auto|].
      rewrite (Nat.mul_comm 2 k), Nat.div_add_l by lia. cbn. lia. }
  split.
  - intros q Hq. destruct (R q) as (k & [[E ->]|[E ->]]); lia.
  - intros q r Hq Hr. destruct (R q) as (k & [[E ->]|[E ->]]), (R r) as (m & [[E' ->]|[E' ->]]); lia.
Qed.
Lemma up_then_down_order n i j : i < n -> j < n ->
  (up_then_down i n < up_then_down j n <-> (Nat.even i = Nat.even j /\ i < j) \/ (Nat.even i = true /\ Nat.even j = false)).
Proof.
  pose proof (half_bounds n) as HB. intros Hi Hj. rewrite !up_then_down_cases. set (h := (n + 1) / 2) in *.
  assert (E2 : forall x, Nat.even x = true -> 2 * (x / 2) = x) by (intros x E; apply Nat.even_spec in E as [k ->]; rewrite (Nat.mul_comm 2 k), Nat.div_mul by lia; lia).
  assert (O2 : forall x, Nat.even x = false -> 2 * (x / 2) + 1 = x).
  { intros x E. assert (O : Nat.odd x = true) by (unfold Nat.odd; rewrite E; reflexivity). apply Nat.odd_spec in O as [k ->]. rewrite (Nat.mul_comm 2 k), Nat.div_add_l by lia. cbn. lia. }
  destruct (Nat.even i) eqn:Ei, (Nat.even j) eqn:Ej; first [apply E2 in Ei|apply O2 in Ei]; first [apply E2 in Ej|apply O2 in Ej]; split; intros H; try lia;
    try (destruct H as [[H1 H2]|[H1 H2]]; try discriminate; lia); try (left; split; [reflexivity|lia]); try (right; split; reflexivity).
Qed.

(** ** reorder *)
Section Reorder.
  Context {K : cring} {A : Type} (mk : term A -> K -> sop A K) (add : sop A K -> sop A K -> sop A K).
  Context (n : nat) (ord : nat -> nat -> nat).
  Notation s := (fun i => ord i n).
  Context (Hs : moves n s).
  Lemma dget_pairs {B} (g : nat -> nat) (h : nat -> B) l x : (forall i j, In i l -> In j l -> g i = g j -> i = j) -> In x l -> dget Nat.eqb (g x) (map (fun i => (g i, h i)) l) = Some (h x).
  Proof.
    induction l as [|y l IH]; intros Hg Hx; [destruct Hx|]. cbn [map dget]. destruct (Nat.eqb_spec (g x) (g y)) as [E|E].
    - apply Hg in E; [subst; auto|auto|left; auto].
    - destruct Hx as [->|Hx]; [congruence|]. apply IH; auto. intros; apply Hg; auto; right; auto.
  Qed.
  Definition fmap (i : nat) : option nat := if i <? n then Some (s i) else None.
  Lemma forward_get i : dget Nat.eqb i (map (fun i => (i, s i)) (seq 0 n)) = fmap i.
  Proof.
    unfold fmap. destruct (Nat.ltb_spec i n) as [L|L].
    - apply (dget_pairs (fun i => i) (fun i => ord i n)); auto. apply in_seq. lia.
    - apply (dget_None _ nat_eqb_spec). unfold dkeys. rewrite map_map, map_id. intros H. apply in_seq in H. lia.
  Qed.
  Lemma backward_get i : i < n -> dget Nat.eqb (s i) (dict_of Nat.eqb (map (fun kv => (snd kv, fst kv)) (map (fun i => (i, s i)) (seq 0 n)))) = Some i.
  Proof.
    intros L. rewrite map_map. cbn [fst snd]. rewrite (dict_of_NoDup_id _ nat_eqb_spec).
    - apply (dget_pairs s (fun i => i)); [|apply in_seq; lia]. intros x y Hx Hy. apply in_seq in Hx, Hy. apply Hs; lia.
    - unfold dkeys. rewrite map_map. cbn [fst]. apply NoDup_map_inj'; [|apply seq_NoDup]. intros x y Hx Hy. apply in_seq in Hx, Hy. apply Hs; lia.
  Qed.
  (** the fold over the terms, when every mode is found *)
  Lemma reorder_fold (d : list (nat * nat)) (g : nat -> nat) (a : sop A K) : (forall t c, In (t, c) a -> forall f, In f t -> dget Nat.eqb (fst f) d = Some (g (fst f))) -> forall o,
    foldM (fun o (tc : term A * K) =>
        let! t := mapM (fun f : factor A => match dget Nat.eqb (fst f) d with Some m => Ok (m, snd f) | None => Err KeyError end) (fst tc) in
        Ok (add o (mk t (snd tc)))) a o = Ok (fold_left (fun o (tc : term A * K) => add o (mk (rename g (fst tc)) (snd tc))) a o).
  Proof.
    induction a as [|[t c] a IH]; intros H o; cbn [foldM fold_left fst snd]; [reflexivity|].
    rewrite (mapM_Ok_map _ (fun f : factor A => (g (fst f), snd f)) t).
    - cbn [rbind]. apply IH. intros u e Hu. eapply H. right; eauto.
    - intros f Hf. rewrite (H t c (or_introl eq_refl) f Hf). reflexivity.
  Qed.
  Lemma reorder_forward (a : sop A K) : on_qubits n a ->
    reorder mk add a ord (Some n) false = Ok (fold_left (fun o (tc : term A * K) => add o (mk (rename s (fst tc)) (snd tc))) a []).
  Proof.
    intros Hon. unfold reorder. cbn [rbind]. cbn zeta. apply reorder_fold. intros t c Hin f Hf. rewrite forward_get. unfold fmap. specialize (Hon t c Hin f Hf).
    apply Nat.ltb_lt in Hon. rewrite Hon. reflexivity.
  Qed.
  Lemma reorder_backward (a : sop A K) : on_qubits n a ->
    reorder mk add a ord (Some n) true = Ok (fold_left (fun o (tc : term A * K) => add o (mk (rename (inv n s) (fst tc)) (snd tc))) a []).
  Proof.
    intros Hon. unfold reorder. cbn [rbind]. cbn zeta. apply reorder_fold. intros t c Hin f Hf. specialize (Hon t c Hin f Hf).
    rewrite <- (s_inv n s Hs (fst f) Hon) at 1. apply backward_get. apply inv_lt; auto.
  Qed.
End Reorder.
Lemma inv_moves n s : moves n s -> moves n (inv n s).
Proof. intros M. split; [intros; apply inv_lt; auto|]. intros q r Hq Hr E. rewrite <- (s_inv n s M q Hq), E. apply s_inv; auto. Qed.
(** fermion operators *)
Section FermionReorder.
  Context {K : cring} (small : K -> bool) (n : nat) (s : nat -> nat) (Hs : moves n s).
  Lemma rename_inj {A} (t u : term A) : (forall f, In f t -> fst f < n) -> (forall f, In f u -> fst f < n) -> rename s t = rename s u -> t = u.
  Proof.
    revert u. induction t as [|[q p] t IH]; intros [|[r v] u] Ht Hu E; try discriminate; auto. cbn in E. inversion E; subst. f_equal.
    - f_equal. apply Hs; auto; [apply (Ht (q, v))|apply (Hu (r, v))]; left; auto.
    - apply IH; auto; intros f Hf; [apply Ht|apply Hu]; right; auto.
  Qed.
  Lemma fermion_renamed (a : fop K) : wf_op a -> on_qubits n a -> (forall t c, In (t, c) a -> small c = false) ->
    fold_left (fun o (tc : fterm * K) => fermion_add small o (fermion_op (rename s (fst tc)) (snd tc))) a [] = map (fun tc => (rename s (fst tc), snd tc)) a.
  Proof.
    intros W Hon Hsm. apply (add_all small Bool.eqb bool_eqb_spec (rename s) a W); auto.
    intros t u Ht Hu. apply in_map_iff in Ht as ([t' c] & E & Ht). apply in_map_iff in Hu as ([u' d] & E2 & Hu). cbn in E, E2. subst. apply rename_inj; eapply Hon; eauto.
  Qed.
End FermionReorder.
Lemma rename_back {A} n s s' (t : term A) : (forall q, q < n -> s' (s q) = q) -> (forall f, In f t -> fst f < n) -> rename s' (rename s t) = t.
Proof. intros E H. unfold rename. rewrite map_map. cbn [fst snd]. rewrite (map_ext_in _ (fun f => f)); [apply map_id|]. intros [q p] Hf. cbn. rewrite E; auto. apply (H _ Hf). Qed.

(** ** prune_unused_indices *)
Section Prune.
  Context {K : cring} {A : Type} (aeqb : A -> A -> bool) (Ha : eqb_spec_of aeqb).
  Definition uses (a : sop A K) (i : nat) : Prop := exists t c f, In (t, c) a /\ In f t /\ fst f = i.
  Lemma used_spec (a : sop A K) : NoDup (used_indices a) /\ forall i, In i (used_indices a) <-> uses a i.
  Proof.
    assert (T : forall (t : term A) l, NoDup l -> let l' := fold_left (fun indices (f : factor A) => if memb Nat.eqb (fst f) indices then indices else indices ++ [fst f]) t l in
      NoDup l' /\ forall i, In i l' <-> In i l \/ exists f, In f t /\ fst f = i).
    { induction t as [|f t IH]; intros l N; cbn zeta; cbn [fold_left].
      - split; [auto|]. intros i. split; [auto|]. intros [H|(f & [] & _)]; auto.
      - destruct (memb Nat.eqb (fst f) l) eqn:E.
        + apply (memb_In _ nat_eqb_spec) in E. destruct (IH l N) as [I1 I2]. split; [auto|]. intros i. rewrite I2. split.
          * intros [H|(g & Hg & <-)]; [auto|]. right. exists g. split; [right|]; auto.
          * intros [H|(g & [<-|Hg] & <-)]; auto. right. exists g. auto.
        + assert (E' : ~ In (fst f) l) by (intros H; apply (memb_In _ nat_eqb_spec) in H; congruence).
          destruct (IH (l ++ [fst f])) as [I1 I2]. { eapply Permutation_NoDup; [apply Permutation_cons_append|]. constructor; auto. }
          split; [auto|]. intros i. rewrite I2, in_app_iff. cbn [In]. split.
          * intros [[H|[<-|[]]]|(g & Hg & <-)]; [auto|right; exists f; auto|right; exists g; auto].
          * intros [H|(g & [<-|Hg] & <-)]; auto. right. exists g. auto. }
    unfold used_indices.
    assert (G : forall (b : sop A K) l, NoDup l -> let l' := fold_left (fun indices (tc : term A * K) =>
      fold_left (fun indices (f : factor A) => if memb Nat.eqb (fst f) indices then indices else indices ++ [fst f]) (fst tc) indices) b l in
      NoDup l' /\ forall i, In i l' <-> In i l \/ uses b i).
    { induction b as [|[t c] b IH]; intros l N; cbn zeta; cbn [fold_left fst].
      - split; [auto|]. intros i. split; [auto|]. intros [H|(t & c & f & [] & _)]; auto.
      - destruct (T t l N) as [T1 T2]. destruct (IH _ T1) as [I1 I2]. split; [auto|]. intros i. rewrite I2, T2. split.
        + intros [[H|(f & Hf & <-)]|(u & d & f & Hu & Hf & <-)]; [auto| |]; right; [exists t, c, f|exists u, d, f]; cbn [In]; auto.
        + intros [H|(u & d & f & [E|Hu] & Hf & <-)]; [auto| |]; [inversion E; subst; left; right; exists f; auto|right; exists u, d, f; auto]. }
    destruct (G a [] (NoDup_nil _)) as [G1 G2]. split; [auto|]. intros i. rewrite G2. cbn [In]. tauto.
  Qed.
  Definition indices (a : sop A K) : list nat := sort_by Nat.leb (used_indices a).
  Lemma indices_spec a : StronglySorted lt (indices a) /\ forall i, In i (indices a) <-> uses a i.
  Proof.
    destruct (used_spec a) as [N U]. split; [apply sort_nat_sorted; auto|]. intros i. rewrite <- U. unfold indices.
    split; intros H; (eapply Permutation_in; [|exact H]); [|symmetry]; apply sort_by_perm.
  Qed.
  Definition rank (a : sop A K) (i : nat) : nat := index_of i (indices a).
  Lemma dget_combine (l : list nat) : NoDup l -> forall i st, In i l -> dget Nat.eqb i (combine l (seq st (length l))) = Some (st + index_of i l).
  Proof.
    induction l as [|x l IH]; intros N i st Hi; [destruct Hi|]. cbn [length seq combine dget index_of]. inversion N; subst. destruct (Nat.eqb_spec i x) as [->|Ne]; [f_equal; lia|].
    destruct Hi as [->|Hi]; [congruence|]. rewrite IH by auto. f_equal. lia.
  Qed.
  Lemma sorted_index (l : list nat) : StronglySorted lt l -> forall i j, In i l -> In j l -> i < j -> index_of i l < index_of j l.
  Proof.
    induction 1 as [|x l S IH F]; intros i j Hi Hj Lt; [destruct Hi|]. cbn [index_of]. rewrite Forall_forall in F.
    destruct (Nat.eqb_spec i x) as [->|Ni]; destruct (Nat.eqb_spec j x) as [->|Nj]; try lia.
    - destruct Hi as [->|Hi]; [congruence|]. specialize (F i Hi). lia.
    - destruct Hi as [->|Hi]; [congruence|]. destruct Hj as [->|Hj]; [congruence|]. specialize (IH i j Hi Hj Lt). lia.
  Qed.
  Lemma sorted_lt_NoDup (l : list nat) : StronglySorted lt l -> NoDup l.
  Proof. induction 1 as [|x l S IH F]; constructor; auto. rewrite Forall_forall in F. intros H. apply F in H. lia. Qed.
  Lemma rank_mono a i j : uses a i -> uses a j -> i < j -> rank a i < rank a j.
  Proof. intros Hi Hj. destruct (indices_spec a) as [S U]. apply sorted_index; auto; apply U; auto. Qed.
  Lemma rank_onto a k : k < length (indices a) <-> exists i, uses a i /\ rank a i = k.
  Proof.
    destruct (indices_spec a) as [S U]. split.
    - intros H. exists (nth k (indices a) 0). split; [apply U, nth_In; auto|]. apply index_of_nth_nodup; auto. apply sorted_lt_NoDup; auto.
    - intros (i & Hi & <-). apply index_of_nth, U, Hi.
  Qed.
  Lemma prune_map (a : sop A K) : wf_op a -> prune_unused_indices aeqb a = map (fun tc => (rename (rank a) (fst tc), snd tc)) a.
  Proof.
    intros W. unfold prune_unused_indices. fold (indices a). destruct (indices_spec a) as [S U]. pose proof (sorted_lt_NoDup _ S) as N.
    rewrite (dict_of_NoDup_id _ nat_eqb_spec). 2:{ unfold dkeys. rewrite map_fst_combine; [auto|rewrite seq_length; auto]. }
    set (d := combine (indices a) (seq 0 (length (indices a)))).
    assert (G : forall b o : sop A K, incl b a -> fold_left (fun o (tc : term A * K) =>
        let new_term := map (fun f : factor A => (match dget Nat.eqb (fst f) d with Some i => i | None => 0 end, snd f)) (fst tc) in
        dset (term_eqb aeqb) new_term (snd tc) o) b o = fold_left (fun o (tc : term A * K) => dset (term_eqb aeqb) (rename (rank a) (fst tc)) (snd tc) o) b o).
    { induction b as [|[t c] b IH]; intros o I; cbn [fold_left fst snd]; [auto|]. rewrite <- IH by (intros x Hx; apply I; right; auto). cbn zeta. f_equal. f_equal.
      unfold rename. apply map_ext_in. intros f Hf. unfold d. rewrite (dget_combine _ N _ 0); [reflexivity|]. apply U. exists t, c, f. split; [apply I; left; auto|auto]. }
    cbn zeta in G |- *. rewrite G by (intros x Hx; auto).
    assert (Inj : forall t u, In t (dkeys a) -> In u (dkeys a) -> rename (rank a) t = rename (rank a) u -> t = u).
    { intros t u Ht Hu. apply in_map_iff in Ht as ([t' c] & E & Ht). apply in_map_iff in Hu as ([u' e] & E2 & Hu). cbn in E, E2. subst t' u'.
      assert (Ut : forall f, In f t -> uses a (fst f)) by (intros f Hf; exists t, c, f; auto). assert (Uu : forall f, In f u -> uses a (fst f)) by (intros f Hf; exists u, e, f; auto).
      clear Ht Hu. revert u Uu. induction t as [|[q p] t IH]; intros [|[r v] u] Uu E; try discriminate; auto. cbn in E. inversion E; subst. f_equal.
      - f_equal. assert (Uq := Ut (q, v) (or_introl eq_refl)). assert (Ur := Uu (r, v) (or_introl eq_refl)). cbn in Uq, Ur.
        destruct (Nat.lt_total q r) as [L|[L|L]]; [apply (rank_mono a) in L; auto; lia|auto|apply (rank_mono a) in L; auto; lia].
      - apply IH; auto; intros f Hf; [apply Ut|apply Uu]; right; auto. }
    clear G. assert (G : forall b o : sop A K, NoDup (dkeys o ++ map (rename (rank a)) (dkeys b)) ->
      fold_left (fun o (tc : term A * K) => dset (term_eqb aeqb) (rename (rank a) (fst tc)) (snd tc) o) b o = o ++ map (fun tc => (rename (rank a) (fst tc), snd tc)) b).
    { induction b as [|[t c] b IH]; intros o Nb; cbn [fold_left map fst snd]; [rewrite app_nil_r; reflexivity|]. cbn [dkeys map] in Nb. fold (dkeys b) in Nb.
      rewrite (dset_app_new _ (term_eqb_spec _ Ha)). 2:{ apply NoDup_remove_2 in Nb. rewrite in_app_iff in Nb. tauto. }
      rewrite IH; [rewrite <- app_assoc; reflexivity|]. unfold dkeys at 1. rewrite map_app. cbn [map fst]. rewrite <- app_assoc. exact Nb. }
    apply G. cbn. apply NoDup_map_inj'; auto.
  Qed.
End Prune.
