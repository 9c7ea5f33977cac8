(** Proofs about polynomial tensors. *)
From Coq Require Import ZArith Ring.
From Verif Require Import Base BaseFacts MatModel TensorModel TensorSpec.
Open Scope list_scope.
Local Open Scope nat_scope.

Lemma key_eqb_spec : forall k l, key_eqb k l = true <-> k = l.
Proof. intros k l. unfold key_eqb. apply list_eqb_spec. intros [] []; cbn; split; congruence. Qed.

Section T.
  Context {K : cring}.
  Add Ring Kring_ten : (kth K).
  Open Scope K_scope.
  Notation dict := (list (key * entry K)).
  Notation get := (dget key_eqb).

  (** *** the heap *)
  Lemma read_app (h t : heap K) r : (r < length h)%nat -> read (h ++ t) r = read h r.
  Proof. intros H. unfold read. rewrite app_nth1 by auto. reflexivity. Qed.
  Lemma read_new (h : heap K) x t : read (h ++ x :: t) (length h) = x.
  Proof. unfold read. rewrite nth_middle. reflexivity. Qed.
  Lemma write_length (h : heap K) : forall r x, length (write h r x) = length h.
  Proof. induction h as [|y h IH]; intros [|r] x; cbn [write length]; auto. Qed.
  Lemma read_write_same (h : heap K) : forall r x, (r < length h)%nat -> read (write h r x) r = x.
  Proof. induction h as [|y h IH]; intros [|r] x H; cbn in H; try lia; [reflexivity|]. cbn [write]. apply (IH r x). lia. Qed.
  Lemma read_write_other (h : heap K) : forall r s x, r <> s -> read (write h r x) s = read h s.
  Proof. induction h as [|y h IH]; intros [|r] [|s] x H; cbn [write]; try reflexivity; [congruence|]. apply (IH r s x). congruence. Qed.
  Definition live (h : heap K) (e : entry K) : Prop := match e with Num _ => True | Arr r => (r < length h)%nat end.
  Definition valid (h : heap K) (d : dict) : Prop := forall k e, In (k, e) d -> live h e.
  Lemma live_app h t e : live h e -> live (h ++ t) e.
  Proof. destruct e; cbn; [auto|]. rewrite app_length. lia. Qed.
  Lemma element_app h t e i : live h e -> element (h ++ t) e i = element h e i.
  Proof. destruct e; cbn; intros H; [reflexivity|]. rewrite read_app by auto. reflexivity. Qed.
  Lemma valid_app h t d : valid h d -> valid (h ++ t) d.
  Proof. intros H k e Hin. eapply live_app, H, Hin. Qed.
  (** what a dictionary holds *)
  Definition vald (h : heap K) (d : dict) (k : key) (i : list nat) : K := match get k d with Some e => element h e i | None => 0 end.
  Lemma vald_app h t d k i : valid h d -> vald (h ++ t) d k i = vald h d k i.
  Proof. intros H. unfold vald. destruct (get k d) as [e|] eqn:E; [|reflexivity]. apply (dget_In _ key_eqb_spec) in E. apply element_app, (H _ _ E). Qed.
  Definition sized (n : nat) (h : heap K) (e : entry K) : Prop := match e with Num _ => True | Arr r => shape0 (read h r) = n end.
  Lemma sized_app n h t e : live h e -> sized n h e -> sized n (h ++ t) e.
  Proof. destruct e; cbn; auto. intros H. rewrite read_app by auto. auto. Qed.
  (** kind of an entry: number or array *)
  Definition kind (e : entry K) : bool := match e with Num _ => false | Arr _ => true end.

  Lemma ufunc2_spec f h e1 e2 : live h e1 -> live h e2 -> exists t, snd (ufunc2 f h e1 e2) = h ++ t /\ live (h ++ t) (fst (ufunc2 f h e1 e2)) /\
    (forall i, element (h ++ t) (fst (ufunc2 f h e1 e2)) i = f (element h e1 i) (element h e2 i)) /\
    (kind e1 = kind e2 -> kind (fst (ufunc2 f h e1 e2)) = kind e1) /\ (forall n, sized n h e1 -> sized n h e2 -> sized n (h ++ t) (fst (ufunc2 f h e1 e2))) /\
    (forall r, fst (ufunc2 f h e1 e2) = Arr r -> r = length h).
  Proof.
    intros L1 L2. destruct e1 as [c|r], e2 as [d|s]; cbn [ufunc2 alloc fst snd].
    - exists []. rewrite app_nil_r. repeat split; auto; discriminate.
    - eexists. split; [reflexivity|]. cbn [live element kind sized]. rewrite app_length, !read_new. cbn [data shape0]. repeat split; auto; try (cbn; lia); congruence.
    - eexists. split; [reflexivity|]. cbn [live element kind sized]. rewrite app_length, !read_new. cbn [data shape0]. repeat split; auto; try (cbn; lia); congruence.
    - eexists. split; [reflexivity|]. cbn [live element kind sized]. rewrite app_length, !read_new. cbn [data shape0]. repeat split; auto; try (cbn; lia); congruence.
  Qed.

  (** *** merging *)
  Definition merged f h (d b : dict) k i : K :=
    match get k b with
    | None => vald h d k i
    | Some e => match get k d with Some e0 => f (element h e0 i) (element h e i) | None => element h e i end
    end.
  Lemma get_cons k k' (e : entry K) b : get k ((k', e) :: b) = if key_eqb k k' then Some e else get k b.
  Proof. reflexivity. Qed.
  Lemma vald_dset h d k e k' i : vald h (dset key_eqb k e d) k' i = if key_eqb k' k then element h e i else vald h d k' i.
  Proof.
    unfold vald. destruct (key_eqb k' k) eqn:E.
    - apply key_eqb_spec in E. subst. rewrite (dget_dset_same _ key_eqb_spec). reflexivity.
    - rewrite (dget_dset_other _ key_eqb_spec); [reflexivity|]. intros ->. rewrite (proj2 (key_eqb_spec k k) eq_refl) in E. discriminate.
  Qed.
  Lemma In_dset (d : dict) k e k' e' : In (k', e') (dset key_eqb k e d) -> (k' = k /\ e' = e) \/ In (k', e') d.
  Proof.
    induction d as [|[k0 e0] d IH]; cbn [dset]; intros H.
    - destruct H as [H|[]]. injection H as <- <-. auto.
    - destruct (key_eqb k k0) eqn:E.
      + destruct H as [H|H]; [injection H as <- <-; apply key_eqb_spec in E; auto|]. right. right. exact H.
      + destruct H as [H|H]; [right; left; exact H|]. apply IH in H as [H|H]; [auto|]. right. right. exact H.
  Qed.
  Lemma dset_NoDup (d : dict) k e : NoDup (dkeys d) -> NoDup (dkeys (dset key_eqb k e d)).
  Proof.
    induction d as [|[k0 e0] d IH]; cbn [dset dkeys map]; intros N.
    - constructor; [intros []|constructor].
    - inversion N as [|? ? N1 N2]; subst. destruct (key_eqb k k0) eqn:E; cbn [map fst].
      + constructor; auto.
      + constructor; [|apply IH, N2]. intros H. apply (In_dkeys_dset _ key_eqb_spec) in H as [->|H]; [|auto].
        rewrite (proj2 (key_eqb_spec k k) eq_refl) in E. discriminate.
  Qed.
  Lemma In_dset_other (d : dict) k e k' e' : NoDup (dkeys d) -> In (k', e') (dset key_eqb k e d) -> (k' = k /\ e' = e) \/ (k' <> k /\ In (k', e') d).
  Proof.
    intros N H. assert (N' := dset_NoDup d k e N). apply (In_dget _ key_eqb_spec) in H; [|exact N'].
    destruct (key_eqb k' k) eqn:E.
    - apply key_eqb_spec in E. subst. rewrite (dget_dset_same _ key_eqb_spec) in H. injection H as ->. auto.
    - assert (Ne : k' <> k) by (intros ->; rewrite (proj2 (key_eqb_spec k k) eq_refl) in E; discriminate). right. split; [auto|].
      rewrite (dget_dset_other _ key_eqb_spec) in H by auto. apply (dget_In _ key_eqb_spec) in H. exact H.
  Qed.
  (** invariant of the merged dictionary: array addresses are old ones of [d], ones of [b], or new *)
  Lemma merge_fold f n (b : dict) : forall h d, NoDup (dkeys b) -> NoDup (dkeys d) -> valid h d -> valid h b ->
    (forall k e, In (k, e) d -> sized n h e) -> (forall k e, In (k, e) b -> sized n h e) ->
    (forall k e, In (k, e) d -> kind e = negb (key_eqb k [])) -> (forall k e, In (k, e) b -> kind e = negb (key_eqb k [])) ->
    exists t d', fold_left (merge_key f) b (h, d) = (h ++ t, d') /\ valid (h ++ t) d' /\ NoDup (dkeys d') /\ (forall k i, vald (h ++ t) d' k i = merged f h d b k i) /\
      (forall k, In k (dkeys d') <-> In k (dkeys d) \/ In k (dkeys b)) /\ (forall k e, In (k, e) d' -> sized n (h ++ t) e /\ kind e = negb (key_eqb k [])) /\
      (unshared d -> unshared b -> disjoint_arrays d b -> unshared d') /\
      (forall k r, In (k, Arr r) d' -> In (k, Arr r) d \/ In (k, Arr r) b \/ (length h <= r)%nat).
  Proof.
    induction b as [|[k0 e0] b IH]; intros h d Nb Nd Vd Vb Sd Sb Kd Kb; cbn [fold_left].
    - exists [], d. rewrite app_nil_r. split; [reflexivity|]. split; [auto|]. split; [auto|]. split; [reflexivity|]. split; [cbn; tauto|]. split; [|split; auto].
      intros k e H. split; [eapply Sd|eapply Kd]; eauto.
    - inversion Nb as [|? ? N1 N2]; subst. cbn [fst] in N1. fold (dkeys b) in N1, N2.
      assert (Vb' : valid h b) by (intros k e H; apply (Vb k e); right; auto). assert (Sb' : forall k e, In (k, e) b -> sized n h e) by (intros k e H; apply (Sb k e); right; auto).
      assert (Kb' : forall k e, In (k, e) b -> kind e = negb (key_eqb k [])) by (intros k e H; apply Kb; right; auto).
      assert (Lb := Vb _ _ (or_introl eq_refl)). cbn [merge_key fst snd].
      assert (Gb : get k0 b = None) by (apply (dget_None _ key_eqb_spec); exact N1).
      destruct (get k0 d) as [ed|] eqn:Ed.
      + assert (Id : In (k0, ed) d) by (apply (dget_In _ key_eqb_spec); exact Ed).
        destruct (ufunc2_spec f h ed e0 (Vd _ _ Id) Lb) as (t1 & E1 & E2 & E3 & E4 & E5 & E6). destruct (ufunc2 f h ed e0) as [e1 h1]. cbn [fst snd] in *. subst h1.
        assert (V1 : valid (h ++ t1) (dset key_eqb k0 e1 d)).
        { intros k e H. apply In_dset in H as [[-> ->]|H]; [auto|]. apply live_app, (Vd _ _ H). }
        assert (S1 : forall k e, In (k, e) (dset key_eqb k0 e1 d) -> sized n (h ++ t1) e).
        { intros k e H. apply In_dset in H as [[-> ->]|H]; [apply E5; [apply (Sd _ _ Id)|apply (Sb k0); left; auto]|]. apply sized_app; [apply (Vd _ _ H)|apply (Sd _ _ H)]. }
        assert (K1 : forall k e, In (k, e) (dset key_eqb k0 e1 d) -> kind e = negb (key_eqb k [])).
        { intros k e H. apply In_dset in H as [[-> ->]|H]; [|eauto]. rewrite E4; [eauto|]. rewrite (Kd _ _ Id), (Kb k0 e0); [auto|left; auto]. }
        destruct (IH (h ++ t1) (dset key_eqb k0 e1 d)) as (t2 & d' & F1 & F2 & F3 & F4 & F5 & F6 & F7 & F8); auto.
        { apply dset_NoDup; auto. } { apply valid_app; auto. } { intros k e H. apply sized_app; [apply (Vb' _ _ H)|eauto]. }
        exists (t1 ++ t2), d'. rewrite app_assoc. split; [exact F1|]. split; [exact F2|]. split; [exact F3|]. split; [|split; [|split; [exact F6|split]]].
        * intros k i. rewrite F4. unfold merged. rewrite get_cons. destruct (key_eqb k k0) eqn:Ek.
          -- apply key_eqb_spec in Ek. subst k. rewrite Gb, vald_dset, (proj2 (key_eqb_spec k0 k0) eq_refl), Ed. apply E3.
          -- assert (Ne : k <> k0) by (intros ->; rewrite (proj2 (key_eqb_spec k0 k0) eq_refl) in Ek; discriminate). rewrite (dget_dset_other _ key_eqb_spec) by auto.
             destruct (get k b) as [e|] eqn:Eb.
             ++ apply (dget_In _ key_eqb_spec) in Eb. rewrite (element_app h t1 e i) by (apply (Vb' _ _ Eb)). destruct (get k d) as [e'|] eqn:Ed'; [|reflexivity].
                apply (dget_In _ key_eqb_spec) in Ed'. rewrite element_app by (apply (Vd _ _ Ed')). reflexivity.
             ++ rewrite vald_dset, Ek. apply vald_app. exact Vd.
        * intros k. rewrite F5. cbn [dkeys map fst]. fold (dkeys b). rewrite (In_dkeys_dset _ key_eqb_spec). cbn [In].
          assert (In k0 (dkeys d)) by (apply (dget_Some_key _ key_eqb_spec _ _ _ Ed)). split; [intros [[->|]|]; auto|intros [|[<-|]]; auto].
        * intros U1 U2 D. apply F7.
          -- intros k1 k2 r H1 H2. apply In_dset_other in H1 as [[-> H1]|[Ne1 H1]]; auto; apply In_dset_other in H2 as [[-> H2]|[Ne2 H2]]; auto.
             ++ subst e1. pose proof (E6 r eq_refl). subst r. pose proof (Vd _ _ H2) as X. cbn in X. lia.
             ++ subst e1. pose proof (E6 r eq_refl). subst r. pose proof (Vd _ _ H1) as X. cbn in X. lia.
             ++ eapply U1; eauto.
          -- intros k1 k2 r H1 H2. eapply U2; right; eauto.
          -- intros k1 k2 r H1 H2. apply In_dset in H1 as [[-> H1]|H1]; [|eapply D; [exact H1|right; exact H2]].
             subst e1. pose proof (E6 r eq_refl). subst r. pose proof (Vb' _ _ H2) as X. cbn in X. lia.
        * intros k r H. apply F8 in H as [H|[H|H]].
          -- apply In_dset in H as [[-> H]|H]; [|auto]. subst e1. pose proof (E6 r eq_refl). right. right. lia.
          -- right. left. right. exact H.
          -- right. right. rewrite app_length in H. lia.
      + assert (V1 : valid h (dset key_eqb k0 e0 d)). { intros k e H. apply In_dset in H as [[-> ->]|H]; [auto|]. apply (Vd _ _ H). }
        assert (Nk : ~ In k0 (dkeys d)) by (apply (dget_None _ key_eqb_spec); exact Ed).
        destruct (IH h (dset key_eqb k0 e0 d)) as (t2 & d' & F1 & F2 & F3 & F4 & F5 & F6 & F7 & F8); auto.
        { apply dset_NoDup; auto. }
        { intros k e H. apply In_dset in H as [[-> ->]|H]; [apply (Sb k0); left; auto|eauto]. }
        { intros k e H. apply In_dset in H as [[-> ->]|H]; [apply Kb; left; auto|eauto]. }
        exists t2, d'. split; [exact F1|]. split; [exact F2|]. split; [exact F3|]. split; [|split; [|split; [exact F6|split]]].
        * intros k i. rewrite F4. unfold merged. rewrite get_cons. destruct (key_eqb k k0) eqn:Ek.
          -- apply key_eqb_spec in Ek. subst k. rewrite Gb, vald_dset, (proj2 (key_eqb_spec k0 k0) eq_refl), Ed. reflexivity.
          -- assert (Ne : k <> k0) by (intros ->; rewrite (proj2 (key_eqb_spec k0 k0) eq_refl) in Ek; discriminate). rewrite (dget_dset_other _ key_eqb_spec) by auto.
             rewrite vald_dset, Ek. reflexivity.
        * intros k. rewrite F5. cbn [dkeys map fst]. fold (dkeys b). rewrite (In_dkeys_dset _ key_eqb_spec). cbn [In].
          split; [intros [[->|]|]; auto|intros [|[<-|]]; auto].
        * intros U1 U2 D. apply F7.
          -- intros k1 k2 r H1 H2. apply In_dset_other in H1 as [[-> H1]|[Ne1 H1]]; auto; apply In_dset_other in H2 as [[-> H2]|[Ne2 H2]]; auto.
             ++ exfalso. apply (D k2 k0 r); [auto|left; congruence].
             ++ exfalso. apply (D k1 k0 r); [auto|left; congruence].
             ++ eapply U1; eauto.
          -- intros k1 k2 r H1 H2. eapply U2; right; eauto.
          -- intros k1 k2 r H1 H2. apply In_dset in H1 as [[-> H1]|H1]; [|eapply D; [exact H1|right; exact H2]].
             assert (E : k0 = k2) by (apply (U2 k0 k2 r); [left; congruence|right; auto]). subst k2. apply N1. apply in_map_iff. exists (k0, Arr r). auto.
        * intros k r H. apply F8 in H as [H|[H|H]]; [|right; left; right; exact H|auto]. apply In_dset in H as [[-> H]|H]; [|auto]. right. left. left. congruence.
  Qed.

  (** *** elementwise functions and copies *)
  Definition step_ok (g : heap K -> entry K -> entry K * heap K) (f : K -> K) : Prop :=
    (forall h c, g h (Num c) = (Num (f c), h)) /\
    (forall h r, exists x, g h (Arr r) = alloc h x /\ shape0 x = shape0 (read h r) /\ forall i, data x i = f (data (read h r) i)).
  Lemma map_entries_fold g f : step_ok g f -> forall d h acc, valid h d -> exists t d1,
    fold_left (fun (st : heap K * dict) (kv : key * entry K) => let '(h, d) := st in let '(e, h') := g h (snd kv) in (h', d ++ [(fst kv, e)])) d (h, acc) = (h ++ t, acc ++ d1) /\
    Forall2 (fun kv kv1 => fst kv1 = fst kv /\ kind (snd kv1) = kind (snd kv) /\ live (h ++ t) (snd kv1) /\ (forall n, sized n h (snd kv) -> sized n (h ++ t) (snd kv1)) /\
      (forall i, element (h ++ t) (snd kv1) i = f (element h (snd kv) i))) d d1 /\
    (forall k r, In (k, Arr r) d1 -> (length h <= r)%nat) /\ NoDup (flat_map (fun kv : key * entry K => match snd kv with Num _ => [] | Arr r => [r] end) d1).
  Proof.
    intros [G1 G2]. induction d as [|[k e] d IH]; intros h acc V; cbn [fold_left].
    - exists [], []. rewrite !app_nil_r. split; [reflexivity|]. split; [constructor|]. split; [intros ? ? []|constructor].
    - assert (V' : valid h d) by (intros k' e' H; apply (V k' e'); right; auto). assert (Le := V _ _ (or_introl eq_refl)). cbn [fst snd]. destruct e as [c|r].
      + rewrite G1. destruct (IH h (acc ++ [(k, Num (f c))]) V') as (t & d1 & E & F & Fr & N). exists t, ((k, Num (f c)) :: d1).
        rewrite <- app_assoc in E. split; [exact E|]. split; [constructor; [|exact F]; cbn; auto|]. split; [|exact N]. intros k' r [H|H]; [discriminate|eauto].
      + destruct (G2 h r) as (x & Ex & Sx & Dx). rewrite Ex. unfold alloc. destruct (IH (h ++ [x]) (acc ++ [(k, Arr (length h))])) as (t & d1 & E & F & Fr & N).
        { apply valid_app. exact V'. }
        exists (x :: t), ((k, Arr (length h)) :: d1). rewrite <- !app_assoc in E. cbn [app] in E. split; [exact E|]. split; [|split].
        * constructor.
          -- cbn [fst snd kind live sized element]. rewrite read_new, app_length. cbn [length]. repeat split; [lia| |auto]. intros n Hn. congruence.
          -- clear -F V'. revert F. rewrite <- app_assoc. cbn [app]. generalize (h ++ x :: t). intros h' F. induction F as [|kv kv1 d d1 H F IHF]; constructor.
             ++ destruct kv as [k e], kv1 as [k1 e1]. cbn [fst snd] in *. destruct H as (H1 & H2 & H3 & H4 & H5). assert (L : live h e) by (apply (V' k e); left; auto).
                split; [auto|]. split; [auto|]. split; [auto|]. split; [intros n Hn; apply H4, sized_app; auto|]. intros i. rewrite H5, element_app by auto. reflexivity.
             ++ apply IHF. intros k' e' Hin. apply (V' k' e'). right. auto.
        * intros k' r' [H|H]; [injection H as <- <-; lia|]. apply Fr in H. rewrite app_length in H. cbn in H. lia.
        * cbn [flat_map snd app]. constructor; [|exact N]. intros H. apply in_flat_map in H as ([k' e'] & H1 & H2). cbn [snd] in H2. destruct e' as [|r']; [destruct H2|].
          destruct H2 as [->|[]]. apply Fr in H1. rewrite app_length in H1. cbn in H1. lia.
  Qed.
  Lemma NoDup_unshared (d : dict) : NoDup (flat_map (fun kv : key * entry K => match snd kv with Num _ => [] | Arr r => [r] end) d) -> unshared d.
  Proof.
    induction d as [|[k e] d IH]; intros N k1 k2 r H1 H2; [destruct H1|]. cbn [flat_map snd] in N.
    assert (X : forall k' r', In (k', Arr r') d -> In r' (flat_map (fun kv : key * entry K => match snd kv with Num _ => [] | Arr r => [r] end) d)).
    { intros k' r' H. apply in_flat_map. exists (k', Arr r'). split; [exact H|left; reflexivity]. }
    destruct e as [c|r0].
    - destruct H1 as [H1|H1], H2 as [H2|H2]; try discriminate. eapply IH; eauto.
    - cbn [app] in N. inversion N as [|? ? N1 N2]; subst. destruct H1 as [H1|H1], H2 as [H2|H2].
      + congruence.
      + injection H1 as <- <-. exfalso. eauto.
      + injection H2 as <- <-. exfalso. eauto.
      + eapply IH; eauto.
  Qed.
  Lemma Forall2_get (R : entry K -> entry K -> Prop) (d d1 : dict) : Forall2 (fun kv kv1 => fst kv1 = fst kv /\ R (snd kv) (snd kv1)) d d1 ->
    dkeys d1 = dkeys d /\ forall k, match get k d, get k d1 with Some e, Some e1 => R e e1 | None, None => True | _, _ => False end.
  Proof.
    induction 1 as [|[k0 e0] [k1 e1] d d1 [H1 H2] F [IH1 IH2]]; [split; [reflexivity|intros k; exact I]|]. cbn [fst snd] in *. subst k1. split; [unfold dkeys in *; cbn; congruence|].
    intros k. rewrite !get_cons. destruct (key_eqb k k0); [exact H2|exact (IH2 k)].
  Qed.
  Lemma map_entries_spec g f : step_ok g f -> forall n h d, valid h d -> (forall k e, In (k, e) d -> sized n h e) ->
    exists t d', map_entries g h d = (h ++ t, d') /\ dkeys d' = dkeys d /\ valid (h ++ t) d' /\ unshared d' /\ (forall k r, In (k, Arr r) d' -> (length h <= r)%nat) /\
      (forall k e, In (k, e) d' -> sized n (h ++ t) e) /\ (forall k e', In (k, e') d' -> exists e, In (k, e) d /\ kind e' = kind e) /\
      (forall k r, In (k, Arr r) d -> exists r', In (k, Arr r') d') /\
      (forall k i, vald (h ++ t) d' k i = match get k d with Some e => f (element h e i) | None => 0 end).
  Proof.
    intros G n h d V S. destruct (map_entries_fold g f G d h [] V) as (t & d1 & E & F & Fr & N). exists t, d1. split; [exact E|].
    assert (P := Forall2_get (fun e e1 => kind e1 = kind e /\ live (h ++ t) e1 /\ (forall n, sized n h e -> sized n (h ++ t) e1) /\ (forall i, element (h ++ t) e1 i = f (element h e i)))
       d d1 F). destruct P as [P1 P2].
    assert (M : forall k e', In (k, e') d1 -> exists e, In (k, e) d /\ kind e' = kind e /\ live (h ++ t) e' /\ (forall n, sized n h e -> sized n (h ++ t) e')).
    { clear -F. induction F as [|[k0 e0] [k1 e1] d d1 H F IH]; intros k e' Hin; [destruct Hin|]. destruct Hin as [Hin|Hin].
      - injection Hin as -> ->. cbn [fst snd] in H. destruct H as (-> & A & B & C & _). exists e0. split; [left; reflexivity|]. auto.
      - destruct (IH _ _ Hin) as (e & A & B). exists e. split; [right; exact A|exact B]. }
    assert (M2 : forall k r, In (k, Arr r) d -> exists r', In (k, Arr r') d1).
    { clear -F. induction F as [|[k0 e0] [k1 e1] d d1 H F IH]; intros k r Hin; [destruct Hin|]. destruct Hin as [Hin|Hin].
      - injection Hin as -> ->. cbn [fst snd] in H. destruct H as (-> & A & _). destruct e1 as [|r1]; [discriminate|]. exists r1. left. reflexivity.
      - destruct (IH _ _ Hin) as (r' & A). exists r'. right. exact A. }
    split; [exact P1|]. split; [intros k e H; destruct (M _ _ H) as (e0 & _ & _ & L & _); exact L|]. split; [apply NoDup_unshared, N|]. split; [exact Fr|].
    split; [intros k e H; destruct (M _ _ H) as (e0 & A & _ & _ & B); apply B, (S _ _ A)|]. split; [intros k e H; destruct (M _ _ H) as (e0 & A & B & _); eauto|].
    split; [exact M2|].
    intros k i. unfold vald. specialize (P2 k). destruct (get k d) as [e|], (get k d1) as [e1|]; try contradiction; [|reflexivity]. apply P2.
  Qed.

  (** *** in place *)
  Lemma inplace_fold f (l : dict) : forall h d, NoDup (dkeys l) -> NoDup (dkeys d) -> (forall k e, In (k, e) l -> In (k, e) d) -> unshared d -> valid h d ->
    exists h' d', fold_left (scale_key f) l (h, d) = (h', d') /\ length h' = length h /\ dkeys d' = dkeys d /\ (forall k r, In (k, Arr r) d' <-> In (k, Arr r) d) /\
      (forall r, shape0 (read h' r) = shape0 (read h r)) /\ (forall r, ~ (exists k, In (k, Arr r) l) -> read h' r = read h r) /\
      (forall k i, vald h' d' k i = if memb key_eqb k (dkeys l) then f (vald h d k i) else vald h d k i).
  Proof.
    induction l as [|[k0 e0] l IH]; intros h d Nl Nd Sub U V; cbn [fold_left].
    - exists h, d. repeat split; auto.
    - inversion Nl as [|? ? N1 N2]; subst. cbn [fst] in N1. fold (dkeys l) in N1, N2. assert (I0 := Sub _ _ (or_introl eq_refl)). cbn [scale_key snd fst]. destruct e0 as [c|r0].
      + assert (Gd : get k0 d = Some (Num c)) by (apply (In_dget _ key_eqb_spec); auto).
        assert (A : forall k r, In (k, Arr r) (dset key_eqb k0 (Num (f c)) d) <-> In (k, Arr r) d).
        { intros k r. split; intros H.
          - apply In_dset in H as [[_ H]|H]; [discriminate|auto].
          - apply (dget_In _ key_eqb_spec). rewrite (dget_dset_other _ key_eqb_spec); [apply (In_dget _ key_eqb_spec); auto|]. intros ->.
            apply (In_dget _ key_eqb_spec) in H; auto. congruence. }
        destruct (IH h (dset key_eqb k0 (Num (f c)) d)) as (h' & d' & E & E1 & E2 & E3 & E4 & E5 & E6); auto.
        * apply dset_NoDup; auto.
        * intros k e H. apply (dget_In _ key_eqb_spec). rewrite (dget_dset_other _ key_eqb_spec); [apply (In_dget _ key_eqb_spec); auto; apply Sub; right; auto|].
          intros ->. apply N1. apply in_map_iff. exists (k0, e). auto.
        * intros k1 k2 r H1 H2. apply A in H1, H2. eapply U; eauto.
        * intros k e H. apply In_dset in H as [[_ ->]|H]; [exact I|eapply V; eauto].
        * exists h', d'. split; [exact E|]. split; [exact E1|]. split.
          { rewrite E2. clear -Gd. induction d as [|[k e] d IH]; [discriminate|]. cbn [dset dkeys map fst]. rewrite get_cons in Gd. destruct (key_eqb k0 k) eqn:X.
            - apply key_eqb_spec in X. subst. reflexivity.
            - cbn [map fst]. f_equal. apply IH. exact Gd. }
          split; [intros k r; rewrite E3; apply A|]. split; [exact E4|]. split; [intros r Hr; apply E5; intros [k Hk]; apply Hr; exists k; right; auto|].
          intros k i. rewrite E6, vald_dset. cbn [dkeys map fst memb existsb]. fold (dkeys l). fold (memb key_eqb k (dkeys l)). destruct (key_eqb k k0) eqn:X; cbn [orb]; [|reflexivity].
          apply key_eqb_spec in X. subst k. destruct (memb key_eqb k0 (dkeys l)) eqn:Mb; [apply (memb_In _ key_eqb_spec) in Mb; contradiction|].
          unfold vald. rewrite Gd. reflexivity.
      + assert (Hr0 : (r0 < length h)%nat) by apply (V _ _ I0).
        assert (Gd : get k0 d = Some (Arr r0)) by (apply (In_dget _ key_eqb_spec); auto).
        set (x := {| shape0 := shape0 (read h r0); data := fun i => f (data (read h r0) i) |}).
        destruct (IH (write h r0 x) d) as (h' & d' & E & E1 & E2 & E3 & E4 & E5 & E6); auto.
        * intros k e H. apply Sub. right. auto.
        * intros k e H. pose proof (V _ _ H) as L. destruct e; [exact I|]. cbn in *. rewrite write_length. exact L.
        * exists h', d'. split; [exact E|]. split; [rewrite E1; apply write_length|]. split; [exact E2|]. split; [exact E3|]. split.
          { intros r. rewrite E4. destruct (Nat.eq_dec r0 r) as [<-|Ne]; [rewrite read_write_same by auto; reflexivity|rewrite read_write_other by auto; reflexivity]. }
          split.
          { intros r Hr. rewrite E5 by (intros [k Hk]; apply Hr; exists k; right; auto). apply read_write_other. intros ->. apply Hr. exists k0. left. reflexivity. }
          intros k i. rewrite E6. cbn [dkeys map fst memb existsb]. fold (dkeys l). fold (memb key_eqb k (dkeys l)).
          destruct (key_eqb k k0) eqn:X; cbn [orb].
          -- apply key_eqb_spec in X. subst k. destruct (memb key_eqb k0 (dkeys l)) eqn:Mb; [apply (memb_In _ key_eqb_spec) in Mb; contradiction|].
             unfold vald. rewrite Gd. cbn [element]. rewrite read_write_same by auto. reflexivity.
          -- assert (Q : vald (write h r0 x) d k i = vald h d k i).
             { unfold vald. destruct (get k d) as [[c|r]|] eqn:Gk; try reflexivity. cbn [element]. rewrite read_write_other; [reflexivity|]. intros <-.
               apply (dget_In _ key_eqb_spec) in Gk. assert (k = k0) by (eapply U; eauto). subst k. rewrite (proj2 (key_eqb_spec k0 k0) eq_refl) in X. discriminate. }
             rewrite Q. reflexivity.
  Qed.

  (** *** products *)
  Lemma times_fold n (b : ptensor K) (l : dict) : forall h d, NoDup (dkeys l) -> NoDup (dkeys d) -> (forall k e, In (k, e) l -> In (k, e) d) -> valid h d -> valid h (n_body_tensors b) ->
    (forall k e, In (k, e) d -> sized n h e) -> (forall k e, In (k, e) (n_body_tensors b) -> sized n h e) ->
    (forall k e, In (k, e) d -> kind e = negb (key_eqb k [])) -> (forall k e, In (k, e) (n_body_tensors b) -> kind e = negb (key_eqb k [])) -> unshared d ->
    exists t d', fold_left (times_key b) l (h, d) = (h ++ t, d') /\ dkeys d' = dkeys d /\ valid (h ++ t) d' /\ unshared d' /\
      (forall k e, In (k, e) d' -> sized n (h ++ t) e /\ kind e = negb (key_eqb k [])) /\
      (forall k i, vald (h ++ t) d' k i = if memb key_eqb k (dkeys l) then vald h d k i * vald h (n_body_tensors b) k i else vald h d k i).
  Proof.
    induction l as [|[k0 e0] l IH]; intros h d Nl Nd Sub V Vb S Sb Kd Kb U; cbn [fold_left].
    - exists [], d. rewrite app_nil_r. split; [reflexivity|]. split; [reflexivity|]. split; [auto|]. split; [auto|]. split; [|reflexivity].
      intros k e H. split; [eapply S|eapply Kd]; eauto.
    - inversion Nl as [|? ? N1 N2]; subst. cbn [fst] in N1. fold (dkeys l) in N1, N2. assert (I0 := Sub _ _ (or_introl eq_refl)).
      assert (Gd : get k0 d = Some e0) by (apply (In_dget _ key_eqb_spec); auto).
      assert (ST : exists t1 e1, times_key b (h, d) (k0, e0) = (h ++ t1, dset key_eqb k0 e1 d) /\ live (h ++ t1) e1 /\ sized n (h ++ t1) e1 /\ kind e1 = kind e0 /\
        (forall r, e1 = Arr r -> (length h <= r)%nat) /\ forall i, element (h ++ t1) e1 i = element h e0 i * vald h (n_body_tensors b) k0 i).
      { cbn [times_key fst snd]. unfold vald. destruct (get k0 (n_body_tensors b)) as [e2|] eqn:Gb.
        - assert (Ib : In (k0, e2) (n_body_tensors b)) by (apply (dget_In _ key_eqb_spec); exact Gb).
          destruct (ufunc2_spec kmul h e0 e2 (V _ _ I0) (Vb _ _ Ib)) as (t1 & E1 & E2 & E3 & E4 & E5 & E6). destruct (ufunc2 kmul h e0 e2) as [e1 h1]. cbn [fst snd] in *. subst h1.
          exists t1, e1. split; [reflexivity|]. split; [auto|]. split; [apply E5; eauto|]. split; [apply E4; rewrite (Kd _ _ I0), (Kb _ _ Ib); reflexivity|]. split; [|exact E3].
          intros r ->. rewrite (E6 r eq_refl). lia.
        - pose proof (Kd _ _ I0) as Kk. destruct k0 as [|x k0].
          + exists [], (Num 0). rewrite app_nil_r. split; [reflexivity|]. split; [exact I|]. split; [exact I|]. destruct e0; [|discriminate]. split; [reflexivity|]. split; [discriminate|].
            intros i. cbn. ring.
          + destruct e0 as [c|r]; [discriminate|]. cbn [ufunc1 alloc]. eexists _, _. split; [reflexivity|]. cbn [live sized kind element]. rewrite read_new, app_length. cbn [length shape0 data].
            split; [lia|]. split; [apply (S _ _ I0)|]. split; [reflexivity|]. split; [intros r' Hr'; injection Hr'; lia|]. intros i. ring. }
      destruct ST as (t1 & e1 & E & L1 & S1 & K1 & F1 & V1). rewrite E.
      assert (Nd1 := dset_NoDup d k0 e1 Nd).
      assert (KD : dkeys (dset key_eqb k0 e1 d) = dkeys d).
      { clear -Gd. induction d as [|[k e] d IH]; [discriminate|]. cbn [dset dkeys map fst]. rewrite get_cons in Gd. destruct (key_eqb k0 k) eqn:X.
        - apply key_eqb_spec in X. subst. reflexivity.
        - cbn [map fst]. f_equal. apply IH. exact Gd. }
      destruct (IH (h ++ t1) (dset key_eqb k0 e1 d)) as (t2 & d' & Q1 & Q2 & Q3 & Q4 & Q5 & Q6); auto.
      + intros k e H. apply (dget_In _ key_eqb_spec). rewrite (dget_dset_other _ key_eqb_spec); [apply (In_dget _ key_eqb_spec); auto; apply Sub; right; auto|].
        intros ->. apply N1. apply in_map_iff. exists (k0, e). auto.
      + intros k e H. apply In_dset in H as [[-> ->]|H]; [auto|apply live_app; eauto].
      + apply valid_app. exact Vb.
      + intros k e H. apply In_dset in H as [[-> ->]|H]; [auto|apply sized_app; eauto].
      + intros k e H. apply sized_app; eauto.
      + intros k e H. apply In_dset in H as [[-> ->]|H]; [rewrite K1|]; eauto.
      + intros k1 k2 r H1 H2. apply In_dset_other in H1 as [[-> H1]|[Ne1 H1]]; auto; apply In_dset_other in H2 as [[-> H2]|[Ne2 H2]]; auto.
        * symmetry in H1. apply F1 in H1. pose proof (V _ _ H2) as X. cbn in X. lia.
        * symmetry in H2. apply F1 in H2. pose proof (V _ _ H1) as X. cbn in X. lia.
        * eapply U; eauto.
      + exists (t1 ++ t2), d'. rewrite app_assoc. split; [exact Q1|]. split; [congruence|]. split; [auto|]. split; [auto|]. split; [auto|].
        intros k i. rewrite Q6, vald_dset. rewrite (vald_app h t1 (n_body_tensors b)) by auto. cbn [dkeys map fst memb existsb]. fold (dkeys l). fold (memb key_eqb k (dkeys l)).
        destruct (key_eqb k k0) eqn:X; cbn [orb].
        * apply key_eqb_spec in X. subst k. destruct (memb key_eqb k0 (dkeys l)) eqn:Mb; [apply (memb_In _ key_eqb_spec) in Mb; contradiction|].
          rewrite V1. unfold vald at 2. rewrite Gd. reflexivity.
        * rewrite (vald_app h t1 d) by auto. reflexivity.
  Qed.
End T.
