(** Facts about the common definitions. *)
From Verif Require Import Base.

Lemma memb_In {A} (eqb : A -> A -> bool) (H : eqb_spec_of eqb) a l :
  memb eqb a l = true <-> In a l.
Proof.
  unfold memb; rewrite existsb_exists; split.
  - intros [x [Hx He]]. apply H in He; subst; assumption.
  - intros Hin; exists a; split; [assumption | apply H; reflexivity].
Qed.

Lemma eqb_spec_false {A} (eqb : A -> A -> bool) (H : eqb_spec_of eqb) a b :
  eqb a b = false <-> a <> b.
Proof.
  split.
  - intros E N; apply H in N; congruence.
  - intros N; destruct (eqb a b) eqn:E; [apply H in E; contradiction | reflexivity].
Qed.

Lemma eqb_spec_refl {A} (eqb : A -> A -> bool) (H : eqb_spec_of eqb) a : eqb a a = true.
Proof. apply H; reflexivity. Qed.

Lemma list_eqb_spec {A} (eqb : A -> A -> bool) : eqb_spec_of eqb -> eqb_spec_of (list_eqb eqb).
Proof.
  intros H l1; induction l1 as [|a l1 IH]; intros [|b l2]; cbn; split; intros E; try congruence; try reflexivity.
  - apply andb_true_iff in E as [E1 E2]; apply H in E1; apply IH in E2; subst; reflexivity.
  - inversion E; subst. rewrite (eqb_spec_refl eqb H), (proj2 (IH l2) eq_refl); reflexivity.
Qed.

Lemma pair_eqb_spec {A B} (ea : A -> A -> bool) (eb : B -> B -> bool) :
  eqb_spec_of ea -> eqb_spec_of eb -> eqb_spec_of (pair_eqb ea eb).
Proof.
  intros Ha Hb [a b] [c d]; unfold pair_eqb; cbn; rewrite andb_true_iff, (Ha a c), (Hb b d); split.
  - intros [-> ->]; reflexivity.
  - intros E; inversion E; auto.
Qed.

Lemma option_eqb_spec {A} (ea : A -> A -> bool) : eqb_spec_of ea -> eqb_spec_of (option_eqb ea).
Proof.
  intros Ha [a|] [b|]; cbn; split; intros E; try congruence; try reflexivity.
  - apply Ha in E; subst; reflexivity.
  - inversion E; apply Ha; reflexivity.
Qed.

Lemma nat_eqb_spec : eqb_spec_of Nat.eqb.
Proof. intros a b; apply Nat.eqb_eq. Qed.
Lemma Z_eqb_spec : eqb_spec_of Z.eqb.
Proof. intros a b; apply Z.eqb_eq. Qed.
Lemma N_eqb_spec : eqb_spec_of N.eqb.
Proof. intros a b; apply N.eqb_eq. Qed.
Lemma bool_eqb_spec : eqb_spec_of Bool.eqb.
Proof. intros a b; apply Bool.eqb_true_iff. Qed.

(** ** Dictionaries *)
Section DictFacts.
  Context {K V : Type} (keqb : K -> K -> bool) (Hk : eqb_spec_of keqb).
  Notation dict := (list (K * V)).
  Implicit Types d : dict.

  Lemma keqb_refl k : keqb k k = true.
  Proof. apply eqb_spec_refl; assumption. Qed.

  Lemma dget_dset_same k v d : dget keqb k (dset keqb k v d) = Some v.
  Proof.
    induction d as [|[k' v'] d IH]; cbn.
    - rewrite keqb_refl; reflexivity.
    - destruct (keqb k k') eqn:E; cbn; rewrite E; [reflexivity | exact IH].
  Qed.

  Lemma dget_dset_other k k2 v d : k <> k2 -> dget keqb k (dset keqb k2 v d) = dget keqb k d.
  Proof.
    intros N; induction d as [|[k' v'] d IH]; cbn.
    - rewrite (proj2 (eqb_spec_false keqb Hk k k2) N); reflexivity.
    - destruct (keqb k2 k') eqn:E; cbn.
      + apply Hk in E; subst k'. rewrite (proj2 (eqb_spec_false keqb Hk k k2) N); reflexivity.
      + rewrite IH; reflexivity.
  Qed.

  Lemma dget_In k v d : dget keqb k d = Some v -> In (k, v) d.
  Proof.
    induction d as [|[k' v'] d IH]; cbn; [discriminate|].
    destruct (keqb k k') eqn:E; intros H.
    - apply Hk in E; inversion H; subst; left; reflexivity.
    - right; auto.
  Qed.

  Lemma dget_None k d : dget keqb k d = None <-> ~ In k (dkeys d).
  Proof.
    induction d as [|[k' v'] d IH]; cbn; [tauto|].
    destruct (keqb k k') eqn:E.
    - apply Hk in E; subst; split; [discriminate | intros N; exfalso; apply N; left; reflexivity].
    - rewrite IH. apply (eqb_spec_false keqb Hk) in E. split.
      + intros N [C|C]; [congruence | auto].
      + intros N C; apply N; right; assumption.
  Qed.

  Lemma dget_Some_key k v d : dget keqb k d = Some v -> In k (dkeys d).
  Proof.
    intros H; apply dget_In in H; unfold dkeys; apply in_map_iff; exists (k, v); auto.
  Qed.

  Lemma In_dget k v d : NoDup (dkeys d) -> In (k, v) d -> dget keqb k d = Some v.
  Proof.
    induction d as [|[k' v'] d IH]; cbn; [tauto|].
    intros ND [E|Hin]; inversion ND; subst.
    - inversion E; subst; rewrite keqb_refl; reflexivity.
    - destruct (keqb k k') eqn:Ek; [|auto].
      apply Hk in Ek; subst k'. exfalso; apply H1.
      unfold dkeys; apply in_map_iff; exists (k, v); auto.
  Qed.

  Lemma dkeys_dset k v d :
    dkeys (dset keqb k v d) = if memb keqb k (dkeys d) then dkeys d else dkeys d ++ [k].
  Proof.
    unfold dkeys, memb; induction d as [|[k' v'] d IH]; cbn; [reflexivity|].
    destruct (keqb k k') eqn:E; cbn; [reflexivity|].
    rewrite IH. destruct (existsb (keqb k) (map fst d)); reflexivity.
  Qed.

  Lemma dset_NoDup k v d : NoDup (dkeys d) -> NoDup (dkeys (dset keqb k v d)).
  Proof.
    intros ND; rewrite dkeys_dset. destruct (memb keqb k (dkeys d)) eqn:E; [assumption|].
    assert (Hn : ~ In k (dkeys d)).
    { intros C; apply (memb_In keqb Hk) in C; congruence. }
    clear E. induction (dkeys d) as [|a l IH]; cbn.
    - constructor; [tauto | constructor].
    - inversion ND; subst. constructor.
      + rewrite in_app_iff; cbn; intros [C|[C|[]]]; [contradiction | subst; apply Hn; left; reflexivity].
      + apply IH; [assumption | intros C; apply Hn; right; assumption].
  Qed.

  Lemma In_dkeys_dset k k2 v d : In k (dkeys (dset keqb k2 v d)) <-> k = k2 \/ In k (dkeys d).
  Proof.
    rewrite dkeys_dset. destruct (memb keqb k2 (dkeys d)) eqn:E.
    - apply (memb_In keqb Hk) in E. split; [auto | intros [->|]; auto].
    - rewrite in_app_iff; cbn. split; [intros [|[|[]]]; auto | intros [->|]; auto].
  Qed.

  Lemma dget_ddel_same k d : NoDup (dkeys d) -> dget keqb k (ddel keqb k d) = None.
  Proof.
    induction d as [|[k' v'] d IH]; cbn; [reflexivity|].
    intros ND; inversion ND; subst. destruct (keqb k k') eqn:E; cbn.
    - apply Hk in E; subst. apply dget_None; assumption.
    - rewrite E; auto.
  Qed.

  Lemma dget_ddel_other k k2 d : k <> k2 -> dget keqb k (ddel keqb k2 d) = dget keqb k d.
  Proof.
    intros N; induction d as [|[k' v'] d IH]; cbn; [reflexivity|].
    destruct (keqb k2 k') eqn:E; cbn.
    - apply Hk in E; subst. rewrite (proj2 (eqb_spec_false keqb Hk k k') N); reflexivity.
    - rewrite IH; reflexivity.
  Qed.

  Lemma In_dkeys_ddel k k2 d : In k (dkeys (ddel keqb k2 d)) -> In k (dkeys d).
  Proof.
    induction d as [|[k' v'] d IH]; cbn; [tauto|].
    destruct (keqb k2 k') eqn:E; cbn; [auto | intros [|]; auto].
  Qed.

  Lemma ddel_NoDup k d : NoDup (dkeys d) -> NoDup (dkeys (ddel keqb k d)).
  Proof.
    induction d as [|[k' v'] d IH]; cbn; [auto|].
    intros ND; inversion ND; subst. destruct (keqb k k') eqn:E; cbn; [assumption|].
    constructor; [|auto]. intros C; apply H1. eapply In_dkeys_ddel; eassumption.
  Qed.

  Lemma dset_app_new k v d : ~ In k (dkeys d) -> dset keqb k v d = d ++ [(k, v)].
  Proof.
    induction d as [|[k' v'] d IH]; cbn; [reflexivity|].
    intros N. destruct (keqb k k') eqn:E.
    - apply Hk in E; subst; exfalso; apply N; left; reflexivity.
    - rewrite IH; [reflexivity | intros C; apply N; right; assumption].
  Qed.

  Lemma dict_of_from_app (l acc : dict) :
    NoDup (dkeys (acc ++ l)) ->
    fold_left (fun d kv => dset keqb (fst kv) (snd kv) d) l acc = acc ++ l.
  Proof.
    revert acc; induction l as [|[k v] l IH]; intros acc ND; cbn.
    - rewrite app_nil_r; reflexivity.
    - rewrite dset_app_new.
      + rewrite IH; rewrite <- app_assoc; cbn; [reflexivity | exact ND].
      + unfold dkeys in *; rewrite map_app in ND; cbn in ND.
        apply NoDup_remove_2 in ND. intros C; apply ND; apply in_or_app; left; assumption.
  Qed.

  Lemma dict_of_NoDup_id (l : dict) : NoDup (dkeys l) -> dict_of keqb l = l.
  Proof. intros ND; unfold dict_of; rewrite dict_of_from_app; [reflexivity | exact ND]. Qed.

  Lemma dict_of_NoDup (l : dict) : NoDup (dkeys (dict_of keqb l)).
  Proof.
    unfold dict_of. assert (G : forall acc, NoDup (dkeys acc) ->
      NoDup (dkeys (fold_left (fun d kv => dset keqb (fst kv) (snd kv) d) l acc))).
    { induction l as [|[k v] l IH]; intros acc H; cbn; [assumption|]. apply IH, dset_NoDup, H. }
    apply G; constructor.
  Qed.
End DictFacts.

(** ** Order preserving removal of duplicates *)
Section UniqFacts.
  Context {A : Type} (eqb : A -> A -> bool) (H : eqb_spec_of eqb).

  Lemma uniq_from_In seen l a : In a (uniq_from eqb seen l) <-> In a l /\ ~ In a seen.
  Proof.
    revert seen; induction l as [|b l IH]; intros seen; cbn; [tauto|].
    destruct (memb eqb b seen) eqn:E.
    - apply (memb_In eqb H) in E. rewrite IH. split; [tauto|].
      intros [[->|Hin] Hn]; [contradiction | tauto].
    - assert (Hn : ~ In b seen) by (intros C; apply (memb_In eqb H) in C; congruence).
      cbn. rewrite IH; cbn. split.
      + intros [->|[Hin Hns]]; [auto|]. split; [auto | intros C; apply Hns; auto].
      + intros [[->|Hin] Hns]; [auto|].
        destruct (eqb a b) eqn:Eab; [apply H in Eab; subst; auto|].
        right; split; [assumption|]. intros [C|C]; [|auto].
        subst; rewrite (eqb_spec_refl eqb H) in Eab; discriminate.
  Qed.

  Lemma uniq_In l a : In a (uniq eqb l) <-> In a l.
  Proof. unfold uniq; rewrite uniq_from_In; cbn; tauto. Qed.

  Lemma uniq_from_NoDup seen l : NoDup (uniq_from eqb seen l).
  Proof.
    revert seen; induction l as [|b l IH]; intros seen; cbn; [constructor|].
    destruct (memb eqb b seen); [apply IH|]. constructor; [|apply IH].
    rewrite uniq_from_In; cbn; intros [_ C]; apply C; auto.
  Qed.

  Lemma uniq_NoDup l : NoDup (uniq eqb l).
  Proof. apply uniq_from_NoDup. Qed.

  Lemma uniq_from_id seen l :
    NoDup l -> (forall a, In a l -> ~ In a seen) -> uniq_from eqb seen l = l.
  Proof.
    revert seen; induction l as [|b l IH]; intros seen ND Hd; cbn; [reflexivity|].
    inversion ND; subst. destruct (memb eqb b seen) eqn:E.
    - apply (memb_In eqb H) in E. exfalso; apply (Hd b); [left; reflexivity | assumption].
    - f_equal; apply IH; [assumption|]. intros a Ha [C|C]; [subst; contradiction|].
      apply (Hd a); [right; assumption | assumption].
  Qed.
End UniqFacts.

(** ** mapM *)
Lemma mapM_Ok_map {A B} (f : A -> result B) (g : A -> B) l :
  (forall a, In a l -> f a = Ok (g a)) -> mapM f l = Ok (map g l).
Proof.
  induction l as [|a l IH]; cbn; intros Hf; [reflexivity|].
  rewrite (Hf a) by auto; cbn. rewrite IH by (intros; apply Hf; auto). reflexivity.
Qed.

Lemma mapM_length {A B} (f : A -> result B) l bs : mapM f l = Ok bs -> length bs = length l.
Proof.
  revert bs; induction l as [|a l IH]; cbn; intros bs E; [inversion E; reflexivity|].
  destruct (f a); cbn in E; [|discriminate]. destruct (mapM f l) as [bs'|]; cbn in E; [|discriminate].
  inversion E; subst; cbn; f_equal; apply IH; reflexivity.
Qed.

Lemma mapM_Ok_Forall2 {A B} (f : A -> result B) l bs :
  mapM f l = Ok bs <-> Forall2 (fun a b => f a = Ok b) l bs.
Proof.
  revert bs; induction l as [|a l IH]; cbn; intros bs; split.
  - intros E; inversion E; constructor.
  - intros F; inversion F; reflexivity.
  - intros E. destruct (f a) eqn:Ea; cbn in E; [|discriminate].
    destruct (mapM f l) as [bs'|] eqn:El; cbn in E; [|discriminate].
    inversion E; subst; constructor; [assumption | apply IH; reflexivity].
  - intros F; inversion F as [|? b ? bs' Ha Hl]; subst. rewrite Ha; cbn.
    apply IH in Hl; rewrite Hl; reflexivity.
Qed.

Lemma max_nat_ge l x : In x l -> x <= max_nat l.
Proof.
  induction l as [|a l IH]; cbn; [tauto|]. intros [->|Hx]; [lia | specialize (IH Hx); lia].
Qed.
Lemma max_nat_In l : l <> [] -> In (max_nat l) l.
Proof.
  induction l as [|a l IH]; [congruence|]. intros _. cbn. destruct l as [|b l].
  - left; cbn; lia.
  - destruct (Nat.max_spec a (max_nat (b :: l))) as [[_ ->]|[_ ->]]; [right; apply IH; discriminate | auto].
Qed.
Lemma max_nat_app l1 l2 : max_nat (l1 ++ l2) = Nat.max (max_nat l1) (max_nat l2).
Proof. induction l1; cbn; lia. Qed.
Lemma sum_nat_app l1 l2 : sum_nat (l1 ++ l2) = sum_nat l1 + sum_nat l2.
Proof. induction l1; cbn; lia. Qed.

(** ** Sorting *)
From Coq Require Import Sorting.Permutation Sorting.Sorted.
Section SortFacts.
  Context {A : Type} (leb : A -> A -> bool).
  Definition leP a b := leb a b = true.
  Hypothesis total : forall a b, leb a b = true \/ leb b a = true.
  Hypothesis trans : forall a b c, leb a b = true -> leb b c = true -> leb a c = true.

  Lemma insert_by_perm a l : Permutation (insert_by leb a l) (a :: l).
  Proof.
    induction l as [|b l IH]; cbn; [auto|]. destruct (leb a b); [auto|].
    rewrite IH. apply perm_swap.
  Qed.
  Lemma sort_by_perm l : Permutation (sort_by leb l) l.
  Proof. induction l; cbn; [auto|]. rewrite insert_by_perm. auto. Qed.
  Lemma insert_by_sorted a l : StronglySorted leP l -> StronglySorted leP (insert_by leb a l).
  Proof.
    induction 1 as [|b l Hs IH Hf]; cbn; [repeat constructor|].
    destruct (leb a b) eqn:E.
    - constructor; [constructor; auto|]. constructor; [exact E|].
      eapply Forall_impl; [|exact Hf]. intros c Hc. eapply trans; eauto.
    - constructor; [exact IH|]. destruct (total a b) as [H|H]; [congruence|].
      eapply Permutation_Forall; [symmetry; apply insert_by_perm|]. constructor; auto.
  Qed.
  Lemma sort_by_sorted l : StronglySorted leP (sort_by leb l).
  Proof. induction l; cbn; [constructor|]. apply insert_by_sorted; auto. Qed.

  Hypothesis antisym : forall a b, leb a b = true -> leb b a = true -> a = b.
  Lemma sorted_unique l1 l2 :
    StronglySorted leP l1 -> StronglySorted leP l2 -> Permutation l1 l2 -> l1 = l2.
  Proof.
    revert l2; induction l1 as [|a l1 IH]; intros l2 H1 H2 HP.
    - apply Permutation_nil in HP; auto.
    - destruct l2 as [|b l2]; [symmetry in HP; apply Permutation_nil in HP; discriminate|].
      apply StronglySorted_inv in H1 as [H1 F1]. apply StronglySorted_inv in H2 as [H2 F2].
      assert (a = b) as ->.
      { assert (In a (b :: l2)) as Ha by (eapply Permutation_in; [exact HP|left; auto]).
        assert (In b (a :: l1)) as Hb by (eapply Permutation_in; [symmetry; exact HP|left; auto]).
        destruct Ha as [Ha|Ha]; [auto|]. destruct Hb as [Hb|Hb]; [auto|].
        apply antisym; [rewrite Forall_forall in F1; apply F1; auto|rewrite Forall_forall in F2; apply F2; auto]. }
      f_equal. apply IH; auto. eapply Permutation_cons_inv; eauto.
  Qed.
  Lemma sort_by_ext l1 l2 : Permutation l1 l2 -> sort_by leb l1 = sort_by leb l2.
  Proof.
    intros H. apply sorted_unique; try apply sort_by_sorted. now rewrite !sort_by_perm.
  Qed.
  Lemma sort_by_id l : StronglySorted leP l -> sort_by leb l = l.
  Proof. intros H. apply sorted_unique; [apply sort_by_sorted|auto|apply sort_by_perm]. Qed.
  Lemma filter_sorted p l : StronglySorted leP l -> StronglySorted leP (filter p l).
  Proof.
    induction 1 as [|b l Hs IH Hf]; cbn; [constructor|]. destruct (p b); auto. constructor; auto.
    rewrite Forall_forall in *. intros x Hx. apply filter_In in Hx as [Hx _]; auto.
  Qed.
End SortFacts.

(** ** Lexicographic order on strings *)
From Coq Require Import String Ascii.
Lemma ascii_compare_spec a b : Ascii.compare a b = N.compare (N_of_ascii a) (N_of_ascii b).
Proof. reflexivity. Qed.
Lemma ascii_compare_eq a b : Ascii.compare a b = Eq <-> a = b.
Proof.
  rewrite ascii_compare_spec, N.compare_eq_iff. split; [|congruence]. intros H.
  rewrite <- (ascii_N_embedding a), <- (ascii_N_embedding b), H. reflexivity.
Qed.
Lemma string_leb_cons a s b t : String.leb (String a s) (String b t) =
  match Ascii.compare a b with Lt => true | Gt => false | Eq => String.leb s t end.
Proof. unfold String.leb. cbn. destruct (Ascii.compare a b); reflexivity. Qed.
Lemma string_leb_trans a b c : String.leb a b = true -> String.leb b c = true -> String.leb a c = true.
Proof.
  revert b c. induction a as [|x a IH]; intros b c.
  - destruct c; [reflexivity|]. reflexivity.
  - destruct b as [|y b]; [discriminate|]. destruct c as [|z c]; [discriminate|].
    rewrite !string_leb_cons, !ascii_compare_spec.
    destruct (N.compare_spec (N_of_ascii x) (N_of_ascii y)) as [E|E|E];
      destruct (N.compare_spec (N_of_ascii y) (N_of_ascii z)) as [F|F|F];
      destruct (N.compare_spec (N_of_ascii x) (N_of_ascii z)) as [G|G|G]; try lia; try discriminate; eauto.
Qed.
Lemma string_eqb_spec : eqb_spec_of String.eqb.
Proof. intros a b; apply String.eqb_eq. Qed.

Lemma Forall2_imp {A B} (P Q : A -> B -> Prop) l1 l2 :
  (forall a b, P a b -> Q a b) -> Forall2 P l1 l2 -> Forall2 Q l1 l2.
Proof. intros H F. induction F; constructor; auto. Qed.

Lemma NoDup_app {A} (l1 l2 : list A) :
  NoDup l1 -> NoDup l2 -> (forall a, In a l1 -> ~ In a l2) -> NoDup (l1 ++ l2).
Proof.
  induction 1 as [|a l1 Ha H IH]; cbn; intros H2 H3; [auto|]. constructor.
  - rewrite in_app_iff. intros [?|?]; [auto|]. eapply H3; eauto.
  - apply IH; auto.
Qed.
Lemma forallb_ext_in' {A} (f g : A -> bool) l : (forall a, In a l -> f a = g a) -> forallb f l = forallb g l.
Proof. induction l; cbn; intros H; [auto|]. rewrite H, IHl; auto. Qed.
Lemma forallb_map' {A B} (h : A -> B) (f : B -> bool) l : forallb f (map h l) = forallb (fun a => f (h a)) l.
Proof. induction l; cbn; congruence. Qed.
Lemma map_nth_seq {A} (d : A) l : map (fun i => nth i l d) (seq 0 (List.length l)) = l.
Proof.
  induction l as [|a l IH]; cbn; [auto|]. f_equal. rewrite <- seq_shift, map_map. exact IH.
Qed.
Lemma map_seq_shift s n : map (fun i => s + i) (seq 0 n) = seq s n.
Proof.
  revert s; induction n as [|n IH]; intros s; cbn; [auto|]. f_equal; [lia|].
  rewrite <- seq_shift, map_map. rewrite <- (IH (S s)). apply map_ext. intros; lia.
Qed.
Lemma NoDup_map_in {A B} (f : A -> B) l :
  (forall x y, In x l -> In y l -> f x = f y -> x = y) -> NoDup l -> NoDup (map f l).
Proof.
  intros H N. induction N as [|a l Ha N IH]; cbn; constructor.
  - intros Hin. apply in_map_iff in Hin as (y & E & Hy). apply H in E; [subst; auto|right; auto|left; auto].
  - apply IH. intros; apply H; auto; right; auto.
Qed.
Lemma mapM_Ok_in {A B} (f : A -> result B) l bs b : mapM f l = Ok bs -> In b bs -> exists a, In a l /\ f a = Ok b.
Proof.
  revert bs. induction l as [|a l IH]; intros bs; cbn; [intros [= <-] []|].
  destruct (f a) as [b0|] eqn:E; cbn; [|discriminate]. destruct (mapM f l) as [bs0|]; cbn; [|discriminate].
  intros [= <-] [->|H]; [eauto|]. destruct (IH bs0 eq_refl H) as (a' & Ha & E'). eauto.
Qed.
Lemma mapM_Ok_all {A B} (f : A -> result B) l bs a : mapM f l = Ok bs -> In a l -> exists b, f a = Ok b /\ In b bs.
Proof.
  revert bs. induction l as [|a0 l IH]; intros bs; cbn; [intros _ []|].
  destruct (f a0) as [b0|] eqn:E; cbn; [|discriminate]. destruct (mapM f l) as [bs0|]; cbn; [|discriminate].
  intros [= <-] [->|H]; [eexists; split; [eauto|left; auto]|]. destruct (IH bs0 eq_refl H) as (b' & Hb & Hi). eexists; split; [eauto|right; auto].
Qed.
Lemma mapM_Ok_length {A B} (f : A -> result B) l bs : mapM f l = Ok bs -> List.length bs = List.length l.
Proof.
  revert bs. induction l as [|a l IH]; intros bs; cbn; [intros [= <-]; auto|].
  destruct (f a); cbn; [|discriminate]. destruct (mapM f l) as [bs0|]; cbn; [|discriminate]. intros [= <-]. cbn. rewrite (IH bs0); auto.
Qed.
Lemma app_inj_len {A} (a b x y : list A) : List.length a = List.length b -> a ++ x = b ++ y -> a = b /\ x = y.
Proof.
  revert b. induction a as [|h a IH]; intros [|h' b]; cbn; try discriminate; [auto|]. intros [= L] [= -> E].
  destruct (IH b L E) as [-> ->]. auto.
Qed.

Lemma Forall2_len {A B} (P : A -> B -> Prop) l m : Forall2 P l m -> List.length l = List.length m.
Proof. induction 1; cbn; auto. Qed.
