(** Proofs for C72: the loops over keys and elements. *)
From Coq Require Import Ring.
From Verif Require Import Base BaseFacts MatModel MatFacts LiftSpec LiftProofs OpModel OpSpec OpProofs FermiModel FermiSpec TensorModel TensorSpec TensorProofs TensorProps ConvModel ConvProofs
  DiagModel DiagSpec DiagProofs.
Open Scope list_scope.
Local Open Scope nat_scope.
Lemma index_eqb_spec : forall i j : list nat, list_eqb Nat.eqb i j = true <-> i = j.
Proof. intros i j. apply list_eqb_spec. apply nat_eqb_spec. Qed.

Section Loop.
  Context {K : cring}.
  Add Ring Kring_diag2 : (kth K).
  Open Scope K_scope.
  Notation dict := (list (key * entry K)).
  Notation arr := (TensorModel.ndarray K).
  Notation among i l := (memb (list_eqb Nat.eqb) i l).
  Lemma split_fold (h : heap K) k e l : forall r d, let rd := fold_left (split_element h k e) l (r, d) in shape0 (fst rd) = shape0 r /\ shape0 (snd rd) = shape0 d /\
    forall i, data (fst rd) i = (if among i l && negb (term_is_diagonal k i) then element h e i else data r i) /\
      data (snd rd) i = (if among i l && term_is_diagonal k i then element h e i else data d i).
  Proof.
    induction l as [|j l IH]; intros r d; cbn zeta; cbn [fold_left]; [cbn; auto|]. cbn [split_element].
    assert (X : forall i b, among i (j :: l) && b = if list_eqb Nat.eqb i j then b else among i l && b) by (intros i b; unfold memb; cbn [existsb]; destruct (list_eqb Nat.eqb i j), (existsb (list_eqb Nat.eqb i) l); reflexivity).
    destruct (term_is_diagonal k j) eqn:D.
    - destruct (IH r (assign d j (element h e j))) as (S1 & S2 & E). split; [exact S1|]. split; [exact S2|]. intros i. destruct (E i) as [E1 E2]. rewrite E1, E2, !X. cbn [assign data].
      destruct (list_eqb Nat.eqb i j) eqn:Q; [|auto]. apply index_eqb_spec in Q. subst j. rewrite D. cbn [negb]. rewrite andb_false_r, andb_true_r. split; [reflexivity|]. destruct (among i l); reflexivity.
    - destruct (IH (assign r j (element h e j)) d) as (S1 & S2 & E). split; [exact S1|]. split; [exact S2|]. intros i. destruct (E i) as [E1 E2]. rewrite E1, E2, !X. cbn [assign data].
      destruct (list_eqb Nat.eqb i j) eqn:Q; [|auto]. apply index_eqb_spec in Q. subst j. rewrite D. cbn [negb]. rewrite andb_false_r, andb_true_r. split; [|reflexivity]. destruct (among i l); reflexivity.
  Qed.

  (** arrays that lie at every other address *)
  Fixpoint placed (s : nat) (l : dict) : dict := match l with [] => [] | kv :: l' => (fst kv, Arr s) :: placed (S (S s)) l' end.
  Lemma placed_keys s l : dkeys (placed s l) = dkeys l.
  Proof. revert s. induction l as [|kv l IH]; intros s; cbn; [reflexivity|]. f_equal. apply IH. Qed.
  Lemma placed_bounds s l k e : In (k, e) (placed s l) -> exists r, e = Arr r /\ (s <= r < s + 2 * length l)%nat.
  Proof.
    revert s. induction l as [|kv l IH]; intros s; cbn [placed In length]; [tauto|]. intros [E|H]; [inversion E; subst; exists s; split; [auto|lia]|]. destruct (IH _ H) as (r & E & B). exists r. split; [auto|lia].
  Qed.
  Lemma placed_unshared s l : unshared (placed s l).
  Proof.
    revert s. induction l as [|kv l IH]; intros s k1 k2 r H1 H2; cbn [placed In] in *; [tauto|]. destruct H1 as [H1|H1], H2 as [H2|H2].
    - congruence.
    - inversion H1; subst. apply placed_bounds in H2 as (r' & E & B). inversion E; subst. lia.
    - inversion H2; subst. apply placed_bounds in H1 as (r' & E & B). inversion E; subst. lia.
    - eapply IH; eauto.
  Qed.
  Definition others (d : dict) : dict := filter (fun kv : key * entry K => negb (key_eqb (fst kv) [])) d.
  Lemma dset_end k v (d : dict) : ~ In k (dkeys d) -> dset key_eqb k v d = d ++ [(k, v)].
  Proof.
    induction d as [|[k' v'] d IH]; intros H; [reflexivity|]. cbn [dset]. destruct (key_eqb k k') eqn:E; [apply key_eqb_spec in E; subst; exfalso; apply H; left; reflexivity|].
    cbn [app]. f_equal. apply IH. intros X. apply H. right. exact X.
  Qed.
  Lemma placed_app s l kv : placed s (l ++ [kv]) = placed s l ++ [(fst kv, Arr (s + 2 * length l))].
  Proof. revert s. induction l as [|x l IH]; intros s; cbn [placed app length]; [replace (s + 2 * 0)%nat with s by lia; reflexivity|]. rewrite IH. replace (S (S s) + 2 * length l)%nat with (s + 2 * S (length l))%nat by lia. reflexivity. Qed.
  Lemma dkeys_app {V} (d e : list (key * V)) : dkeys (d ++ e) = dkeys d ++ dkeys e.
  Proof. apply map_app. Qed.

  (** the two arrays of a key, relative to what they came from *)
  Definition halves (n : nat) (h : heap K) (kv : key * entry K) (h' : heap K) (r d : entry K) : Prop :=
    sized n h' r /\ sized n h' d /\ forall i, addresses n (fst kv) i ->
      element h' d i = (if term_is_diagonal (fst kv) i then element h (snd kv) i else 0) /\ element h' r i = (if term_is_diagonal (fst kv) i then 0 else element h (snd kv) i).
  Lemma halves_app n h kv h' t r d : live h' (Arr r) -> live h' (Arr d) -> halves n h kv h' (Arr r) (Arr d) -> halves n h kv (h' ++ t) (Arr r) (Arr d).
  Proof.
    intros Lr Ld (S1 & S2 & E). split; [apply sized_app; auto|]. split; [apply sized_app; auto|]. intros i Hi. rewrite !element_app by auto. apply E, Hi.
  Qed.
  Inductive arranged (n : nat) (h h' : heap K) : nat -> dict -> Prop :=
  | arr_nil s : arranged n h h' s []
  | arr_cons s kv l : (S s < length h')%nat -> halves n h kv h' (Arr s) (Arr (S s)) -> arranged n h h' (S (S s)) l -> arranged n h h' s (kv :: l).
  Lemma arranged_app n h h' t s l : arranged n h h' s l -> arranged n h (h' ++ t) s l.
  Proof.
    induction 1 as [|s kv l Hs Hh Ha IH]; [constructor|]. constructor; [rewrite app_length; lia| |exact IH]. apply halves_app; cbn; auto; lia.
  Qed.
  Lemma arranged_snoc n h h' s l kv : arranged n h h' s l -> (S (s + 2 * length l) < length h')%nat -> halves n h kv h' (Arr (s + 2 * length l)) (Arr (S (s + 2 * length l))) -> arranged n h h' s (l ++ [kv]).
  Proof.
    induction 1 as [s|s x l Hs Hh Ha IH]; cbn [app length]; intros Hl Hk.
    - constructor; [lia| |constructor]. replace (s + 2 * 0)%nat with s in Hk by lia. exact Hk.
    - constructor; auto. apply IH; [lia|]. replace (S (S s) + 2 * length l)%nat with (s + 2 * S (length l))%nat by lia. exact Hk.
  Qed.
  Lemma key_loop n h c (l : dict) : forall done t, valid h l -> NoDup (dkeys (done ++ others l)) -> ~ In [] (dkeys done) -> length t = (2 * length done)%nat -> arranged n h (h ++ t) (length h) done ->
    exists t', fold_left (split_key n) l (h ++ t, (placed (length h) done, ([], Num c) :: placed (S (length h)) done)) =
        (h ++ t', (placed (length h) (done ++ others l), ([], Num c) :: placed (S (length h)) (done ++ others l))) /\
      length t' = (2 * length (done ++ others l))%nat /\ arranged n h (h ++ t') (length h) (done ++ others l).
  Proof.
    induction l as [|[k e] l IH]; intros done t V N E0 Lt A; cbn [fold_left others filter]; [rewrite app_nil_r; eauto|].
    assert (Vl : valid h l) by (intros k0 e0 H0; apply (V k0); right; exact H0). assert (Ve : live h e) by (apply (V k); left; reflexivity).
    cbn [fst]. destruct k as [|b k]; [cbn [key_eqb list_eqb negb split_key fst]; apply IH; auto|]. cbn [key_eqb list_eqb negb]. fold (others l). cbn [split_key fst snd].
    change (dkeys (done ++ others ((b :: k, e) :: l))) with (dkeys (done ++ (b :: k, e) :: others l)) in N.
    match goal with |- context [fold_left (split_element ?h0 ?k0 ?e0) ?ix ?z] => pose proof (split_fold h0 k0 e0 ix (zeros_array n) (zeros_array n)) as F; cbn zeta in F; destruct (fold_left (split_element h0 k0 e0) ix z) as [r d] end.
    cbn [fst snd] in F. destruct F as (S1 & S2 & F).
    assert (Ni : ~ In (b :: k) (dkeys done)).
    { rewrite dkeys_app in N. apply NoDup_remove_2 in N. intros X. apply N. apply in_or_app. left. exact X. }
    rewrite (dset_end (b :: k)) by (rewrite placed_keys; exact Ni). rewrite (dset_end (b :: k)) by (cbn [dkeys map fst In]; fold (dkeys (placed (S (length h)) done)); rewrite placed_keys; intros [X|X]; [discriminate|auto]).
    rewrite <- (app_assoc h t). replace (length (h ++ t)) with (length h + 2 * length done)%nat by (rewrite app_length; lia).
    destruct (IH (done ++ [(b :: k, e)]) (t ++ [r; d])) as (t' & E1 & E2 & E3); auto.
    - rewrite <- app_assoc. exact N.
    - rewrite dkeys_app. intros X. apply in_app_or in X as [X|[X|[]]]; [auto|discriminate].
    - rewrite !app_length. cbn [length]. lia.
    - rewrite (app_assoc h). pose proof (arranged_app n h (h ++ t) [r; d] _ _ A) as A'. apply arranged_snoc; [exact A'|rewrite !app_length; cbn [length]; lia|].
      assert (R1 : read ((h ++ t) ++ [r; d]) (length h + 2 * length done) = r).
      { replace (length h + 2 * length done)%nat with (length (h ++ t)) by (rewrite app_length; lia). apply read_new. }
      assert (R2 : read ((h ++ t) ++ [r; d]) (S (length h + 2 * length done)) = d).
      { replace (S (length h + 2 * length done))%nat with (length ((h ++ t) ++ [r])) by (rewrite !app_length; cbn [length]; lia). replace ((h ++ t) ++ [r; d]) with (((h ++ t) ++ [r]) ++ d :: []) by (rewrite <- !app_assoc; reflexivity). apply read_new. }
      split; [unfold sized; rewrite R1; exact S1|]. split; [unfold sized; rewrite R2; exact S2|]. cbn [fst snd]. intros i [Li Fi]. cbn [element]. rewrite R1, R2. destruct (F i) as [F1 F2].
      assert (Mi : memb (list_eqb Nat.eqb) i (indices n (length (b :: k))) = true) by (apply (memb_In _ index_eqb_spec), in_indices; auto).
      rewrite F1, F2, Mi. cbn [andb]. rewrite (element_app h t) by exact Ve. destruct (term_is_diagonal (b :: k) i); cbn [negb]; split; reflexivity.
    - exists t'. rewrite !placed_app in E1. rewrite <- (app_assoc done) in E1, E2, E3. cbn [fst] in E1. cbn [app] in E1, E2, E3.
      replace (S (length h) + 2 * length done)%nat with (S (length h + 2 * length done)) in E1 by lia. split; [exact E1|]. split; [exact E2|exact E3].
  Qed.
  Lemma arranged_In n h h' s l : arranged n h h' s l -> Forall2 (fun kv kr => fst kr = fst kv /\ exists d, live h' (snd kr) /\ live h' d /\ halves n h kv h' (snd kr) d) l (placed s l) /\
    Forall2 (fun kv kd => fst kd = fst kv /\ exists r, live h' (snd kd) /\ live h' r /\ halves n h kv h' r (snd kd)) l (placed (S s) l).
  Proof.
    induction 1 as [s|s kv l Hs Hh Ha IH]; [split; constructor|]. destruct IH as [I1 I2]. split; cbn [placed]; constructor; auto; cbn [fst snd].
    - split; [reflexivity|]. exists (Arr (S s)). cbn. split; [lia|]. split; [lia|exact Hh].
    - split; [reflexivity|]. exists (Arr s). cbn. split; [lia|]. split; [lia|exact Hh].
  Qed.
End Loop.
