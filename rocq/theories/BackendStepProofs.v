(** Runs of the steps of BackendStepModel, and what they leave alone. *)
From Coq Require Import String Lia.
From Verif Require Import Base BaseFacts Json MatModel UtilsModel CostModel CreateModel CreateProps BackendStepModel BackendStepSpec.
Open Scope list_scope.

Section Generic.
  Context {S A B : Type}.
  Lemma bind_ok (m : M S A) (k : A -> M S B) s s1 a : m s = (s1, Ok a) -> bindM m k s = k a s1.
  Proof. intros E. unfold bindM. now rewrite E. Qed.
  Lemma bind_err (m : M S A) (k : A -> M S B) s s1 e : m s = (s1, Err e) -> bindM m k s = (s1, Err e).
  Proof. intros E. unfold bindM. now rewrite E. Qed.
End Generic.

Section Frames.
  Context {V W : Type}.
  Notation dict := (list (string * V)).
  Notation store := (store V W).

  Lemma only_refl P (s : store) : changes_only P s s.
  Proof. intros r d H. exists d. split; [exact H|]. split; reflexivity. Qed.
  Lemma only_trans P (s1 s2 s3 : store) : changes_only P s1 s2 -> changes_only P s2 s3 -> changes_only P s1 s3.
  Proof.
    intros H1 H2 r d E. destruct (H1 r d E) as (d1 & E1 & A1 & B1). destruct (H2 r d1 E1) as (d2 & E2 & A2 & B2). exists d2. split; [exact E2|]. split.
    - intros k N. rewrite A2 by exact N. now apply A1.
    - intros N. rewrite (B2 N). now apply B1.
  Qed.
  Lemma only_kept P (s s' : store) : kept s s' -> changes_only P s s'.
  Proof. intros H r d E. exists d. split; [now apply H|]. split; reflexivity. Qed.
  Lemma nothing_kept (s s' : store) : changes_nothing s s' <-> kept s s'.
  Proof. split; [|apply only_kept]. intros H r d E. destruct (H r d E) as (d' & E' & _ & Q). rewrite Q in E' by tauto. exact E'. Qed.

  (** [m] leaves at least [n] dictionaries and changes only P of what there was; Q holds of what it returns. *)
  Definition frames {A} (n : nat) (P : nat -> string -> Prop) (m : M store A) (Q : A -> Prop) : Prop :=
    forall s, n <= length (dicts s) -> n <= length (dicts (fst (m s))) /\ changes_only P s (fst (m s)) /\ forall a, snd (m s) = Ok a -> Q a.
  Lemma frames_bind {A B} n P (m : M store A) (k : A -> M store B) Q R : frames n P m Q -> (forall a, Q a -> frames n P (k a) R) -> frames n P (bindM m k) R.
  Proof.
    intros H K s L. destruct (H s L) as (L1 & O1 & Q1). unfold bindM. destruct (m s) as [s1 [a|e]]; cbn [fst snd] in *.
    - destruct (K a (Q1 a eq_refl) s1 L1) as (L2 & O2 & Q2). split; [exact L2|]. split; [exact (only_trans _ _ _ _ O1 O2)|exact Q2].
    - split; [exact L1|]. split; [exact O1|discriminate].
  Qed.
  Lemma frames_ret {A} n P (a : A) (Q : A -> Prop) : Q a -> frames n P (retM a) Q.
  Proof. intros H s L. cbn. split; [exact L|]. split; [apply only_refl|]. congruence. Qed.
  Lemma frames_err {A} n P e (Q : A -> Prop) : frames n P (liftM (Err e)) Q.
  Proof. intros s L. cbn. split; [exact L|]. split; [apply only_refl|]. discriminate. Qed.
  Lemma frames_world {A} n P (m : M W A) : frames n P (on_world m) (fun _ => True).
  Proof. intros s L. unfold on_world. destruct (m (world s)) as [w r]. cbn. split; [exact L|]. split; [|trivial]. apply only_kept. intros r0 d0 H. exact H. Qed.
  Lemma frames_contents n P r : frames n P (@contents V W r) (fun _ => True).
  Proof. intros s L. unfold contents. cbn. split; [exact L|]. split; [apply only_refl|trivial]. Qed.
  Lemma kept_length (s s' : store) : kept s s' -> length (dicts s) <= length (dicts s').
  Proof.
    intros H. destruct (Nat.eq_dec (length (dicts s)) 0) as [Z|Z]; [lia|]. destruct (nth_error (dicts s) (length (dicts s) - 1)) as [d|] eqn:E.
    - apply H in E. assert (N : nth_error (dicts s') (length (dicts s) - 1) <> None) by congruence. apply nth_error_Some in N. lia.
    - apply nth_error_None in E. lia.
  Qed.
  Lemma frames_kept {A} n P (m : M store A) : (forall s, kept s (fst (m s))) -> frames n P m (fun _ => True).
  Proof. intros H s L. split; [|split; [apply only_kept, H|trivial]]. eapply Nat.le_trans; [exact L|apply kept_length, H]. Qed.
  Lemma put_length r (d : dict) l : length (put r d l) = length l.
  Proof. revert r. induction l as [|x l IH]; intros [|r]; cbn; auto. Qed.
  Lemma put_same r (d : dict) l x : nth_error l r = Some x -> nth_error (put r d l) r = Some d.
  Proof. revert r. induction l as [|y l IH]; intros [|r] E; cbn in *; try discriminate; [reflexivity|]. now apply IH. Qed.
  Lemma put_other r r' (d : dict) l : r <> r' -> nth_error (put r d l) r' = nth_error l r'.
  Proof. revert r r'. induction l as [|y l IH]; intros [|r] [|r'] N; cbn in *; try reflexivity; [congruence|]. apply IH. congruence. Qed.
  Lemma frames_set_item n (P : nat -> string -> Prop) r k (v : V) : P r k -> frames n P (set_item (W := W) r k v) (fun _ => True).
  Proof.
    intros H s L. unfold set_item, bindM, contents. destruct (nth_error (dicts s) r) as [d|] eqn:E; cbn [fst snd].
    - unfold write. cbn [fst snd dicts]. split; [now rewrite put_length|]. split; [|trivial]. intros r' d' E'. cbn [dicts]. destruct (Nat.eq_dec r r') as [<-|N].
      + rewrite E in E'. injection E' as <-. exists (dset String.eqb k v d). split; [exact (put_same _ _ _ _ E)|]. split.
        * intros k' N. apply (dget_dset_other _ string_eqb_ok). congruence.
        * intros N. destruct (N k H).
      + exists d'. split; [rewrite put_other by exact N; exact E'|]. split; reflexivity.
    - split; [exact L|]. split; [apply only_refl|discriminate].
  Qed.
  Lemma frames_get_item n P r k : frames n P (@get_item V W r k) (fun _ => True).
  Proof. unfold get_item. eapply frames_bind; [apply frames_contents|]. intros d _. destruct (dget _ _ _); [now apply frames_ret|apply frames_err]. Qed.
  Lemma frames_weaken {A} n P (m : M store A) (Q R : A -> Prop) : frames n P m Q -> (forall a, Q a -> R a) -> frames n P m R.
  Proof. intros H K s L. destruct (H s L) as (a & b & c). repeat split; auto. Qed.
  Lemma kept_refl (s : store) : kept s s.
  Proof. intros r d H. exact H. Qed.
  Lemma kept_trans (s1 s2 s3 : store) : kept s1 s2 -> kept s2 s3 -> kept s1 s3.
  Proof. intros A B r d H. apply B, A, H. Qed.

  (** Everything that was there before [m] started, changed by what [m] does to dictionaries it made itself *)
  Definition extends (s s' : store) : Prop := exists l, dicts s' = dicts s ++ l.
  Lemma extends_kept (s s' : store) : extends s s' -> kept s s'.
  Proof. intros [l E] r d H. rewrite E, nth_error_app1; [exact H|]. apply nth_error_Some. congruence. Qed.
  Lemma finish_frames {A} (P : nat -> string -> Prop) (m : M store A) Q s :
    frames (length (dicts s)) (fun r k => length (dicts s) <= r \/ P r k) m Q -> changes_only P s (fst (m s)).
  Proof.
    intros H. destruct (H s (le_n _)) as (_ & O & _). intros r d E. destruct (O r d E) as (d' & E' & A1 & B1). exists d'. split; [exact E'|].
    assert (L : r < length (dicts s)) by (apply nth_error_Some; congruence). split.
    - intros k N. apply A1. intros [G|G]; [lia|exact (N G)].
    - intros N. apply B1. intros k [G|G]; [lia|exact (N k G)].
  Qed.
End Frames.

Section Kept.
  Context {V W Mod : Type} (import_module : V -> M W Mod) (getattr : Mod -> V -> result (creator V W)).
  Notation dict := (list (string * V)).
  Notation store := (store V W).
  Lemma create_extends specs kwargs s : extends s (fst (create_object import_module getattr specs kwargs s)).
  Proof.
    unfold create_object. unfold bindM at 1. unfold contents at 1. destruct (nth_error (dicts s) specs) as [d|]; [|exists []; cbn; now rewrite app_nil_r].
    unfold bindM at 1, alloc at 1. set (n := length (dicts s)). set (l := dicts s).
    assert (F : forall (A : Type) (k : V -> M store A) key d0 w, (forall v d1 w1, exists d' w', fst (k v {| dicts := l ++ [d1]; world := w1 |}) = {| dicts := l ++ [d']; world := w' |}) ->
        exists d' w', fst (bindM (pop n key) k {| dicts := l ++ [d0]; world := w |}) = {| dicts := l ++ [d']; world := w' |}).
    { intros A k key d0 w H. unfold bindM. destruct (dget String.eqb key d0) as [v|] eqn:E.
      - unfold n. fold l. rewrite (pop_last l d0 w key v E). apply H.
      - unfold n. fold l. rewrite (pop_none l d0 w key E). now exists d0, w. }
    match goal with |- extends s (fst (?m _)) => enough (Q : exists d' w', fst (m {| dicts := l ++ [d]; world := world s |}) = {| dicts := l ++ [d']; world := w' |}) end.
    { destruct Q as (d' & w' & Q). rewrite Q. exists [d']. reflexivity. }
    apply F. intros m d1 w1. unfold bindM at 1. unfold on_world at 1. cbn [world dicts]. destruct (import_module m w1) as [w2 [mo|e]]; [|now exists d1, w2].
    apply F. intros f d2 w3. unfold bindM at 1. destruct (getattr mo f) as [c|e]; [|now exists d2, w3].
    unfold bindM at 1. unfold n. fold l. rewrite contents_last. destruct (existsb _ _); [now exists d2, w3|]. destruct c as [sg body|call].
    - destruct kwargs; [destruct d2|]; now eexists _, w3.
    - unfold bindM, on_world. cbn [world dicts]. destruct (call _ w3) as [w4 [v|e]]; now exists d2, w4.
  Qed.
  Lemma create_kept specs kwargs s : kept s (fst (create_object import_module getattr specs kwargs s)).
  Proof. apply extends_kept, create_extends. Qed.
  Context {K : cring} (of_json : json K -> V) (call_value : V -> list V -> dict -> M W V).
  Lemma noise_extends file s : extends s (fst (load_noise_model import_module getattr of_json call_value file s)).
  Proof.
    unfold load_noise_model. unfold bindM at 1, alloc at 1. unfold bindM at 1. rewrite contents_last. unfold bindM at 1, write at 1. cbn [dicts world]. rewrite put_last.
    match goal with |- extends _ (fst (bindM _ _ ?x)) => set (s1 := x) end. destruct (create_extends (length (dicts s)) [] s1) as [l E].
    unfold bindM. destruct (create_object _ _ _ _ s1) as [s2 [c|e]]; cbn [fst] in E.
    - unfold on_world. destruct (call_created _ _ _ _ _) as [w r]. cbn [fst dicts]. eexists (_ :: l). cbn [dicts]. rewrite E. unfold s1. cbn [dicts]. rewrite <- app_assoc. reflexivity.
    - cbn [fst]. eexists (_ :: l). rewrite E. unfold s1. cbn [dicts]. rewrite <- app_assoc. reflexivity.
  Qed.
End Kept.
