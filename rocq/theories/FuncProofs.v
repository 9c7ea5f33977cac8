(** Proofs about FuncModel.v: depth of attribute lookups, chains of decorators. *)
From Coq Require Import String List Bool Arith Lia.
From Verif Require Import Base BaseFacts FuncModel FuncSpec.
Import ListNotations.
Open Scope list_scope.

Section Proofs.
  Context {V : Type}.
  Implicit Types (h : heap V) (v : value V).

  (** ** Enough fuel, and larger memories *)
  Lemma getattr_more h : proper h -> forall k l name, l < k -> getattr_within k h l name = getattr h l name.
  Proof.
    intros (P & _). unfold getattr. intros k l. revert k. induction l as [l IH] using lt_wf_ind. intros k name Hk. destruct k as [|k]; [lia|]. cbn [getattr_within].
    destruct (nth_error h l) as [c|] eqn:E; [|reflexivity]. destruct (what c) eqn:W; try reflexivity. destruct (P l c _ _ _ E W) as (Hf & _).
    destruct (String.eqb name "function"%string); [reflexivity|]. destruct (String.eqb name "gradient"%string); [reflexivity|]. destruct (existsb _ tuple_names); [reflexivity|].
    rewrite (IH function Hf k name) by lia. symmetry. apply IH; lia.
  Qed.
  Lemma call_more h : proper h -> forall k l a b, l < k -> call_within k h l a b = call h l a b.
  Proof.
    intros (P & _). unfold call. intros k l. revert k. induction l as [l IH] using lt_wf_ind. intros k a b Hk. destruct k as [|k]; [lia|]. cbn [call_within].
    destruct (nth_error h l) as [c|] eqn:E; [|reflexivity]. destruct (what c) eqn:W; try reflexivity. destruct (P l c _ _ _ E W) as (Hf & _).
    destruct (bind _ a b) as [x|e]; [|reflexivity]. cbn [rbind]. rewrite (IH function Hf k) by lia. symmetry. apply IH; lia.
  Qed.
  Lemma setattr_more h : proper h -> forall k l name v, l < k -> setattr_within k h l name v = setattr h l name v.
  Proof.
    intros (P & _). unfold setattr. intros k l. revert k. induction l as [l IH] using lt_wf_ind. intros k name v Hk. destruct k as [|k]; [lia|]. cbn [setattr_within].
    destruct (nth_error h l) as [c|] eqn:E; [|reflexivity]. destruct (what c) eqn:W; try reflexivity. destruct (P l c _ _ _ E W) as (Hf & _).
    rewrite (IH function Hf k) by lia. symmetry. apply IH; lia.
  Qed.
  (** An object that was there before. *)
  Lemma getattr_old h x : proper h -> forall k l name, l < length h -> getattr_within k (h ++ x) l name = getattr_within k h l name.
  Proof.
    intros (P & _). induction k as [|k IH]; intros l name Hl; [reflexivity|]. cbn [getattr_within]. rewrite nth_error_app1 by exact Hl. destruct (nth_error h l) as [c|] eqn:E; [|reflexivity].
    destruct (what c) eqn:W; try reflexivity. destruct (P l c _ _ _ E W) as (Hf & _). rewrite IH by lia. reflexivity.
  Qed.
  Lemma call_old h x : proper h -> forall k l a b, l < length h -> call_within k (h ++ x) l a b = call_within k h l a b.
  Proof.
    intros (P & _). induction k as [|k IH]; intros l a b Hl; [reflexivity|]. cbn [call_within]. rewrite nth_error_app1 by exact Hl. destruct (nth_error h l) as [c|] eqn:E; [|reflexivity].
    destruct (what c) eqn:W; try reflexivity. destruct (P l c _ _ _ E W) as (Hf & _). destruct (bind _ a b); [|reflexivity]. cbn [rbind]. apply IH. lia.
  Qed.

  (** ** Chains of decorators *)
  Lemma wrapped_exists h l l' : proper h -> getattr h l "__wrapped__"%string = Ok (Object l') -> l' < length h.
  Proof.
    intros (P & Q). unfold getattr. generalize (S l). intros k. revert l. induction k as [|k IH]; intros l E; [discriminate|]. cbn [getattr_within] in E.
    destruct (nth_error h l) as [c|] eqn:El; [|discriminate].
    assert (G : dget String.eqb "__wrapped__"%string (attributes c) = Some (Object l') -> l' < length h).
    { intros D. apply (Q l c "__wrapped__"%string l' El). apply (dget_In String.eqb) in D; [exact D|exact String.eqb_eq]. }
    destruct (what c) eqn:W; try (destruct (dget String.eqb "__wrapped__"%string (attributes c)) as [v|] eqn:D; [|discriminate]; injection E as ->; now apply G).
    cbn in E. apply (IH function), E.
  Qed.
  (** the nodes of a chain without its first, and its end if that is an object *)
  Inductive chain h : nat -> list nat -> option nat -> Prop :=
  | chain_stop l : hasattr h l "__wrapped__"%string = false -> chain h l [] (Some l)
  | chain_dead l v : getattr h l "__wrapped__"%string = Ok v -> (forall l', v <> Object l') -> chain h l [] None
  | chain_step l l' p e : getattr h l "__wrapped__"%string = Ok (Object l') -> chain h l' p e -> chain h l (l' :: p) e.
  Lemma leads_chain h l e : leads h l e <-> exists p, chain h l p (Some e).
  Proof.
    split.
    - induction 1 as [l H|l l' e H _ (p & IH)]; [exists []; now constructor|exists (l' :: p); now constructor].
    - intros (p & H). remember (Some e) as o eqn:Eo. induction H; [injection Eo as ->; now apply leads_stop|discriminate|eapply leads_step; eauto].
  Qed.
  Lemma chain_det h l p e : chain h l p e -> forall p' e', chain h l p' e' -> p' = p /\ e' = e.
  Proof.
    induction 1 as [l H|l v H N|l l' p e H C IH]; intros p' e' C'; inversion C'; subst; try (split; reflexivity); try (unfold hasattr in *; rewrite H in *; discriminate);
      try (unfold hasattr in *; rewrite H0 in *; discriminate); try (rewrite H in H0; injection H0 as ->; now exfalso; eapply N).
    - rewrite H in H0. injection H0 as <-. exfalso. now eapply H1.
    - rewrite H in H0. injection H0 as <-. destruct (IH _ _ H1) as (-> & ->). auto.
  Qed.
  Lemma chain_suffix h l p e : chain h l p e -> forall x, In x p -> exists q, chain h x q e /\ length q < length p.
  Proof.
    induction 1 as [l H|l v H N|l l' p e H C IH]; intros x Hx; [destruct Hx|destruct Hx|]. destruct Hx as [->|Hx]; [exists p; cbn; auto|]. destruct (IH x Hx) as (q & A & B). exists q. cbn. split; [exact A|lia].
  Qed.
  Lemma chain_new h l p e : chain h l p e -> ~ In l p.
  Proof. intros C Hin. destruct (chain_suffix h l p e C l Hin) as (q & Cq & L). destruct (chain_det h l p e C q e Cq) as (-> & _). lia. Qed.
  Lemma chain_nodup h l p e : chain h l p e -> NoDup p.
  Proof. induction 1 as [| |l l' p e H C IH]; constructor; [now apply (chain_new h l' p e)|exact IH]. Qed.
  Lemma chain_inside h l p e : proper h -> chain h l p e -> forall x, In x p -> x < length h.
  Proof. intros P. induction 1 as [| |l l' p e H C IH]; intros x Hx; [destruct Hx|destruct Hx|]. destruct Hx as [<-|Hx]; [now apply (wrapped_exists h l)|auto]. Qed.
  (** how unwrap reports the end of a chain *)
  Definition reported (e : option nat) : result nat := match e with Some e => Ok e | None => Err TypeError end.
  Lemma chain_unwrap h l p e : chain h l p e -> forall fuel memo, length p < fuel -> (forall x, In x p -> ~ In x memo) -> unwrap fuel h memo l = reported e.
  Proof.
    induction 1 as [l H|l v H N|l l' p e H C IH]; intros fuel memo Hf Hm; (destruct fuel as [|fuel]; [cbn in Hf; lia|]); cbn [unwrap].
    - unfold hasattr in H. destruct (getattr h l "__wrapped__"%string); [discriminate|reflexivity].
    - rewrite H. destruct v as [| |l'|]; try reflexivity. now exfalso; apply (N l').
    - rewrite H. destruct (existsb (Nat.eqb l') memo) eqn:X.
      { exfalso. apply existsb_exists in X as (y & Hy & E). apply Nat.eqb_eq in E. subst y. apply (Hm l'); [now left|exact Hy]. }
      apply IH; [cbn in Hf; lia|]. intros x Hx [<-|Hin]; [now apply (chain_new h l' p e C)|]. apply (Hm x); [now right|exact Hin].
  Qed.
  Lemma unwrap_chain h : forall fuel memo l, (exists p e, chain h l p e) \/ unwrap fuel h memo l = Err ValueError \/ unwrap fuel h memo l = Err OutOfFuel.
  Proof.
    induction fuel as [|fuel IH]; intros memo l; [right; right; reflexivity|]. cbn [unwrap]. destruct (getattr h l "__wrapped__"%string) as [v|x] eqn:G.
    - destruct v as [| |l'|]; try (left; exists [], None; eapply chain_dead; [exact G|congruence]).
      destruct (existsb _ memo); [auto|]. destruct (IH (l' :: memo) l') as [(p & e & C)|R]; [left; exists (l' :: p), e; now constructor|right; exact R].
    - left. exists [], (Some l). constructor. unfold hasattr. now rewrite G.
  Qed.
  Lemma unwrap_fuel h : proper h -> forall fuel memo l, NoDup memo -> (forall x, In x memo -> x < length h) -> length h < fuel + length memo -> unwrap fuel h memo l <> Err OutOfFuel.
  Proof.
    intros P. induction fuel as [|fuel IH]; intros memo l N B L.
    - exfalso. cbn in L. assert (length memo <= length h); [|lia]. rewrite <- (seq_length (length h) 0). apply NoDup_incl_length; [exact N|]. intros x Hx. apply in_seq. specialize (B x Hx). lia.
    - cbn [unwrap]. destruct (getattr h l "__wrapped__"%string) as [v|x] eqn:G; [|discriminate]. destruct v as [| |l'|]; try discriminate. destruct (existsb (Nat.eqb l') memo) eqn:X; [discriminate|]. apply IH.
      + constructor; [|exact N]. intros Hin. apply Bool.not_true_iff_false in X. apply X, existsb_exists. exists l'. split; [exact Hin|apply Nat.eqb_refl].
      + intros x [<-|Hx]; [now apply (wrapped_exists h l)|auto].
      + cbn. lia.
  Qed.
  (** Python's way, with a memory of the objects met so far, finds the end of the chain whenever there is one, and otherwise gives up with a ValueError. *)
  Lemma unwrap_spec h l : proper h -> l < length h ->
    (forall p e, chain h l p e -> unwrap (S (length h)) h [l] l = reported e) /\ ((forall p e, ~ chain h l p e) -> unwrap (S (length h)) h [l] l = Err ValueError).
  Proof.
    intros P Hl. split.
    - intros p e C. apply (chain_unwrap h l p e C).
      + apply Nat.lt_succ_r. rewrite <- (seq_length (length h) 0). apply NoDup_incl_length; [now apply (chain_nodup h l p e)|]. intros x Hx. apply in_seq. split; [lia|]. cbn. now apply (chain_inside h l p e).
      + intros x Hx [<-|[]]. now apply (chain_new h l p e C).
    - intros N. destruct (unwrap_chain h (S (length h)) [l] l) as [(p & e & C)|[R|R]]; [now exfalso; apply (N p e)|exact R|]. exfalso. revert R. apply (unwrap_fuel h P).
      + constructor; [intros []|constructor].
      + intros x [<-|[]]. exact Hl.
      + cbn. lia.
  Qed.
  (** Two objects with the same chain. *)
  Lemma same_unwrap h h' l l' : proper h -> proper h' -> l < length h -> l' < length h' -> (forall e, (exists p, chain h l p e) <-> (exists p, chain h' l' p e)) ->
    unwrap (S (length h)) h [l] l = unwrap (S (length h')) h' [l'] l'.
  Proof.
    intros P P' L L' S. destruct (unwrap_spec h l P L) as (A & B). destruct (unwrap_spec h' l' P' L') as (A' & B').
    destruct (unwrap_chain h (Datatypes.S (length h)) [l] l) as [(p & e & C)|R].
    - destruct (proj1 (S e) (ex_intro _ p C)) as (p' & C'). rewrite (A p e C), (A' p' e C'). reflexivity.
    - assert (N : forall p e, ~ chain h l p e).
      { intros p e C. rewrite (A p e C) in R. destruct e; cbn in R; intuition discriminate. }
      rewrite (B N). symmetry. apply B'. intros p e C. destruct (proj2 (S e) (ex_intro _ p C)) as (q & Cq). now apply (N q e).
  Qed.
End Proofs.
