(** Proofs for C83: states built from the vacuum by operators that satisfy the anticommutation relations. *)
From Coq Require Import Ring Setoid Morphisms Ncring Ncring_tac Sorted.
From Verif Require Import Base BaseFacts MatModel MatFacts LiftSpec LiftProofs OpModel OpSpec OpProofs OpProofs2 PauliProofs FermiModel FermiSpec FermiProofs FermiProofs2 FermiProofs3 FermiProofs6 UCCSpec MatRing UCCProofs.
Open Scope list_scope.
Local Open Scope nat_scope.

(** What a creation or annihilation operator does to an increasing list of occupied modes; the boolean is the sign. *)
Fixpoint up (p : nat) (l : list nat) : option (bool * list nat) :=
  match l with
  | [] => Some (false, [p])
  | q :: l' => if Nat.eqb p q then None else if p <? q then Some (false, p :: l) else match up p l' with Some (s, m) => Some (negb s, q :: m) | None => None end
  end.
Fixpoint down (p : nat) (l : list nat) : option (bool * list nat) :=
  match l with
  | [] => None
  | q :: l' => if Nat.eqb p q then Some (false, l') else match down p l' with Some (s, m) => Some (negb s, q :: m) | None => None end
  end.
Definition step (p : nat) (d : bool) (l : list nat) := if d then up p l else down p l.
Lemma up_In p l : forall s m, up p l = Some (s, m) -> forall q, In q m <-> q = p \/ In q l.
Proof.
  induction l as [|x l IH]; intros s m E q; cbn [up] in E; [injection E as <- <-; cbn; intuition|]. destruct (Nat.eqb_spec p x); [discriminate|]. destruct (p <? x); [injection E as <- <-; cbn; intuition|].
  destruct (up p l) as [[s' m']|]; [|discriminate]. injection E as <- <-. cbn [In]. rewrite (IH s' m' eq_refl q). intuition.
Qed.
Lemma up_sorted p l : StronglySorted lt l -> forall s m, up p l = Some (s, m) -> StronglySorted lt m.
Proof.
  induction 1 as [|x l S IH F]; intros s m E; cbn [up] in E; [injection E as <- <-; repeat constructor|]. destruct (Nat.eqb_spec p x); [discriminate|]. destruct (Nat.ltb_spec p x) as [Hx|Hx].
  - injection E as <- <-. rewrite Forall_forall in F. constructor; [constructor; [exact S|rewrite Forall_forall; exact F]|]. constructor; [exact Hx|]. rewrite Forall_forall. intros y Hy. specialize (F y Hy). lia.
  - destruct (up p l) as [[s' m']|] eqn:Eu; [|discriminate]. injection E as <- <-. constructor; [apply (IH s' m' eq_refl)|]. rewrite Forall_forall in *. intros y Hy. apply (up_In p l s' m' Eu) in Hy as [->|Hy]; [lia|auto].
Qed.
Lemma down_incl p l : forall s m, down p l = Some (s, m) -> incl m l.
Proof.
  induction l as [|x l IH]; intros s m E; cbn [down] in E; [discriminate|]. destruct (Nat.eqb_spec p x); [injection E as <- <-; apply incl_tl, incl_refl|].
  destruct (down p l) as [[s' m']|]; [|discriminate]. injection E as <- <-. intros q [<-|Hq]; [left; reflexivity|right; apply (IH s' m' eq_refl q Hq)].
Qed.
Lemma down_sorted p l : StronglySorted lt l -> forall s m, down p l = Some (s, m) -> StronglySorted lt m.
Proof.
  induction 1 as [|x l S IH F]; intros s m E; cbn [down] in E; [discriminate|]. destruct (Nat.eqb_spec p x); [injection E as <- <-; exact S|].
  destruct (down p l) as [[s' m']|] eqn:Eu; [|discriminate]. injection E as <- <-. constructor; [apply (IH s' m' eq_refl)|]. rewrite Forall_forall in *. intros y Hy. apply F. apply (down_incl p l s' m' Eu y Hy).
Qed.
Lemma down_none p l : ~ In p l -> down p l = None.
Proof. induction l as [|x l IH]; intros H; [reflexivity|]. cbn [down]. destruct (Nat.eqb_spec p x); [exfalso; apply H; left; auto|]. rewrite IH by (intros X; apply H; right; exact X). reflexivity. Qed.
(** lists of modes that stand for states *)
Definition modes_ok (n : nat) (l : list nat) : Prop := StronglySorted lt l /\ forall p, In p l -> p < n.
Lemma step_ok n p d l s m : p < n -> modes_ok n l -> step p d l = Some (s, m) -> modes_ok n m.
Proof.
  intros Hp [S B] E. destruct d; cbn [step] in E.
  - split; [apply (up_sorted p l S s m E)|]. intros q Hq. apply (up_In p l s m E) in Hq as [->|Hq]; auto.
  - split; [apply (down_sorted p l S s m E)|]. intros q Hq. apply B. apply (down_incl p l s m E q Hq).
Qed.
Lemma sorted_nodup l : StronglySorted lt l -> NoDup l.
Proof. induction 1 as [|x l S IH F]; constructor; auto. intros H. rewrite Forall_forall in F. specialize (F x H). lia. Qed.

Section S.
  Context {K : cring} (n : nat).
  Add Ring Kring_rot3 : (kth K).
  Local Notation "A '==' B" := (sq_eq (K := K) (Nat.pow 2 n) A B) (at level 70, no associativity) : sq_scope.
  Local Notation "A '+' B" := (sq_add (K := K) (Nat.pow 2 n) A B) : sq_scope.
  Local Notation "A '-' B" := (sq_sub (K := K) (Nat.pow 2 n) A B) : sq_scope.
  Local Notation "A '*' B" := (sq_mul (K := K) (Nat.pow 2 n) A B) : sq_scope.
  Local Notation "'-' A" := (sq_opp (K := K) (Nat.pow 2 n) A) : sq_scope.
  Local Notation "0" := (sq0 (K := K) (Nat.pow 2 n)) : sq_scope.
  Local Notation "1" := (sq1 (K := K) (Nat.pow 2 n)) : sq_scope.
  Notation T := (T (K := K) n).
  Definition vac : T := fun i j => if Nat.eqb i 0 && Nat.eqb j 0 then k1 else k0.
  Section Fock.
    Context (A : nat -> bool -> T).
    Definition fock : Prop :=
      (forall p q d e, p < n -> q < n -> (A p d * A q e + A q e * A p d == if negb (Bool.eqb d e) then delta n p q else 0)%sq) /\
      (forall p d, p < n -> (A p d * A p d == 0)%sq) /\ (forall p, p < n -> (A p false * vac == 0)%sq).
    Context (H : fock).
    Definition made (l : list nat) : T := fold_right (fun p M => (A p true * M)%sq) 1%sq l.
    Definition interp (r : option (bool * list nat)) : T := match r with None => 0%sq | Some (s, l) => if s then (- (made l * vac))%sq else (made l * vac)%sq end.
    Lemma raise p l : p < n -> (forall q, In q l -> q < n) -> (A p true * (made l * vac) == interp (up p l))%sq.
    Proof.
      intros Hp. destruct H as (Car & Nil & _). induction l as [|q l IH]; intros B; cbn [up made fold_right interp].
      - non_commutative_ring.
      - assert (Hq : q < n) by (apply B; left; reflexivity). specialize (IH (fun q' H' => B q' (or_intror H'))). fold (made l).
        destruct (Nat.eqb_spec p q) as [<-|N].
        + cbn [interp]. transitivity ((A p true * A p true) * (made l * vac))%sq; [non_commutative_ring|]. rewrite (Nil p true Hp). non_commutative_ring.
        + destruct (p <? q); [cbn [interp made fold_right]; fold (made l); non_commutative_ring|].
          transitivity ((A p true * A q true + A q true * A p true) * (made l * vac) - A q true * (A p true * (made l * vac)))%sq; [non_commutative_ring|].
          rewrite (Car p q true true Hp Hq), IH. cbn [Bool.eqb negb]. destruct (up p l) as [[[] m]|]; cbn [interp negb made fold_right]; fold (made l); try fold (made m); non_commutative_ring.
    Qed.
    Lemma lower p l : p < n -> NoDup l -> (forall q, In q l -> q < n) -> (A p false * (made l * vac) == interp (down p l))%sq.
    Proof.
      intros Hp. destruct H as (Car & Nil & Vac). induction l as [|q l IH]; intros N B; cbn [down made fold_right interp].
      - transitivity (A p false * vac)%sq; [non_commutative_ring|]. apply Vac, Hp.
      - assert (Hq : q < n) by (apply B; left; reflexivity). inversion N as [|? ? N1 N2]; subst. specialize (IH N2 (fun q' H' => B q' (or_intror H'))). fold (made l).
        transitivity ((A p false * A q true + A q true * A p false) * (made l * vac) - A q true * (A p false * (made l * vac)))%sq; [non_commutative_ring|].
        rewrite (Car p q false true Hp Hq), IH. cbn [Bool.eqb negb]. unfold delta. destruct (Nat.eqb_spec p q) as [<-|Npq].
        + rewrite down_none by exact N1. cbn [interp]. non_commutative_ring.
        + destruct (down p l) as [[[] m]|]; cbn [interp negb made fold_right]; try fold (made m); non_commutative_ring.
    Qed.
    Lemma fock_step p d l : p < n -> modes_ok n l -> (A p d * (made l * vac) == interp (step p d l))%sq.
    Proof. intros Hp [S B]. destruct d; cbn [step]; [apply raise|apply lower]; auto. apply sorted_nodup, S. Qed.
    Lemma vac_col (M : T) i : i < 2 ^ n -> (M * vac)%sq i O = M i O.
    Proof.
      intros Hi. assert (P : 0 < 2 ^ n) by lia. unfold sq_mul, vac. rewrite (bigsum_single (K := K) (2 ^ n) 0); [cbn [Nat.eqb andb]; ring|exact P|]. intros k _ Nk. destruct (Nat.eqb_spec k 0); [contradiction|]. cbn [andb]. ring.
    Qed.
  End Fock.
  (** ** The ladder operators themselves *)
  Lemma bval_zero m : bval (repeat false m) = 0.
  Proof. induction m as [|m IH]; [reflexivity|]. cbn [repeat bval]. rewrite IH. reflexivity. Qed.
  Lemma bits_zero m : bits m 0 = repeat false m.
  Proof. rewrite <- (bval_zero m). apply bits_bval_n. apply repeat_length. Qed.
  Lemma bits_zero_nth m q : nth q (bits m 0) false = false.
  Proof. rewrite bits_zero. revert q. induction m as [|m IH]; intros [|q]; cbn; auto. Qed.
  Lemma lad_fock : fock (lad n).
  Proof.
    split; [intros; apply lad_car; auto|]. split; [intros; apply lad_nil; auto|]. intros p Hp i j Hi Hj. unfold sq_mul, sq0. apply bigsum_0. intros k Hk. unfold vac. destruct (Nat.eqb_spec k 0) as [->|]; [|cbn [andb]; ring].
    destruct (ladder_mono (K := K) n (p, false) Hp) as (_ & _ & E). unfold lad. rewrite E by auto. unfold mono. cbn [ent ladder_act fst snd]. rewrite bits_zero_nth. cbn [negb Bool.eqb]. destruct (Nat.eqb i _); ring.
  Qed.
  (** the occupations of a list of modes *)
  Definition occb (l : list nat) : list bool := map (fun p => memb Nat.eqb p l) (seq 0 n).
  Lemma occb_length l : length (occb l) = n.
  Proof. unfold occb. rewrite map_length, seq_length. reflexivity. Qed.
  Lemma occb_nth l q : q < n -> nth q (occb l) false = memb Nat.eqb q l.
  Proof.
    intros Hq. unfold occb. rewrite nth_indep with (d' := memb Nat.eqb 0 l) by (rewrite map_length, seq_length; exact Hq). rewrite (map_nth (fun p => memb Nat.eqb p l)), seq_nth by exact Hq. reflexivity.
  Qed.
  Lemma made_fact l : StronglySorted lt l -> (forall p, In p l -> p < n) -> fact (K := K) (tagged true l) (bits n 0) = (k1, occb l).
  Proof.
    intros S B. apply injective_projections.
    - cbn [fst]. induction S as [|p l S IH F]; [reflexivity|]. cbn [tagged map fact]. fold (tagged true l). unfold mcomp. cbn [fst ladder_act snd]. rewrite IH by (intros q Hq; apply B; right; exact Hq).
      assert (Z : forall q, q <= p -> nth q (snd (fact (K := K) (tagged true l) (bits n 0))) false = false).
      { intros q Hq. rewrite fact_tagged_nth; [|rewrite bits_length; intros x Hx; apply B; right; exact Hx|rewrite bits_length; specialize (B p (or_introl eq_refl)); lia].
        rewrite bits_zero_nth. destruct (memb Nat.eqb q l) eqn:M; [|reflexivity]. apply (memb_In _ nat_eqb_spec) in M. rewrite Forall_forall in F. specialize (F q M). lia. }
      rewrite (Z p (Nat.le_refl p)). cbn [negb Bool.eqb].
      assert (W : odd_count (firstn p (snd (fact (K := K) (tagged true l) (bits n 0)))) = false); [|rewrite W; cbn [sgn]; ring].
      assert (Q : forall c, (forall q, q < p -> nth q c false = false) -> odd_count (firstn p c) = false); [|apply Q; intros q Hq; apply Z; lia].
      clear. induction p as [|p IH]; intros c Z; [reflexivity|]. destruct c as [|x c]; [reflexivity|]. cbn [firstn]. assert (x = false) as -> by (apply (Z 0); lia).
      specialize (IH c (fun q Hq => Z (S q) ltac:(lia))). unfold odd_count in *. cbn. rewrite IH. reflexivity.
    - cbn [snd]. apply bits_ext; [rewrite fact_length, bits_length, occb_length; reflexivity|]. rewrite fact_length, bits_length. intros q Hq.
      rewrite fact_tagged_nth; [|rewrite bits_length; exact B|rewrite bits_length; exact Hq]. rewrite bits_zero_nth, occb_nth by exact Hq. destruct (memb Nat.eqb q l); reflexivity.
  Qed.
  Lemma made_term l : made (lad n) l = ent (fterm_matrix (K := K) n (tagged true l)).
  Proof. induction l as [|p l IH]; [reflexivity|]. cbn [made fold_right tagged map]. fold (made (lad n) l). rewrite IH. reflexivity. Qed.
  Lemma made_state l i : modes_ok n l -> i < 2 ^ n -> made (lad n) l i 0 = if Nat.eqb i (bval (occb l)) then k1 else k0.
  Proof.
    intros [S B] Hi. rewrite made_term. destruct (fterm_mono (K := K) n (tagged true l)) as (_ & _ & E); [intros f Hf; apply in_map_iff in Hf as (p & <- & Hp); apply B, Hp|].
    destruct (fterm_shape (K := K) n (tagged true l)) as [Sr Sc]. rewrite E; [|rewrite Sr; exact Hi|rewrite Sc; lia]. unfold mono. cbn [ent]. rewrite made_fact by auto. reflexivity.
  Qed.
End S.
