(** Proofs for C78: sums over the orbitals of an active space. *)
From Coq Require Import Ring Permutation.
From Verif Require Import Base BaseFacts MatModel MatFacts MolSpec MolProofs UCCProofs2.
Open Scope list_scope.
Local Open Scope nat_scope.

Section S.
  Context {K : cring}.
  Add Ring Kring_mol2 : (kth K).
  Open Scope K_scope.
  Definition su {X} (l : list X) (f : X -> K) : K := lsum (map f l).
  Lemma su_app {X} (l m : list X) f : su (l ++ m) f = su l f + su m f.
  Proof. unfold su. rewrite map_app. apply lsum_app. Qed.
  Lemma su_ext {X} (l : list X) f g : (forall x, In x l -> f x = g x) -> su l f = su l g.
  Proof. intros H. unfold su. f_equal. apply map_ext_in. exact H. Qed.
  Lemma su_zero {X} (l : list X) f : (forall x, In x l -> f x = 0) -> su l f = 0.
  Proof. intros H. rewrite (su_ext l f (fun _ => 0) H). clear H. induction l as [|x l IH]; [reflexivity|]. unfold su in *. cbn [map lsum]. rewrite IH. ring. Qed.
  Lemma su_add {X} (l : list X) f g : su l (fun x => f x + g x) = su l f + su l g.
  Proof. induction l as [|x l IH]; unfold su in *; cbn [map lsum]; [|rewrite IH]; ring. Qed.
  Lemma su_mul {X} (l : list X) c f : su l (fun x => c * f x) = c * su l f.
  Proof. induction l as [|x l IH]; unfold su in *; cbn [map lsum]; [|rewrite IH]; ring. Qed.
  Lemma su_opp {X} (l : list X) f : su l (fun x => - f x) = - su l f.
  Proof. induction l as [|x l IH]; unfold su in *; cbn [map lsum]; [|rewrite IH]; ring. Qed.
  Lemma su_mul_r {X} (l : list X) c f : su l (fun x => f x * c) = su l f * c.
  Proof. induction l as [|x l IH]; unfold su in *; cbn [map lsum]; [|rewrite IH]; ring. Qed.
  Lemma su_swap {X Y} (l : list X) (m : list Y) f : su l (fun x => su m (fun y => f x y)) = su m (fun y => su l (fun x => f x y)).
  Proof.
    induction l as [|x l IH]; [symmetry; apply su_zero; reflexivity|]. unfold su at 1. cbn [map lsum]. fold (su l (fun x => su m (fun y => f x y))). rewrite IH, <- su_add. apply su_ext. intros y _. reflexivity.
  Qed.
  Lemma su_perm {X} (l m : list X) f : Permutation l m -> su l f = su m f.
  Proof. unfold su. induction 1; cbn [map lsum]; [reflexivity|rewrite IHPermutation; reflexivity|ring|congruence]. Qed.
  Lemma su_map {X Y} (g : X -> Y) l f : su (map g l) f = su l (fun x => f (g x)).
  Proof. unfold su. rewrite map_map. reflexivity. Qed.
  Lemma su_flat {X Y} (g : X -> list Y) l f : su (flat_map g l) f = su l (fun x => su (g x) f).
  Proof. induction l as [|x l IH]; [reflexivity|]. cbn [flat_map]. rewrite su_app, IH. reflexivity. Qed.
  Lemma su_single (l : list nat) a f : NoDup l -> In a l -> (forall x, In x l -> x <> a -> f x = 0) -> su l f = f a.
  Proof.
    intros N I H. apply in_split in I as (l1 & l2 & ->). apply NoDup_remove in N as [_ N]. rewrite su_app. unfold su at 2. cbn [map lsum]. fold (su l2 f).
    rewrite (su_zero l1), (su_zero l2); [ring| |]; intros x Hx; apply H; try (apply in_app_iff; cbn; tauto); intros ->; apply N, in_app_iff; tauto.
  Qed.
  Lemma su_seq n f : su (seq 0 n) f = bigsum n f.
  Proof. induction n as [|n IH]; [reflexivity|]. rewrite seq_S, su_app, IH. cbn. ring. Qed.
  Lemma su_nth (l : list nat) f : su l f = su (seq 0 (length l)) (fun k => f (nth k l 0%nat)).
  Proof. rewrite <- (su_map (fun k => nth k l 0%nat)). f_equal. apply (nth_ext _ _ 0%nat 0%nat); [rewrite map_length, seq_length; reflexivity|]. intros k Hk. rewrite (nth_indep (map _ _) 0%nat (nth 0 l 0)%nat) by (rewrite map_length, seq_length; lia). rewrite (map_nth (fun k => nth k l 0%nat)), seq_nth by lia. reflexivity. Qed.
  Lemma su_split n occ act f : active_space n occ act -> (forall p, (p < n)%nat -> ~ In p occ -> ~ In p act -> f p = 0) -> su (seq 0 n) f = su occ f + su act f.
  Proof.
    intros (N1 & Hi & Hd & Hr) H. set (io := fun p => memb Nat.eqb p (occ ++ act)).
    assert (N : NoDup (occ ++ act)) by (apply NoDup_app; [exact N1|apply increasing_NoDup; exact Hi|intros a b; apply Hd; assumption]).
    assert (E : su (seq 0 n) f = su (filter io (seq 0 n)) f).
    { assert (R : forall l, (forall p, In p l -> (p < n)%nat) -> su l f = su (filter io l) f).
      { induction l as [|p l IH]; intros Hl; [reflexivity|]. unfold su at 1. cbn [map lsum]. fold (su l f). rewrite IH by (intros q Hq; apply Hl; right; exact Hq). cbn [filter]. destruct (io p) eqn:E; [reflexivity|].
        rewrite H; [ring|apply Hl; left; reflexivity| |]; intros I; apply not_true_iff_false in E; apply E, (memb_In _ nat_eqb_spec), in_app_iff; auto. }
      apply R. intros p Hp. apply in_seq in Hp. lia. }
    rewrite E, <- su_app. apply su_perm, NoDup_Permutation; [apply NoDup_filter, seq_NoDup|exact N|]. intros p. rewrite filter_In, in_seq. unfold io. rewrite (memb_In _ nat_eqb_spec). split; [tauto|]. intros I. split; [|exact I].
    apply in_app_iff in I. specialize (Hr p I). lia.
  Qed.

  (** the frozen-core formula, for any numbers with the symmetries of the matrix elements *)
  Context (n : nat) (occ act : list nat) (Hs : active_space n occ act) (half : K) (Hh : half + half = 1) (D : K) (S : nat -> nat -> K) (T : nat -> nat -> nat -> nat -> K).
  Notation ob p := (p < n)%nat.
  Notation other p := (~ In p occ /\ ~ In p act).
  Context (S_core : forall p q, In p occ -> ob q -> S p q = if Nat.eqb p q then D + D else 0)
          (S_act : forall p q, In p act -> In q occ -> S p q = 0)
          (S_other : forall p q, ob p -> ob q -> other p \/ other q -> S p q = 0)
          (T_core : forall p q r s, In p occ -> ob q -> ob r -> ob s -> T p q r s = (if Nat.eqb p s then S q r + S q r else 0) - (if Nat.eqb p r then S q s else 0))
          (T_swap : forall p q r s, ob p -> ob q -> ob r -> ob s -> T p q r s = T q p s r)
          (T_act : forall p q r s, In p act -> In q act -> ob r -> ob s -> In r occ \/ In s occ -> T p q r s = 0)
          (T_other : forall p q r s, ob p -> ob q -> ob r -> ob s -> other p \/ other q \/ other r \/ other s -> T p q r s = 0).
  Notation all := (seq 0 n).
  Let inall : forall p, In p all <-> ob p.
  Proof. intros p. rewrite in_seq. lia. Qed.
  Let occ_ob : forall p, In p occ -> ob p.
  Proof. intros p H. apply Hs. auto. Qed.
  Let act_ob : forall p, In p act -> ob p.
  Proof. intros p H. apply Hs. auto. Qed.
  Let occ_not : forall p, In p occ -> ~ In p act.
  Proof. intros p. apply Hs. Qed.
  Lemma pick_all (a : nat) (f : nat -> K) : ob a -> su all (fun q => if Nat.eqb a q then f q else 0) = f a.
  Proof.
    intros H. rewrite (su_single all a); [rewrite Nat.eqb_refl; reflexivity|apply seq_NoDup|apply inall; exact H|]. intros x _ N. replace (Nat.eqb a x) with false; [reflexivity|]. symmetry. apply Nat.eqb_neq. auto.
  Qed.
  Lemma act_row p (f : nat -> K) : In p act -> su all (fun q => f q * S p q) = su act (fun q => f q * S p q).
  Proof.
    intros H. rewrite (su_split n occ act); [|exact Hs|].
    - rewrite (su_zero occ); [ring|]. intros q Hq. rewrite S_act by auto. ring.
    - intros q Hq A B. rewrite S_other; auto. ring.
  Qed.
  Lemma one_body_sum (h : nat -> nat -> K) : su all (fun p => su all (fun q => h p q * S p q)) = D * su occ (fun p => (1 + 1) * h p p) + su act (fun u => su act (fun v => h u v * S u v)).
  Proof.
    rewrite (su_split n occ act); [|exact Hs|].
    - f_equal.
      + rewrite <- su_mul. apply su_ext. intros p Hp. transitivity (su all (fun q => if Nat.eqb p q then h p q * (D + D) else 0)); [|rewrite pick_all by auto; ring].
        apply su_ext. intros q Hq. rewrite S_core by (auto; apply inall; exact Hq). destruct (Nat.eqb p q); ring.
      + apply su_ext. intros p Hp. apply act_row. exact Hp.
    - intros p Hp A B. apply su_zero. intros q Hq. rewrite S_other; auto; [ring|apply inall; exact Hq].
  Qed.
  Lemma frozen_core (h : nat -> nat -> K) (g : nat -> nat -> nat -> nat -> K) : exchange_symmetric n g ->
    su all (fun p => su all (fun q => h p q * S p q)) + su all (fun p => su all (fun q => su all (fun r => su all (fun s => half * g p q r s * T p q r s)))) =
    D * su occ (fun i => (1 + 1) * h i i + su occ (fun j => (1 + 1) * g i j j i - g i j i j)) +
    su act (fun u => su act (fun v => (h u v + su occ (fun i => (1 + 1) * g i u v i - g i u i v)) * S u v)) +
    su act (fun p => su act (fun q => su act (fun r => su act (fun s => half * g p q r s * T p q r s)))).
  Proof.
    intros Hg.
    (* one electron in the core *)
    assert (C1 : forall p, In p occ -> su all (fun q => su all (fun r => su all (fun s => half * g p q r s * T p q r s))) =
      D * su occ (fun j => (1 + 1) * g p j j p - g p j p j) + su act (fun u => su act (fun v => (g p u v p - half * g p u p v) * S u v))).
    { intros p Hp.
      transitivity (su all (fun q => su all (fun r => g p q r p * S q r)) + - (half * su all (fun q => su all (fun s => g p q p s * S q s)))).
      { rewrite <- su_mul, <- su_opp, <- su_add. apply su_ext. intros q Hq. apply inall in Hq.
        transitivity (su all (fun r => su all (fun s => if Nat.eqb p s then g p q r s * S q r else 0)) + - (half * su all (fun r => su all (fun s => if Nat.eqb p r then g p q r s * S q s else 0)))).
        { rewrite <- su_mul, <- su_opp, <- su_add. apply su_ext. intros r Hr. rewrite <- su_mul, <- su_opp, <- su_add. apply su_ext. intros s Hs'. apply inall in Hr, Hs'. rewrite T_core by auto.
          assert (H2 : forall a b : K, half * a * (b + b) = a * b) by (intros a b; transitivity ((half + half) * (a * b)); [ring|rewrite Hh; ring]).
          destruct (Nat.eqb p s), (Nat.eqb p r).
          - transitivity (half * g p q r s * (S q r + S q r) - half * g p q r s * S q s); [ring|rewrite H2; ring].
          - transitivity (half * g p q r s * (S q r + S q r)); [ring|rewrite H2; ring].
          - ring.
          - ring. }
        f_equal.
        - apply su_ext. intros r Hr. rewrite pick_all by auto. reflexivity.
        - do 2 f_equal. transitivity (su all (fun r => if Nat.eqb p r then su all (fun s => g p q r s * S q s) else 0)); [|rewrite pick_all by auto; reflexivity].
          apply su_ext. intros r Hr. destruct (Nat.eqb p r); [reflexivity|]. apply su_zero. reflexivity. }
      rewrite (one_body_sum (fun q r => g p q r p)), (one_body_sum (fun q s => g p q p s)).
      assert (Q : half * (D * su occ (fun p0 => (1 + 1) * g p p0 p p0)) = D * su occ (fun j => g p j p j)).
      { rewrite su_mul. transitivity ((half + half) * (D * su occ (fun j => g p j p j))); [ring|rewrite Hh; ring]. }
      transitivity (D * su occ (fun p0 => (1 + 1) * g p p0 p0 p) + - (half * (D * su occ (fun p0 => (1 + 1) * g p p0 p p0))) + (su act (fun u => su act (fun v => g p u v p * S u v)) + - (half * su act (fun u => su act (fun v => g p u p v * S u v))))); [ring|].
      rewrite Q. f_equal.
      - transitivity (D * (su occ (fun p0 => (1 + 1) * g p p0 p0 p) + - su occ (fun j => g p j p j))); [ring|]. f_equal. rewrite <- su_opp, <- su_add. apply su_ext. intros; ring.
      - rewrite <- su_mul, <- su_opp, <- su_add. apply su_ext. intros u _. rewrite <- su_mul, <- su_opp, <- su_add. apply su_ext. intros; ring. }
    (* the second electron in the core, the first active *)
    assert (C2 : forall p, In p act -> su all (fun q => su all (fun r => su all (fun s => half * g p q r s * T p q r s))) =
      su act (fun v => su occ (fun i => g i p v i - half * g i p i v) * S p v) + su act (fun q => su act (fun r => su act (fun s => half * g p q r s * T p q r s)))).
    { intros p Hp. rewrite (su_split n occ act); [|exact Hs|].
      - f_equal.
        + transitivity (su occ (fun i => su act (fun v => (g i p v i - half * g i p i v) * S p v))).
          2:{ rewrite su_swap. apply su_ext. intros v _. rewrite su_mul_r. reflexivity. }
          apply su_ext. intros i Hi. rewrite <- (act_row p) by exact Hp.
          transitivity (su all (fun r => su all (fun s => if Nat.eqb i r then g p i r s * S p s else 0)) + - (half * su all (fun r => su all (fun s => if Nat.eqb i s then g p i r s * S p r else 0)))).
          { rewrite <- su_mul, <- su_opp, <- su_add. apply su_ext. intros r Hr. rewrite <- su_mul, <- su_opp, <- su_add. apply su_ext. intros s Hs'. apply inall in Hr, Hs'.
            rewrite T_swap by auto. rewrite T_core by auto.
            assert (H2 : forall a b : K, half * a * (b + b) = a * b) by (intros a b; transitivity ((half + half) * (a * b)); [ring|rewrite Hh; ring]).
            destruct (Nat.eqb i r), (Nat.eqb i s).
            - transitivity (half * g p i r s * (S p s + S p s) - half * g p i r s * S p r); [ring|rewrite H2; ring].
            - transitivity (half * g p i r s * (S p s + S p s)); [ring|rewrite H2; ring].
            - ring.
            - ring. }
          transitivity (su all (fun s => g p i i s * S p s) + - (half * su all (fun r => g p i r i * S p r))).
          { f_equal.
            - transitivity (su all (fun r => if Nat.eqb i r then su all (fun s => g p i r s * S p s) else 0)); [|rewrite pick_all by auto; reflexivity].
              apply su_ext. intros r Hr. destruct (Nat.eqb i r); [reflexivity|]. apply su_zero. reflexivity.
            - do 2 f_equal. apply su_ext. intros r Hr. rewrite pick_all by auto. reflexivity. }
          rewrite <- su_mul, <- su_opp, <- su_add. apply su_ext. intros v Hv. apply inall in Hv. rewrite (Hg p i i v), (Hg p i v i) by auto. ring.
        + apply su_ext. intros q Hq. rewrite (su_split n occ act); [|exact Hs|].
          * rewrite (su_zero occ). 2:{ intros r Hr. apply su_zero. intros s Hs'. apply inall in Hs'. rewrite T_act; auto. ring. }
            transitivity (su act (fun r => su all (fun s => half * g p q r s * T p q r s))); [ring|]. apply su_ext. intros r Hr. rewrite (su_split n occ act); [|exact Hs|].
            -- rewrite (su_zero occ); [ring|]. intros s Hs'. rewrite T_act; auto. ring.
            -- intros s Hs' A B. rewrite T_other; auto. ring.
          * intros r Hr A B. apply su_zero. intros s Hs'. apply inall in Hs'. rewrite T_other; auto. ring.
      - intros q Hq A B. apply su_zero. intros r Hr. apply su_zero. intros s Hs'. apply inall in Hr, Hs'. rewrite T_other; auto. ring. }
    rewrite one_body_sum. rewrite (su_split n occ act (fun p => su all _)); [|exact Hs|].
    - rewrite (su_ext occ _ _ C1), (su_ext act _ _ C2). rewrite !su_add. rewrite (su_mul occ D).
      assert (E : su act (fun u => su act (fun v => (h u v + su occ (fun i => (1 + 1) * g i u v i - g i u i v)) * S u v)) =
        su act (fun u => su act (fun v => h u v * S u v)) + (su occ (fun p => su act (fun u => su act (fun v => (g p u v p - half * g p u p v) * S u v))) + su act (fun p => su act (fun v => su occ (fun i => g i p v i - half * g i p i v) * S p v)))).
      { rewrite (su_swap occ act). rewrite <- !su_add. apply su_ext. intros u _. rewrite (su_swap occ act). rewrite <- !su_add. apply su_ext. intros v _. rewrite su_mul_r.
        transitivity ((h u v + (su occ (fun p => g p u v p - half * g p u p v) + su occ (fun i => g i u v i - half * g i u i v))) * S u v); [|ring]. f_equal. f_equal. rewrite <- su_add. apply su_ext. intros i _.
        transitivity ((1 + 1) * g i u v i - (half + half) * g i u i v); [rewrite Hh; ring|ring]. }
      rewrite E. ring.
    - intros p Hp A B. apply su_zero. intros q Hq. apply su_zero. intros r Hr. apply su_zero. intros s Hs'. apply inall in Hq, Hr, Hs'. rewrite T_other; auto. ring.
  Qed.
End S.
