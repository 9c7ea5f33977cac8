(** Proofs for C83: the change of the basis of the states that goes with a change of the basis of the modes. *)
From Coq Require Import Ring Setoid Morphisms Ncring Ncring_tac Sorted.
From Verif Require Import Base BaseFacts MatModel MatFacts LiftSpec LiftProofs OpModel OpSpec PauliProofs FermiModel FermiSpec FermiProofs FermiProofs2 FermiProofs3 FermiProofs6 UCCSpec MatRing UCCProofs RotProofs3 TensorModel DiagSpec RotSpec.
Open Scope list_scope.
Local Open Scope nat_scope.

Section S.
  Context {K : cring} (n : nat).
  Add Ring Kring_rot4 : (kth K).
  Local Notation "A '==' B" := (sq_eq (K := K) (Nat.pow 2 n) A B) (at level 70, no associativity) : sq_scope.
  Local Notation "A '+' B" := (sq_add (K := K) (Nat.pow 2 n) A B) : sq_scope.
  Local Notation "A '-' B" := (sq_sub (K := K) (Nat.pow 2 n) A B) : sq_scope.
  Local Notation "A '*' B" := (sq_mul (K := K) (Nat.pow 2 n) A B) : sq_scope.
  Local Notation "'-' A" := (sq_opp (K := K) (Nat.pow 2 n) A) : sq_scope.
  Local Notation "0" := (sq0 (K := K) (Nat.pow 2 n)) : sq_scope.
  Local Notation "1" := (sq1 (K := K) (Nat.pow 2 n)) : sq_scope.
  Notation T := (T (K := K) n).
  Notation lad := (lad (K := K) n).
  Notation vac := (vac (K := K) n).
  Notation occb := (occb n).
  Lemma pow_pos : 0 < 2 ^ n. Proof. lia. Qed.
  Definition occl (j : nat) : list nat := filter (fun p => nth p (bits n j) false) (seq 0 n).
  Lemma occl_ok j : modes_ok n (occl j).
  Proof.
    unfold occl. split.
    - assert (Q : forall m a, StronglySorted lt (filter (fun p => nth p (bits n j) false) (seq a m))).
      { induction m as [|m IH]; intros a; cbn [seq filter]; [constructor|]. destruct (nth a (bits n j) false); [|apply IH]. constructor; [apply IH|]. rewrite Forall_forall. intros x Hx. apply filter_In in Hx as [Hx _]. apply in_seq in Hx. lia. }
      apply Q.
    - intros p Hp. apply filter_In in Hp as [Hp _]. apply in_seq in Hp. lia.
  Qed.
  Lemma occl_In j p : In p (occl j) <-> p < n /\ nth p (bits n j) false = true.
  Proof. unfold occl. rewrite filter_In, in_seq. intuition lia. Qed.
  Lemma occb_occl j : occb (occl j) = bits n j.
  Proof.
    apply bits_ext; [rewrite occb_length, bits_length; reflexivity|]. rewrite occb_length. intros q Hq. rewrite occb_nth by exact Hq.
    destruct (memb Nat.eqb q (occl j)) eqn:M.
    - apply (memb_In _ nat_eqb_spec) in M. apply occl_In in M. symmetry. apply M.
    - destruct (nth q (bits n j) false) eqn:B; [|reflexivity]. exfalso. assert (X : memb Nat.eqb q (occl j) = true) by (apply (memb_In _ nat_eqb_spec), occl_In; auto). congruence.
  Qed.
  Lemma sorted_same l m : StronglySorted lt l -> StronglySorted lt m -> (forall q, In q l <-> In q m) -> l = m.
  Proof.
    intros S. revert m. induction S as [|x l S IH F]; intros m Sm E.
    - destruct m as [|y m]; [reflexivity|]. exfalso. apply (E y). left; reflexivity.
    - destruct Sm as [|y m Sm Fm]; [exfalso; apply (E x); left; reflexivity|]. rewrite Forall_forall in *.
      assert (x = y) as <-. { destruct (proj1 (E x) (or_introl eq_refl)) as [<-|H1]; [reflexivity|]. destruct (proj2 (E y) (or_introl eq_refl)) as [<-|H2]; [reflexivity|]. specialize (F y H2). specialize (Fm x H1). lia. }
      f_equal. apply IH; [exact Sm|]. intros q. split; intros Hq.
      + destruct (proj1 (E q) (or_intror Hq)) as [<-|]; [|assumption]. specialize (F x Hq). lia.
      + destruct (proj2 (E q) (or_intror Hq)) as [<-|]; [|assumption]. specialize (Fm x Hq). lia.
  Qed.
  Lemma occl_occb l : modes_ok n l -> occl (bval (occb l)) = l.
  Proof.
    intros [S B]. apply sorted_same; [apply occl_ok|exact S|]. intros q. rewrite occl_In, bits_bval_n by apply occb_length. split.
    - intros [Hq M]. rewrite occb_nth in M by exact Hq. apply (memb_In _ nat_eqb_spec), M.
    - intros Hq. split; [apply B, Hq|]. rewrite occb_nth by (apply B, Hq). apply (memb_In _ nat_eqb_spec), Hq.
  Qed.
  Lemma occb_lt l : bval (occb l) < 2 ^ n.
  Proof. rewrite <- (occb_length n l) at 2. apply bval_lt. Qed.
  Lemma occl_zero : occl 0 = [].
  Proof. destruct (occl 0) as [|p l] eqn:E; [reflexivity|]. assert (X : In p (occl 0)) by (rewrite E; left; reflexivity). apply occl_In in X as [_ X]. rewrite bits_zero_nth in X. discriminate. Qed.

  (** The matrix whose columns are the states built by [A]. *)
  Definition built (A : nat -> bool -> T) : T := fun i j => made n A (occl j) i 0.
  Lemma made_col j i : i < 2 ^ n -> j < 2 ^ n -> made n lad (occl j) i 0 = if Nat.eqb i j then k1 else k0.
  Proof. intros Hi Hj. rewrite made_state by (auto using occl_ok). rewrite occb_occl, bval_bits_small by exact Hj. reflexivity. Qed.
  Lemma col_single (X : T) (i b : nat) : b < 2 ^ n -> bigsum (2 ^ n) (fun k => kmul (X i k) (if Nat.eqb k b then k1 else k0)) = X i b.
  Proof. intros Hb. rewrite (bigsum_single (K := K) (2 ^ n) b); [rewrite Nat.eqb_refl; ring|exact Hb|]. intros k _ N. destruct (Nat.eqb_spec k b); [contradiction|]. ring. Qed.
  Lemma built_step A p d : fock n A -> p < n -> (built A * lad p d == A p d * built A)%sq.
  Proof.
    intros H Hp i j Hi Hj. transitivity (interp n A (step p d (occl j)) i 0).
    - unfold sq_mul. transitivity (bigsum (2 ^ n) (fun k => kmul (built A i k) (interp n lad (step p d (occl j)) k 0))).
      + apply bigsum_ext. intros k Hk. f_equal. rewrite <- (fock_step n lad (lad_fock n) p d (occl j) Hp (occl_ok j) k 0 Hk pow_pos). unfold sq_mul at 1.
        rewrite <- (col_single (lad p d) k j Hj). apply bigsum_ext. intros m Hm. f_equal. change ((if Nat.eqb m j then k1 else k0) = (made n lad (occl j) * vac)%sq m 0). rewrite vac_col by exact Hm. symmetry. apply made_col; auto.
      + destruct (step p d (occl j)) as [[s l]|] eqn:E; cbn [interp]; [|apply bigsum_0; intros k _; unfold sq0; ring]. pose proof (step_ok n p d (occl j) s l Hp (occl_ok j) E) as Ol.
        assert (Q : bigsum (2 ^ n) (fun k => kmul (built A i k) ((made n lad l * vac)%sq k 0)) = (made n A l * vac)%sq i 0).
        { rewrite vac_col by exact Hi. transitivity (built A i (bval (occb l))); [|unfold built; rewrite occl_occb by exact Ol; reflexivity]. rewrite <- (col_single (built A) i (bval (occb l)) (occb_lt l)).
          apply bigsum_ext. intros k Hk. f_equal. rewrite vac_col by exact Hk. apply made_state; auto. }
        destruct s; [|exact Q]. unfold sq_opp at 2. rewrite <- Q. transitivity (kmul (kopp k1) (bigsum (2 ^ n) (fun k => kmul (built A i k) ((made n lad l * vac)%sq k 0)))); [|ring].
        rewrite bigsum_mul_l. apply bigsum_ext. intros k _. unfold sq_opp. ring.
    - rewrite <- (fock_step n A H p d (occl j) Hp (occl_ok j) i 0 Hi pow_pos). unfold sq_mul at 1. unfold sq_mul at 2. apply bigsum_ext. intros k Hk. f_equal. rewrite vac_col by exact Hk. reflexivity.
  Qed.
  (** A matrix that commutes with the ladder operators and keeps the vacuum is the identity. *)
  Lemma commutant (M : T) : (forall p d, p < n -> (M * lad p d == lad p d * M)%sq) -> (M * vac == vac)%sq -> (M == 1)%sq.
  Proof.
    intros C V. assert (Q : forall l, (forall q, In q l -> q < n) -> (M * made n lad l == made n lad l * M)%sq).
    { induction l as [|p l IH]; intros B; cbn [made fold_right]; [non_commutative_ring|]. fold (made n lad l). specialize (IH (fun q H => B q (or_intror H))).
      transitivity ((M * lad p true) * made n lad l)%sq; [non_commutative_ring|]. rewrite (C p true (B p (or_introl eq_refl))). transitivity (lad p true * (M * made n lad l))%sq; [non_commutative_ring|]. rewrite IH. non_commutative_ring. }
    intros i j Hi Hj. transitivity ((M * (made n lad (occl j) * vac))%sq i 0).
    - unfold sq_mul at 1. rewrite <- (col_single M i j Hj). apply bigsum_ext. intros k Hk. f_equal. rewrite vac_col by exact Hk. symmetry. apply made_col; auto.
    - assert (X : (M * (made n lad (occl j) * vac) == made n lad (occl j) * vac)%sq).
      { transitivity ((M * made n lad (occl j)) * vac)%sq; [non_commutative_ring|]. rewrite Q by (apply occl_ok). transitivity (made n lad (occl j) * (M * vac))%sq; [non_commutative_ring|]. rewrite V. reflexivity. }
      rewrite (X i 0 Hi pow_pos), vac_col by exact Hi. rewrite made_col by auto. reflexivity.
  Qed.
  Definition sadj (X : T) : T := fun i j => kconj (X j i).
  Lemma sadj_mul X Y : (sadj (X * Y) == sadj Y * sadj X)%sq.
  Proof. intros i j Hi Hj. unfold sadj, sq_mul. rewrite bigsum_conj. apply bigsum_ext. intros k _. rewrite kconj_mul. ring. Qed.
  Global Instance sadj_proper : Proper (sq_eq (K := K) (2 ^ n) ==> sq_eq (2 ^ n)) sadj.
  Proof. intros X Y E i j Hi Hj. unfold sadj. rewrite (E j i Hj Hi). reflexivity. Qed.
End S.
