(** Canonical anticommutation relations and normal ordering. *)
From Coq Require Import Permutation Sorted Ring.
From Verif Require Import Base BaseFacts MatModel MatFacts LiftSpec LiftProofs OpModel OpSpec OpProofs PauliProofs OpProofs2 FermiModel FermiSpec.
Open Scope list_scope.
Local Open Scope nat_scope.

Lemma odd_count_app l m : odd_count (l ++ m) = xorb (odd_count l) (odd_count m).
Proof.
  induction l as [|x l IH]; [symmetry; apply Bool.xorb_false_l|]. change (odd_count ((x :: l) ++ m)) with (xorb x (odd_count (l ++ m))).
  change (odd_count (x :: l)) with (xorb x (odd_count l)). rewrite IH. symmetry. apply Bool.xorb_assoc.
Qed.
Lemma odd_count_setb p q v c : q < length c ->
  odd_count (firstn p (setb q v c)) = if q <? p then xorb (odd_count (firstn p c)) (xorb v (nth q c false)) else odd_count (firstn p c).
Proof.
  revert p q. induction c as [|x c IH]; intros p q H; [cbn in H; lia|]. destruct p as [|p]; [destruct q; reflexivity|].
  destruct q as [|q]; cbn [setb firstn odd_count fold_right nth].
  - cbn [Nat.ltb Nat.leb]. destruct v, x, (fold_right xorb false (firstn p c)); reflexivity.
  - cbn in H. specialize (IH p q ltac:(lia)). unfold odd_count in IH. rewrite IH. change (S q <? S p) with (q <? p). destruct (q <? p); auto.
    destruct x, (fold_right xorb false (firstn p c)), v, (nth q c false); reflexivity.
Qed.

Section F.
  Context {K : cring}.
  Add Ring Kring_f : (kth K).
  Open Scope K_scope.
  Lemma sgn_xorb a b : sgn (xorb a b) = (sgn a * sgn b : K).
  Proof. destruct a, b; cbn; ring. Qed.
  Lemma sgn_sq a : sgn a * sgn a = (1 : K).
  Proof. destruct a; cbn; ring. Qed.

  Definition ladder_act (f : factor bool) (c : list bool) : K * list bool :=
    (if Bool.eqb (nth (fst f) c false) (negb (snd f)) then sgn (odd_count (firstn (fst f) c)) else 0, setb (fst f) (snd f) c).
  Lemma ladder_keeps n f : keeps n (ladder_act f).
  Proof. intros c Hc. cbn. rewrite setb_length. auto. Qed.
  Lemma ladder_mono n f : fst f < n -> meq (ladder_matrix n f) (mono n (ladder_act f)).
  Proof.
    destruct f as [p d]. cbn [fst snd]. intros Hp. apply (meq_bits n); auto. intros b c Hb Hc. rewrite mono_ent by (auto; cbn; rewrite setb_length; auto).
    cbn [ent ladder_matrix ladder_act fst snd]. rewrite !bits_bval_n by auto.
    destruct (list_eqb Bool.eqb b (setb p d c)) eqn:E.
    - apply (list_eqb_spec _ bool_eqb_spec) in E. assert (N : nth p b false = d) by (rewrite E, nth_setb_same; auto; lia).
      rewrite (proj2 (agree_setb n p b c Hb Hc Hp)) by (rewrite N; auto). rewrite N, Bool.eqb_reflx. reflexivity.
    - destruct (agree_outside n [p] b c) eqn:G; [|reflexivity]. apply agree_setb in G; auto.
      destruct (Bool.eqb (nth p b false) d) eqn:B; [|reflexivity]. apply Bool.eqb_prop in B. rewrite B in G. rewrite <- G in E.
      rewrite (eqb_spec_refl _ (list_eqb_spec _ bool_eqb_spec)) in E. discriminate.
  Qed.

  (** the anticommutation relations *)
  Definition car (f g : factor bool) : K := if Nat.eqb (fst f) (fst g) && negb (Bool.eqb (snd f) (snd g)) then 1 else 0.
  Lemma ladder_car n f g : fst f < n -> fst g < n ->
    meq (madd (mmul (ladder_matrix n f) (ladder_matrix n g)) (mmul (ladder_matrix n g) (ladder_matrix n f))) (mscale (car f g) (eye (2 ^ n))).
  Proof.
    intros Hf Hg. apply (meq_bits n); auto. intros b c Hb Hc. cbn [ent madd mscale].
    assert (E : forall f g : factor bool, fst f < n -> fst g < n -> ent (mmul (ladder_matrix n f) (ladder_matrix n g)) (bval b) (bval c) =
      if list_eqb Bool.eqb b (snd (mcomp (ladder_act f) (ladder_act g) c)) then fst (mcomp (ladder_act f) (ladder_act g) c) else 0).
    { clear f g Hf Hg. intros f g Hf Hg.
      rewrite <- (mono_ent n (mcomp (ladder_act f) (ladder_act g)) b c Hb Hc) by (cbn; rewrite !setb_length; auto).
      assert (Q : meq (mmul (ladder_matrix n f) (ladder_matrix n g)) (mono n (mcomp (ladder_act f) (ladder_act g)))).
      { rewrite <- mono_mmul by apply ladder_keeps. apply mmul_ext; try reflexivity; apply ladder_mono; auto. }
      apply Q; cbn; [rewrite <- Hb|rewrite <- Hc]; apply bval_lt. }
    rewrite !E by auto. clear E. destruct f as [p d], g as [q e]. cbn [fst snd] in *. unfold mcomp, ladder_act, car. cbn [fst snd].
    destruct (Nat.eqb_spec p q) as [->|N].
    - rewrite !setb_setb, !nth_setb_same by lia. rewrite !odd_count_setb by lia. rewrite Nat.ltb_irrefl. cbn [andb].
      destruct (Bool.eqb d e) eqn:De; cbn [negb].
      + apply Bool.eqb_prop in De as ->. assert (X : Bool.eqb e (negb e) = false) by (destruct e; auto). rewrite X.
        destruct (list_eqb _ _ _); ring.
      + assert (e = negb d) by (destruct d, e; auto; discriminate). subst e. rewrite Bool.negb_involutive, !Bool.eqb_reflx. cbn [ent eye].
        rewrite eqb_bval by congruence. destruct (nth q c false) eqn:B.
        * destruct d; cbn [Bool.eqb negb].
          { assert (S : setb q true c = c) by (rewrite <- B; apply setb_nth). rewrite S. set (s := odd_count (firstn q c)).
            destruct (list_eqb Bool.eqb b c), (list_eqb Bool.eqb b (setb q false c)); unfold delta; rewrite ?sgn_sq; ring. }
          { assert (S : setb q true c = c) by (rewrite <- B; apply setb_nth). rewrite S. set (s := odd_count (firstn q c)).
            destruct (list_eqb Bool.eqb b c), (list_eqb Bool.eqb b (setb q false c)); unfold delta; rewrite ?sgn_sq; ring. }
        * destruct d; cbn [Bool.eqb negb].
          { assert (S : setb q false c = c) by (rewrite <- B; apply setb_nth). rewrite S. set (s := odd_count (firstn q c)).
            destruct (list_eqb Bool.eqb b c), (list_eqb Bool.eqb b (setb q true c)); unfold delta; rewrite ?sgn_sq; ring. }
          { assert (S : setb q false c = c) by (rewrite <- B; apply setb_nth). rewrite S. set (s := odd_count (firstn q c)).
            destruct (list_eqb Bool.eqb b c), (list_eqb Bool.eqb b (setb q true c)); unfold delta; rewrite ?sgn_sq; ring. }
    - cbn [andb]. rewrite (setb_comm p q d e c N), !nth_setb_other, !odd_count_setb by (auto; lia).
      destruct (list_eqb Bool.eqb b _); [|ring].
      destruct (Bool.eqb (nth p c false) (negb d)) eqn:Ep, (Bool.eqb (nth q c false) (negb e)) eqn:Eq; try ring.
      apply Bool.eqb_prop in Ep, Eq. rewrite Ep, Eq. destruct (Nat.ltb_spec q p) as [L|L], (Nat.ltb_spec p q) as [L'|L']; try lia;
        rewrite sgn_xorb; destruct d, e; cbn [negb xorb sgn]; ring.
  Qed.
End F.
