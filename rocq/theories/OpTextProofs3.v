(** Proofs about operator texts: the order of the terms, sequences, classes. *)
From Coq Require Import String Ascii ZArith Lia Permutation Sorting.Sorted.
From Verif Require Import Base BaseFacts MatModel OpModel OpProofs SymModel SymSpec SymProofs OpSpec OpTextModel OpTextSpec OpTextProofs OpTextProofs2.
Open Scope list_scope.
Local Open Scope nat_scope.

Section Order.
  Context {A : Type} (aeqb : A -> A -> bool) (aeq : eqb_spec_of aeqb) (aleb : A -> A -> bool).
  Context (tot : forall a b, aleb a b = true \/ aleb b a = true) (tra : forall a b c, aleb a b = true -> aleb b c = true -> aleb a c = true)
    (anti : forall a b, aleb a b = true -> aleb b a = true -> a = b).
  Notation alt := (fun a b => aleb a b = true /\ a <> b).
  Lemma term_leb_iff (t u : term A) : term_leb aeqb aleb t u = true <-> t = u \/ term_before alt t u.
  Proof.
    revert u. induction t as [|f t IH]; intros [|g u]; cbn [term_leb].
    - split; auto.
    - split; [intros _; right; constructor|reflexivity].
    - split; [discriminate|]. intros [X|X]; [discriminate|inversion X].
    - destruct (factor_eqb aeqb f g) eqn:E.
      + apply (factor_eqb_spec _ aeq) in E as <-. rewrite IH. split.
        * intros [->|X]; [auto|right; now constructor].
        * intros [[= ->]|X]; [auto|]. inversion X as [|? ? ? ? [Y|[_ [_ Y]]]|]; subst; [lia|congruence|auto].
      + assert (N : f <> g) by (intros ->; rewrite (proj2 (factor_eqb_spec _ aeq g g) eq_refl) in E; discriminate). clear E.
        destruct f as [i a], g as [j b]. cbn [fst snd] in *. destruct (Nat.eqb i j) eqn:E.
        * apply Nat.eqb_eq in E as <-. assert (a <> b) by congruence. split.
          -- intros X. right. constructor. right. auto.
          -- intros [X|X]; [congruence|]. inversion X as [|? ? ? ? [Y|[_ [Y _]]]|]; subst; cbn [fst snd] in *; [lia|auto|congruence].
        * apply Nat.eqb_neq in E. split.
          -- intros X. apply Nat.ltb_lt in X. right. constructor. now left.
          -- intros [X|X]; [congruence|]. apply Nat.ltb_lt. inversion X as [|? ? ? ? [Y|[Y _]]|]; subst; cbn [fst snd] in *; [auto|congruence|congruence].
  Qed.
  Lemma before_trans t u v : term_before alt t u -> term_before alt u v -> term_before alt t v.
  Proof.
    intros H. revert v. induction H as [f t|f g t u H|f t u H IH]; intros v H'; inversion H' as [|f' g' ? ? H''|]; subst; try (now constructor); try (apply tb_rest; now apply IH). apply tb_first.
    unfold factor_before in *. destruct f as [i a], g as [j b], g' as [k c]; cbn [fst snd] in *.
    destruct H as [H|[-> [H1 H2]]], H'' as [H''|[-> [H3 H4]]]; [left; lia|left; lia|left; lia|]. right. split; [reflexivity|]. split; [eauto|]. intros ->. auto.
  Qed.
  Lemma leb_trans t u v : term_leb aeqb aleb t u = true -> term_leb aeqb aleb u v = true -> term_leb aeqb aleb t v = true.
  Proof. rewrite !term_leb_iff. intros [->|H] [->|H']; auto. right. eapply before_trans; eauto. Qed.
  Lemma leb_total t u : term_leb aeqb aleb t u = true \/ term_leb aeqb aleb u t = true.
  Proof.
    revert u. induction t as [|f t IH]; intros [|g u]; cbn [term_leb]; auto.
    assert (S : factor_eqb aeqb g f = factor_eqb aeqb f g).
    { destruct (factor_eqb aeqb f g) eqn:E.
      - apply (factor_eqb_spec _ aeq) in E as <-. now apply (factor_eqb_spec _ aeq).
      - destruct (factor_eqb aeqb g f) eqn:E'; [|auto]. apply (factor_eqb_spec _ aeq) in E' as <-. rewrite <- E. symmetry. now apply (factor_eqb_spec _ aeq). }
    rewrite S. destruct (factor_eqb aeqb f g); [apply IH|]. rewrite (Nat.eqb_sym (fst g)). destruct (Nat.eqb (fst f) (fst g)) eqn:E; [apply tot|].
    apply Nat.eqb_neq in E. rewrite !Nat.ltb_lt. lia.
  Qed.
  Lemma sorted_strict {K} (l : list (term A * K)) : NoDup (map fst l) ->
    StronglySorted (leP (fun x y : term A * K => term_leb aeqb aleb (fst x) (fst y))) l -> StronglySorted (term_before alt) (map fst l).
  Proof.
    intros ND S. induction S as [|x l S IH F]; cbn [map] in *; [constructor|]. inversion ND; subst. constructor; [auto|].
    apply Forall_forall. intros u Hu. apply in_map_iff in Hu as (y & <- & Hy). apply (proj1 (Forall_forall _ _) F) in Hy as L. apply term_leb_iff in L as [L|L]; [|exact L].
    exfalso. apply H1. rewrite L. now apply in_map.
  Qed.
  Lemma sorted_items {K} (p : term A * K -> bool) (a : list (term A * K)) : NoDup (map fst a) ->
    StronglySorted (term_before alt) (map fst (filter p (sort_by (fun x y : term A * K => term_leb aeqb aleb (fst x) (fst y)) a))).
  Proof.
    intros ND. apply sorted_strict.
    - assert (X : NoDup (map fst (sort_by (fun x y : term A * K => term_leb aeqb aleb (fst x) (fst y)) a))) by (eapply Permutation_NoDup; [symmetry; apply Permutation_map, sort_by_perm|exact ND]).
      revert X. generalize (sort_by (fun x y : term A * K => term_leb aeqb aleb (fst x) (fst y)) a). clear. induction l as [|x l IH]; intros X; [constructor|]. cbn [map filter] in *. inversion X; subst.
      destruct (p x); auto. cbn [map]. constructor; auto. intros Y. apply H1. apply in_map_iff in Y as (z & Z1 & Z2). apply filter_In in Z2 as [Z2 _]. apply in_map_iff. eauto.
    - apply filter_sorted. apply sort_by_sorted.
      + intros x y. apply leb_total.
      + intros x y z. apply leb_trans.
  Qed.
End Order.

Section Sequences.
  Context {A : Type} (cls : op_class A).
  Lemma validate_iff x f : validate_factor cls x = Ok f <-> factor_pair cls x f.
  Proof.
    unfold validate_factor, factor_pair. split.
    - destruct x as [z|s|l|]; cbn [factor_parts rbind]; try discriminate.
      + destruct s as [|c1 [|c2 [|c3 s]]]; cbn [map]; try discriminate. destruct (action_of cls _); discriminate.
      + destruct l as [|x1 [|x2 [|x3 l]]]; try discriminate. destruct (action_of cls x2) as [a|] eqn:E; [|discriminate]. destruct x1 as [z| | |]; try discriminate.
        destruct (z <? 0)%Z eqn:Z; [discriminate|]. intros [= <-]. cbn [fst snd]. apply Z.ltb_ge in Z. exists x2. rewrite Z2Nat.id by lia. auto.
    - intros (y & -> & E). cbn [factor_parts rbind]. rewrite E. destruct (Z.of_nat (fst f) <? 0)%Z eqn:Z; [apply Z.ltb_lt in Z; lia|]. rewrite Nat2Z.id. now destruct f.
  Qed.
  Lemma validate_err x e : validate_factor cls x = Err e -> e = ValueError \/ (e = TypeError /\ ((exists z, x = AInt z) \/ x = AObj)).
  Proof.
    unfold validate_factor. destruct x as [z|s|l|]; cbn [factor_parts rbind]; intros H.
    - injection H as <-. right. eauto.
    - left. destruct s as [|c1 [|c2 [|c3 s]]]; cbn [map] in H; try congruence. destruct (action_of cls _); congruence.
    - left. destruct l as [|x1 [|x2 [|x3 l]]]; try congruence. destruct (action_of cls x2) as [a|]; [|congruence]. destruct x1 as [z| | |]; try congruence. destruct (z <? 0)%Z; congruence.
    - injection H as <-. right. eauto.
  Qed.
  Lemma parse_sequence_iff l t : parse_sequence cls l = Ok t <-> sequence_of cls l t.
  Proof.
    unfold sequence_of. assert (M : mapM (validate_factor cls) l = Ok t <-> Forall2 (factor_pair cls) l t).
    { pose proof (mapM_Ok_Forall2 (validate_factor cls) l t) as M. split; intros H.
      - apply M in H. clear M. eapply Forall2_imp; [|exact H]. intros x f Hx. now apply validate_iff.
      - apply M. eapply Forall2_imp; [|exact H]. intros x f Hx. now apply validate_iff. }
    destruct l as [|x l].
    - cbn [parse_sequence]. split.
      + intros [= <-]. right. constructor.
      + intros [(f & (y & E & _) & _)|F]; [discriminate|]. inversion F. reflexivity.
    - assert (C : (exists z, x = AInt z) \/ parse_sequence cls (x :: l) = mapM (validate_factor cls) (x :: l)).
      { destruct x; eauto. }
      destruct C as [[z ->]|C].
      + cbn [parse_sequence]. split.
        * intros H. left. destruct (validate_factor cls (ASeq (AInt z :: l))) as [f|] eqn:E; cbn [rbind] in H; [|discriminate]. injection H as <-. exists f. split; [now apply validate_iff|reflexivity].
        * intros [(f & H & ->)|F]; [apply validate_iff in H; now rewrite H|]. inversion F as [|? ? ? ? (y & E & _) _]; discriminate.
      + rewrite C, M. split; [auto|]. intros [(f & (y & E & _) & ->)|F]; [|exact F]. exfalso. injection E as -> ->. cbn in C.
        destruct (action_of cls y); [|discriminate]. destruct (Z.of_nat (fst f) <? 0)%Z; cbn in C; discriminate.
  Qed.
End Sequences.

Lemma good_qubit : good_class qubit_class.
Proof.
  split; [repeat (constructor; [intros H; cbn in H; intuition discriminate|]); constructor|].
  split; [repeat (constructor; [intros H; cbn in H; intuition discriminate|]); constructor|]. split; [reflexivity|].
  intros s c [<-|[<-|[<-|[]]]] [<-|[]]; repeat split; discriminate.
Qed.
Lemma good_ising : good_class ising_class.
Proof.
  split; [repeat (constructor; [intros H; cbn in H; intuition discriminate|]); constructor|].
  split; [repeat (constructor; [intros H; cbn in H; intuition discriminate|]); constructor|]. split; [reflexivity|].
  intros s c [<-|[]] [<-|[]]; repeat split; discriminate.
Qed.
Lemma good_fermion : good_class fermion_class.
Proof.
  split; [repeat (constructor; [intros H; cbn in H; intuition discriminate|]); constructor|].
  split; [repeat (constructor; [intros H; cbn in H; intuition discriminate|]); constructor|]. split; [reflexivity|].
  intros s c [<-|[<-|[]]]; [intros [<-|[]]; repeat split; discriminate|intros []].
Qed.
