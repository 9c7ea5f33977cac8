(** Normal ordering. *)
From Coq Require Import Permutation Sorted Ring.
From Coq Require Import Factorial.
From Verif Require Import Base BaseFacts MatModel MatFacts LiftSpec LiftProofs OpModel OpSpec OpProofs PauliProofs OpProofs2 FermiModel FermiSpec FermiProofs.
Open Scope list_scope.
Local Open Scope nat_scope.

(** ** Sums of operators, for all linear functionals at once *)
Section Sizes.
  Local Open Scope nat_scope.
  Context {A : Type} (aeqb : A -> A -> bool) {K : cring}.
  Notation op := (sop A K).
  Lemma dset_length {X V} (eqb : X -> X -> bool) k (v : V) d : length (dset eqb k v d) <= S (length d).
  Proof. induction d as [|[k' v'] d IH]; cbn [dset length]; [lia|]. destruct (eqb k k'); cbn [length]; lia. Qed.
  Lemma mul_length simplify (a b : op) : length (op_mul aeqb simplify a b) <= length a * length b.
  Proof.
    unfold op_mul.
    assert (G2 : forall (lt : term A * K) (b d : op), length (fold_left (fun d rt => let '(c, t) := simplify (fst lt ++ fst rt) (kmul (snd lt) (snd rt)) in accumulate_term aeqb t c d) b d) <= length d + length b).
    { intros lt b0. induction b0 as [|rt b0 IH]; intros d; cbn [fold_left length]; [lia|]. etransitivity; [apply IH|].
      destruct (simplify _ _) as [c t]. unfold accumulate_term. destruct (dget _ t d) as [c0|]; [pose proof (dset_length (term_eqb aeqb) t (kadd c0 c) d) as Q|pose proof (dset_length (term_eqb aeqb) t c d) as Q];
        match goal with |- ?x + _ <= ?y + _ => assert (Q' : x <= S y) by exact Q end; lia. }
    assert (G : forall a d : op, length (fold_left (fun d lt => fold_left (fun d rt => let '(c, t) := simplify (fst lt ++ fst rt) (kmul (snd lt) (snd rt)) in accumulate_term aeqb t c d) b d) a d) <= length d + length a * length b).
    { intros a0. induction a0 as [|lt a0 IH]; intros d; cbn [fold_left length]; [lia|]. etransitivity; [apply IH|]. specialize (G2 lt b d). match goal with |- ?x + _ <= ?y + _ => assert (Q' : x <= y + length b) by exact G2 end. lia. }
    apply (G a []).
  Qed.
  Lemma ddel_length {X V} (eqb : X -> X -> bool) k (d : list (X * V)) : length (ddel eqb k d) <= length d.
  Proof. unfold ddel. induction d as [|[k' v'] d IH]; cbn [filter length]; [lia|]. match goal with |- context [if ?x then _ else _] => destruct x end; cbn [length]; lia. Qed.
  Lemma merge_length small f (b : op) : forall a : op, length (fold_left (merge_term aeqb small f) b a) <= length a + length b.
  Proof.
    induction b as [|[t c] b IH]; intros a; cbn [fold_left length]; [lia|]. etransitivity; [apply IH|].
    assert (Q : length (merge_term aeqb small f a (t, c)) <= S (length a)); [|lia].
    unfold merge_term. cbn [fst snd]. cbn zeta. destruct (small _); [etransitivity; [apply ddel_length|]|]; apply dset_length.
  Qed.
End Sizes.

Section Uniform.
  Context {K : cring} {A : Type} (aeqb : A -> A -> bool) (Ha : eqb_spec_of aeqb).
  Add Ring Kring_f2 : (kth K).
  Open Scope K_scope.
  Notation op := (sop A K).
  Notation teqb := (term_eqb aeqb).
  Lemma merge_count f small sg (b a : op) : (forall x y, f x y = x + sg * y) ->
    exists r : op, Forall (fun tc => small (snd tc) = true) r /\ incl (map fst r) (dkeys b) /\ (length r <= length b)%nat /\
      forall phi, lval phi (fold_left (merge_term aeqb small f) b a) + lval phi r = lval phi a + sg * lval phi b.
  Proof.
    intros Hf. revert a. induction b as [|[t c] b IH]; intros a; cbn [fold_left].
    - exists []. split; [constructor|]. split; [intros ? []|]. split; [cbn; lia|]. intros phi. cbn. ring.
    - destruct (IH (merge_term aeqb small f a (t, c))) as (r & Hr & Hi & Hl & E).
      pose proof (fun phi => lval_merge_term aeqb Ha phi f small sg a t c Hf) as Mt. cbn zeta in Mt. set (v := f _ c) in *.
      destruct (small v) eqn:S.
      + exists ((t, v) :: r). split; [constructor; auto|]. split; [|split; [cbn [length]; lia|]].
        * intros x [<-|Hx]; [left; auto|right; auto].
        * intros phi. cbn [lval fst snd].
          transitivity (lval phi (fold_left (merge_term aeqb small f) b (merge_term aeqb small f a (t, c))) + lval phi r + v * phi t); [ring|].
          rewrite E. transitivity (lval phi (merge_term aeqb small f a (t, c)) + v * phi t + sg * lval phi b); [ring|]. rewrite Mt. ring.
      + exists r. split; [auto|]. split; [intros x Hx; right; auto|]. split; [cbn [length]; lia|]. intros phi. rewrite E. cbn [lval fst snd].
        transitivity (lval phi (merge_term aeqb small f a (t, c)) + 0 + sg * lval phi b); [ring|]. rewrite Mt. ring.
  Qed.
  Lemma merge_uniform f small sg (b a : op) : (forall x y, f x y = x + sg * y) ->
    exists r : op, Forall (fun tc => small (snd tc) = true) r /\ incl (map fst r) (dkeys b) /\
      forall phi, lval phi (fold_left (merge_term aeqb small f) b a) + lval phi r = lval phi a + sg * lval phi b.
  Proof. intros Hf. destruct (merge_count f small sg b a Hf) as (r & H1 & H2 & _ & H3). exists r. auto. Qed.
  Lemma add_count small (b a : op) :
    exists r : op, Forall (fun tc => small (snd tc) = true) r /\ incl (map fst r) (dkeys b) /\ (length r <= length b)%nat /\
      forall phi, lval phi (op_add aeqb small a b) + lval phi r = lval phi a + lval phi b.
  Proof.
    destruct (merge_count kadd small 1 b a) as (r & H1 & H2 & Hl & H3); [intros; ring|]. exists r. split; [auto|]. split; [auto|]. split; [auto|].
    intros phi. unfold op_add. rewrite H3. ring.
  Qed.
  Lemma add_uniform small (b a : op) :
    exists r : op, Forall (fun tc => small (snd tc) = true) r /\ incl (map fst r) (dkeys b) /\
      forall phi, lval phi (op_add aeqb small a b) + lval phi r = lval phi a + lval phi b.
  Proof. destruct (add_count small b a) as (r & H1 & H2 & _ & H3). exists r. auto. Qed.
  (** operators without small coefficients whose terms satisfy P *)
  Definition good (small : K -> bool) (P : term A -> Prop) (a : op) : Prop :=
    wf_op a /\ forall t c, dget teqb t a = Some c -> P t /\ small c = false.
  Lemma merge_good f small (P : term A -> Prop) (b a : op) : good small P a -> (forall t, In t (dkeys b) -> P t) ->
    good small P (fold_left (merge_term aeqb small f) b a).
  Proof.
    revert a. induction b as [|[t c] b IH]; intros a [Wa Ga] Hb; cbn [fold_left]; [split; auto|]. apply IH.
    - split; [apply (merge_term_wf aeqb Ha), Wa|]. intros t' c' E. destruct (teqb t' t) eqn:Et.
      + apply (term_eqb_spec _ Ha) in Et as ->. rewrite (merge_term_same aeqb Ha) in E by auto. cbn zeta in E.
        destruct (small (f (coef aeqb a t) c)) eqn:S; inversion E; subst. split; [apply Hb; left; auto|auto].
      + rewrite (merge_term_other aeqb Ha) in E; [auto|]. cbn. apply (eqb_spec_false _ (term_eqb_spec _ Ha)), Et.
    - intros t' Ht'. apply Hb. right; auto.
  Qed.
  Lemma good_keys small P (a : op) : good small P a -> forall t, In t (dkeys a) -> P t.
  Proof.
    intros [W G] t Ht. destruct (dget teqb t a) as [c|] eqn:E; [eapply G; eauto|]. apply (dget_None _ (term_eqb_spec _ Ha)) in E. contradiction.
  Qed.
  Lemma good_nil small P : good small P ([] : op).
  Proof. split; [constructor|]. intros t c E. discriminate. Qed.
  Lemma good_In small P (a : op) : good small P a -> forall t c, In (t, c) a -> P t /\ small c = false.
  Proof. intros [W G] t c H. apply G. apply (In_dget _ (term_eqb_spec _ Ha)); auto. Qed.
End Uniform.

Lemma before_trans f g h : before f g -> before g h -> before f h.
Proof. unfold before. destruct f as [p []], g as [q []], h as [r []]; cbn; intros; try tauto; lia. Qed.
Notation sorted_term := (StronglySorted before).
Lemma sorted_normal t : sorted_term t <-> normal_term t.
Proof.
  split.
  - intros H. induction H as [|x t Hs IH Hx]; intros i j f g Hij Hi Hj; [destruct i; discriminate|].
    destruct j as [|j]; [lia|]. destruct i as [|i]; cbn in *.
    + inversion Hi; subst. eapply Forall_forall in Hx; [exact Hx|]. eapply nth_error_In; eauto.
    + eapply (IH i j); eauto. lia.
  - induction t as [|x t IH]; intros H; constructor.
    + apply IH. intros i j f g Hij Hi Hj. apply (H (S i) (S j)); auto. lia.
    + apply Forall_forall. intros y Hy. apply In_nth_error in Hy as [j Hj]. apply (H 0 (S j)); auto. lia.
Qed.
Lemma sorted_app (l m : term bool) : sorted_term (l ++ m) <-> sorted_term l /\ sorted_term m /\ forall f g, In f l -> In g m -> before f g.
Proof.
  induction l as [|x l IH]; cbn [app].
  - split; [intros H; repeat split; [constructor|auto|intros f g []]|intros (_ & H & _); auto].
  - split.
    + intros H. inversion H as [|? ? Hs Hf]; subst. apply IH in Hs as (H1 & H2 & H3). rewrite Forall_app in Hf. destruct Hf as [Hf1 Hf2].
      split; [constructor; auto|]. split; [auto|]. intros f g [<-|Hi] Hg; [eapply Forall_forall in Hf2; eauto|eauto].
    + intros (H1 & H2 & H3). inversion H1 as [|? ? Hs Hf]; subst. constructor.
      * apply IH. split; [auto|]. split; [auto|]. intros f g Hi Hg. apply H3; auto. right; auto.
      * apply Forall_app. split; [auto|]. apply Forall_forall. intros g Hg. apply H3; [left|]; auto.
Qed.

(** ** Linear functionals that respect the anticommutation relations *)
Section NO.
  (** [Q]: a property of terms kept by reordering and by contracting neighbours *)
  Context {K : cring} (small : K -> bool) (Q : fterm -> Prop).
  Context (Qperm : forall t u, Permutation t u -> Q t -> Q u).
  Context (Qdel : forall l x y r, fst x = fst y -> snd x <> snd y -> Q (l ++ x :: y :: r) -> Q (l ++ r)).
  Add Ring Kring_f3 : (kth K).
  Open Scope K_scope.
  Record carf (phi : fterm -> K) : Prop := {
    carf_swap : forall l x y r, Q (l ++ x :: y :: r) -> phi (l ++ x :: y :: r) + phi (l ++ y :: x :: r) = car x y * phi (l ++ r);
    carf_same : forall l x r, Q (l ++ x :: x :: r) -> phi (l ++ x :: x :: r) = 0 }.
  Definition P (t : fterm) : Prop := sorted_term t /\ Q t.
  Notation good := (good Bool.eqb small P).
  Definition pruned_ok (r : fop K) : Prop := Forall (fun tc => small (snd tc) = true) r /\ forall t, In t (dkeys r) -> P t.
  Lemma pruned_app r s : pruned_ok r -> pruned_ok s -> pruned_ok (r ++ s).
  Proof.
    intros [H1 H2] [H3 H4]. split; [apply Forall_app; auto|]. intros t. unfold dkeys. rewrite map_app, in_app_iff. intros [H|H]; [apply H2|apply H4]; auto.
  Qed.
  Lemma fadd_spec (a b : fop K) : good a -> (forall t, In t (dkeys b) -> P t) ->
    good (fermion_add small a b) /\ exists r, pruned_ok r /\ (length r <= length b)%nat /\ forall phi, lval phi (fermion_add small a b) + lval phi r = lval phi a + lval phi b.
  Proof.
    intros Ga Hb. split; [apply (merge_good _ bool_eqb_spec); auto|].
    destruct (add_count Bool.eqb bool_eqb_spec small b a) as (r & H1 & H2 & Hl & H3). exists r. split; [|auto]. split; [auto|]. intros t Ht. apply Hb, H2, Ht.
  Qed.
  Lemma add_length (a b : fop K) : (length (fermion_add small a b) <= length a + length b)%nat.
  Proof.
    unfold fermion_add, op_add. revert a. induction b as [|[t c] b IH]; intros a; cbn [fold_left length]; [lia|].
    etransitivity; [apply IH|]. cut (length (merge_term Bool.eqb small kadd a (t, c)) <= S (length a))%nat; [lia|]. unfold merge_term. cbn [fst snd].
    set (v := _ + c). clearbody v. assert (D : (length (dset (term_eqb Bool.eqb) t v a) <= S (length a))%nat).
    { induction a as [|[k w] a IHa]; cbn [dset length]; [lia|]. destruct (term_eqb Bool.eqb t k); cbn [length]; lia. }
    assert (E : forall d : fop K, (length (ddel (term_eqb Bool.eqb) t d) <= length d)%nat).
    { induction d as [|[k w] d IHd]; cbn [ddel length]; [lia|]. destruct (term_eqb Bool.eqb t k); cbn [length]; lia. }
    destruct (small v); [etransitivity; [apply E|]|]; exact D.
  Qed.
  Definition rec_ok (m : nat) (rec : fterm -> K -> fop K) : Prop := forall t c, length t <= m -> Q t ->
    good (rec t c) /\ (length (rec t c) <= fact (length t))%nat /\ exists r, pruned_ok r /\ (length r <= fact (S (length t)))%nat /\ forall phi, carf phi -> lval phi (rec t c) + lval phi r = c * phi t.
  Definition out (phi : fterm -> K) (st : no_state (K := K)) : K :=
    match st with Returned o => lval phi o | Going t c o => lval phi o + c * phi t end.
  Definition op_of (st : no_state (K := K)) : fop K := match st with Returned o => o | Going _ _ o => o end.
  Definition st_ok (k : nat) (tail : fterm) (st : no_state (K := K)) : Prop :=
    match st with
    | Returned o => good o
    | Going t c o => good o /\ Q t /\ exists pre, t = pre ++ tail /\ length pre = k /\ sorted_term pre
    end.
  Lemma no_inner_ok m rec : rec_ok m rec -> forall ls x passed tail c o,
    length ls + 1 + length passed + length tail <= m + 2 -> sorted_term (rev ls ++ passed) -> Forall (before x) passed ->
    Q (rev ls ++ x :: passed ++ tail) -> good o ->
    st_ok (length ls + 1 + length passed) tail (no_inner small rec ls x (passed ++ tail) c o) /\
    (length (op_of (no_inner small rec ls x (passed ++ tail) c o)) <= length o + length ls * fact (length ls + length passed + length tail - 1))%nat /\
    exists r, pruned_ok r /\ (length r <= length ls * (fact (S (length ls + length passed + length tail - 1)) + fact (length ls + length passed + length tail - 1)))%nat /\ forall phi, carf phi ->
      out phi (no_inner small rec ls x (passed ++ tail) c o) + lval phi r = lval phi o + c * phi (rev ls ++ x :: passed ++ tail).
  Proof.
    intros Hrec. induction ls as [|l ls IH]; intros x passed tail c o Hm Hs Hx Hn Ho; cbn [no_inner].
    - split.
      + split; [auto|]. split; [auto|]. exists (x :: passed). split; [auto|]. split; [cbn; lia|]. constructor; auto.
      + split; [cbn; lia|]. exists []. split; [split; [constructor|intros t []]|]. split; [cbn; lia|]. intros phi _. cbn [out lval rev app]. ring.
    - assert (Er : forall z, rev (l :: ls) ++ z = rev ls ++ l :: z) by (intros z; cbn [rev]; rewrite <- app_assoc; reflexivity).
      rewrite Er in Hs, Hn. cbn [length] in Hm.
      assert (Hn' : Q (rev ls ++ x :: (l :: passed) ++ tail)).
      { eapply Qperm; [|exact Hn]. apply Permutation_app_head, perm_swap. }
      pose proof (proj1 (sorted_app _ _) Hs) as (S1 & S2 & S3). inversion S2 as [|? ? S2' S2f]; subst.
      set (k := (length ls + length passed + length tail)%nat).
      (* swap, for operators that are out of order *)
      assert (Swap : forall c' o', before x l -> good o' ->
        st_ok (length (l :: ls) + 1 + length passed) tail (no_inner small rec ls x (l :: passed ++ tail) c' o') /\
        (length (op_of (no_inner small rec ls x (l :: passed ++ tail) c' o')) <= length o' + length ls * fact k)%nat /\
        exists r, pruned_ok r /\ (length r <= length ls * (fact (S k) + fact k))%nat /\ forall phi, carf phi ->
          out phi (no_inner small rec ls x (l :: passed ++ tail) c' o') + lval phi r = lval phi o' + c' * phi (rev ls ++ x :: l :: passed ++ tail)).
      { intros c' o' Hb Ho'. destruct (IH x (l :: passed) tail c' o') as (H1 & H2); cbn [length app] in *; try lia; auto.
        replace (length ls + S (length passed) + length tail - 1)%nat with k in H2 by (unfold k; lia).
        split; [|exact H2]. replace (S (length ls) + 1 + length passed)%nat with (length ls + 1 + S (length passed))%nat by lia. exact H1. }
      assert (Stay : before l x ->
        st_ok (length (l :: ls) + 1 + length passed) tail (no_inner small rec ls l (x :: passed ++ tail) c o) /\
        (length (op_of (no_inner small rec ls l (x :: passed ++ tail) c o)) <= length o + length ls * fact k)%nat /\
        exists r, pruned_ok r /\ (length r <= length ls * (fact (S k) + fact k))%nat /\ forall phi, carf phi ->
          out phi (no_inner small rec ls l (x :: passed ++ tail) c o) + lval phi r = lval phi o + c * phi (rev (l :: ls) ++ x :: passed ++ tail)).
      { intros Hb. destruct (IH l (x :: passed) tail c o) as (H1 & H2); cbn [length app] in *; try lia; auto.
        - apply sorted_app. split; [auto|]. split; [constructor; auto|]. intros f g Hf [<-|Hg]; [|apply S3; auto; right; auto].
          eapply before_trans; [apply (S3 f l); auto; left; auto|auto].
        - replace (length ls + S (length passed) + length tail - 1)%nat with k in H2 by (unfold k; lia).
          split; [|destruct H2 as (Ho' & r & Hr & Hl & E); split; [auto|]; exists r; split; [auto|]; split; [auto|]; intros phi Hp; rewrite Er; apply E; auto].
          replace (S (length ls) + 1 + length passed)%nat with (length ls + 1 + S (length passed))%nat by lia. exact H1. }
      replace (length (l :: ls) + length passed + length tail - 1)%nat with k by (unfold k; cbn [length]; lia).
      replace (length (l :: ls)) with (S (length ls)) in * by reflexivity.
      assert (Stay' : before l x -> st_ok (S (length ls) + 1 + length passed) tail (no_inner small rec ls l (x :: passed ++ tail) c o) /\
        (length (op_of (no_inner small rec ls l (x :: passed ++ tail) c o)) <= length o + S (length ls) * fact k)%nat /\
        exists r, pruned_ok r /\ (length r <= S (length ls) * (fact (S k) + fact k))%nat /\ forall phi, carf phi ->
          out phi (no_inner small rec ls l (x :: passed ++ tail) c o) + lval phi r = lval phi o + c * phi (rev (l :: ls) ++ x :: passed ++ tail)).
      { intros Hb. destruct (Stay Hb) as (T1 & L3 & r & Pr & R3 & V). split; [exact T1|]. split; [cbn [Nat.mul]; lia|]. exists r. split; [auto|]. split; [cbn [Nat.mul]; lia|]. exact V. }
      destruct (snd x && negb (snd l)) eqn:Erl.
      + apply andb_prop in Erl as [Ex El]. assert (Hb : before x l) by (unfold before; rewrite Ex; destruct (snd l); [discriminate|auto]).
        destruct (Nat.eqb_spec (fst x) (fst l)) as [Eq|Ne].
        * set (sub := rev ls ++ passed ++ tail). assert (Ls : length sub = k) by (unfold sub, k; rewrite !app_length, rev_length; lia).
          destruct (Hrec sub (kopp 1 * (c * kopp 1))) as (G1 & L1 & r1 & P1 & R1 & V1).
          { unfold sub. rewrite !app_length, rev_length. lia. }
          { apply (Qdel (rev ls) l x (passed ++ tail)); auto. rewrite Ex. intros E; rewrite E in El; discriminate. }
          destruct (fadd_spec o (rec sub (kopp 1 * (c * kopp 1))) Ho) as (G2 & r2 & P2 & R2 & V2). { apply (good_keys _ bool_eqb_spec small _ _ G1). }
          pose proof (add_length o (rec sub (kopp 1 * (c * kopp 1)))) as L2. rewrite Ls in L1, R1.
          destruct (Swap (c * kopp 1) (fermion_add small o (rec sub (kopp 1 * (c * kopp 1)))) Hb G2) as (T1 & L3 & r3 & P3 & R3 & V3).
          split; [exact T1|]. split; [cbn [Nat.mul]; lia|]. exists (r1 ++ r2 ++ r3). split; [auto using pruned_app|]. split; [rewrite !app_length; cbn [Nat.mul]; lia|]. intros phi Hp. rewrite !lval_app.
          transitivity ((out phi (no_inner small rec ls x (l :: passed ++ tail) (c * kopp 1) (fermion_add small o (rec sub (kopp 1 * (c * kopp 1))))) + lval phi r3) + lval phi r1 + lval phi r2); [ring|].
          rewrite V3 by auto. transitivity ((lval phi (fermion_add small o (rec sub (kopp 1 * (c * kopp 1)))) + lval phi r2) + lval phi r1 + c * kopp 1 * phi (rev ls ++ x :: l :: passed ++ tail)); [ring|].
          rewrite V2. transitivity (lval phi o + (lval phi (rec sub (kopp 1 * (c * kopp 1))) + lval phi r1) + c * kopp 1 * phi (rev ls ++ x :: l :: passed ++ tail)); [ring|].
          rewrite V1 by auto. rewrite Er. pose proof (carf_swap phi Hp (rev ls) l x (passed ++ tail) Hn) as C.
          unfold car in C. rewrite <- Eq, Nat.eqb_refl, Ex in C. destruct (snd l); [discriminate|]. cbn in C. fold sub in C.
          transitivity (lval phi o + c * (1 * phi sub) - c * phi (rev ls ++ x :: l :: passed ++ tail)); [ring|]. rewrite <- C. ring.
        * destruct (Swap (c * kopp 1) o Hb Ho) as (T1 & L3 & r & Pr & R3 & V). split; [exact T1|]. split; [cbn [Nat.mul]; lia|]. exists r. split; [auto|]. split; [cbn [Nat.mul]; lia|]. intros phi Hp. rewrite V by auto. rewrite Er.
          pose proof (carf_swap phi Hp (rev ls) l x (passed ++ tail) Hn) as C. unfold car in C.
          assert (N : Nat.eqb (fst l) (fst x) = false) by (apply Nat.eqb_neq; auto). rewrite N in C. cbn [andb] in C.
          transitivity (lval phi o + c * (phi (rev ls ++ l :: x :: passed ++ tail) + phi (rev ls ++ x :: l :: passed ++ tail)) - c * phi (rev ls ++ x :: l :: passed ++ tail)); [rewrite C; ring|ring].
      + destruct (Bool.eqb (snd x) (snd l)) eqn:Et.
        * apply Bool.eqb_prop in Et. destruct (Nat.eqb_spec (fst x) (fst l)) as [Eq|Ne].
          -- split; [exact Ho|]. split; [cbn; lia|]. exists []. split; [split; [constructor|intros t []]|]. split; [cbn; lia|]. intros phi Hp. cbn [out lval]. rewrite Er.
             assert (x = l) as -> by (destruct x, l; cbn in *; congruence). rewrite (carf_same phi Hp) by auto. ring.
          -- destruct (Nat.ltb_spec (fst l) (fst x)) as [L|L].
             ++ assert (Hb : before x l) by (unfold before; rewrite Et; destruct (snd l); auto).
                destruct (Swap (c * kopp 1) o Hb Ho) as (T1 & L3 & r & Pr & R3 & V). split; [exact T1|]. split; [cbn [Nat.mul]; lia|]. exists r. split; [auto|]. split; [cbn [Nat.mul]; lia|]. intros phi Hp. rewrite V by auto. rewrite Er.
                pose proof (carf_swap phi Hp (rev ls) l x (passed ++ tail) Hn) as C. unfold car in C.
                assert (N : Nat.eqb (fst l) (fst x) = false) by (apply Nat.eqb_neq; auto). rewrite N in C. cbn [andb] in C.
                transitivity (lval phi o + c * (phi (rev ls ++ l :: x :: passed ++ tail) + phi (rev ls ++ x :: l :: passed ++ tail)) - c * phi (rev ls ++ x :: l :: passed ++ tail)); [rewrite C; ring|ring].
             ++ apply Stay'. unfold before. rewrite Et. destruct (snd l); lia.
        * apply Stay'. unfold before. destruct (snd x), (snd l); auto; discriminate.
  Qed.

  Lemma fold_returned rec l o : fold_left (no_step small rec) l (Returned o) = Returned o.
  Proof. induction l as [|i l IH]; cbn; auto. Qed.
  Definition end_ok (st : no_state (K := K)) : Prop :=
    match st with Returned o => good o | Going t c o => good o /\ Q t /\ sorted_term t end.
  Lemma no_loop_ok m rec : rec_ok m rec -> forall k i t c o, (i + k = length t)%nat -> (length t <= m + 2)%nat -> Q t ->
    sorted_term (firstn i t) -> good o ->
    end_ok (fold_left (no_step small rec) (seq i k) (Going t c o)) /\
    (length (op_of (fold_left (no_step small rec) (seq i k) (Going t c o))) <= length o + k * ((length t - 1) * fact (length t - 2)))%nat /\
    exists r, pruned_ok r /\ (length r <= k * ((length t - 1) * (fact (S (length t - 2)) + fact (length t - 2))))%nat /\
      forall phi, carf phi -> out phi (fold_left (no_step small rec) (seq i k) (Going t c o)) + lval phi r = lval phi o + c * phi t.
  Proof.
    intros Hrec. induction k as [|k IH]; intros i t c o Hk Hm Hn Hs Ho; cbn [seq fold_left].
    - split; [|split; [cbn; lia|exists []; split; [split; [constructor|intros ? []]|split; [cbn; lia|intros phi _; cbn [out lval]; ring]]]].
      cbn [end_ok]. rewrite firstn_all2 in Hs by lia. auto.
    - cbn [no_step]. destruct (skipn i t) as [|x rs] eqn:Es.
      { exfalso. pose proof (skipn_length i t). rewrite Es in H. cbn in H. lia. }
      assert (Et : t = firstn i t ++ x :: rs) by (rewrite <- Es; symmetry; apply firstn_skipn).
      assert (Li : length (firstn i t) = i) by (rewrite firstn_length; lia).
      assert (Lr : (length t = i + 1 + length rs)%nat) by (rewrite Et at 1; rewrite app_length, Li; cbn; lia).
      destruct (no_inner_ok m rec Hrec (rev (firstn i t)) x [] rs c o) as (H1 & L1 & r1 & P1 & R1 & V1); auto.
      { rewrite rev_length. cbn [length]. lia. }
      { rewrite rev_involutive, app_nil_r. auto. }
      { rewrite rev_involutive. cbn [app]. rewrite <- Et. auto. }
      cbn [app] in *. rewrite rev_involutive, <- Et in V1. rewrite rev_length, Li in H1, L1, R1. cbn [length] in L1, R1.
      replace (i + 0 + length rs - 1)%nat with (length t - 2)%nat in L1, R1 by lia.
      assert (B1 : forall z, (i * z <= (length t - 1) * z)%nat) by (intros z; apply Nat.mul_le_mono_r; lia).
      destruct (no_inner small rec (rev (firstn i t)) x rs c o) as [o'|t' c' o'].
      + rewrite fold_returned. split; [exact H1|]. cbn [op_of] in *. split.
        { etransitivity; [exact L1|]. specialize (B1 (fact (length t - 2))). cbn [Nat.mul]. lia. }
        exists r1. split; [auto|]. split; [|auto]. etransitivity; [exact R1|]. etransitivity; [apply B1|]. cbn [Nat.mul]. lia.
      + destruct H1 as (Go & Hn' & pre & -> & Lp & Sp). cbn [length] in Lp.
        assert (Lt : length (pre ++ rs) = length t) by (rewrite app_length; lia).
        destruct (IH (S i) (pre ++ rs) c' o') as (E1 & L2 & r2 & P2 & R2 & V2); auto.
        { rewrite app_length. lia. } { rewrite app_length. lia. }
        { rewrite firstn_app. replace (S i - length pre)%nat with 0%nat by lia. rewrite firstn_all2 by lia. cbn. rewrite app_nil_r. auto. }
        rewrite Lt in L2, R2. cbn [op_of] in L1. split; [exact E1|]. split; [etransitivity; [exact L2|]; specialize (B1 (fact (length t - 2))); cbn [Nat.mul]; lia|].
        exists (r1 ++ r2). split; [auto using pruned_app|].
        split; [rewrite app_length; specialize (B1 (fact (S (length t - 2)) + fact (length t - 2))%nat); cbn [Nat.mul]; lia|]. intros phi Hp. rewrite lval_app.
        transitivity (out phi (fold_left (no_step small rec) (seq (S i) k) (Going (pre ++ rs) c' o')) + lval phi r2 + lval phi r1); [ring|].
        rewrite V2 by auto. apply V1; auto.
  Qed.
  Lemma fact_bounds N : ((N - 1) * ((N - 1) * fact (N - 2)) + 1 <= fact N)%nat /\ ((N - 1) * ((N - 1) * (fact (S (N - 2)) + fact (N - 2))) + 1 <= fact (S N))%nat.
  Proof.
    destruct N as [|[|p]]; [cbn; lia|cbn; lia|]. replace (S (S p) - 1)%nat with (S p) by lia. replace (S (S p) - 2)%nat with p by lia.
    assert (F1 : fact (S p) = (S p * fact p)%nat) by reflexivity. assert (F2 : fact (S (S p)) = (S (S p) * fact (S p))%nat) by reflexivity.
    assert (F3 : fact (S (S (S p))) = (S (S (S p)) * fact (S (S p)))%nat) by reflexivity. pose proof (lt_O_fact p). rewrite F3, F2, F1. split; nia.
  Qed.
  Lemma term_ok fuel : rec_ok fuel (normal_ordered_ladder_term small fuel).
  Proof.
    assert (G : forall t c st Lo Ro, end_ok st -> (length (op_of st) <= Lo)%nat -> (exists r, pruned_ok r /\ (length r <= Ro)%nat /\ forall phi, carf phi -> out phi st + lval phi r = 0 + c * phi t) ->
      let o := match st with Returned o => o | Going t' c' o => fermion_add small o (fermion_op t' c') end in
      good o /\ (length o <= Lo + 1)%nat /\ exists r, pruned_ok r /\ (length r <= Ro + 1)%nat /\ forall phi, carf phi -> lval phi o + lval phi r = c * phi t).
    { intros t c [o|t' c' o] Lo Ro He Hl (r & Pr & Rr & V); cbn zeta; cbn [op_of] in Hl.
      - split; [exact He|]. split; [lia|]. exists r. split; [auto|]. split; [lia|]. intros phi Hp. cbn [out] in V. rewrite V by auto. ring.
      - destruct He as (Go & Hn & Hs). destruct (fadd_spec o (fermion_op t' c') Go) as (G2 & r2 & P2 & R2 & V2).
        { intros u [<-|[]]. split; auto. }
        split; [exact G2|]. pose proof (add_length o (fermion_op t' c')) as L2. cbn [fermion_op mk_op fermion_simplify length] in L2, R2. split; [etransitivity; [exact L2|]; lia|].
        exists (r ++ r2). split; [auto using pruned_app|]. split; [rewrite app_length; lia|]. intros phi Hp. rewrite lval_app.
        transitivity (lval phi (fermion_add small o (fermion_op t' c')) + lval phi r2 + lval phi r); [ring|]. rewrite V2. cbn [out] in V.
        transitivity (lval phi o + c' * phi t' + lval phi r); [cbn [fermion_op mk_op fermion_simplify lval fst snd]; ring|]. rewrite V by auto. ring. }
    assert (L : forall fuel rec t c, rec_ok fuel rec -> (length t <= fuel + 2)%nat -> Q t ->
      let st := fold_left (no_step small rec) (seq 1 (length t - 1)) (Going t c []) in
      end_ok st /\ (length (op_of st) <= (length t - 1) * ((length t - 1) * fact (length t - 2)))%nat /\
      exists r, pruned_ok r /\ (length r <= (length t - 1) * ((length t - 1) * (fact (S (length t - 2)) + fact (length t - 2))))%nat /\
        forall phi, carf phi -> out phi st + lval phi r = 0 + c * phi t).
    { intros f rec t c Hr Hl Hn. cbn zeta. destruct t as [|x t].
      - cbn. split; [split; [apply good_nil|split; [auto|constructor]]|]. split; [lia|]. exists []. split; [split; [constructor|intros ? []]|]. split; [cbn; lia|]. intros phi _. cbn. ring.
      - apply (no_loop_ok f rec Hr); auto; [cbn; lia| |apply good_nil]. cbn. constructor; constructor. }
    assert (Fin : forall (t : fterm) c (o : fop K) (Lo Ro : nat), (Lo + 1 <= fact (length t))%nat -> (Ro + 1 <= fact (S (length t)))%nat ->
      (good o /\ (length o <= Lo + 1)%nat /\ exists r, pruned_ok r /\ (length r <= Ro + 1)%nat /\ forall phi, carf phi -> lval phi o + lval phi r = c * phi t) ->
      good o /\ (length o <= fact (length t))%nat /\ exists r, pruned_ok r /\ (length r <= fact (S (length t)))%nat /\ forall phi, carf phi -> lval phi o + lval phi r = c * phi t).
    { intros t c o Lo Ro F1 F2 (A & B & r & C & D & E). split; [auto|]. split; [lia|]. exists r. split; [auto|]. split; [lia|auto]. }
    induction fuel as [|f IH]; intros t c Hl Hn; cbn [normal_ordered_ladder_term].
    - destruct t; [|cbn in Hl; lia]. apply (Fin [] c _ 0%nat 0%nat); [cbn; lia|cbn; lia|]. apply (G [] c _ 0%nat 0%nat); cbn; [split; [apply good_nil|split; [auto|constructor]]|lia|].
      exists []. split; [split; [constructor|intros ? []]|]. split; [cbn; lia|]. intros phi _. cbn. ring.
    - destruct (L f (normal_ordered_ladder_term small f) t c IH ltac:(lia) Hn) as (E1 & E2 & E3). destruct (fact_bounds (length t)) as [B1 B2].
      apply (Fin t c _ _ _ B1 B2). apply (G t c); auto.
  Qed.
  Lemma normal_ordered_ok (a : fop K) : (forall t c, In (t, c) a -> Q t) ->
    good (normal_ordered small a) /\ exists r, pruned_ok r /\ (length r <= drop_bound a)%nat /\ forall phi, carf phi -> lval phi (normal_ordered small a) + lval phi r = lval phi a.
  Proof.
    intros Ha. unfold normal_ordered.
    assert (G : forall (a o : fop K), (forall t c, In (t, c) a -> Q t) -> good o ->
      let o' := fold_left (fun o tc => fermion_add small o (normal_ordered_ladder_term small (length (fst tc)) (fst tc) (snd tc))) a o in
      good o' /\ exists r, pruned_ok r /\ (length r <= drop_bound a)%nat /\ forall phi, carf phi -> lval phi o' + lval phi r = lval phi o + lval phi a).
    { clear a Ha. induction a as [|[t c] a IH]; intros o Ha Ho; cbn zeta; cbn [fold_left fst snd].
      - split; [auto|]. exists []. split; [split; [constructor|intros ? []]|]. split; [cbn; lia|]. intros phi _. cbn. ring.
      - destruct (term_ok (length t) t c (le_n _)) as (G1 & L1 & r1 & P1 & R1 & V1). { eapply Ha; left; reflexivity. }
        destruct (fadd_spec o (normal_ordered_ladder_term small (length t) t c) Ho) as (G2 & r2 & P2 & R2 & V2). { apply (good_keys _ bool_eqb_spec small _ _ G1). }
        destruct (IH (fermion_add small o (normal_ordered_ladder_term small (length t) t c))) as (G3 & r3 & P3 & R3 & V3); auto.
        { intros u d Hu. eapply Ha. right; eauto. }
        cbn zeta in *. split; [exact G3|]. exists (r1 ++ r2 ++ r3). split; [auto using pruned_app|].
        split; [rewrite !app_length; unfold drop_bound in *; cbn [fold_right fst snd]; assert (fact (length t) <= fact (S (length t)))%nat by (apply fact_le; lia); lia|].
        intros phi Hp. rewrite !lval_app. cbn [lval fst snd].
        match goal with |- ?X + _ = _ => transitivity (X + lval phi r3 + lval phi r2 + lval phi r1); [ring|] end.
        rewrite V3 by auto.
        transitivity ((lval phi (fermion_add small o (normal_ordered_ladder_term small (length t) t c)) + lval phi r2) + lval phi r1 + lval phi a); [ring|].
        rewrite V2. transitivity (lval phi o + (lval phi (normal_ordered_ladder_term small (length t) t c) + lval phi r1) + lval phi a); [ring|].
        rewrite V1 by auto. ring. }
    destruct (G a [] Ha (good_nil _ _ _)) as (G1 & r & Pr & Rr & V). cbn zeta in *. split; [exact G1|]. exists r. split; [auto|]. split; [auto|]. intros phi Hp. rewrite V by auto. cbn. ring.
  Qed.

  (** ** Operators in normal order are left alone *)
  Lemma no_inner_id rec ls : forall x rs c o, sorted_term (rev ls ++ [x]) -> no_inner small rec ls x rs c o = Going (rev ls ++ x :: rs) c o.
  Proof.
    induction ls as [|l ls IH]; intros x rs c o H; cbn [no_inner]; [reflexivity|]. cbn [rev] in H. rewrite <- app_assoc in H. cbn [app] in H.
    apply sorted_app in H as (H1 & H2 & H3). inversion H2 as [|? ? _ Hf]; subst. inversion Hf as [|? ? Hb _]; subst.
    assert (H4 : sorted_term (rev ls ++ [l])).
    { apply sorted_app. split; [auto|]. split; [repeat constructor|]. intros f g Hi [<-|[]]. apply H3; auto. left; auto. }
    assert (R : rev (l :: ls) ++ x :: rs = rev ls ++ l :: x :: rs) by (cbn [rev]; rewrite <- app_assoc; reflexivity). rewrite R.
    unfold before in Hb. destruct x as [p []], l as [q []]; cbn [fst snd negb andb Bool.eqb] in *; try contradiction.
    - destruct (Nat.eqb_spec p q); [lia|]. destruct (Nat.ltb_spec q p); [lia|]. apply IH; auto.
    - apply IH; auto.
    - destruct (Nat.eqb_spec p q); [lia|]. destruct (Nat.ltb_spec q p); [lia|]. apply IH; auto.
  Qed.
  Lemma no_loop_id rec t c o : sorted_term t -> forall l, fold_left (no_step small rec) l (Going t c o) = Going t c o.
  Proof.
    intros Hs. induction l as [|i l IH]; cbn [fold_left]; [reflexivity|]. cbn [no_step]. destruct (skipn i t) as [|x rs] eqn:Es; [exact IH|].
    assert (Et : firstn i t ++ x :: rs = t) by (rewrite <- Es; apply firstn_skipn).
    rewrite no_inner_id; rewrite rev_involutive; [rewrite Et; exact IH|].
    rewrite <- Et in Hs. apply sorted_app in Hs as (H1 & H2 & H3). apply sorted_app. split; [auto|]. split; [repeat constructor|].
    intros f g Hf [<-|[]]. apply H3; auto. left; auto.
  Qed.
  Lemma normal_term_id fuel t c : sorted_term t -> small c = false -> normal_ordered_ladder_term small fuel t c = [(t, c)].
  Proof.
    intros Hs Hc. destruct fuel; cbn [normal_ordered_ladder_term]; rewrite no_loop_id by auto; unfold fermion_add, op_add, fermion_op, mk_op, fermion_simplify;
      cbn [fold_left merge_term fst snd dget]; unfold merge_term; cbn [fst snd dget]; (assert (E : 0 + c = c) by ring); rewrite E; cbn [dset]; rewrite Hc; reflexivity.
  Qed.
  Lemma normal_ordered_id (a : fop K) : wf_op a -> (forall t c, In (t, c) a -> sorted_term t /\ small c = false) -> normal_ordered small a = a.
  Proof.
    intros W H. unfold normal_ordered.
    assert (G : forall b o : fop K, wf_op (o ++ b) -> (forall t c, In (t, c) b -> sorted_term t /\ small c = false) ->
      fold_left (fun o tc => fermion_add small o (normal_ordered_ladder_term small (length (fst tc)) (fst tc) (snd tc))) b o = o ++ b).
    { clear a W H. induction b as [|[t c] b IH]; intros o W H; cbn [fold_left fst snd]; [rewrite app_nil_r; reflexivity|].
      destruct (H t c (or_introl eq_refl)) as [Hs Hc]. rewrite normal_term_id by auto.
      unfold wf_op, dkeys in W. rewrite map_app in W. cbn [map fst] in W.
      assert (Hn : ~ In t (dkeys o)). { apply NoDup_remove_2 in W. intros Hi. apply W, in_or_app. left. exact Hi. }
      assert (E : fermion_add small o [(t, c)] = o ++ [(t, c)]).
      { unfold fermion_add, op_add. cbn [fold_left]. unfold merge_term. cbn [fst snd].
        rewrite (proj2 (dget_None _ (term_eqb_spec _ bool_eqb_spec) t o) Hn). assert (E : 0 + c = c) by ring. rewrite E, Hc.
        apply (dset_app_new _ (term_eqb_spec _ bool_eqb_spec)); auto. }
      etransitivity; [apply (f_equal (fold_left _ b)); exact E|]. rewrite IH; [rewrite <- app_assoc; reflexivity| |intros u d Hu; apply H; right; auto].
      unfold wf_op, dkeys. rewrite <- app_assoc. cbn [app]. rewrite map_app. exact W. }
    exact (G a [] W H).
  Qed.
End NO.

Definition on_modes (n : nat) (t : fterm) : Prop := forall f, In f t -> fst f < n.
Lemma on_modes_perm n t u : Permutation t u -> on_modes n t -> on_modes n u.
Proof. intros Hp H f Hf. apply H. eapply Permutation_in; [symmetry; eauto|auto]. Qed.
Lemma on_modes_del n l x y r : fst x = fst y -> snd x <> snd y -> on_modes n (l ++ x :: y :: r) -> on_modes n (l ++ r).
Proof. intros _ _ H f Hf. apply H. rewrite in_app_iff in *. cbn [In]. tauto. Qed.

(** ** The matrices satisfy the relations *)
Section Mat.
  Context {K : cring} (n : nat).
  Add Ring Kring_f4 : (kth K).
  Open Scope K_scope.
  Notation F := (fterm_matrix (K := K) n).
  Notation M := (fop_matrix (K := K) n).
  Lemma fterm_shape t : nr (F t) = (2 ^ n)%nat /\ nc (F t) = (2 ^ n)%nat.
  Proof. induction t as [|f t [IH1 IH2]]; cbn; auto. Qed.
  Lemma fop_shape (a : fop K) : nr (M a) = (2 ^ n)%nat /\ nc (M a) = (2 ^ n)%nat.
  Proof. destruct a as [|[t c] a]; cbn; auto. apply fterm_shape. Qed.
  Lemma fop_ent (a : fop K) i j : ent (M a) i j = lval (fun t => ent (F t) i j) a.
  Proof. induction a as [|[t c] a IH]; [reflexivity|]. cbn [fop_matrix fold_right ent madd mscale lval fst snd]. f_equal. exact IH. Qed.
  Lemma fterm_app t u : meq (F (t ++ u)) (mmul (F t) (F u)).
  Proof.
    induction t as [|f t IH]; cbn [app fterm_matrix fold_right].
    - symmetry. apply mmul_eye_l. symmetry; apply fterm_shape.
    - fold (F (t ++ u)). fold (F t). rewrite mmul_assoc; [|cbn; symmetry; apply fterm_shape|rewrite (proj2 (fterm_shape t)); symmetry; apply fterm_shape].
      apply mmul_ext; [cbn; symmetry; apply fterm_shape|reflexivity|exact IH].
  Qed.
  Lemma fterm_two x y : meq (F [x; y]) (mmul (ladder_matrix n x) (ladder_matrix n y)).
  Proof. cbn [fterm_matrix fold_right]. apply mmul_ext; [reflexivity|reflexivity|]. apply mmul_eye_r. reflexivity. Qed.
  Lemma fterm_mid l m r i j : (i < 2 ^ n)%nat -> (j < 2 ^ n)%nat ->
    ent (F (l ++ m ++ r)) i j = bigsum (2 ^ n) (fun k => ent (F l) i k * bigsum (2 ^ n) (fun k' => ent (F m) k k' * ent (F r) k' j)).
  Proof.
    intros Hi Hj.
    assert (E : meq (F (l ++ m ++ r)) (mmul (F l) (mmul (F m) (F r)))).
    { rewrite fterm_app. apply mmul_ext; [rewrite (proj2 (fterm_shape l)); symmetry; apply fterm_shape|reflexivity|apply fterm_app]. }
    destruct E as (E1 & E2 & E). rewrite E; [|rewrite (proj1 (fterm_shape _)); auto|rewrite (proj2 (fterm_shape _)); auto]. cbn [ent mmul].
    rewrite (proj2 (fterm_shape l)), (proj2 (fterm_shape m)). reflexivity.
  Qed.
  Lemma mat_carf i j : (i < 2 ^ n)%nat -> (j < 2 ^ n)%nat -> carf (on_modes n) (fun t => ent (F t) i j).
  Proof.
    intros Hi Hj. split.
    - intros l x y r Hn.
      change (l ++ x :: y :: r) with (l ++ [x; y] ++ r). change (l ++ y :: x :: r) with (l ++ [y; x] ++ r). change (l ++ r) with (l ++ [] ++ r).
      rewrite !fterm_mid by auto. rewrite <- bigsum_add, bigsum_mul_l. apply bigsum_ext. intros k Hk.
      transitivity (ent (F l) i k * (bigsum (2 ^ n) (fun k' => ent (F [x; y]) k k' * ent (F r) k' j) + bigsum (2 ^ n) (fun k' => ent (F [y; x]) k k' * ent (F r) k' j))); [ring|].
      rewrite <- bigsum_add.
      transitivity (ent (F l) i k * (car x y * bigsum (2 ^ n) (fun k' => ent (F []) k k' * ent (F r) k' j))); [|ring]. f_equal.
      rewrite bigsum_mul_l. apply bigsum_ext. intros k' Hk'.
      assert (Hx : fst x < n) by (apply Hn, in_or_app; right; left; auto). assert (Hy : fst y < n) by (apply Hn, in_or_app; right; right; left; auto).
      destruct (ladder_car (K := K) n x y Hx Hy) as (_ & _ & C). cbn [nr nc madd mmul ladder_matrix] in C. specialize (C k k' Hk Hk').
      change (ent (F [x; y]) k k' * ent (F r) k' j + ent (F [y; x]) k k' * ent (F r) k' j = car x y * (ent (F []) k k' * ent (F r) k' j)).
      destruct (fterm_two x y) as (_ & _ & E1), (fterm_two y x) as (_ & _ & E2). rewrite E1, E2 by (cbn; auto).
      cbn [ent madd] in C. transitivity ((ent (mmul (ladder_matrix n x) (ladder_matrix n y)) k k' + ent (mmul (ladder_matrix n y) (ladder_matrix n x)) k k') * ent (F r) k' j); [ring|].
      rewrite C. cbn [ent mscale fterm_matrix fold_right]. ring.
    - intros l x r Hn. change (l ++ x :: x :: r) with (l ++ [x; x] ++ r). rewrite fterm_mid by auto. apply bigsum_0. intros k Hk.
      rewrite bigsum_0; [ring|]. intros k' Hk'. destruct (fterm_two x x) as (_ & _ & E1). rewrite E1 by (cbn; auto).
      assert (Hx : fst x < n) by (apply Hn, in_or_app; right; left; auto).
      assert (Z : ent (mmul (ladder_matrix n x) (ladder_matrix n x)) k k' = (0 : K)); [|rewrite Z; ring].
      assert (Q : meq (mmul (ladder_matrix n x) (ladder_matrix n x)) (mono (K := K) n (mcomp (ladder_act x) (ladder_act x)))).
      { rewrite <- mono_mmul by apply ladder_keeps. apply mmul_ext; try reflexivity; apply ladder_mono; auto. }
      destruct Q as (_ & _ & Q). rewrite Q by (cbn; auto). cbn [ent mono]. unfold mcomp, ladder_act. cbn [fst snd].
      rewrite nth_setb_same by (rewrite bits_length; auto). destruct (Nat.eqb _ _); [|reflexivity].
      destruct (snd x); cbn; ring.
  Qed.
  (** the operator, the pruned terms and the result, as matrices *)
  Lemma normal_ordered_matrix small (a : fop K) : on_qubits n a ->
    exists r : fop K, Forall (fun tc => small (snd tc) = true) r /\ (length r <= drop_bound a)%nat /\ normal_op r /\ meq (madd (M (normal_ordered small a)) (M r)) (M a).
  Proof.
    intros Ha. destruct (normal_ordered_ok small (on_modes n) (on_modes_perm n) (on_modes_del n) a Ha) as (_ & r & [P1 P2] & Rr & V). exists r. split; [auto|]. split; [auto|]. split.
    - intros t c Hin. apply sorted_normal. apply P2. apply in_map_iff. exists (t, c). auto.
    - split; [cbn; rewrite !(proj1 (fop_shape _)); auto|]. split; [cbn; rewrite !(proj2 (fop_shape _)); auto|]. intros i j Hi Hj. cbn [nr nc madd] in Hi, Hj.
      rewrite (proj1 (fop_shape _)) in Hi. rewrite (proj2 (fop_shape _)) in Hj. cbn [ent madd]. rewrite !fop_ent. apply V. apply mat_carf; auto.
  Qed.
End Mat.
