(** C79: the reduced Hamiltonian.  C80: the terms that symmetry does not relate. *)
From Coq Require Import Reals Lra Ring Qcanon.
From Verif Require Import Base BaseFacts MatModel MatFacts GaussQ LiftSpec OpModel OpSpec FermiSpec SectorSpec TensorModel TensorSpec TensorProps ConvModel ConvProofs DiagModel DiagSpec LayoutProofs Cplx MolModel MolSpec MolProofs9 MolProps.
Open Scope list_scope.
Local Open Scope nat_scope.

Section C79.
  Context {K : cring} (recip : Z -> K).
  Open Scope K_scope.
  (** For any interaction operator and any number k of electrons other than one: the reduced Hamiltonian has no one-body part, and on states of k electrons it is
      the Hamiltonian (all matrix elements, any number of modes). *)
  Theorem C79_reduced (h : heap K) a k : inverts recip -> interaction_ok h a -> k <> 1%nat -> exists h' r, make_reduced_hamiltonian recip h a (Z.of_nat k) = Ok (h', r) /\ interaction_ok h' r /\ preserved h h' /\
    n_qubits r = n_qubits a /\ value h' r [] [] = value h a [] [] /\ (forall i, value h' r [true; false] i = 0) /\
    forall x y, length x = n_qubits a -> length y = n_qubits a -> particles y = k -> tensor_entry h' r x y = tensor_entry h a x y.
  Proof. intros. apply (reduced_ok (fun _ => true)); assumption. Qed.
  (** One electron has no pairs: an error. *)
  Theorem C79_one_electron (h : heap K) a : interaction_ok h a -> make_reduced_hamiltonian recip h a 1 = Err ZeroDivisionError.
  Proof. intros Ha. destruct (interaction_parts h a Ha) as (c & r1 & r2 & E & _). unfold make_reduced_hamiltonian, constant, array_at. rewrite E. reflexivity. Qed.
End C79.
(** Complex numbers with the division of integers. *)
Definition c79_recip (z : Z) : CC := (/ IZR z, 0)%R.
Lemma c79_inverts : inverts (K := CC) c79_recip.
Proof.
  assert (I : forall m, ones (K := CC) m = (INR m, 0%R)).
  { induction m as [|m IH]; [reflexivity|]. change (cadd c1 (ones (K := CC) m) = (INR (S m), 0%R)). rewrite IH, S_INR. apply c_eq; cbn [fst snd cadd c1]; lra. }
  assert (Z : forall z, integer (K := CC) z = (IZR z, 0%R)).
  { intros [|p|p]; [reflexivity| |]; cbn [integer]; rewrite I, INR_IPR; [reflexivity|]. apply c_eq; [reflexivity|cbn; lra]. }
  intros z Hz. rewrite Z. assert (N : IZR z <> 0%R) by (apply not_0_IZR; exact Hz). apply c_eq; cbn; [|ring]. field. exact N.
Qed.

Section C80.
  Context {K : cring} (isz : K -> bool).
  Open Scope K_scope.
  Notation arr := (TensorModel.ndarray K).
  (** the number a tensor holds for a term *)
  Definition coefficient (h : heap K) (a : ptensor K) (t : list (nat * bool)) : K := value h a (map snd t) (map fst t).
  Definition term_of (a : ptensor K) (t : list (nat * bool)) : Prop := has_key a (map snd t) /\ Forall (fun p => (p < n_qubits a)%nat) (map fst t).

  Lemma sym_class cv x y : length x = 4%nat -> In y (symmetric_two_body_terms x cv) <-> (if cv then four_point x y else eight_point x y).
  Proof.
    intros L. destruct x as [|p [|q [|r [|s [|]]]]]; try discriminate. unfold four_point, eight_point, symmetric_two_body_terms. destruct cv; cbn [app In]; split.
    - intros H. exists p, q, r, s. split; [reflexivity|]. intuition.
    - intros (p' & q' & r' & s' & E & H). injection E as <- <- <- <-. intuition.
    - intros H. destruct H as [H|[H|[H|[H|[H|[H|[H|[H|[]]]]]]]]]; [left|left|left|left|right|right|right|right]; exists p, q, r, s; (split; [reflexivity|]); auto.
    - intros [(p' & q' & r' & s' & E & H)|(p' & q' & r' & s' & E & H)]; injection E as <- <- <- <-; intuition.
  Qed.
  Lemma sym_sym cv x y : length x = 4%nat -> In y (symmetric_two_body_terms x cv) -> In x (symmetric_two_body_terms y cv).
  Proof.
    intros L. destruct x as [|p [|q [|r [|s [|]]]]]; try discriminate. unfold symmetric_two_body_terms. intros H. apply in_app_iff in H as [H|H].
    - cbn [In] in H. destruct H as [H|[H|[H|[H|[]]]]]; subst y; cbn [app In]; auto.
    - destruct cv; [destruct H|]. cbn [In] in H. destruct H as [H|[H|[H|[H|[]]]]]; subst y; cbn [app In]; tauto.
  Qed.
  Lemma sym_refl cv x : length x = 4%nat -> In x (symmetric_two_body_terms x cv).
  Proof. intros L. destruct x as [|p [|q [|r [|s [|]]]]]; try discriminate. left. reflexivity. Qed.
  Definition uinv (two : arr) cv (l : list (list nat)) (st : list (list nat) * list (list nat)) : Prop :=
    (forall y, In y (fst st) -> In y l /\ isz (data two y) = false) /\
    (forall q, In q (snd st) <-> exists y, In y (fst st) /\ In q (symmetric_two_body_terms y cv)) /\
    (forall y y', In y (fst st) -> In y' (fst st) -> In y' (symmetric_two_body_terms y cv) -> y = y') /\
    (forall q, In q l -> isz (data two q) = false -> exists y, In y (fst st) /\ In q (symmetric_two_body_terms y cv)) /\
    NoDup (fst st).
  Lemma unique_step_inv two cv l st q : (forall x, In x l -> length x = 4%nat) -> length q = 4%nat -> uinv two cv l st -> uinv two cv (l ++ [q]) (unique_step isz cv two st q).
  Proof.
    intros Ll Lq (A & B & C & D & E). destruct st as [Y seen]. cbn [fst snd] in *. unfold unique_step.
    assert (M : memb quad_eqb q seen = true <-> In q seen) by (apply memb_In; apply (list_eqb_spec _ nat_eqb_spec)).
    destruct (isz (data two q)) eqn:Z; cbn [negb andb].
    - repeat split; cbn [fst snd]; auto; try apply B; [apply in_or_app; left; apply A; auto|apply A; auto|].
      intros x Hx Nx. apply in_app_iff in Hx as [Hx|[<-|[]]]; [apply D; auto|congruence].
    - destruct (memb quad_eqb q seen) eqn:Q; cbn [negb].
      + repeat split; cbn [fst snd]; auto; try apply B; [apply in_or_app; left; apply A; auto|apply A; auto|].
        intros x Hx Nx. apply in_app_iff in Hx as [Hx|[<-|[]]]; [apply D; auto|]. apply B. apply M. reflexivity.
      + assert (Nq : ~ In q seen) by (intros H; apply M in H; congruence).
        assert (Ly : forall y, In y Y -> length y = 4%nat) by (intros y Hy; apply Ll; apply A; exact Hy).
        split; [|split; [|split; [|split]]]; cbn [fst snd].
        * intros y [<-|Hy]; [split; [apply in_or_app; right; left; reflexivity|exact Z]|]. destruct (A y Hy). split; [apply in_or_app; left|]; assumption.
        * intros x. rewrite in_app_iff, B. split.
          -- intros [H|(y & Hy & H)]; [exists q; split; [left; reflexivity|exact H]|exists y; split; [right|]; assumption].
          -- intros (y & [<-|Hy] & H); [left; exact H|right; exists y; auto].
        * intros y y' [<-|Hy] [<-|Hy'] H; [reflexivity| | |apply C; auto]; exfalso; apply Nq; apply B.
          -- exists y'. split; [exact Hy'|]. apply sym_sym; auto.
          -- exists y. auto.
        * intros x Hx Nx. apply in_app_iff in Hx as [Hx|[<-|[]]]; [destruct (D x Hx Nx) as (y & Hy & H); exists y; split; [right|]; assumption|]. exists q. split; [left; reflexivity|apply sym_refl; exact Lq].
        * constructor; [|exact E]. intros H. apply Nq. apply B. exists q. split; [exact H|apply sym_refl; exact Lq].
  Qed.
  Lemma unique_fold two cv l : (forall x, In x l -> length x = 4%nat) -> uinv two cv l (fold_left (unique_step isz cv two) l ([], [])).
  Proof.
    induction l as [|q l IH] using rev_ind; intros H.
    - split; [intros y []|]. split; [intros q; split; [intros []|intros (y & [] & _)]|]. split; [intros y y' []|]. split; [intros q []|constructor].
    - rewrite fold_left_app. cbn [fold_left]. apply unique_step_inv; [intros; apply H; apply in_or_app; auto|apply H; apply in_or_app; right; left; reflexivity|]. apply IH. intros x Hx. apply H. apply in_or_app. auto.
  Qed.
  Lemma quad_term (x : list nat) : length x = 4%nat -> map snd (combine x [true; true; false; false]) = [true; true; false; false] /\ map fst (combine x [true; true; false; false]) = x.
  Proof. intros L. destruct x as [|p [|q [|r [|s [|]]]]]; try discriminate. split; reflexivity. Qed.
  (** For any interaction operator: what is listed are terms with a nonzero coefficient, none twice and no two related by the symmetry; and every term with a nonzero
      coefficient is related to one that is listed, provided - for a one-body term pq - that the coefficient of qp is not zero either. *)
  Theorem C80_unique (h : heap K) a cv : interaction_ok h a -> exists l, unique_iter isz h a cv = Ok l /\ NoDup l /\
    (forall t, In t l -> term_of a t /\ isz (coefficient h a t) = false) /\
    (forall t u, In t l -> In u l -> same_class cv t u -> t = u) /\
    (forall t, term_of a t -> isz (coefficient h a t) = false -> (forall p q, t = [(p, true); (q, false)] -> isz (coefficient h a [(q, true); (p, false)]) = false) -> exists u, In u l /\ same_class cv u t).
  Proof.
    intros Ha. destruct (interaction_parts h a Ha) as (c & r1 & r2 & E & S1 & S2). unfold unique_iter, constant, array_at. rewrite E. cbn [dget key_eqb list_eqb Bool.eqb rbind andb].
    set (one := read h r1). set (two := read h r2). set (n := n_qubits a) in *.
    assert (L4 : forall x, In x (indices n 4) -> length x = 4%nat) by (intros x Hx; apply in_indices in Hx; apply Hx).
    pose proof (unique_fold two cv (indices n 4) L4) as (A & _ & C & D & N). set (Y := fst (fold_left (unique_step isz cv two) (indices n 4) ([], []))) in *.
    set (Lone := filter (fun pq => negb (isz (data one pq))) (flat_map (fun p => map (fun q => [p; q]) (seq 0 (S p))) (seq 0 n))).
    set (l0 := if isz c then [] else [[]] : list (list (nat * bool))).
    assert (V0 : value h a [] [] = c) by (unfold value; rewrite E; reflexivity).
    assert (V1 : forall i, value h a [true; false] i = data one i) by (intros i; unfold value; rewrite E; reflexivity).
    assert (V2 : forall i, value h a [true; true; false; false] i = data two i) by (intros i; unfold value; rewrite E; reflexivity).
    assert (K3 : forall k, has_key a k <-> k = [] \/ k = [true; false] \/ k = [true; true; false; false]).
    { intros k. unfold has_key. rewrite E. cbn [dkeys map fst In]. intuition. }
    assert (I0 : forall t, In t l0 <-> t = [] /\ isz c = false) by (intros t; unfold l0; destruct (isz c); cbn [In]; intuition congruence).
    assert (I1 : forall t, In t (map (fun pq => combine pq [true; false]) Lone) <-> exists p q, t = [(p, true); (q, false)] /\ (q <= p)%nat /\ (p < n)%nat /\ isz (data one [p; q]) = false).
    { intros t. rewrite in_map_iff. split.
      - intros (pq & <- & H). apply filter_In in H as [H Z]. apply in_flat_map in H as (p & Hp & H). apply in_map_iff in H as (q & <- & Hq). apply in_seq in Hp, Hq. exists p, q. split; [reflexivity|]. split; [lia|]. split; [lia|]. destruct (isz (data one [p; q])); [discriminate|reflexivity].
      - intros (p & q & -> & H1 & H2 & Z). exists [p; q]. split; [reflexivity|]. apply filter_In. split; [|rewrite Z; reflexivity]. apply in_flat_map. exists p. split; [apply in_seq; lia|]. apply in_map_iff. exists q. split; [reflexivity|apply in_seq; lia]. }
    assert (I2 : forall t, In t (map (fun quad => combine quad [true; true; false; false]) (rev Y)) <-> exists x, t = combine x [true; true; false; false] /\ In x Y).
    { intros t. rewrite in_map_iff. split; intros (x & H1 & H2); exists x; (split; [auto|]); apply in_rev; [|rewrite rev_involutive]; exact H2. }
    assert (LY : forall x, In x Y -> length x = 4%nat) by (intros x Hx; apply L4; apply A; exact Hx).
    eexists. split; [reflexivity|]. split; [|split; [|split]].
    - apply NoDup_app; [unfold l0; destruct (isz c); repeat constructor; intros []| |].
      + apply NoDup_app.
        * apply NoDup_map_inj_in.
          -- intros x y Hx Hy Q. apply filter_In in Hx as [Hx _]. apply filter_In in Hy as [Hy _]. apply in_flat_map in Hx as (p & _ & Hx). apply in_flat_map in Hy as (p' & _ & Hy). apply in_map_iff in Hx as (q & <- & _). apply in_map_iff in Hy as (q' & <- & _).
             cbn [combine] in Q. congruence.
          -- apply NoDup_filter. apply NoDup_flat_map; [apply seq_NoDup| |].
             ++ intros p _. apply NoDup_map_inj_in; [intros; congruence|apply seq_NoDup].
             ++ intros p p' x _ _ Hx Hy. apply in_map_iff in Hx as (q & <- & _). apply in_map_iff in Hy as (q' & Q & _). congruence.
        * apply NoDup_map_inj_in; [|apply NoDup_rev; exact N]. intros x y Hx Hy Q. apply in_rev in Hx, Hy. destruct (quad_term x (LY x Hx)) as [_ <-]. destruct (quad_term y (LY y Hy)) as [_ <-]. rewrite Q. reflexivity.
        * intros t H1 H2. apply I1 in H1 as (p & q & -> & _). apply I2 in H2 as (x & Q & Hx). apply (f_equal (map snd)) in Q. rewrite (proj1 (quad_term x (LY x Hx))) in Q. discriminate.
      + intros t H1 H2. apply I0 in H1 as [-> _]. apply in_app_iff in H2 as [H2|H2]; [apply I1 in H2 as (p & q & Q & _); discriminate|]. apply I2 in H2 as (x & Q & Hx). apply (f_equal (map snd)) in Q. rewrite (proj1 (quad_term x (LY x Hx))) in Q. discriminate.
    - intros t Ht. apply in_app_iff in Ht as [Ht|Ht]; [|apply in_app_iff in Ht as [Ht|Ht]].
      + apply I0 in Ht as [-> Z]. split; [split; [apply K3; left; reflexivity|constructor]|]. unfold coefficient. cbn [map]. rewrite V0. exact Z.
      + apply I1 in Ht as (p & q & -> & Hq & Hp & Z). split; [split; [apply K3; right; left; reflexivity|cbn [map fst]; repeat constructor; fold n; lia]|]. unfold coefficient. cbn [map fst snd]. rewrite V1. exact Z.
      + apply I2 in Ht as (x & -> & Hx). destruct (quad_term x (LY x Hx)) as [Q1 Q2]. destruct (A x Hx) as [Ix Z]. unfold term_of, coefficient. rewrite Q1, Q2, V2. split; [|exact Z]. split; [apply K3; right; right; reflexivity|]. apply in_indices in Ix. apply Ix.
    - intros t u Ht Hu [R|[(p & q & -> & ->)|(x & y & -> & -> & R)]]; [exact R| |].
      + assert (P : forall p q, In [(p, true); (q, false)] (l0 ++ map (fun pq => combine pq [true; false]) Lone ++ map (fun quad => combine quad [true; true; false; false]) (rev Y)) -> (q <= p)%nat).
        { intros p0 q0 H. apply in_app_iff in H as [H|H]; [apply I0 in H as [H _]; discriminate|]. apply in_app_iff in H as [H|H]; [apply I1 in H as (p1 & q1 & Q & H & _); injection Q as -> ->; exact H|].
          apply I2 in H as (x & Q & Hx). apply (f_equal (map snd)) in Q. rewrite (proj1 (quad_term x (LY x Hx))) in Q. discriminate. }
        apply P in Ht, Hu. replace q with p by lia. reflexivity.
      + assert (L : length x = 4%nat /\ length y = 4%nat).
        { destruct cv; [destruct R as (p & q & r & s & -> & [->|[->|[->| ->]]])|destruct R as [(p & q & r & s & -> & [->|[->|[->| ->]]])|(p & q & r & s & -> & [->|[->|[->| ->]]])]]; split; reflexivity. }
        destruct L as [Lx Ly].
        assert (P : forall x, length x = 4%nat -> In (combine x [true; true; false; false]) (l0 ++ map (fun pq => combine pq [true; false]) Lone ++ map (fun quad => combine quad [true; true; false; false]) (rev Y)) -> In x Y).
        { intros x0 L0 H. destruct (quad_term x0 L0) as [Q1 Q2]. apply in_app_iff in H as [H|H]; [apply I0 in H as [H _]; rewrite H in Q1; discriminate|]. apply in_app_iff in H as [H|H]; [apply I1 in H as (p1 & q1 & Q & _); rewrite Q in Q1; discriminate|].
          apply I2 in H as (x1 & Q & Hx). apply (f_equal (map fst)) in Q. rewrite Q2, (proj2 (quad_term x1 (LY x1 Hx))) in Q. subst. exact Hx. }
        f_equal. apply C; [apply P; assumption|apply P; assumption|]. apply sym_class; assumption.
    - intros t [Hk Hr] Z Hs. apply K3 in Hk as [Hk|[Hk|Hk]].
      + destruct t as [|]; [|discriminate]. exists []. split; [|left; reflexivity]. apply in_or_app. left. apply I0. split; [reflexivity|]. rewrite <- V0. exact Z.
      + destruct t as [|[p b1] [|[q b2] [|]]]; try discriminate. cbn [map snd] in Hk. injection Hk as -> ->. specialize (Hs p q eq_refl). unfold coefficient in Z, Hs. cbn [map fst snd] in *. rewrite V1 in Z, Hs.
        inversion Hr as [|? ? Hp Hr']; subst. inversion Hr' as [|? ? Hq _]; subst. fold n in Hp, Hq. destruct (Nat.le_gt_cases q p) as [G|G].
        * exists [(p, true); (q, false)]. split; [|left; reflexivity]. apply in_or_app. right. apply in_or_app. left. apply I1. exists p, q. auto.
        * exists [(q, true); (p, false)]. split; [|right; left; exists q, p; split; reflexivity]. apply in_or_app. right. apply in_or_app. left. apply I1. exists q, p. split; [reflexivity|]. split; [lia|]. auto.
      + assert (Lt : length t = 4%nat) by (rewrite <- (map_length snd), Hk; reflexivity). set (x := map fst t) in *. assert (Lx : length x = 4%nat) by (unfold x; rewrite map_length; exact Lt).
        assert (Et : t = combine x [true; true; false; false]) by (rewrite <- Hk; unfold x; clear; induction t as [|[p b] t IH]; [reflexivity|]; cbn [map combine fst snd]; f_equal; exact IH).
        unfold coefficient in Z. rewrite Hk in Z. fold x in Z. rewrite V2 in Z. assert (Ix : In x (indices n 4)) by (apply in_indices; split; assumption).
        destruct (D x Ix Z) as (y & Hy & Q). exists (combine y [true; true; false; false]). split; [apply in_or_app; right; apply in_or_app; right; apply I2; exists y; auto|]. right. right. exists y, x. split; [reflexivity|]. split; [exact Et|]. apply sym_class; auto.
  Qed.
End C80.

(** ** Cases *)
Lemma gq_eqb_refl (c : GQ) : gq_eqb c c = true.
Proof. destruct c as [x y]. unfold gq_eqb. cbn [fst snd]. unfold Qc_eq_bool. destruct (Qc_eq_dec x x); [|congruence]. destruct (Qc_eq_dec y y); [reflexivity|congruence]. Qed.
Lemma gq_ne (a b : GQ) : gq_eqb a b = false -> a <> b.
Proof. intros H ->. rewrite gq_eqb_refl in H. discriminate. Qed.
(** two modes with energies 1 and 2 *)
Definition c79_one : TensorModel.ndarray GQ := {| shape0 := 2; data := fun i => match i with [0; 0] => gq 4 0 | [1; 1] => gq 8 0 | _ => gq 0 0 end |}.
Definition c79_heap : heap GQ := [c79_one; zeros_array 2].
Definition c79_op : ptensor GQ := {| n_qubits := 2; n_body_tensors := [([], Num (gq 4 0)); ([true; false], Arr 0); ([true; true; false; false], Arr 1)] |}.
Definition c79_quarter (z : Z) : GQ := if Z.eqb z 4 then gq 1 0 else gq 0 0.
Example C79_hypotheses : inverts (K := CC) c79_recip /\ interaction_ok c79_heap c79_op.
Proof.
  split; [exact c79_inverts|]. split; [|reflexivity]. split; [repeat constructor; cbn; intuition discriminate|]. split.
  - intros k1 k2 r [H|[H|[H|[]]]] [H'|[H'|[H'|[]]]]; congruence.
  - split; [exists [true; false], 0; right; left; reflexivity|]. intros k e [H|[H|[H|[]]]]; injection H as <- <-; [reflexivity| |]; (split; [discriminate|split; [cbn; lia|reflexivity]]).
Qed.
(** two electrons: the element of the pair is (1 + 2) / 4 *)
Example C79_case : match make_reduced_hamiltonian c79_quarter c79_heap c79_op 2 with
  | Ok (h, r) => gq_eqb (value h r [true; true; false; false] [0; 1; 1; 0]) (gq 3 0) && gq_eqb (value h r [true; true; false; false] [0; 1; 0; 1]) (gq (-3) 0) && gq_zero (value h r [true; false] [0; 0]) &&
      gq_eqb (tensor_entry h r [true; true] [true; true]) (gq 16 0) && gq_eqb (tensor_entry c79_heap c79_op [true; true] [true; true]) (gq 16 0)
  | Err _ => false end = true.
Proof. vm_compute. reflexivity. Qed.
(** On states with another number of electrons the reduced Hamiltonian is another operator. *)
Theorem C79_other_refuted : exists h (a : ptensor GQ) h' r x, interaction_ok h a /\ make_reduced_hamiltonian c79_quarter h a 2 = Ok (h', r) /\ length x = n_qubits a /\ particles x = 1 /\ tensor_entry h' r x x <> tensor_entry h a x x.
Proof.
  exists c79_heap, c79_op. destruct (make_reduced_hamiltonian c79_quarter c79_heap c79_op 2) as [[h' r]|] eqn:E.
  - exists h', r, [true; false]. split; [apply C79_hypotheses|]. split; [reflexivity|]. split; [reflexivity|]. split; [reflexivity|].
    assert (Q : match make_reduced_hamiltonian c79_quarter c79_heap c79_op 2 with Ok (h', r) => gq_eqb (tensor_entry h' r [true; false] [true; false]) (tensor_entry c79_heap c79_op [true; false] [true; false]) | Err _ => true end = false) by (vm_compute; reflexivity).
    rewrite E in Q. apply gq_ne. exact Q.
  - exfalso. assert (Q : match make_reduced_hamiltonian c79_quarter c79_heap c79_op 2 with Ok _ => true | Err _ => false end = true) by (vm_compute; reflexivity). rewrite E in Q. discriminate.
Qed.

(** The real integrals of two orbitals: (00|11) = 5, (01|01) = 1, others 3. *)
Definition c80_one : TensorModel.ndarray GQ := {| shape0 := 2; data := fun i => gq (4 * Z.of_nat (nth 0 i 0 + nth 1 i 0)) 0 |}.
Definition c80_g (e f : nat) : GQ := match e, f with 0, 2 | 2, 0 => gq 20 0 | 1, 1 => gq 4 0 | _, _ => gq 12 0 end.
Definition c80_two : TensorModel.ndarray GQ := {| shape0 := 2; data := fun i => c80_g (nth 0 i 0 + nth 3 i 0) (nth 1 i 0 + nth 2 i 0) |}.
Definition c80_list (cv : bool) : list (list (nat * bool)) :=
  match get_molecular_hamiltonian gq_zero qhalf [] (gq 4 0) c80_one c80_two None None with Ok (h, p) => match unique_iter gq_zero h p cv with Ok l => l | Err _ => [] end | Err _ => [] end.
Example C80_case : map (fun t => map fst t) (c80_list true) = [[]; [2; 0]; [2; 2]; [3; 1]; [3; 3];
  [0; 0; 0; 0]; [0; 0; 0; 2]; [0; 0; 2; 2]; [0; 1; 1; 0]; [0; 1; 1; 2]; [0; 1; 3; 0]; [0; 1; 3; 2]; [0; 2; 0; 2]; [0; 2; 2; 0]; [0; 2; 2; 2]; [0; 3; 1; 2]; [0; 3; 3; 0]; [0; 3; 3; 2];
  [1; 1; 1; 1]; [1; 1; 1; 3]; [1; 1; 3; 3]; [1; 2; 2; 1]; [1; 2; 2; 3]; [1; 3; 1; 3]; [1; 3; 3; 1]; [1; 3; 3; 3]; [2; 2; 2; 2]; [2; 3; 3; 2]; [3; 3; 3; 3]].
Proof. vm_compute. reflexivity. Qed.
(** The documented eight-point symmetry is not that of real integrals in this ordering (which is p <-> s, q <-> r and both electrons exchanged).  By default terms are
    left out whose coefficient is not the one of the related term that is listed: here the repulsion of two electrons with the same spin in the two orbitals. *)
Definition c80_term : list (nat * bool) := [(0, true); (2, true); (2, false); (0, false)].
Theorem C80_real_refuted : exists h p l t, (forall p q, data c80_one [p; q] = data c80_one [q; p]) /\
  (forall p q r s, data c80_two [p; q; r; s] = data c80_two [s; q; r; p] /\ data c80_two [p; q; r; s] = data c80_two [p; r; q; s] /\ data c80_two [p; q; r; s] = data c80_two [q; p; s; r]) /\
  get_molecular_hamiltonian gq_zero qhalf [] (gq 4 0) c80_one c80_two None None = Ok (h, p) /\ interaction_ok h p /\ unique_iter gq_zero h p false = Ok l /\ term_of p t /\ gq_zero (coefficient h p t) = false /\
  forall u, In u l -> same_class false u t -> coefficient h p u <> coefficient h p t.
Proof.
  destruct (C78_hamiltonian gq_zero qhalf [] (gq 4 0) c80_one c80_two 2 eq_refl eq_refl) as (h & p & E & Op & _ & Np & _). destruct (C80_unique gq_zero h p false Op) as (l & El & _).
  exists h, p, l, c80_term. split; [intros i j; cbn [data c80_one nth]; rewrite (Nat.add_comm i j); reflexivity|]. split.
  { intros i j k m. cbn [data c80_two nth]. repeat split; [rewrite (Nat.add_comm i m)|rewrite (Nat.add_comm j k)|]; try reflexivity. generalize (i + m), (j + k). intros [|[|[|e]]] [|[|[|f]]]; reflexivity. }
  split; [exact E|]. split; [exact Op|]. split; [exact El|].
  assert (Q : match get_molecular_hamiltonian gq_zero qhalf [] (gq 4 0) c80_one c80_two None None with
    | Ok (h, p) => match unique_iter gq_zero h p false with
      | Ok l => negb (gq_zero (coefficient h p c80_term)) && forallb (fun x => let u := combine x [true; true; false; false] in
          negb (memb (list_eqb (fun f g => Nat.eqb (fst f) (fst g) && Bool.eqb (snd f) (snd g))) u l) || negb (gq_eqb (coefficient h p u) (coefficient h p c80_term))) (symmetric_two_body_terms [0; 2; 2; 0] false)
      | Err _ => false end
    | Err _ => false end = true) by (vm_compute; reflexivity).
  rewrite E, El in Q. apply andb_true_iff in Q as [Q1 Q2]. rewrite forallb_forall in Q2.
  split; [split; [unfold has_key; destruct Op as [_ ->]; cbn; auto|rewrite Np; cbn; repeat constructor]|]. split; [destruct (gq_zero (coefficient h p c80_term)); [discriminate|reflexivity]|].
  intros u Hu Hc. assert (X : exists x, u = combine x [true; true; false; false] /\ In x (symmetric_two_body_terms [0; 2; 2; 0] false)).
  { destruct Hc as [->|[(i & j & _ & D)|(x & y & -> & D & R)]]; [exists [0; 2; 2; 0]; split; [reflexivity|left; reflexivity]|discriminate|]. exists x. split; [reflexivity|].
    assert (L : length x = 4 /\ length y = 4) by (destruct R as [(a & b & c & d & -> & [->|[->|[->| ->]]])|(a & b & c & d & -> & [->|[->|[->| ->]]])]; split; reflexivity).
    replace [0; 2; 2; 0] with y by (apply (f_equal (map fst)) in D; rewrite (proj2 (quad_term y (proj2 L))) in D; symmetry; exact D). apply sym_sym; [apply L|]. apply sym_class; [apply L|]. exact R. }
  destruct X as (x & -> & Hx). specialize (Q2 x Hx). cbn zeta in Q2. apply orb_true_iff in Q2 as [Q2|Q2].
  - exfalso. apply negb_true_iff in Q2. apply not_true_iff_false in Q2. apply Q2. apply memb_In; [|exact Hu]. apply list_eqb_spec. intros [a b] [c d]. cbn [fst snd]. rewrite andb_true_iff, Nat.eqb_eq, Bool.eqb_true_iff. split; [intros [-> ->]; reflexivity|intros Q; injection Q as -> ->; auto].
  - apply gq_ne. apply negb_true_iff. exact Q2.
Qed.
(** A one-body term above the diagonal is left out if the element below the diagonal is zero. *)
Definition c80_upper : heap GQ := [{| shape0 := 2; data := fun i => match i with [0; 1] => gq 4 0 | _ => gq 0 0 end |}; zeros_array 2].
Theorem C80_upper_refuted : exists t, interaction_ok c80_upper c79_op /\ term_of c79_op t /\ gq_zero (coefficient c80_upper c79_op t) = false /\ unique_iter gq_zero c80_upper c79_op true = Ok [[]].
Proof.
  exists [(0, true); (1, false)]. split; [|split; [split; [cbn; auto|cbn; repeat constructor]|split; [reflexivity|vm_compute; reflexivity]]]. split; [|reflexivity]. split; [repeat constructor; cbn; intuition discriminate|]. split.
  - intros k1 k2 r [H|[H|[H|[]]]] [H'|[H'|[H'|[]]]]; congruence.
  - split; [exists [true; false], 0; right; left; reflexivity|]. intros k e [H|[H|[H|[]]]]; injection H as <- <-; [reflexivity| |]; (split; [discriminate|split; [cbn; lia|reflexivity]]).
Qed.

Print Assumptions C79_reduced.
Print Assumptions C79_one_electron.
Print Assumptions C79_other_refuted.
Print Assumptions C80_unique.
Print Assumptions C80_real_refuted.
Print Assumptions C80_upper_refuted.
