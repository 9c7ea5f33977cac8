(** The eleven cases of the Seeley-Richard-Love table. *)
From Coq Require Import NArith Nnat Permutation Ring.
From Verif Require Import Base BaseFacts MatModel MatFacts LiftSpec LiftProofs OpModel OpSpec OpProofs PauliProofs OpProofs2 ConjProofs
  FermiModel FermiSpec FermiProofs FermiProofs4 BKProofs FermiProofs5 BKInterModel BKInterProofs BKInterProofs2.
Open Scope list_scope.
Local Open Scope nat_scope.

(** What holds at any qubit q: ei, ej say that q is i or j; u, p, f that it is in the update, parity and occupation sets;
    ip that i is in the parity set of j, ju that j is in the update set of i, lt that i is before j. *)
Definition q_ok (ip ju lt ei ej ui uj pi pj fi fj : bool) : bool :=
  (negb ei || (negb ui && negb pi && fi && negb ej && eqb pj ip)) && (negb ej || (negb uj && negb pj && fj && negb ei && eqb ui ju)) &&
  (negb (ui && pj) || (negb uj && negb pi && negb ei && negb ej)) && (negb fi || ei || pi) && (negb fj || ej || pj) &&
  (negb (fj && negb ej && (ei || ui)) || ju) && (negb (ei && lt) || negb uj) && (negb (ej && lt) || negb pi) && (negb ip || lt) && (negb ju || lt).
Section Facts.
  Context (i j n : nat) (Hij : i <> j) (Hi : i < n) (Hj : j < n).
  Notation iN := (N.of_nat i). Notation jN := (N.of_nat j). Notation nN := (N.of_nat n).
  Definition ip := inP jN iN.
  Definition ju := inU iN nN jN.
  Lemma q_facts q : q_ok ip ju (i <? j) (i =? q) (j =? q) (inU iN nN (N.of_nat q)) (inU jN nN (N.of_nat q)) (inP iN (N.of_nat q)) (inP jN (N.of_nat q)) (inF iN (N.of_nat q)) (inF jN (N.of_nat q)) = true.
  Proof.
    unfold q_ok. repeat (apply andb_true_intro; split).
    - destruct (Nat.eqb_spec i q) as [<-|]; [|reflexivity]. rewrite inU_not, inP_not, inF_self by lia. destruct (Nat.eqb_spec j i); [congruence|]. cbn. apply Bool.eqb_reflx.
    - destruct (Nat.eqb_spec j q) as [<-|]; [|reflexivity]. rewrite (inU_not jN), (inP_not jN), inF_self by lia. destruct (Nat.eqb_spec i j); [congruence|]. cbn. apply Bool.eqb_reflx.
    - destruct (inU iN nN (N.of_nat q)) eqn:U; [|reflexivity]. destruct (inP jN (N.of_nat q)) eqn:P; [|reflexivity]. apply inU_lt in U. apply inP_lt in P. rewrite inU_not, inP_not by lia.
      destruct (Nat.eqb_spec i q); [lia|]. destruct (Nat.eqb_spec j q); [lia|]. reflexivity.
    - destruct (Nat.eqb_spec i q); [rewrite Bool.orb_true_r; reflexivity|]. destruct (inF iN (N.of_nat q)) eqn:F; [|reflexivity]. rewrite (inF_sub _ _ F) by lia. reflexivity.
    - destruct (Nat.eqb_spec j q); [rewrite Bool.orb_true_r; reflexivity|]. destruct (inF jN (N.of_nat q)) eqn:F; [|reflexivity]. rewrite (inF_sub _ _ F) by lia. reflexivity.
    - destruct (inF jN (N.of_nat q)) eqn:F; [|reflexivity]. destruct (Nat.eqb_spec j q) as [|N]; [reflexivity|]. pose proof (inF_sub _ _ F ltac:(lia)) as P. apply inP_lt in P.
      destruct (Nat.eqb_spec i q) as [E|E].
      + unfold ju. rewrite (inF_climb iN jN nN (N.of_nat q)); auto; lia.
      + destruct (inU iN nN (N.of_nat q)) eqn:U; [|reflexivity]. pose proof (inU_lt _ _ _ U). unfold ju. rewrite (inF_climb iN jN nN (N.of_nat q)); auto; lia.
    - destruct (Nat.eqb_spec i q) as [<-|]; [|reflexivity]. destruct (Nat.ltb_spec i j); [|reflexivity]. rewrite inU_not by lia. reflexivity.
    - destruct (Nat.eqb_spec j q) as [<-|]; [|reflexivity]. destruct (Nat.ltb_spec i j); [|reflexivity]. rewrite inP_not by lia. reflexivity.
    - unfold ip. destruct (inP jN iN) eqn:P; [|reflexivity]. apply inP_lt in P. destruct (Nat.ltb_spec i j); [reflexivity|lia].
    - unfold ju. destruct (inU iN nN jN) eqn:P; [|reflexivity]. apply inU_lt in P. destruct (Nat.ltb_spec i j); [reflexivity|lia].
  Qed.
  Definition flipped (q : nat) : bool := xorb (xorb (inU iN nN (N.of_nat q)) (i =? q)) (xorb (inU jN nN (N.of_nat q)) (j =? q)).
  Definition signed (a b : bool) (q : nat) : bool :=
    xorb (xorb (inP iN (N.of_nat q)) (a && inF iN (N.of_nat q))) (xorb (inP jN (N.of_nat q)) (b && inF jN (N.of_nat q))).
End Facts.

Lemma even_N i : N.even (N.of_nat i) = Nat.even i.
Proof. apply Bool.eq_iff_eq_true. rewrite N.even_spec, Nat.even_spec. split; [intros [k H]; exists (N.to_nat k); lia|intros [k H]; exists (N.of_nat k); lia]. Qed.
Lemma eqb_N q i : N.eqb (N.of_nat q) (N.of_nat i) = Nat.eqb i q.
Proof. destruct (N.eqb_spec (N.of_nat q) (N.of_nat i)), (Nat.eqb_spec i q); auto; lia. Qed.

Definition bounded (n : nat) (l : list N) : Prop := forall x, In x l -> N.to_nat x < n.
Lemma bounded_minus n l m : bounded n l -> bounded n (set_minus l m).
Proof. intros H x Hx. apply set_minus_In in Hx. apply H, Hx. Qed.
Lemma bounded_sym n l m : bounded n l -> bounded n m -> bounded n (sym_diff l m).
Proof. intros H1 H2 x Hx. apply in_app_or in Hx as [Hx|Hx]; apply set_minus_In in Hx; [apply H1|apply H2]; apply Hx. Qed.
Lemma bounded_inter n l m : bounded n l -> bounded n (set_inter l m).
Proof. intros H x Hx. apply filter_In in Hx. apply H, Hx. Qed.
Lemma bounded_add n l i : bounded n l -> i < n -> bounded n (set_add l (N.of_nat i)).
Proof. intros H Hi x Hx. unfold set_add in Hx. destruct (memb _ _ _); [auto|]. apply in_app_or in Hx as [Hx|[<-|[]]]; [auto|lia]. Qed.
Lemma bounded_update n i : bounded n (update_set (N.of_nat i) (N.of_nat n)).
Proof. intros x Hx. apply update_set_spec in Hx. lia. Qed.
Lemma bounded_parity n i : i < n -> bounded n (parity_set (N.of_nat i)).
Proof. intros Hi x Hx. apply (parity_set_range _) in Hx. lia. Qed.
Lemma bounded_occupation n i : i < n -> bounded n (occupation_set (N.of_nat i)).
Proof. intros Hi x Hx. apply (occupation_set_range _) in Hx. lia. Qed.
#[global] Hint Resolve bounded_minus bounded_sym bounded_inter bounded_add bounded_update bounded_parity bounded_occupation : sets.

Section Cases.
  Context {K : cring} (im half : K) (Him : kmul im im = kopp k1) (order : list N -> list N) (Horder : forall l, Permutation (order l) l).
  Add Ring Kring_srl : (kth K).
  Open Scope K_scope.
  Context (i j n : nat) (Hij : i <> j) (Hi : (i < n)%nat) (Hj : (j < n)%nat) (c : K).
  Notation iN := (N.of_nat i). Notation jN := (N.of_nat j). Notation nN := (N.of_nat n).
  Notation pad := (pad order).
  Definition on_n (t : term pauli) : Prop := Forall (fun f => (fst f < n)%nat) t.
  Lemma pad_on p l : bounded n l -> on_n (pad p l).
  Proof. intros H. apply Forall_forall. intros f Hf. apply pad_In in Hf as (x & Hx & ->); [|exact Horder]. apply H. auto. Qed.
  Definition string_is (a b : bool) (tk : term pauli * K) : Prop :=
    on_n (fst tk) /\ (forall q, xat (fst tk) q = flipped i j n q) /\ (forall q, zat (fst tk) q = signed i j a b q) /\
    snd tk * ipow im (phs (fst tk)) = sgn (xorb b (Nat.ltb j i)) * (half * half * c).
  Definition strings_ok (l : list (term pauli * K)) : Prop :=
    exists s00 s01 s10 s11, Permutation l [s00; s01; s10; s11] /\ string_is false false s00 /\ string_is false true s01 /\ string_is true false s10 /\ string_is true true s11.

  Ltac on_tac := unfold on_n; repeat (apply Forall_app; split); repeat (constructor; cbn [fst]; auto);
    try (apply pad_on; unfold U_diff_a_set, P0_ij_diff_a_set, U_ij_set, P0_ij_set, P1_ij_set, P2_ij_set, P3_ij_set, alpha_set, remainder_set; auto 10 with sets).
  Ltac sets_tac q := intros q; cbn [fst]; rewrite ?xat_app, ?zat_app; rewrite ?xat_pad, ?zat_pad by (auto with sets); cbn [xat zat fst snd px pz];
    unfold U_diff_a_set, P0_ij_diff_a_set, U_ij_set, P0_ij_set, P1_ij_set, P2_ij_set, P3_ij_set, alpha_set, remainder_set;
    rewrite ?memb_minus, ?memb_inter, ?memb_sym, ?memb_add, ?memb_minus, ?memb_sym, ?memb_minus, ?memb_one, ?eqb_N; unfold flipped, signed;
    fold (inU iN nN (N.of_nat q)); fold (inU jN nN (N.of_nat q)); fold (inP iN (N.of_nat q)); fold (inP jN (N.of_nat q)); fold (inF iN (N.of_nat q)); fold (inF jN (N.of_nat q)).
  Ltac bool_tac q := generalize (q_facts i j n Hij Hi Hj q);
    repeat match goal with H : ip i j = _ |- _ => rewrite H | H : ju i j n = _ |- _ => rewrite H | H : (_ <? _)%nat = _ |- _ => rewrite H | H : forall q, inF _ q = _ |- _ => rewrite !H, ?eqb_N | H : forall q, inP _ q = _ |- _ => rewrite !H, ?eqb_N end;
    repeat match goal with
    | |- context [inF ?a ?b] => generalize (inF a b); intros ? | |- context [inP ?a ?b] => generalize (inP a b); intros ? | |- context [inU ?a ?b ?d] => generalize (inU a b d); intros ?
    | |- context [Nat.eqb ?a ?b] => generalize (Nat.eqb a b); intros ? | |- context [Nat.ltb ?a ?b] => generalize (Nat.ltb a b); intros ? | |- context [ju ?a ?b ?d] => generalize (ju a b d); intros ?
    | |- context [ip ?a ?b] => generalize (ip a b); intros ?
    end;
    clear; repeat match goal with b : bool |- _ => destruct b end; first [reflexivity | intros QQ; discriminate QQ].

  Lemma eqb_ij : Nat.eqb i j = false. Proof. apply Nat.eqb_neq. auto. Qed.
  Lemma eqb_ji : Nat.eqb j i = false. Proof. apply Nat.eqb_neq. auto. Qed.
  (** the members of alpha *)
  Definition alpha_at (l : list N) : Prop := exists a, l = [a] /\ Nat.eqb i (N.to_nat a) = false /\ Nat.eqb j (N.to_nat a) = false /\ Nat.eqb (N.to_nat a) i = false.
  Lemma alpha_cases : (i <? j)%nat = false /\ (j <? i)%nat = true /\ alpha_set iN jN nN = [] \/ (i <? j)%nat = true /\ (j <? i)%nat = false /\ (ip i j = false -> alpha_at (alpha_set iN jN nN)).
  Proof.
    destruct (Nat.ltb_spec i j) as [L|L]; [right|left].
    - split; [auto|]. split; [apply Nat.ltb_ge; lia|]. intros H. destruct (alpha_one iN jN nN) as (a & E & R); [lia|lia|exact H|]. exists a. split; [exact E|]. repeat split; apply Nat.eqb_neq; lia.
    - split; [auto|]. split; [apply Nat.ltb_lt; lia|]. apply alpha_none. lia.
  Qed.
  Lemma ip_lt : ip i j = true -> (i <? j)%nat = true /\ (j <? i)%nat = false.
  Proof. unfold ip. intros H. apply inP_lt in H. split; [apply Nat.ltb_lt|apply Nat.ltb_ge]; lia. Qed.
  Lemma ju_lt : ju i j n = true -> (i <? j)%nat = true /\ (j <? i)%nat = false.
  Proof. unfold ju. intros H. apply inU_lt in H. split; [apply Nat.ltb_lt|apply Nat.ltb_ge]; lia. Qed.
  Lemma inF_even_nat k : Nat.even k = true -> forall q, inF (N.of_nat k) q = N.eqb q (N.of_nat k).
  Proof. intros E q. apply inF_even. rewrite even_N. exact E. Qed.

  Ltac phase_tac := cbn [fst snd]; rewrite <- ?app_assoc; rewrite ?phs_x; rewrite ?(pad_none order Horder), ?(pad_one order Horder); cbn [app phs fst snd yph pz andb xat px];
    rewrite ?xat_app, ?xat_z; cbn [app phs fst snd yph pz andb xat px];
    rewrite ?eqb_ij, ?eqb_ji; repeat match goal with H : Nat.eqb _ _ = false |- _ => rewrite !H end; cbn [andb xorb]; rewrite ?xat_z; cbn [andb xorb];
    try (rewrite phs_zend by exact Horder); cbn [Nat.add ipow]; repeat match goal with H : (_ <? _)%nat = _ |- _ => rewrite !H end; cbn [xorb sgn]; try ring [Him].
  Ltac strings := unfold string_is; split; [on_tac|split; [let q := fresh "q" in sets_tac q; bool_tac q|split; [let q := fresh "q" in sets_tac q; bool_tac q|]]].


  Notation srl := (seeley_richard_love im half order i j c n).
  Ltac start := unfold seeley_richard_love; cbv zeta; rewrite eqb_ij; change (memb N.eqb iN (parity_set jN)) with (ip i j); change (memb N.eqb jN (update_set iN nN)) with (ju i j n);
    rewrite <- ?Nat.negb_even; repeat match goal with H : Nat.even _ = _ |- _ => rewrite !H end; repeat match goal with H : ip _ _ = _ |- _ => rewrite !H end; repeat match goal with H : ju _ _ _ = _ |- _ => rewrite !H end;
    cbn [andb negb].
  Ltac four := split; [strings|split; [strings|split; [strings|strings]]].
  Ltac by_order Hp tac := destruct alpha_cases as [(L & L' & A)|(L & L' & A)]; [|specialize (A Hp); destruct A as (a & A & A1 & A2 & A3)]; rewrite ?L; cbn [combine]; eexists _, _, _, _; (split; [tac|]).
  Lemma perm_1023 {X} (a b c' d : X) : Permutation [b; a; c'; d] [a; b; c'; d]. Proof. apply perm_swap. Qed.
  Lemma perm_1203 {X} (a b c' d : X) : Permutation [b; c'; a; d] [a; b; c'; d].
  Proof. change [b; c'; a; d] with ([b; c'] ++ a :: [d]). symmetry. apply (Permutation_cons_app [b; c'] [d] a). reflexivity. Qed.
  Lemma perm_2013 {X} (a b c' d : X) : Permutation [c'; a; b; d] [a; b; c'; d].
  Proof. change [a; b; c'; d] with ([a; b] ++ c' :: [d]). apply (Permutation_cons_app [a; b] [d] c'). reflexivity. Qed.
  Lemma perm_2031 {X} (a b c' d : X) : Permutation [c'; a; d; b] [a; b; c'; d].
  Proof. transitivity [a; c'; d; b]; [apply perm_swap|]. constructor. symmetry. apply (Permutation_cons_app [c'; d] [] b). reflexivity. Qed.
  Lemma perm_0213 {X} (a b c' d : X) : Permutation [a; c'; b; d] [a; b; c'; d].
  Proof. constructor. apply perm_swap. Qed.
  Lemma ip_even_even : Nat.even i = true -> Nat.even j = true -> ip i j = false.
  Proof.
    intros Ei Ej. unfold ip. apply not_true_iff_false. intros H. apply inP_even in H; [|rewrite even_N; auto]. assert (X : j = S i) by lia. subst j. rewrite Nat.even_succ, <- Nat.negb_even, Ei in Ej. discriminate.
  Qed.
  Lemma P0_members x : ip i j = false -> Nat.even i = true -> Nat.even j = true -> In x (P0_ij_diff_a_set iN jN nN) -> Nat.eqb i (N.to_nat x) = false /\ Nat.eqb j (N.to_nat x) = false.
  Proof.
    intros Hp Ei Ej H. apply (memb_In _ N_eqb_spec') in H. unfold P0_ij_diff_a_set, P0_ij_set in H. rewrite memb_minus, memb_sym in H. apply andb_prop in H as [H _].
    fold (inP iN x) in H. fold (inP jN x) in H. split; apply Nat.eqb_neq; intros E.
    - assert (X : x = iN) by lia. subst x. rewrite inP_not in H by lia. change (inP jN iN) with (ip i j) in H. rewrite Hp in H. discriminate.
    - assert (X : x = jN) by lia. subst x. rewrite (inP_not jN) in H by lia. rewrite Bool.xorb_false_r in H. apply inP_even in H; [|rewrite even_N; auto].
      assert (Y : i = S j) by lia. subst i. rewrite Nat.even_succ, <- Nat.negb_even, Ej in Ei. discriminate.
  Qed.
  Lemma case1 : Nat.even i = true -> Nat.even j = true -> strings_ok srl.
  Proof.
    intros Ei Ej. pose proof (ip_even_even Ei Ej) as Hp. pose proof (inF_even_nat i Ei) as F1. pose proof (inF_even_nat j Ej) as F2. pose proof (fun x => P0_members x Hp Ei Ej) as PM. start.
    assert (Z : forall o1 o2, phs (pad Pz (P0_ij_diff_a_set iN jN nN) ++ [(j, o1); (i, o2)]) = phs [(j, o1); (i, o2)]).
    { intros o1 o2. apply phs_z; [exact Horder|]. intros x Hx. destruct (PM x Hx) as [E1 E2]. cbn [xat fst snd]. rewrite E1, E2. reflexivity. }
    by_order Hp ltac:(apply perm_1203).
    all: four; cbn [fst snd]; rewrite <- ?app_assoc; rewrite ?phs_x; rewrite ?A; rewrite ?(pad_none order Horder), ?(pad_one order Horder); cbn [app phs fst snd yph pz andb]; rewrite ?Z; phase_tac.
  Qed.
  Lemma case2 : Nat.even i = false -> Nat.even j = true -> ip i j = false -> strings_ok srl.
  Proof.
    intros Ei Ej Hp. pose proof (inF_even_nat j Ej) as F. start. by_order Hp ltac:(apply perm_1023). all: four; rewrite ?A; phase_tac.
  Qed.
  Lemma case3 : Nat.even i = false -> Nat.even j = true -> ip i j = true -> strings_ok srl.
  Proof.
    intros Ei Ej Hp. pose proof (inF_even_nat j Ej) as F. destruct (ip_lt Hp) as [L L']. start. eexists _, _, _, _. split; [apply perm_1023|]. four; phase_tac.
  Qed.
  Lemma case4 : Nat.even i = true -> Nat.even j = false -> ip i j = false -> ju i j n = false -> strings_ok srl.
  Proof.
    intros Ei Ej Hp Hu. pose proof (inF_even_nat i Ei) as F. start. by_order Hp ltac:(apply perm_2013). all: four; rewrite ?A; phase_tac.
  Qed.
  Lemma case5 : Nat.even i = true -> Nat.even j = false -> ip i j = false -> ju i j n = true -> strings_ok srl.
  Proof.
    intros Ei Ej Hp Hu. pose proof (inF_even_nat i Ei) as F. destruct (ju_lt Hu) as [L L']. start.
    destruct alpha_cases as [(L1 & _)|(_ & _ & A)]; [congruence|]. specialize (A Hp). destruct A as (a & A & A1 & A2 & A3). eexists _, _, _, _. split; [apply perm_2031|]. four; rewrite ?A; phase_tac.
  Qed.
  Lemma case6 : Nat.even i = true -> Nat.even j = false -> ip i j = true -> ju i j n = true -> strings_ok srl.
  Proof.
    intros Ei Ej Hp Hu. pose proof (inF_even_nat i Ei) as F. destruct (ju_lt Hu) as [L L'].
    assert (S : forall q, inP jN q = N.eqb q iN || inP iN q).
    { intros q. unfold ip in Hp. apply inP_even in Hp; [|rewrite even_N; auto]. rewrite Hp. apply inP_succ. rewrite even_N. auto. }
    start. eexists _, _, _, _. split; [apply perm_2031|].
    four; phase_tac.
  Qed.
  Lemma case7 : Nat.even i = false -> Nat.even j = false -> ip i j = false -> ju i j n = false -> strings_ok srl.
  Proof.
    intros Ei Ej Hp Hu. start. by_order Hp ltac:(reflexivity). all: four; rewrite ?A; phase_tac.
  Qed.
  Lemma case8 : Nat.even i = false -> Nat.even j = false -> ip i j = true -> ju i j n = false -> strings_ok srl.
  Proof.
    intros Ei Ej Hp Hu. destruct (ip_lt Hp) as [L L']. start. eexists _, _, _, _. split; [reflexivity|]. four; phase_tac.
  Qed.
  Lemma case9 : Nat.even i = false -> Nat.even j = false -> ip i j = false -> ju i j n = true -> strings_ok srl.
  Proof.
    intros Ei Ej Hp Hu. destruct (ju_lt Hu) as [L L']. start.
    destruct alpha_cases as [(L1 & _)|(_ & _ & A)]; [congruence|]. specialize (A Hp). destruct A as (a & A & A1 & A2 & A3). eexists _, _, _, _. split; [apply perm_2013|].
    assert (Z : forall l, phs (pad Pz (set_minus l (alpha_set iN jN nN)) ++ pad Py (alpha_set iN jN nN)) = phs (pad Py (alpha_set iN jN nN))).
    { intros l. apply phs_z; [exact Horder|]. intros x Hx. apply set_minus_In in Hx as [_ Hx]. rewrite xat_pad by auto with sets. rewrite N2Nat.id. destruct (memb N.eqb x (alpha_set iN jN nN)) eqn:E; [|reflexivity].
      apply (memb_In _ N_eqb_spec') in E. tauto. }
    four; cbn [fst snd]; rewrite <- ?app_assoc; rewrite ?phs_x; cbn [app phs fst snd yph pz andb]; rewrite ?Z; rewrite ?xat_app, ?xat_z; rewrite ?A; phase_tac.
  Qed.
  Lemma case10 : Nat.even i = false -> Nat.even j = false -> ip i j = true -> ju i j n = true -> strings_ok srl.
  Proof.
    intros Ei Ej Hp Hu. destruct (ip_lt Hp) as [L L']. start. eexists _, _, _, _. split; [apply perm_0213|]. four; phase_tac.
  Qed.
  Lemma all_cases : strings_ok srl.
  Proof.
    destruct (Nat.even i) eqn:Ei, (Nat.even j) eqn:Ej.
    - apply case1; auto.
    - destruct (ip i j) eqn:Hp, (ju i j n) eqn:Hu; [apply case6|exfalso|apply case5|apply case4]; auto.
      unfold ip in Hp. apply inP_even in Hp; [|rewrite even_N; auto]. unfold ju in Hu. rewrite Hp, succ_inU in Hu; [discriminate|rewrite even_N; auto|lia].
    - destruct (ip i j) eqn:Hp; [apply case3|apply case2]; auto.
    - destruct (ip i j) eqn:Hp, (ju i j n) eqn:Hu; [apply case10|apply case8|apply case9|apply case7]; auto.
  Qed.
End Cases.
