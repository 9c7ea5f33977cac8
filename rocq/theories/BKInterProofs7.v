(** The loops of the Bravyi-Kitaev transform of interaction operators. *)
From Coq Require Import NArith Nnat Permutation Ring.
From Verif Require Import Base BaseFacts MatModel MatFacts LiftSpec LiftProofs OpModel OpSpec OpProofs PauliProofs OpProofs2
  FermiModel FermiSpec FermiProofs2 FermiProofs7 TensorModel TensorSpec DiagSpec JWInterModel JWInterSpec JWInterProofs JWInterProofs2 JWInterProofs3
  BKInterModel BKInterProofs4 BKInterProofs5 BKInterProofs6.
Open Scope list_scope.
Local Open Scope nat_scope.

Section Loops.
  Context {K : cring} (im half : K) (Him : kmul im im = kopp k1) (Hhalf : kadd half half = k1) (small is_zero : K -> bool) (Hs : only_zero small) (Hz : forall c, is_zero c = true -> c = k0)
    (order : list N -> list N) (Horder : forall l, Permutation (order l) l).
  Add Ring Kring_bkl : (kth K).
  Open Scope K_scope.
  Context (h : heap K) (a : ptensor K) (Ha : interaction_ok h a).
  Notation n := (n_qubits a).
  Notation h1 := (h1 h a).
  Notation h2 := (h2 h a).
  Notation w := (w h2).
  Notation rep := (rep im n).
  Notation lrep := (lrep im n).
  Notation qadd := (op_add pauli_eqb small).
  Notation srl := (seeley_richard_love im half order).
  Lemma coef_value p q r s : (p < n)%nat -> (q < n)%nat -> (r < n)%nat -> (s < n)%nat -> two_body_coef h a p q r s = Ok (w (p, q) (r, s)).
  Proof.
    intros. unfold two_body_coef, two_body. rewrite !(item4 im small h a Ha) by auto. cbn [rbind]. f_equal. unfold JWInterProofs3.w. ring.
  Qed.
  Lemma one_value p q : (p < n)%nat -> (q < n)%nat -> one_body h a p q = Ok (h1 p q).
  Proof. intros. unfold one_body. apply (item2 im small h a Ha); auto. Qed.
  (** What the code adds for a pair of modes and for a pair of pairs: the term and its Hermitian conjugate *)
  Definition low1 (i j : nat) (x y : list bool) : K := h1 i j * L2 n i j x y + kconj (h1 i j) * L2 n j i x y.
  Definition low2 (u v : nat * nat) (x y : list bool) : K := w u v * L4 n u v x y + kconj (w u v) * L4 n v u x y.
  Definition diag2 (u : nat * nat) (x y : list bool) : K := w u u * L4 n u u x y.
  Ltac rfac := change (factor bool) with (prod nat bool); ring.
  Ltac modes := let f := fresh in let H := fresh in intros f H; cbn in H; intuition (subst; cbn; lia).

  Lemma lrep_perm l m v : Permutation l m -> lrep l v -> lrep m v.
  Proof.
    intros P [O X]. split; [intros tk Htk; apply O; eapply Permutation_in; [symmetry; exact P|exact Htk]|]. intros x y Hx Hy. rewrite <- X by auto. apply lsum_perm. symmetry. exact P.
  Qed.
  Lemma lrep_merge l m c d v v' : lrep (l ++ [([], c)]) v -> lrep (m ++ [([], d)]) v' -> lrep ((l ++ m) ++ [([], c + d)]) (fun x y => v x y + v' x y).
  Proof.
    intros [O1 X1] [O2 X2]. split.
    - intros tk H. apply in_app_or in H as [H|[<-|[]]]; [|intros f []]. apply in_app_or in H as [H|H]; [apply O1|apply O2]; apply in_or_app; auto.
    - intros x y Hx Hy. rewrite <- X1, <- X2 by auto. rewrite !lsum_app. cbn [lsum fold_right fst snd]. ring.
  Qed.
  Lemma lrep_insert l m c v v' : lrep (l ++ [([], c)]) v -> lrep m v' -> lrep ((l ++ m) ++ [([], c)]) (fun x y => v x y + v' x y).
  Proof.
    intros H1 H2. eapply lrep_perm; [|apply lrep_app; [exact H1|exact H2]]. rewrite <- !app_assoc. apply Permutation_app_head. apply Permutation_app_comm.
  Qed.
  Lemma numbers_L4 i j x y : i <> j -> (i < n)%nat -> (j < n)%nat -> length x = n -> length y = n ->
    w (i, j) (j, i) * ladders n [(i, true); (i, false); (j, true); (j, false)] x y = diag2 (j, i) x y.
  Proof.
    intros Hij Hi Hj Hx Hy. unfold diag2, L4. cbn [fst snd].
    rewrite (swap_modes n [] (j, true) (i, true) [(j, false); (i, false)]) by (auto; modes). cbn [app].
    rewrite (swap_modes n [(i, true); (j, true)] (j, false) (i, false) []) by (auto; modes). cbn [app].
    rewrite (swap_modes n [(i, true)] (j, true) (i, false) [(j, false)]) by (auto; modes). cbn [app]. unfold JWInterProofs3.w. rfac.
  Qed.
  Lemma coulomb_loop i : (i < n)%nat -> forall l, (forall j, In j l -> (j < i)%nat) -> forall ham ops const v, lrep (ops ++ [([], const)]) v ->
    exists ops' const', foldM (coulomb_step im half is_zero order h a n i) l (ham, ops, const) = Ok (ham, ops', const') /\
      lrep (ops' ++ [([], const')]) (fun x y => v x y + lsum (fun j => low1 i j x y + diag2 (j, i) x y) l).
  Proof.
    intros Hi. induction l as [|j l IH]; intros Hl ham ops const v H.
    - exists ops, const. split; [reflexivity|]. eapply lrep_ext; [|exact H]. intros x y _ _. cbn. ring.
    - assert (Hj : (j < i)%nat) by (apply Hl; left; auto). cbn [foldM]. unfold coulomb_step at 1. rewrite one_value by lia. cbn [rbind]. rewrite coef_value by lia. cbn [rbind].
      set (ops1 := if is_zero (h1 i j) then ops else (ops ++ srl i j (h1 i j) n) ++ srl j i (kconj (h1 i j)) n).
      assert (H1 : lrep (ops1 ++ [([], const)]) (fun x y => v x y + low1 i j x y)).
      { unfold ops1. destruct (is_zero (h1 i j)) eqn:Z.
        - eapply lrep_ext; [|exact H]. intros x y _ _. unfold low1. rewrite (Hz _ Z), kconj_0. ring.
        - eapply lrep_ext; [|apply lrep_insert; [apply lrep_insert; [exact H|]|]; apply (lrep_srl im half Him Hhalf order Horder n); lia]. intros x y _ _. unfold low1, L2. ring. }
      destruct (is_zero (half * half * w (i, j) (j, i))) eqn:Z; cbn [rbind].
      + destruct (IH (fun k Hk => Hl k (or_intror Hk)) ham ops1 const _ H1) as (ops' & const' & E & H'). exists ops', const'. split; [exact E|].
        eapply lrep_ext; [|exact H']. intros x y Hx Hy. cbn beta. unfold lsum. cbn [fold_right]. rewrite <- (numbers_L4 i j) by (auto; lia).
        rewrite <- (quarter4 half Hhalf (w (i, j) (j, i))). rewrite (Hz _ Z). ring.
      + pose proof (lrep_merge _ _ _ _ _ _ H1 (lrep_coulomb im half Hhalf small order Horder n i j (w (i, j) (j, i)) ltac:(lia) ltac:(lia))) as H2.
        destruct (IH (fun k Hk => Hl k (or_intror Hk)) ham _ _ _ H2) as (ops' & const' & E & H'). exists ops', const'. split; [exact E|].
        eapply lrep_ext; [|exact H']. intros x y Hx Hy. cbn beta. unfold lsum. cbn [fold_right]. rewrite <- (numbers_L4 i j) by (auto; lia). ring.
  Qed.
  Lemma number_loop l : (forall i, In i l -> (i < n)%nat) -> forall ham ops const v v', rep ham v -> lrep (ops ++ [([], const)]) v' ->
    exists ham' ops' const', foldM (number_step im half small is_zero order h a n) l (ham, ops, const) = Ok (ham', ops', const') /\
      rep ham' (fun x y => v x y + lsum (fun i => h1 i i * L2 n i i x y) l) /\
      lrep (ops' ++ [([], const')]) (fun x y => v' x y + lsum (fun i => lsum (fun j => low1 i j x y + diag2 (j, i) x y) (seq 0 i)) l).
  Proof.
    induction l as [|i l IH]; intros Hl ham ops const v v' H H'.
    - exists ham, ops, const. split; [reflexivity|]. split; [eapply rep_ext; [|exact H]|eapply lrep_ext; [|exact H']]; intros x y _ _; cbn; ring.
    - assert (Hi : (i < n)%nat) by (apply Hl; left; auto). cbn [foldM]. unfold number_step at 1. rewrite one_value by lia. cbn [rbind].
      set (ham1 := if is_zero (h1 i i) then ham else qadd ham (excitation im half small order i i (h1 i i) n)).
      assert (H1 : rep ham1 (fun x y => v x y + h1 i i * L2 n i i x y)).
      { unfold ham1. destruct (is_zero (h1 i i)) eqn:Z.
        - eapply rep_ext; [|exact H]. intros x y _ _. rewrite (Hz _ Z). ring.
        - apply (rep_add im small Hs n); [exact H|]. apply (rep_excitation im half Him Hhalf small Hs order Horder n); auto. }
      destruct (coulomb_loop i Hi (seq 0 i) (fun j Hj => proj2 (proj1 (in_seq i 0 j) Hj)) ham1 ops const v' H') as (ops1 & const1 & E1 & H2). match type of E1 with ?L = _ => match goal with |- context [rbind ?X _] => change X with L end end. rewrite E1. cbn [rbind].
      destruct (IH (fun k Hk => Hl k (or_intror Hk)) ham1 ops1 const1 _ _ H1 H2) as (ham2 & ops2 & const2 & E2 & R2 & L2'). exists ham2, ops2, const2. split; [exact E2|].
      split; [eapply rep_ext; [|exact R2]|eapply lrep_ext; [|exact L2']]; intros x y _ _; cbn beta; unfold lsum; cbn [fold_right]; ring.
  Qed.
  Lemma shared_L4 i j k x y : i <> j -> i <> k -> (i < n)%nat -> (j < n)%nat -> (k < n)%nat -> length x = n -> length y = n ->
    ladders (K := K) n [(i, true); (i, false); (j, true); (k, false)] x y = L4 n (i, j) (k, i) x y.
  Proof.
    intros Hij Hik Hi Hj Hk Hx Hy. unfold L4. cbn [fst snd].
    rewrite (swap_modes n [(i, true); (j, true)] (k, false) (i, false) []) by (auto; modes). cbn [app].
    rewrite (swap_modes n [(i, true)] (j, true) (i, false) [(k, false)]) by (auto; modes). cbn [app]. rfac.
  Qed.
  Lemma L4_swap u v x y : fst u <> snd u -> fst v <> snd v -> (fst u < n)%nat -> (snd u < n)%nat -> (fst v < n)%nat -> (snd v < n)%nat -> length x = n -> length y = n ->
    L4 (K := K) n u v x y = L4 n (snd u, fst u) (snd v, fst v) x y.
  Proof.
    destruct u as [p q], v as [r s]. cbn [fst snd]. intros Hpq Hrs Hp Hq Hr Hs' Hx Hy. unfold L4. cbn [fst snd].
    rewrite (swap_modes n [] (p, true) (q, true) [(r, false); (s, false)]) by (auto; modes). cbn [app].
    rewrite (swap_modes n [(q, true); (p, true)] (r, false) (s, false) []) by (auto; modes). cbn [app]. rfac.
  Qed.
  Lemma excitation_loop l : (forall i j k, In (i, (j, k)) l -> (i < n)%nat /\ (j < n)%nat /\ (k < j)%nat) -> forall ham v, rep ham v ->
    exists ham', foldM (excitation_step im half small is_zero order h a n) l ham = Ok ham' /\
      rep ham' (fun x y => v x y + lsum (fun t => low2 (fst t, fst (snd t)) (snd (snd t), fst t) x y) (filter distinct3 l)).
  Proof.
    induction l as [|[i [j k]] l IH]; intros Hl ham v H.
    - exists ham. split; [reflexivity|]. eapply rep_ext; [|exact H]. intros x y _ _. cbn. ring.
    - destruct (Hl i j k) as (Hi & Hj & Hk); [left; auto|]. assert (Hl' : forall i j k, In (i, (j, k)) l -> (i < n)%nat /\ (j < n)%nat /\ (k < j)%nat) by (intros; apply Hl; right; auto).
      cbn [foldM filter]. unfold excitation_step at 1. unfold distinct3 at 1. cbn [fst snd]. destruct (Nat.eqb i j || Nat.eqb i k)%bool eqn:D; cbn [negb].
      + cbn [rbind]. apply IH; auto.
      + apply orb_false_iff in D as [D1 D2]. apply Nat.eqb_neq in D1, D2. rewrite coef_value by lia. cbn [rbind]. destruct (is_zero (w (i, j) (k, i))) eqn:Z; cbn [rbind].
        * destruct (IH Hl' ham v H) as (ham' & E & R). exists ham'. split; [exact E|]. eapply rep_ext; [|exact R]. intros x y _ _. cbn beta. unfold lsum. cbn [fold_right fst snd]. unfold low2 at 2. rewrite (Hz _ Z), kconj_0. ring.
        * pose proof (rep_add im small Hs n _ _ _ _ H (rep_number_excited im half Him Hhalf small Hs order Horder n i j k (w (i, j) (k, i)) (kconj (w (i, j) (k, i))) ltac:(lia) ltac:(lia) ltac:(lia))) as H1.
          destruct (IH Hl' _ _ H1) as (ham' & E & R). exists ham'. split; [exact E|]. eapply rep_ext; [|exact R]. intros x y Hx Hy. cbn beta. unfold lsum. cbn [fold_right fst snd]. unfold low2 at 2.
          rewrite (shared_L4 i j k), (shared_L4 i k j) by (auto; lia). rewrite (L4_swap (i, k) (j, i)) by (cbn [fst snd]; auto; lia). cbn [fst snd]. ring.
  Qed.
  Lemma split_L4 p q r s x y : q <> r -> (p < n)%nat -> (q < n)%nat -> (r < n)%nat -> (s < n)%nat -> length x = n -> length y = n ->
    ladders (K := K) n [(p, true); (r, false); (q, true); (s, false)] x y = - L4 n (p, q) (r, s) x y.
  Proof.
    intros H Hp Hq Hr Hs' Hx Hy. unfold L4. cbn [fst snd]. rewrite (swap_modes n [(p, true)] (r, false) (q, true) [(s, false)]) by (auto; modes). cbn [app]. rfac.
  Qed.
  Lemma kconj_opp' (c : K) : kconj (- c) = - kconj c.
  Proof. transitivity (kconj (0 - c)); [f_equal; ring|]. rewrite kconj_sub, kconj_0. ring. Qed.
  Lemma double_ok p q r s ham v : q <> r -> p <> s -> (p < n)%nat -> (q < n)%nat -> (r < n)%nat -> (s < n)%nat -> rep ham v ->
    exists ham', double_one im half small is_zero order h a n p q r s ham = Ok ham' /\ rep ham' (fun x y => v x y + low2 (p, q) (r, s) x y).
  Proof.
    intros H1 H2 Hp Hq Hr Hs' H. unfold double_one. rewrite coef_value by auto. cbn [rbind]. eexists. split; [reflexivity|]. destruct (is_zero (- w (p, q) (r, s))) eqn:Z.
    - eapply rep_ext; [|exact H]. intros x y _ _. unfold low2. assert (Q : w (p, q) (r, s) = 0). { transitivity (- - w (p, q) (r, s)); [ring|]. rewrite (Hz _ Z). ring. } rewrite Q, kconj_0. ring.
    - eapply rep_ext; [|apply (rep_add im small Hs n); [exact H|apply (rep_product im half Him Hhalf small Hs order Horder n); auto]]. intros x y Hx Hy. cbn beta. unfold low2.
      rewrite (split_L4 p q r s), (split_L4 r s p q) by auto. rewrite kconj_opp'. ring.
  Qed.
  Lemma double_loop l : (forall i j k m, In (i, (j, (k, m))) l -> (i < n)%nat /\ (j < i)%nat /\ (k < j)%nat /\ (m < k)%nat) -> forall ham v, rep ham v ->
    exists ham', foldM (double_step im half small is_zero order h a n) l ham = Ok ham' /\
      rep ham' (fun x y => v x y + lsum (fun t : nat * (nat * (nat * nat)) => let '(i, (j, (k, m))) := t in low2 (i, j) (k, m) x y + low2 (i, k) (j, m) x y + low2 (i, m) (j, k) x y) l).
  Proof.
    induction l as [|[i [j [k m]]] l IH]; intros Hl ham v H.
    - exists ham. split; [reflexivity|]. eapply rep_ext; [|exact H]. intros x y _ _. cbn. ring.
    - destruct (Hl i j k m) as (Hi & Hj & Hk & Hm); [left; auto|]. cbn [foldM]. unfold double_step at 1.
      destruct (double_ok i j k m ham v) as (o1 & E1 & R1); [lia..|exact H|]. rewrite E1. cbn [rbind].
      edestruct (double_ok i k j m o1) with (7 := R1) as (o2 & E2 & R2); [lia..|]. rewrite E2. cbn [rbind].
      edestruct (double_ok i m j k o2) with (7 := R2) as (o3 & E3 & R3); [lia..|]. rewrite E3. cbn [rbind].
      destruct (IH (fun i j k m Hin => Hl i j k m (or_intror Hin)) o3 _ R3) as (o4 & E4 & R4). exists o4. split; [exact E4|]. eapply rep_ext; [|exact R4]. intros x y _ _. cbn beta. unfold lsum. cbn [fold_right]. ring.
  Qed.
End Loops.
