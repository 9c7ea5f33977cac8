(** C93, continued: random sums of Pauli terms. *)
From Coq Require Import ZArith Ring Lia Permutation String.
From Verif Require Import Base BaseFacts MatModel MatFacts OpModel OpSpec OpProofs PauliProofs FermiModel FermiSpec FermiProofs4 FermiProofs6 GaussQ CostModel OpStepSpec RandOpModel RandOpSpec.
Open Scope list_scope.
Local Open Scope nat_scope.

(** What a computation may return: a value with the property, or the error [e]. *)
Definition outcome {A} (e : exn) (P : A -> Prop) (r : result A) : Prop := match r with Ok a => P a | Err x => x = e end.
(** The terms of a list that are t up to the order of their factors. *)
Definition times {A} (aeqb : A -> A -> bool) (t : term A) (ts : list (term A)) : nat := length (filter (fun u => term_eqb aeqb (sort_by index_leb u) t) ts).
(** The sum, with coefficient 1, of the terms of a list. *)
Definition sum_of_terms {A} {K : cring} (aeqb : A -> A -> bool) (a : sop A K) (ts : list (term A)) : Prop :=
  wf_op a /\ forall t, (In t (dkeys a) <-> times aeqb t ts > 0) /\ coef aeqb a t = of_nat (times aeqb t ts).

Lemma outcome_mono {A} e (P Q : A -> Prop) r : (forall a, P a -> Q a) -> outcome e P r -> outcome e Q r.
Proof. destruct r; cbn; auto. Qed.
Section Loops.
  Context {G : Type}.
  Lemma outcome_bind {A B} (m : M G A) (k : A -> M G B) e (P : A -> Prop) (Q : B -> Prop) g :
    outcome e P (snd (m g)) -> (forall a g', P a -> outcome e Q (snd (k a g'))) -> outcome e Q (snd ((do! x := m in k x) g)).
  Proof. intros Hm Hk. unfold bindM. destruct (m g) as [g1 [a|x]]; cbn [snd] in *; [apply Hk; exact Hm|exact Hm]. Qed.
  Lemma timesM_outcome {A} e (P : nat -> A -> Prop) (f : A -> M G A) k : forall j a g, (forall i a g, i < j + k -> P i a -> outcome e (P (S i)) (snd (f a g))) -> P j a ->
    outcome e (P (j + k)) (snd (timesM k f a g)).
  Proof.
    induction k as [|k IH]; intros j a g Hf Ha; cbn [timesM]; [rewrite Nat.add_0_r; exact Ha|]. apply (outcome_bind _ _ e (P (S j))); [apply Hf; [lia|exact Ha]|].
    intros b g' Hb. replace (j + S k) with (S j + k) by lia. apply IH; [|exact Hb]. intros i c g'' Hi. apply Hf. lia.
  Qed.
End Loops.

Section Sums.
  Context {K : cring} {A : Type} (aeqb : A -> A -> bool) (Ha : eqb_spec_of aeqb) (small : K -> bool).
  Add Ring Kring_ros : (kth K).
  Open Scope K_scope.
  Notation teqb := (term_eqb aeqb).
  Let Ht : eqb_spec_of teqb := term_eqb_spec aeqb Ha.
  Hypothesis large : forall k, small (of_nat (S k)) = false.
  Lemma sum_add (a : sop A K) ts u : sum_of_terms aeqb a ts -> sum_of_terms aeqb (op_add aeqb small a [(sort_by index_leb u, 1)]) (ts ++ [u]).
  Proof.
    intros [Wa Hs]. set (v := sort_by index_leb u). assert (Wb : wf_op [(v, 1 : K)]) by (unfold wf_op; cbn; constructor; [auto|constructor]).
    split; [apply merge_wf; auto|]. intros t. destruct (Hs t) as [S1 S2]. assert (Et : times aeqb t (ts ++ [u]) = (times aeqb t ts + if teqb v t then 1 else 0)%nat) by (unfold times; rewrite filter_app, app_length; cbn [filter]; fold v; destruct (teqb v t); reflexivity). rewrite Et.
    assert (Dk : forall b : sop A K, In t (dkeys b) <-> dget teqb t b <> None).
    { intros b. pose proof (dget_None teqb Ht t b). split; intros H0; [intros E; apply H in E; auto|]. destruct (in_dec (fun x y => Bool.reflect_dec _ _ (Bool.iff_reflect _ _ (iff_sym (Ht x y)))) t (dkeys b)); [assumption|]. exfalso. apply H0, H. assumption. }
    rewrite Dk. unfold op_add. rewrite (merge_get aeqb Ha), (merge_coef aeqb Ha) by auto. cbn [dget].
    destruct (teqb t v) eqn:E.
    - apply Ht in E as <-. rewrite (proj2 (Ht t t) eq_refl). cbn zeta. rewrite S2. generalize (times aeqb t ts) as k. intros k.
      assert (Ek : of_nat k + 1 = (of_nat (S k) : K)) by (transitivity (1 + of_nat k : K); [ring|reflexivity]). rewrite Ek, large, Nat.add_1_r. split; [split; [lia|discriminate]|reflexivity].
    - replace (teqb v t) with false; [|symmetry; apply not_true_iff_false; intros E'; apply Ht in E'; subst t; rewrite (proj2 (Ht v v) eq_refl) in E; discriminate].
      rewrite Nat.add_0_r. split; [rewrite <- Dk; exact S1|exact S2].
  Qed.
End Sums.

Section PauliSums.
  Context {K : cring} {G : Type} (im : K) (small : K -> bool) (rng : draws G K).
  Add Ring Kring_rps : (kth K).
  Open Scope K_scope.
  (** Choices are made among the elements of the population. *)
  Definition in_range : Prop := forall n g, (0 < n)%nat -> (snd (below rng n g) < n)%nat.
  Hypothesis Hr : in_range.
  Lemma pick_outcome e x n g : (0 < n)%nat -> outcome e (fun i => i < n)%nat (snd (pick rng x n g)).
  Proof. intros Hn. unfold pick. destruct n; [lia|]. pose proof (Hr (S n) g Hn). destruct (below rng (S n) g). exact H. Qed.
  Lemma fresh_outcome n qubits fuel : (0 < n)%nat -> forall g, outcome OutOfFuel (fun q => q < n /\ ~ In q qubits)%nat (snd (fresh_qubit rng fuel n qubits g)).
  Proof.
    intros Hn. induction fuel as [|fuel IH]; intros g; [reflexivity|]. cbn [fresh_qubit]. eapply outcome_bind; [apply pick_outcome; exact Hn|]. intros q g' Hq. cbv beta in Hq.
    destruct (memb Nat.eqb q qubits) eqn:E; [apply IH|]. split; [exact Hq|]. intros I. apply (memb_In _ nat_eqb_spec) in I. congruence.
  Qed.
  Lemma term_outcome {A} fuel n (draw_action : M G A) (P : A -> Prop) : (forall g, outcome OutOfFuel P (snd (draw_action g))) -> forall g,
    outcome OutOfFuel (fun t => on_different_qubits n t /\ Forall (fun f => P (snd f)) t /\ length t <= n)%nat (snd (random_term rng fuel n draw_action g)).
  Proof.
    intros Hd g. unfold random_term. eapply outcome_bind; [apply pick_outcome; lia|]. intros k g' Hk. cbv beta in Hk.
    pose proof (timesM_outcome OutOfFuel (fun i (t : term A) => length t = i /\ on_different_qubits n t /\ Forall (fun f => P (snd f)) t) (fun full_term =>
      do! q := fresh_qubit rng fuel n (map fst full_term) in do! a := draw_action in retM (full_term ++ [(q, a)])) k 0 [] g') as T. cbn [plus] in T.
    match type of T with ?H1 -> ?H2 -> ?C => assert (R : C) end.
    { apply T; [|repeat split; try constructor; intros f []]. intros i t g0 Hi (L & [N F] & Q). eapply outcome_bind; [apply fresh_outcome; lia|]. intros q g1 [Hq Nq].
      eapply outcome_bind; [apply Hd|]. intros a g2 Pa. cbn. split; [rewrite app_length; cbn; lia|]. split; [|apply Forall_app; split; [exact Q|constructor; [exact Pa|constructor]]]. split.
      - rewrite map_app. cbn. apply (Permutation_NoDup (Permutation_cons_append (map fst t) q)). constructor; [exact Nq|exact N].
      - intros f Hf. apply in_app_or in Hf as [Hf|[<-|[]]]; [apply F; exact Hf|exact Hq]. }
    refine (outcome_mono _ _ _ _ _ R). intros t (L & D & Q). repeat split; try assumption; try apply D. cbn in L. lia.
  Qed.
  Hypothesis large : forall k, small (of_nat (S k)) = false.
  (** The sum of the drawn terms, each a product of Paulis on different qubits; a draw that never ends is the only way not to return. *)
  Theorem C93_random_qubitop fuel n nterms g : outcome OutOfFuel (fun a => exists ts, length ts = Z.to_nat nterms /\
    Forall (fun t => on_different_qubits n t /\ Forall (fun f => snd f <> Pid) t) ts /\ sum_of_terms pauli_eqb a ts) (snd (create_random_qubitop im small rng fuel n nterms g)).
  Proof.
    unfold create_random_qubitop. apply (timesM_outcome OutOfFuel (fun i (a : qop K) => exists ts, length ts = i /\
      Forall (fun t => on_different_qubits n t /\ Forall (fun f => snd f <> Pid) t) ts /\ sum_of_terms pauli_eqb a ts) _ (Z.to_nat nterms) 0).
    - intros i a g0 _ (ts & L & F & S0). eapply outcome_bind.
      + apply (term_outcome fuel n _ (fun p => p <> Pid)). intros g1. eapply outcome_bind; [apply pick_outcome; lia|]. intros k g2 _. cbn. destruct k as [|[|k]]; discriminate.
      + intros t g1 (D & Q & _). cbn. exists (ts ++ [t]). split; [rewrite app_length; cbn; lia|]. split; [apply Forall_app; split; [exact F|constructor; [split; assumption|constructor]]|].
        unfold plus, mk_op, RandOpModel.simplify. rewrite simplify_distinct by first [apply D|rewrite Forall_forall in Q; exact Q]. apply (sum_add pauli_eqb pauli_eqb_spec small large). exact S0.
    - exists []. split; [reflexivity|]. split; [constructor|]. split; [constructor|]. intros t. cbn. split; [split; [intros []|lia]|reflexivity].
  Qed.
  Lemma sort_z (l : list nat) : sort_by index_leb (map (fun i => (i, ZZ)) l) = map (fun i => (i, ZZ)) (sort_by Nat.leb l).
  Proof.
    assert (I : forall x (m : list nat), insert_by index_leb (x, ZZ) (map (fun i => (i, ZZ)) m) = map (fun i => (i, ZZ)) (insert_by Nat.leb x m)).
    { intros x m. induction m as [|y m IH]; [reflexivity|]. cbn [map insert_by]. unfold index_leb at 1. cbn [fst]. destruct (Nat.leb x y); [reflexivity|]. cbn [map]. rewrite IH. reflexivity. }
    induction l as [|x l IH]; [reflexivity|]. cbn [map sort_by]. rewrite IH. apply I.
  Qed.
  Lemma ising_distinct (t : term zact) (c : K) : NoDup (map fst t) -> ising_simplify t c = (c, sort_by index_leb t).
  Proof.
    intros N. unfold ising_simplify. apply (f_equal (pair c)). assert (E : t = map (fun i => (i, ZZ)) (map fst t)) by (rewrite map_map, <- (map_id t) at 1; apply map_ext; intros [i []]; reflexivity).
    transitivity (sort_by index_leb (map (fun i => (i, ZZ)) (map fst t))); [|rewrite <- E; reflexivity]. rewrite sort_z. do 2 f_equal. unfold uniq. rewrite (uniq_from_id Nat.eqb nat_eqb_spec [] (map fst t) N) by (intros a _ []). 
    assert (P1 : forall (u : term zact) i, NoDup (map fst u) -> In i (map fst u) -> power_of i u = 1%nat).
    { induction u as [|[j z] u IH]; intros i Nu Hi; [destruct Hi|]. cbn [map fst] in *. inversion Nu as [|? ? N1 N2]; subst. unfold power_of. cbn [filter fst].
      destruct (Nat.eqb j i) eqn:Ej.
      - apply Nat.eqb_eq in Ej. subst j. cbn [length]. f_equal. apply length_zero_iff_nil. 
        destruct (filter (fun f : factor zact => Nat.eqb (fst f) i) u) as [|f l] eqn:Ef; [exact Ef|]. exfalso. assert (If : In f (f :: l)) by (left; reflexivity). rewrite <- Ef in If. apply filter_In in If as [If E']. apply Nat.eqb_eq in E'. apply N1. rewrite <- E'. apply in_map. exact If.
      - destruct Hi as [Hi|Hi]; [subst; rewrite Nat.eqb_refl in Ej; discriminate|]. apply IH; assumption. }
    assert (F : forall l : list nat, (forall i, In i l -> Nat.odd (power_of i t) = true) -> filter (fun i => Nat.odd (power_of i t)) l = l).
    { induction l as [|i l IH]; intros H; [reflexivity|]. cbn [filter]. rewrite (H i (or_introl eq_refl)), IH by (intros j Hj; apply H; right; exact Hj). reflexivity. }
    apply F. intros i Hi. rewrite (P1 t i N Hi). reflexivity.
  Qed.
  Theorem C93_random_isingop fuel n nterms g : outcome OutOfFuel (fun a => exists ts, length ts = Z.to_nat nterms /\ Forall (on_different_qubits n) ts /\ sum_of_terms zact_eqb a ts)
    (snd (create_random_isingop small rng fuel n nterms g)).
  Proof.
    unfold create_random_isingop. apply (timesM_outcome OutOfFuel (fun i (a : isop K) => exists ts, length ts = i /\ Forall (on_different_qubits n) ts /\ sum_of_terms zact_eqb a ts) _ (Z.to_nat nterms) 0).
    - intros i a g0 _ (ts & L & F & S0). eapply outcome_bind.
      + apply (term_outcome fuel n _ (fun _ => True)). intros g1. exact I.
      + intros t g1 (D & _ & _). cbn -[ising_simplify]. exists (ts ++ [t]). split; [rewrite app_length; cbn; lia|]. split; [apply Forall_app; split; [exact F|constructor; [exact D|constructor]]|].
        unfold mk_op. rewrite ising_distinct by apply D. apply (sum_add zact_eqb zact_eqb_spec small large). exact S0.
    - exists []. split; [reflexivity|]. split; [constructor|]. split; [constructor|]. intros t. cbn. split; [split; [intros []|lia]|reflexivity].
  Qed.
End PauliSums.

Lemma of_nat_conj {K : cring} k : kconj (of_nat k : K) = of_nat k.
Proof. induction k as [|k IH]; [apply kconj_0|]. change (kconj (kadd k1 (of_nat k : K)) = kadd k1 (of_nat k)). rewrite kconj_add, kconj_1, IH. reflexivity. Qed.
Section MoreSums.
  Context {K : cring} {G : Type} (im : K) (Hc : kconj im = kopp im) (small : K -> bool) (rng : draws G K).
  Add Ring Kring_rms : (kth K).
  Open Scope K_scope.
  Lemma sub_self (x : K) : x - x = 0.
  Proof. ring. Qed.
  Lemma times_pos {A} (aeqb : A -> A -> bool) (Ha : eqb_spec_of aeqb) t ts : (times aeqb t ts > 0)%nat -> exists u, In u ts /\ sort_by index_leb u = t.
  Proof.
    unfold times. destruct (filter (fun u => term_eqb aeqb (sort_by index_leb u) t) ts) as [|u l] eqn:E; [cbn; lia|]. intros _. exists u. assert (I : In u (u :: l)) by (left; reflexivity). rewrite <- E in I. apply filter_In in I as [I1 I2].
    split; [exact I1|]. apply (term_eqb_spec aeqb Ha). exact I2.
  Qed.
  Lemma sum_form n (a : qop K) ts : Forall (fun t => on_different_qubits n t /\ Forall (fun f => snd f <> Pid) t) ts -> sum_of_terms pauli_eqb a ts ->
    on_qubits n a /\ (forall t c, In (t, c) a -> canonical t) /\ (length a <= length ts)%nat /\ meq (adjoint (qop_matrix im n a)) (qop_matrix im n a).
  Proof.
    intros F [W S0]. assert (T : forall t, In t (dkeys a) -> exists u, In u ts /\ sort_by index_leb u = t) by (intros t Ht; apply (times_pos pauli_eqb pauli_eqb_spec), S0; exact Ht).
    rewrite Forall_forall in F.
    assert (O : on_qubits n a).
    { intros t c Hin f Hf. apply (in_map fst) in Hin. destruct (T t Hin) as (u & Hu & <-). destruct (F u Hu) as [[_ Q] _]. apply Q. eapply Permutation_in; [apply sort_by_perm|exact Hf]. }
    assert (Ca : forall t c, In (t, c) a -> canonical t).
    { intros t c Hin. apply (in_map fst) in Hin. destruct (T t Hin) as (u & Hu & <-). destruct (F u Hu) as [[N _] P]. pose proof (sort_by_perm index_leb u) as Pm.
      apply sorted_canonical; [eapply Permutation_NoDup; [apply Permutation_map; symmetry; exact Pm|exact N]|intros f Hf; rewrite Forall_forall in P; apply P; eapply Permutation_in; [exact Pm|exact Hf]|apply index_sort_sorted]. }
    split; [exact O|]. split; [exact Ca|]. split.
    - assert (L : (length (dkeys a) <= length (map (sort_by index_leb) ts))%nat).
      { apply NoDup_incl_length; [exact W|]. intros t Ht. destruct (T t Ht) as (u & Hu & <-). apply in_map. exact Hu. }
      unfold dkeys in L. rewrite !map_length in L. exact L.
    - etransitivity; [symmetry; apply (qop_adjoint n im Hc); assumption|]. replace (qubit_conjugated a) with a; [reflexivity|]. symmetry.
      rewrite qubit_conjugated_map by exact W. etransitivity; [|apply map_id]. apply map_ext_in. intros [t c] Hin. cbn [fst snd]. f_equal. destruct (S0 t) as [_ Q].
      assert (E : coef pauli_eqb a t = c) by (unfold coef; rewrite (BaseFacts.In_dget _ (term_eqb_spec _ pauli_eqb_spec) _ _ _ W Hin); reflexivity). rewrite <- E, Q. apply of_nat_conj.
  Qed.
  (** So the operator is Hermitian, acts on the n qubits, and has at most as many terms as asked for. *)
  Theorem C93_random_qubitop_form fuel n nterms g : in_range rng -> (forall k, small (of_nat (S k)) = false) ->
    outcome OutOfFuel (fun a => wf_op a /\ on_qubits n a /\ (forall t c, In (t, c) a -> canonical t) /\ (length a <= Z.to_nat nterms)%nat /\ meq (adjoint (qop_matrix im n a)) (qop_matrix im n a))
      (snd (create_random_qubitop im small rng fuel n nterms g)).
  Proof.
    intros Hr Hl. refine (outcome_mono _ _ _ _ _ (C93_random_qubitop im small rng Hr Hl fuel n nterms g)). intros a (ts & L & F & S0). destruct (sum_form n a ts F S0) as (O & Ca & La & Ad).
    split; [apply S0|]. split; [exact O|]. split; [exact Ca|]. split; [rewrite <- L; exact La|exact Ad].
  Qed.

  Lemma merge_factors_length (l : term pauli) : forall f (c : K), (length (snd (merge_factors im f l c)) <= S (length l))%nat.
  Proof.
    induction l as [|g l IH]; intros f c; cbn [merge_factors]; [destruct (pauli_eqb (snd f) Pid); cbn; lia|]. destruct (Nat.eqb (fst f) (fst g)).
    - destruct (pauli_product im (snd f) (snd g)) as [d p]. specialize (IH (fst f, p) (c * d)). cbn [length]. lia.
    - specialize (IH g c). destruct (merge_factors im g l c) as [c' t]. cbn [snd] in *. destruct (pauli_eqb (snd f) Pid); cbn [length]; lia.
  Qed.
  Lemma simplify_length t (c : K) : (length (snd (qubit_simplify im t c)) <= length t)%nat.
  Proof.
    unfold qubit_simplify. rewrite <- (Permutation_length (sort_by_perm index_leb t)). destruct (sort_by index_leb t) as [|f l]; [cbn; lia|]. apply merge_factors_length.
  Qed.
  Lemma add_keys (a : qop K) t c u : wf_op a -> In u (dkeys (op_add pauli_eqb small a [(t, c)])) -> In u (dkeys a) \/ u = t.
  Proof.
    intros W H. cbn in H. unfold merge_term in H. cbn [fst snd] in H. cbv zeta in H.
    assert (D : forall v, In u (dkeys (dset (term_eqb pauli_eqb) t v a)) -> In u (dkeys a) \/ u = t).
    { intros v Hv. apply (proj1 (In_dkeys_dset _ (term_eqb_spec _ pauli_eqb_spec) _ _ _ _)) in Hv. destruct Hv as [Hv|Hv]; [right|left]; exact Hv. }
    destruct (small _); [|apply (D _ H)]. apply In_dkeys_ddel in H. apply (D _ H).
  Qed.
  (** A random operator exists when there is a qubit, a term and an order to choose; its terms are on the n qubits, at most as many and as long as asked for. *)
  Theorem C93_random_qubit_operator n max_terms max_order g : in_range rng -> (0 < n)%Z -> (0 < max_terms)%Z -> (0 <= max_order)%Z ->
    exists g' a, random_qubit_operator im small rng n max_terms max_order g = (g', Ok a) /\ wf_op a /\ on_qubits (Z.to_nat n) a /\ (length a <= Z.to_nat max_terms)%nat /\
      forall t c, In (t, c) a -> canonical t /\ (length t <= Z.to_nat max_order)%nat.
  Proof.
    intros Hr Hn Ht Ho. set (P := fun m (a : qop K) => wf_op a /\ (length a <= m)%nat /\ forall t, In t (dkeys a) -> canonical t /\ (length t <= Z.to_nat max_order)%nat /\ forall f, In f t -> (fst f < Z.to_nat n)%nat).
    assert (O : forall e, outcome e (P (Z.to_nat max_terms)) (snd (random_qubit_operator im small rng n max_terms max_order g))).
    { intros e. unfold random_qubit_operator. eapply outcome_bind; [apply (pick_outcome im small rng Hr); lia|]. intros k g1 Hk. cbv beta in Hk.
      refine (outcome_mono _ (P (0 + S k)%nat) _ _ _ _).
      { intros a (W & L & Q). split; [exact W|]. split; [lia|exact Q]. }
      apply timesM_outcome; [|split; [constructor|split; [cbn; lia|intros t []]]]. intros i a g2 _ (W & L & Q).
      eapply outcome_bind; [apply (pick_outcome im small rng Hr); lia|]. intros m g3 Hm. cbv beta in Hm.
      eapply outcome_bind; [apply (timesM_outcome e (fun j (t : term pauli) => length t = j /\ forall f, In f t -> (fst f < Z.to_nat n)%nat) _ m 0); [|split; [reflexivity|intros f []]]|].
      { intros j t g4 _ [Lt Ft]. eapply outcome_bind; [apply (pick_outcome im small rng Hr); lia|]. intros q g5 Hq. eapply outcome_bind; [apply (pick_outcome im small rng Hr); lia|]. intros x g6 _. cbn.
        split; [rewrite app_length; cbn [length]; rewrite <- Lt; apply Nat.add_1_r|]. intros f Hf. apply in_app_or in Hf as [Hf|[<-|[]]]; [apply Ft; exact Hf|exact Hq]. }
      intros t g4 [Lt Ft]. eapply (outcome_bind _ _ _ (fun _ => True)); [unfold randn1; destruct (normal rng g4); exact I|]. intros c g5 _. cbn [retM snd outcome].
      unfold plus, mk_op, RandOpModel.simplify. pose proof (simplify_canonical im t c) as C1. pose proof (simplify_qubits im t c (Z.to_nat n) Ft) as C2. pose proof (simplify_length t c) as C3.
      destruct (qubit_simplify im t c) as [c' t']. cbn [snd] in *.
      assert (W' : wf_op (op_add pauli_eqb small a [(t', c')])) by (apply merge_wf; [apply pauli_eqb_spec|exact W]). split; [exact W'|]. split.
      - assert (Le : (length (dkeys (op_add pauli_eqb small a [(t', c')])) <= length (t' :: dkeys a))%nat).
        { apply NoDup_incl_length; [exact W'|]. intros u Hu. apply add_keys in Hu as [Hu| ->]; [right; exact Hu|left; reflexivity|exact W]. }
        cbn [length] in Le. unfold dkeys in Le. rewrite !map_length in Le. lia.
      - intros u Hu. apply add_keys in Hu as [Hu| ->]; [apply Q; exact Hu| |exact W]. split; [exact C1|]. split; [lia|exact C2]. }
    pose proof (O ValueError) as O1. pose proof (O KeyError) as O2. destruct (random_qubit_operator im small rng n max_terms max_order g) as [g' [a|x]]; cbn [snd outcome] in *; [|congruence].
    destruct O1 as (W & L & Q). exists g', a. split; [reflexivity|]. split; [exact W|]. split; [intros t c Hin f Hf; apply (in_map fst) in Hin; apply (Q t Hin); exact Hf|]. split; [exact L|].
    intros t c Hin. apply (in_map fst) in Hin. destruct (Q t Hin) as (Q1 & Q2 & _). auto.
  Qed.
  (** Without a term, an order or a qubit to choose there is an error. *)
  Theorem C93_nothing_to_choose n max_terms max_order g : (max_terms <= 0)%Z -> exists g', random_qubit_operator im small rng n max_terms max_order g = (g', Err ValueError).
  Proof. intros H. unfold random_qubit_operator. exists g. unfold bindM, pick. replace (Z.to_nat max_terms) with 0%nat by lia. reflexivity. Qed.
End MoreSums.

(** ** Examples and refutations *)
(** A generator that reads its choices from a list. *)
Definition reader : draws (list nat) GQ := {| below := fun n g => (tl g, Nat.modulo (hd 0 g) n); normal := fun g => (tl g, k1) |}.
Lemma reader_in_range : in_range reader.
Proof. intros n g Hn. cbn. apply Nat.mod_upper_bound. lia. Qed.
Definition keys_of {A} {K : cring} (r : result (sop A K)) : list (term A) := match r with Ok a => map fst a | Err _ => [] end.
Definition coefs_of {A} {K : cring} (r : result (sop A K)) : list K := match r with Ok a => map snd a | Err _ => [] end.
(** One retry on qubit 0; the terms Y0 X2, Z1 and, again, X2 Y0. *)
Definition choices : list nat := [2; 0; 1; 0; 2; 0; 1; 1; 2; 2; 2; 0; 0; 1]%nat.
Example C93_qubitop : let r := snd (create_random_qubitop qi gq_zero reader 5 3 3 choices) in
  keys_of r = [[(0, Py); (2, Px)]; [(1, Pz)]]%nat /\ forallb (fun xy => gq_zero (ksub (fst xy) (snd xy))) (combine (coefs_of r) [of_nat 2; of_nat 1]) = true /\ length (coefs_of r) = 2%nat.
Proof. vm_compute. auto. Qed.
(** A sum of so many terms may have fewer. *)
Theorem C93_term_count_refuted : exists (g : list nat) a, snd (create_random_qubitop qi gq_zero reader 5 3 3 g) = Ok a /\ length a <> 3%nat.
Proof.
  exists choices. destruct (snd (create_random_qubitop qi gq_zero reader 5 3 3 choices)) as [a|e] eqn:E.
  - exists a. split; [reflexivity|]. pose proof C93_qubitop as (H & _). cbv zeta in H. rewrite E in H. cbn [keys_of] in H. apply (f_equal (@length _)) in H. rewrite map_length in H. rewrite H. discriminate.
  - pose proof C93_qubitop as (H & _). cbv zeta in H. rewrite E in H. discriminate.
Qed.
(** A product on the same qubit: random_qubit_operator of real coefficients need not be Hermitian.  Here X0 Y0 is drawn, that is iZ0. *)
Theorem C93_real_hermitian_refuted : exists (g : list nat) a, snd (random_qubit_operator qi gq_zero reader 1 1 2 g) = Ok a /\ ~ meq (adjoint (qop_matrix qi 1 a)) (qop_matrix qi 1 a).
Proof.
  set (g := [0; 2; 0; 0; 0; 1]%nat). exists g. assert (E : exists c, snd (random_qubit_operator qi gq_zero reader 1 1 2 g) = Ok [([(0%nat, Pz)], c)] /\ gq_zero (ksub c qi) = true).
  { eexists. split; [vm_compute; reflexivity|vm_compute; reflexivity]. }
  destruct E as (c & E & Ec). exists [([(0%nat, Pz)], c)]. split; [exact E|]. intros (_ & _ & M).
  assert (B : forall d, gq_zero (ksub d qi) = true -> gq_zero (ksub (ent (adjoint (qop_matrix qi 1 [([(0%nat, Pz)], d)])) 0 0) (ent (qop_matrix qi 1 [([(0%nat, Pz)], d)]) 0 0)) = false).
  { intros d Hd. apply JWInterProps.c73_same in Hd. subst d. vm_compute. reflexivity. }
  specialize (B c Ec). rewrite M in B by (cbn; lia). revert B. generalize (ent (qop_matrix qi 1 [([(0%nat, Pz)], c)]) 0 0). intros x B.
  assert (Z0 : ksub x x = (k0 : GQ)) by apply sub_self.
  rewrite Z0 in B. vm_compute in B. discriminate.
Qed.
Print Assumptions C93_random_qubitop_form.
Print Assumptions C93_random_isingop.
