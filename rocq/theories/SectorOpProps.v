(** C76: matrices of fermion operators among the states reached by excitations. *)
From Coq Require Import Permutation Sorted Ring.
From Verif Require Import Base BaseFacts MatModel MatFacts LiftSpec LiftProofs OpModel OpSpec OpProofs PauliProofs OpProofs2 FermiModel FermiSpec FermiProofs FermiProofs2 FermiProofs3 FermiProofs7 FermiProps SparseModel SparseProofs SectorSpec SectorProofs SectorProofs2 SectorOpModel SectorOpSpec SectorOpProofs SectorOpProofs2 SectorOpProofs3 GaussQ.
Open Scope list_scope.
Local Open Scope nat_scope.

Lemma starting_reference n k given : starting_state n k given = reference n k given.
Proof. destruct given as [r|]; [reflexivity|]. cbn [starting_state reference]. rewrite default_reference. do 2 f_equal. lia. Qed.
Lemma default_length n k : length (starting_state n k None) = n.
Proof. cbn [starting_state]. rewrite app_length, !repeat_length. lia. Qed.
Lemma occupied_all n b : length b = n -> occupied_in (fun _ => true) n b = particles b.
Proof. intros <-. rewrite particles_how_many. reflexivity. Qed.
Lemma occupied_up n b : length b = n -> occupied_in Nat.even n b = particles_up b.
Proof. intros <-. reflexivity. Qed.
Lemma occupied_down n b : length b = n -> occupied_in Nat.odd n b = particles_down b.
Proof. intros <-. reflexivity. Qed.
Lemma creators_in (P : nat -> bool) (t : term bool) : length (filter P (creators t)) = length (filter (fun f => snd f && P (fst f))%bool t).
Proof. unfold creators. induction t as [|[p []] t IH]; cbn [filter map fst snd andb]; [reflexivity| |exact IH]. destruct (P p); cbn [length]; auto. Qed.
Lemma annihilators_in (P : nat -> bool) (t : term bool) : length (filter P (annihilators t)) = length (filter (fun f => negb (snd f) && P (fst f))%bool t).
Proof. unfold annihilators. induction t as [|[p []] t IH]; cbn [filter map fst snd negb andb]; [reflexivity|exact IH|]. destruct (P p); cbn [length]; auto. Qed.

(** As many creation as annihilation operators; the same in even and in odd modes. *)
Definition keeps_number (t : term bool) : Prop := length (filter (fun f => snd f) t) = length (filter (fun f => negb (snd f)) t).
Definition keeps_spins (t : term bool) : Prop :=
  length (filter (fun f => snd f && Nat.even (fst f))%bool t) = length (filter (fun f => negb (snd f) && Nat.even (fst f))%bool t) /\
  length (filter (fun f => snd f && Nat.odd (fst f))%bool t) = length (filter (fun f => negb (snd f) && Nat.odd (fst f))%bool t).

Lemma keeps_balanced t : keeps_number t <-> balanced t.
Proof. unfold keeps_number, balanced, creators, annihilators. rewrite !map_length. reflexivity. Qed.
Lemma keeps_balanced_in t : keeps_number t <-> balanced_in (fun _ => true) t.
Proof. rewrite keeps_balanced. unfold balanced, balanced_in. rewrite !filter_true by auto. reflexivity. Qed.
Lemma keeps_spins_in t : keeps_spins t <-> balanced_in Nat.even t /\ balanced_in Nat.odd t.
Proof. unfold keeps_spins, balanced_in. rewrite !creators_in, !annihilators_in. reflexivity. Qed.
Lemma even_odd_length (l : list nat) : length l = length (filter Nat.even l) + length (filter Nat.odd l).
Proof. induction l as [|i l IH]; [reflexivity|]. cbn [filter]. rewrite <- (Nat.negb_even i). destruct (Nat.even i); cbn [negb length]; lia. Qed.
Lemma spins_number t : keeps_spins t -> keeps_number t.
Proof. rewrite keeps_spins_in, keeps_balanced. unfold balanced, balanced_in. intros [H1 H2]. rewrite (even_odd_length (creators t)), (even_odd_length (annihilators t)). lia. Qed.

Section C76.
  Context {K : cring} (small : K -> bool).
  Add Ring Kring_c76 : (kth K).
  Open Scope K_scope.
  Notation matrix := (get_number_preserving_sparse_operator (K := K) small).

  (** The states are those with the particles of the starting state (of each spin, if spins are to be preserved) that few enough excitations lead to; each appears once, in the order of the number of excitations, the starting state first. *)
  Theorem C76_basis n k spin ref lv : let r := starting_state n k ref in let states := sector_basis n k spin ref lv in
    NoDup states /\ (exists rest, states = r :: rest) /\ StronglySorted (fun s s' => excitations r s <= excitations r s')%nat states /\
    forall s, In s states <-> length s = length r /\ (if spin then particles_up s = particles_up r /\ particles_down s = particles_down r else particles s = particles r) /\ (excitations r s <= allowed_level k lv)%nat.
  Proof.
    cbn zeta. rewrite starting_reference. change (sector_basis n k spin ref lv) with (iterate_basis (reference n k ref) (allowed_level k lv) spin).
    split; [apply basis_NoDup|]. split; [apply basis_first|]. split; [apply basis_sorted|]. intros s. apply basis_spec.
  Qed.
  (** With as many excitations as particles, these are all the states with that number of particles. *)
  Theorem C76_all n k ref : particles (starting_state n k ref) = k -> forall s, In s (sector_basis n k false ref None) <-> length s = length (starting_state n k ref) /\ particles s = k.
  Proof. intros E s. rewrite (proj2 (proj2 (proj2 (C76_basis n k false ref None)))). rewrite E. cbn [allowed_level]. pose proof (excitations_le (starting_state n k ref) s). intuition lia. Qed.

  Lemma c76_ok n k spin ref lv a R : matrix a n k spin ref lv = Ok R ->
    (forall t c, In (t, c) (normal_ordered small a) -> balanced t /\ on_modes (length (starting_state n k ref)) t) /\ nr R = length (sector_basis n k spin ref lv) /\ nc R = length (sector_basis n k spin ref lv) /\
    forall i j, (i < nr R)%nat -> (j < nr R)%nat -> ent R i j = ent (fop_matrix (length (starting_state n k ref)) (normal_ordered small a)) (bval (nth i (sector_basis n k spin ref lv) [])) (bval (nth j (sector_basis n k spin ref lv) [])).
  Proof.
    rewrite matrix_form, <- starting_reference. intros E. destruct (sector_states n k spin ref lv) as [Hn Hl]. rewrite <- starting_reference in Hl.
    destruct (terms_ok _ _ Hn Hl _ (normal_sorted small a) (zeros _ _) R eq_refl eq_refl E) as (T1 & T2 & T3 & T4). split; [auto|]. split; [auto|]. split; [auto|]. rewrite T2. intros i j Hi Hj. rewrite T4 by auto. cbn [ent zeros]. ring.
  Qed.
  (** The matrix has the entries <s|a|s'> between these states, up to a bounded number of negligible terms dropped. *)
  Theorem C76_matrix n k spin ref lv a R : on_qubits (length (starting_state n k ref)) a -> matrix a n k spin ref lv = Ok R ->
    nr R = length (sector_basis n k spin ref lv) /\ nc R = length (sector_basis n k spin ref lv) /\
    exists rest : fop K, all_small small rest /\ (length rest <= drop_bound a)%nat /\
      forall i j s s', nth_error (sector_basis n k spin ref lv) i = Some s -> nth_error (sector_basis n k spin ref lv) j = Some s' ->
        ent R i j + ent (fop_matrix (length (starting_state n k ref)) rest) (bval s) (bval s') = ent (fop_matrix (length (starting_state n k ref)) a) (bval s) (bval s').
  Proof.
    intros Ha E. destruct (c76_ok n k spin ref lv a R E) as (_ & R1 & R2 & R3). split; [auto|]. split; [auto|].
    destruct (C46_same_operator small (length (starting_state n k ref)) a Ha) as (rest & S1 & S2 & _ & _ & _ & S3). exists rest. split; [auto|]. split; [auto|]. intros i j s s' Hi Hj.
    pose proof (proj2 (proj2 (proj2 (C76_basis n k spin ref lv)))) as Hb. cbn zeta in Hb.
    pose proof (proj1 (proj1 (Hb s) (nth_error_In _ _ Hi))) as Ls. pose proof (proj1 (proj1 (Hb s') (nth_error_In _ _ Hj))) as Ls'.
    rewrite R3 by (rewrite R1; apply nth_error_Some; congruence). rewrite (nth_error_nth _ _ _ Hi), (nth_error_nth _ _ _ Hj). rewrite <- S3; [reflexivity| |]; cbn [nr nc madd]; rewrite ?(proj1 (fop_shape _ _)), ?(proj2 (fop_shape _ _)); [rewrite <- Ls|rewrite <- Ls']; apply bval_lt.
  Qed.
  Theorem C76_matrix_exact n k spin ref lv a R : only_zero small -> on_qubits (length (starting_state n k ref)) a -> matrix a n k spin ref lv = Ok R ->
    forall i j s s', nth_error (sector_basis n k spin ref lv) i = Some s -> nth_error (sector_basis n k spin ref lv) j = Some s' -> ent R i j = ent (fop_matrix (length (starting_state n k ref)) a) (bval s) (bval s').
  Proof.
    intros Hz Ha E i j s s' Hi Hj. destruct (C76_matrix n k spin ref lv a R Ha E) as (_ & _ & rest & S1 & _ & S3). rewrite <- (S3 i j s s' Hi Hj). rewrite fop_ent, (lval_small small _ rest S1 Hz). ring.
  Qed.

  (** Starting from the first modes occupied, there is a matrix for each operator that conserves the number of particles, at every level. *)
  Lemma c76_default n k spin lv t : sorted_term t -> on_modes n t -> balanced t ->
    exists R, build_term_op (K := K) t (sector_basis n k spin None lv) (map bval (sector_basis n k spin None lv)) (argsort (map bval (sector_basis n k spin None lv))) n = Ok R.
  Proof.
    intros Hs Ht Hb. pose proof (C76_basis n k spin None lv) as (_ & (rest & Er) & _ & Hin). cbn zeta in *. rewrite default_length in Hin. apply build_total; auto; [intros s H; apply Hin in H; tauto|].
    intros s H Hok. exists (starting_state n k None). split; [rewrite Er; left; auto|]. apply Hin in H as (Ls & Ps & _). pose proof (act_fact (K := K) n t s Hs Ht Ls) as A. rewrite Hok in A. destruct A as [A W]. specialize (W (fun _ => true)).
    rewrite !filter_true in W by auto. rewrite A in W. assert (La : length (snd (act_on (K := K) t s)) = n) by (rewrite act_length; auto). rewrite !occupied_all in W by auto. unfold balanced in Hb.
    assert (P : particles (snd (act_on (K := K) t s)) = Nat.min k n). { destruct spin; [destruct Ps as [P1 P2]; pose proof (spin_particles s) as Q; rewrite P1, P2, <- spin_particles in Q|pose proof Ps as Q]; cbn [starting_state] in Q; rewrite particles_repeat in Q; lia. }
    pose proof (first_largest _ _ P) as L. rewrite La in L. cbn [starting_state]. replace (n - k)%nat with (n - Nat.min k n)%nat by lia. exact L.
  Qed.
  Theorem C76_defined n k spin lv a : (forall t c, In (t, c) a -> keeps_number t) -> on_qubits n a -> exists R, matrix a n k spin None lv = Ok R.
  Proof.
    intros Hb Ha. rewrite matrix_form, <- starting_reference, default_length. apply terms_total. intros t c H. apply c76_default; [apply (normal_sorted small a t c H)| |].
    - apply (normal_keeps small (on_modes n) a (on_modes_perm n) (on_modes_del n)) with (c := c); auto.
    - apply keeps_balanced, keeps_balanced_in. apply (normal_keeps small (balanced_in (fun _ => true)) a (balanced_perm _) (balanced_del _)) with (c := c); auto. intros u d Hu. apply keeps_balanced_in. apply (Hb u d Hu).
  Qed.
  (** From any state there is one if every excitation is allowed, and the operator conserves the numbers asked for. *)
  Theorem C76_defined_from n k (spin : bool) r lv a : (particles r <= allowed_level k lv)%nat -> (forall t c, In (t, c) a -> if spin then keeps_spins t else keeps_number t) -> on_qubits (length r) a ->
    exists R, matrix a n k spin (Some r) lv = Ok R.
  Proof.
    intros Hlv Hb Ha. rewrite matrix_form, <- starting_reference. cbn [starting_state]. apply terms_total. intros t c H.
    pose proof (normal_sorted small a t c H) as Hs. assert (Ht : on_modes (length r) t) by (apply (normal_keeps small (on_modes (length r)) a (on_modes_perm _) (on_modes_del _)) with (c := c); auto).
    assert (Hbal : if spin then balanced_in Nat.even t /\ balanced_in Nat.odd t else balanced_in (fun _ => true) t).
    { destruct spin.
      - split; [apply (normal_keeps small (balanced_in Nat.even) a (balanced_perm _) (balanced_del _)) with (c := c)|apply (normal_keeps small (balanced_in Nat.odd) a (balanced_perm _) (balanced_del _)) with (c := c)]; auto; intros u d Hu; apply keeps_spins_in; apply (Hb u d Hu).
      - apply (normal_keeps small (balanced_in (fun _ => true)) a (balanced_perm _) (balanced_del _)) with (c := c); auto. intros u d Hu. apply keeps_balanced_in. apply (Hb u d Hu). }
    assert (B : balanced t) by (apply keeps_balanced; destruct spin; [apply spins_number, keeps_spins_in|apply keeps_balanced_in]; auto).
    pose proof (C76_basis n k spin (Some r) lv) as (_ & _ & _ & Hin). cbn zeta in *. cbn [starting_state] in Hin. apply build_total; auto; [intros s Hs'; apply Hin in Hs'; tauto|].
    intros s H' Hok. eexists. split; [|apply le_n]. apply Hin in H' as (Ls & Ps & _). apply Hin. assert (La : length (snd (act_on (K := K) t s)) = length r) by (rewrite act_length; auto). split; [auto|].
    pose proof (act_fact (K := K) (length r) t s Hs Ht Ls) as A. rewrite Hok in A. destruct A as [A W]. rewrite A in W. split; [|pose proof (excitations_le r (snd (act_on (K := K) t s))); lia]. unfold balanced_in in Hbal. destruct spin.
    - destruct Hbal as [B1 B2]. pose proof (W Nat.even) as W1. pose proof (W Nat.odd) as W2. rewrite !occupied_up in W1 by auto. rewrite !occupied_down in W2 by auto. lia.
    - pose proof (W (fun _ => true)) as W1. rewrite !occupied_all in W1 by auto. lia.
  Qed.
  (** An operator that does not conserve the number of particles is a ValueError. *)
  Theorem C76_not_conserving n k spin lv a : only_zero small -> on_qubits n a -> ~ conserves_number n (fop_matrix n a) -> matrix a n k spin None lv = Err ValueError.
  Proof.
    intros Hz Ha Hc. rewrite matrix_form, <- starting_reference, default_length.
    assert (Hm : forall t c, In (t, c) (normal_ordered small a) -> on_modes n t) by (intros t c H; apply (normal_keeps small (on_modes n) a (on_modes_perm n) (on_modes_del n)) with (c := c); auto).
    apply terms_error; [intros t c H Hb; apply c76_default; auto; [apply (normal_sorted small a t c H)|apply (Hm t c H)]|].
    destruct (existsb (fun tc => negb (Nat.eqb (length (creators (fst tc))) (length (annihilators (fst tc))))) (normal_ordered small a)) eqn:X.
    - apply existsb_exists in X as ([t c] & Hin & N). exists t, c. split; [auto|]. intros B. unfold balanced in B. cbn [fst] in N. rewrite B, Nat.eqb_refl in N. discriminate.
    - exfalso. apply Hc. assert (C' : conserves_number n (fop_matrix n (normal_ordered small a))).
      { apply fop_conserves. intros t c H. split; [apply (Hm t c H)|]. destruct (Nat.eq_dec (length (creators t)) (length (annihilators t))); [auto|]. rewrite <- not_true_iff_false in X. exfalso. apply X. apply existsb_exists. exists (t, c). split; [auto|]. cbn [fst]. apply negb_true_iff, Nat.eqb_neq. auto. }
      destruct (C46_same_operator_exact small n a Ha Hz) as (_ & _ & E). intros x y Hx Hy N. rewrite <- E; [apply C'; auto| |]; rewrite ?(proj1 (fop_shape _ _)), ?(proj2 (fop_shape _ _)); [rewrite <- Hx|rewrite <- Hy]; apply bval_lt.
  Qed.
End C76.

(** Concrete cases: hopping among three modes with one particle, spins, and a double excitation. *)
Definition c76_term : fop GQ := [([(2, true); (0, false)], gq 2 0); ([], gq 4 0)].
Example C76_case : match get_number_preserving_sparse_operator gq_zero c76_term 3 1 false None None with
  | Ok R => (Nat.eqb (nr R) 3 && gq_zero (ksub (ent R 0 0) (gq 4 0)) && gq_zero (ksub (ent R 2 0) (gq 2 0)) && gq_zero (ent R 0 2))%bool | Err _ => false end = true.
Proof. vm_compute. reflexivity. Qed.
Example C76_case_meets : (forall t c, In (t, c) c76_term -> keeps_number t) /\ on_qubits 3 c76_term.
Proof. split; [intros t c [E|[E|[]]]; inversion E; reflexivity|]. intros t c [E|[E|[]]] f Hf; inversion E; subst; [destruct Hf as [<-|[<-|[]]]; cbn; lia|destruct Hf]. Qed.
Example C76_basis_case : sector_basis 4 2 true None None = [[true; true; false; false]; [true; false; false; true]; [false; true; true; false]; [false; false; true; true]].
Proof. vm_compute. reflexivity. Qed.
Lemma is_error {X} (r : result X) e (f : exn -> bool) : (forall x, f x = true -> x = e) -> match r with Ok _ => false | Err x => f x end = true -> r = Err e.
Proof. destruct r as [x|x]; [discriminate|]. intros H E. f_equal. auto. Qed.
Example C76_error_case : get_number_preserving_sparse_operator gq_zero [([(1, true)], gq 4 0)] 3 1 false None None = Err ValueError.
Proof. apply (is_error _ _ (fun x => match x with ValueError => true | _ => false end)); [intros []; intros; congruence|]. vm_compute. reflexivity. Qed.
Example C76_not_conserving_case : ~ conserves_number 1 (fop_matrix 1 [([(0, true)], k1)] : mat GQ).
Proof. intros H. specialize (H [true] [false] eq_refl eq_refl ltac:(discriminate)). assert (B : gq_zero (ent (fop_matrix 1 [([(0, true)], k1)] : mat GQ) (bval [true]) (bval [false])) = false) by (vm_compute; reflexivity). rewrite H in B. vm_compute in B. discriminate B. Qed.
(** A number-conserving operator is an IndexError when it leads from a given starting state past all states of the level. *)
Definition c76_double : fop GQ := [([(1, true); (0, true); (3, false); (2, false)], gq 4 0)].
Theorem C76_level_refuted : (forall t c, In (t, c) c76_double -> keeps_number t) /\ on_qubits 4 c76_double /\
  get_number_preserving_sparse_operator gq_zero c76_double 4 2 false (Some [false; false; true; true]) (Some 1) = Err IndexError.
Proof.
  split; [intros t c [E|[]]; inversion E; reflexivity|]. split; [|apply (is_error _ _ (fun x => match x with IndexError => true | _ => false end)); [intros []; intros; congruence|]; vm_compute; reflexivity]. intros t c [E|[]] f Hf; inversion E; subst. destruct Hf as [<-|[<-|[<-|[<-|[]]]]]; cbn; lia.
Qed.

Print Assumptions C76_basis.
Print Assumptions C76_all.
Print Assumptions C76_matrix.
Print Assumptions C76_matrix_exact.
Print Assumptions C76_defined.
Print Assumptions C76_defined_from.
Print Assumptions C76_not_conserving.
Print Assumptions C76_level_refuted.
