(** C84, continued: removing the orbitals that are not active; stated over RotModel.v, RotSpec2.v and FreezeSpec.v. *)
From Coq Require Import ZArith Ring Permutation.
From Verif Require Import ReindexModel ReindexProofs2.
From Verif Require Import Base BaseFacts MatModel MatFacts LiftSpec LiftProofs OpModel OpSpec OpProofs PauliProofs FermiModel FermiSpec FermiProofs FermiProofs2 FermiProofs3 FermiProofs6 FermiProofs7 RdmProofs2
  FreezeSpec FreezeProofs2 FreezeProps TensorModel TensorSpec DiagSpec DiagModel ConvModel ConvSpec ConvProofs ConvProps ActsProps MolModel RotModel RotSpec RotSpec2 MolProofs9.
Open Scope list_scope.
Local Open Scope nat_scope.

Section Balance.
  Context {K : cring} (same : nat -> nat -> bool) (small nonzero : K -> bool).
  Add Ring Kring_c84b : (kth K).
  Open Scope K_scope.
  Definition bz (b : bool) : Z := if b then 1%Z else 0%Z.
  Lemma frozen_zero item l : forall i nt occ no ns, let '(_, _, c', _, _, _) := fold_left (freeze_step (K := K) same item) l (i, nt, 0, occ, no, ns) in c' = 0.
  Proof.
    induction l as [|op l IH]; intros i nt occ no ns; [reflexivity|]. cbn [fold_left]. unfold freeze_step at 2. destruct (same (fst op) (fst item)); [|apply IH].
    destruct (Bool.eqb occ (snd op)); apply IH.
  Qed.
  Lemma frozen_charge item l : forall i nt c occ no ns, let '(_, nt', c', occ', _, _) := fold_left (freeze_step (K := K) same item) l (i, nt, c, occ, no, ns) in
    (c' = 0 \/ (charge l = charge nt' - charge nt - (bz occ' - bz occ))%Z) /\ (length nt' <= length l + length nt)%nat.
  Proof.
    induction l as [|op l IH]; intros i nt c occ no ns; [cbn [fold_left]; split; [right; cbn; lia|cbn; lia]|]. cbn [fold_left]. unfold freeze_step at 2.
    destruct (same (fst op) (fst item)).
    - destruct (Bool.eqb occ (snd op)) eqn:B.
      + pose proof (frozen_zero item l (S i) nt (negb occ) (S no) (ns + (Z.of_nat i - Z.of_nat (S no)))%Z) as Z0. pose proof (IH (S i) nt 0 (negb occ) (S no) (ns + (Z.of_nat i - Z.of_nat (S no)))%Z) as I.
        destruct (fold_left _ l _) as [[[[[i' nt'] c'] occ'] no'] ns']. destruct I as [_ I]. split; [left; exact Z0|cbn [length]; lia].
      + pose proof (IH (S i) nt c (negb occ) (S no) (ns + (Z.of_nat i - Z.of_nat (S no)))%Z) as I. destruct (fold_left _ l _) as [[[[[i' nt'] c'] occ'] no'] ns']. destruct I as [I L]. split; [|cbn [length]; lia].
        destruct I as [I|I]; [left; exact I|right]. unfold charge in *. cbn [fold_right]. rewrite I. destruct occ, (snd op); try discriminate B; cbn [bz negb]; lia.
    - pose proof (IH (S i) (op :: nt) c occ no ns) as I. destruct (fold_left _ l _) as [[[[[i' nt'] c'] occ'] no'] ns']. cbn [length] in I. destruct I as [I L]. split; [|cbn [length]; lia].
      destruct I as [I|I]; [left; exact I|right]. unfold charge in *. cbn [fold_right] in *. rewrite I. lia.
  Qed.
  Lemma charge_even t : charge t = 0%Z -> Nat.Even (length t).
  Proof.
    intros H. rewrite charge_counts in H. pose proof (sides t) as S. exists (length (creators t)). lia.
  Qed.
  Lemma balanced_short t : charge t = 0%Z -> (length t <= 4)%nat -> balanced t.
  Proof. intros H L. destruct (charge_even t H) as [m Hm]. split; [|exact H]. cbn. lia. Qed.
  Lemma freeze_one_balanced (Hz : nonzero 0 = false) (a : fop K) item : (forall t c, In (t, c) a -> balanced t) -> forall t c, In (t, c) (freeze_one same small nonzero a item) -> balanced t.
  Proof.
    intros Ha. assert (G : good Bool.eqb small balanced (freeze_one same small nonzero a item)); [|intros t c Hin; apply (good_In _ bool_eqb_spec _ _ _ G t c Hin)].
    unfold freeze_one. generalize (good_nil (K := K) Bool.eqb small balanced). generalize ([] : fop K). revert Ha. induction a as [|[t c] a IH]; intros Ha tmp Gt; [exact Gt|]. cbn [fold_left fst snd].
    apply IH; [intros u d Hu; apply (Ha u d); right; exact Hu|]. pose proof (frozen_charge item (rev t) 0 [] c (snd item) 0 0%Z) as C.
    destruct (fold_left _ (rev t) _) as [[[[[i' nt'] c'] occ'] no'] ns'] eqn:E. clear E. destruct C as [C L].
    destruct (nonzero _ && Bool.eqb occ' (snd item)) eqn:N; [|exact Gt]. apply andb_prop in N as [N1 N2]. apply eqb_prop in N2. subst occ'.
    destruct (Ha t c (or_introl eq_refl)) as [B1 B2].
    apply (FreezeProofs2.add_one small balanced); [exact Gt|]. destruct C as [->|C].
    - exfalso. replace (if Z.odd ns' then 0 * - (1) else 0 : K) with (0 : K) in N1 by (destruct (Z.odd ns'); ring). congruence.
    - assert (Q : charge (rev t) = 0%Z) by (rewrite <- (charge_perm t (rev t) (Permutation_rev t)); exact B2). rewrite rev_length in L. cbn [length] in L. apply balanced_short; [change (charge []) with 0%Z in C; lia|]. cbn [In] in B1. lia.
  Qed.
  Lemma pattern_balanced t u : map snd t = map snd u -> balanced u -> balanced t.
  Proof.
    intros E [B1 B2]. assert (L : length u = length t) by (rewrite <- (map_length snd t), E, map_length; reflexivity). split; [unfold term, factor in *; rewrite <- L; exact B1|].
    rewrite <- B2. clear B1 B2 L. revert u E. induction t as [|f t IH]; intros [|g u] E; try discriminate; [reflexivity|]. injection E as E1 E2. unfold charge in *. cbn [fold_right]. rewrite (IH u E2), E1. reflexivity.
  Qed.
  Lemma prune_balanced (a : fop K) : (forall t c, In (t, c) a -> balanced t) -> forall t c, In (t, c) (prune_unused_indices Bool.eqb a) -> balanced t.
  Proof.
    intros Ha. unfold prune_unused_indices. set (im := dict_of _ _). clearbody im.
    assert (G : forall (l o : fop K), (forall t c, In (t, c) l -> balanced t) -> (forall t, In t (dkeys o) -> balanced t) -> forall t, In t (dkeys (fold_left (fun o (tc : term bool * K) =>
      dset (term_eqb Bool.eqb) (map (fun f : factor bool => (match dget Nat.eqb (fst f) im with Some i => i | None => O end, snd f)) (fst tc)) (snd tc) o) l o)) -> balanced t).
    { induction l as [|[t c] l IH]; intros o Hl Ho; [exact Ho|]. cbn [fold_left fst snd]. apply IH; [intros u d Hu; apply (Hl u d); right; exact Hu|].
      intros u Hu. apply (In_dkeys_dset (term_eqb Bool.eqb) (term_eqb_spec Bool.eqb bool_eqb_spec)) in Hu. destruct Hu as [->|Hu]; [|apply Ho, Hu]. apply (pattern_balanced _ t); [rewrite map_map; reflexivity|]. apply (Hl t c). left; reflexivity. }
    intros t c Hin. apply (G a []); [exact Ha|intros u []|]. apply (in_map fst _ _ Hin).
  Qed.
  Lemma freeze_balanced (Hz : nonzero 0 = false) (a : fop K) occupied unoccupied : (forall t c, In (t, c) a -> balanced t) -> forall t c, In (t, c) (freeze_orbitals same small nonzero a occupied unoccupied) -> balanced t.
  Proof.
    intros Ha. unfold freeze_orbitals. apply prune_balanced. intros t c Hin. apply in_map_iff in Hin as ([u d] & E & Hin). injection E as <- _. revert Hin.
    match goal with |- In _ (fold_left _ ?l _) -> _ => generalize l end. intros l. revert u d. revert a Ha. induction l as [|it l IH]; intros a Ha u d Hin; [apply (Ha u d Hin)|]. cbn [fold_left] in Hin. apply (IH _ (freeze_one_balanced Hz a it Ha) u d Hin).
  Qed.
  Lemma interaction_balanced t : interaction_term t -> balanced t.
  Proof. intros [E|[E|E]]; [apply (pattern_balanced t [])|apply (pattern_balanced t [(0, true); (0, false)]%nat)|apply (pattern_balanced t [(0, true); (0, true); (0, false); (0, false)]%nat)]; try exact E; split; cbn; auto. Qed.
  Lemma normal_interaction (a : fop K) : (forall t c, In (t, c) a -> balanced t) -> forall t c, In (t, c) (normal_ordered small a) -> interaction_term t.
  Proof.
    intros Ha t c Hin. destruct (normal_ordered_ok small balanced balanced_perm balanced_del a Ha) as (G & _). apply (good_In _ bool_eqb_spec _ _ _ G) in Hin as [[S [B1 B2]] _]. apply sorted_normal in S.
    destruct (normal_short t S) as [->|[(p & q & ->)|(p & q & r & s & ->)]]; [cbn [In] in B1; lia| |left; reflexivity|right; left; reflexivity|right; right; reflexivity].
    rewrite charge_counts in B2. lia.
  Qed.
  Lemma interaction_keys h (a : fop K) n h' p : get_interaction_operator small h a n = Ok (h', p) -> dkeys (n_body_tensors p) = [[]; [true; false]; [true; true; false; false]].
  Proof.
    unfold get_interaction_operator. intros H. destruct (n_qubits_argument a n) as [m|]; [|discriminate]. cbn [rbind] in H. destruct (foldM _ _ _) as [[c [o w]]|]; [|discriminate]. cbn [rbind] in H.
    unfold polynomial_tensor in H. cbn [rbind] in H. injection H as <- <-. reflexivity.
  Qed.
End Balance.

Section C84.
  Context {K : cring} (same : nat -> nat -> bool) (small isz nonzero : K -> bool).
  Add Ring Kring_c84c : (kth K).
  Open Scope K_scope.
  Context (Hnz : forall c : K, nonzero c = false <-> c = 0) (Hz : forall c : K, isz c = true -> c = 0) (H0 : small 0 = true).
  (** The modes that stay lie between the core orbitals and the virtual ones. *)
  Definition between (n : nat) (n_active : option nat) (n_core : nat) (q : nat) : Prop :=
    (2 * n_core <= q < n)%nat /\ match n_active with Some m => (q < 2 * n_core + 2 * m)%nat | None => True end.
  Lemma count_modes (b : fop K) m : (forall i, uses b i <-> (i < m)%nat) -> fermion_count_qubits b = m.
  Proof.
    intros U. apply Nat.le_antisymm.
    - apply (count_least small isz Hz H0). intros t c Hin f Hf. apply U. exists t, c, f. auto.
    - destruct (Nat.le_gt_cases m (fermion_count_qubits b)) as [H|H]; [exact H|]. exfalso. destruct (proj2 (U (fermion_count_qubits b)) H) as (t & c & f & Hin & Hf & E). pose proof (count_on small isz Hz H0 b t c Hin f Hf). lia.
  Qed.
  (** What is left acts on some of the active modes, in order: its entry between two occupations of them is that of the operator between the states in which, besides, the core
      is occupied and all other modes are empty.  What differs is the part of an operator with small coefficients, and another of the terms dropped by normal ordering. *)
  Theorem C84_active_result h (a : ptensor K) n_active n_core : interaction_ok h a -> (forall p q, (p < n_qubits a)%nat -> same p q = Nat.eqb p q) ->
    exists h' a' modes (r s r' : fop K), remove_inactive_orbitals same small isz nonzero h a n_active n_core = Ok (h', a') /\ interaction_ok h' a' /\ preserved h h' /\ n_qubits a' = length modes /\
      kept (n_qubits a) (seq 0 (2 * n_core)) modes /\ (forall q, In q modes -> between (n_qubits a) n_active n_core q) /\ all_small small r /\ all_small small s /\ all_small small r' /\
      forall u v x y, completes (n_qubits a) (seq 0 (2 * n_core)) modes u x -> completes (n_qubits a) (seq 0 (2 * n_core)) modes v y ->
        tensor_entry h' a' u v + ent (fop_matrix (length modes) r') (bval u) (bval v) + (ent (fop_matrix (n_qubits a) r) (bval x) (bval y) + ent (fop_matrix (n_qubits a) s) (bval x) (bval y)) = tensor_entry h a x y.
  Proof.
    intros Ha Hs. set (n := n_qubits a) in *. destruct (get_fermion_operator_spec small isz h a Hz H0 (proj1 (proj1 Ha))) as (o & Eo & Wo & Io & _).
    destruct (C53_operator_of_tensor_acts small isz Hz H0 h a (proj1 Ha)) as (o' & r & Eo' & Sr & _ & _ & Vo). rewrite Eo in Eo'. injection Eo' as <-. fold n in Vo, Io.
    set (un := match n_active with Some m => seq (2 * n_core + 2 * m) (n - (2 * n_core + 2 * m)) | None => [] end).
    assert (Oo : on_qubits n o). { intros t c Hin f Hf. destruct (Io t c Hin) as (X & _). unfold within in X. rewrite Forall_forall in X. apply X, Hf. }
    assert (Dj : forall q, In q (seq 0 (2 * n_core)) -> ~ In q (list_of (Some un))).
    { intros q Hq Hq'. apply in_seq in Hq. cbn [list_of] in Hq'. unfold un in Hq'. destruct n_active as [m|]; [apply in_seq in Hq'; lia|destruct Hq']. }
    destruct (C68_result same small nonzero n (fun c => proj1 (Hnz c)) o (seq 0 (2 * n_core)) (Some un) Wo Oo (seq_NoDup _ _) Dj) as (modes & s & [Km1 Km2] & Um & Ss & _ & _ & Vs).
    { intros q i Hq _. apply Hs. destruct Hq as (t & c & f & Hin & Hf & <-). apply (Oo t c Hin f Hf). }
    set (b := freeze_orbitals same small nonzero o (seq 0 (2 * n_core)) (Some un)) in *.
    pose proof (count_modes b (length modes) Um) as Cb.
    assert (Bo : forall t c, In (t, c) o -> balanced t). { intros t c Hin. destruct (Io t c Hin) as (_ & X & _). apply interaction_balanced. unfold has_key in X. rewrite (proj2 Ha) in X. destruct X as [X|[X|[X|[]]]]; unfold interaction_term; rewrite <- X; auto. }
    destruct (C53_interaction_of_operator_acts small H0 h b None (count_on small isz Hz H0 b)) as (h' & a' & r' & Ea & Ta & Na & Pa & Sr' & _ & Va).
    { exact (normal_interaction small nonzero b (freeze_balanced same small nonzero (proj2 (Hnz 0) eq_refl) o _ _ Bo)). }
    cbn [size_used] in Na, Va. rewrite Cb in Na, Va. exists h', a', modes, r, s, r'. split.
    { unfold remove_inactive_orbitals. rewrite Eo. cbn [rbind]. destruct (interaction_parts h a Ha) as (c & r1 & r2 & E & S1 & _). fold n in S1.
      replace (match n_active with Some m => _ | None => Ok [] end) with (Ok un); [exact Ea|]. unfold un. destruct n_active as [m|]; [|reflexivity]. unfold array_at. rewrite E. cbn [dget key_eqb list_eqb Bool.eqb andb rbind]. rewrite S1. reflexivity. }
    split; [split; [exact Ta|apply (interaction_keys small h b None h' a' Ea)]|]. split; [exact Pa|]. split; [exact Na|]. split.
    { split; [exact Km1|]. intros q Hq. destruct (Km2 q Hq) as [X Y]. split; [exact X|]. intros Z. apply Y, in_or_app. left; exact Z. }
    split. { intros q Hq. destruct (Km2 q Hq) as [X Y]. split; [split; [|exact X]|].
      - destruct (Nat.le_gt_cases (2 * n_core) q) as [G|G]; [exact G|]. exfalso. apply Y, in_or_app. left. apply in_seq. lia.
      - destruct n_active as [m|]; [|exact I]. destruct (Nat.lt_ge_cases q (2 * n_core + 2 * m)) as [G|G]; [exact G|]. exfalso. apply Y, in_or_app. right. cbn [list_of]. unfold un. apply in_seq. lia. }
    repeat (split; [assumption|]). intros u v x y Cu Cv. rewrite <- (Vo x y), <- (Vs u v x y Cu Cv), <- (Va u v); [ring| |]; [apply Cu|apply Cv].
  Qed.
  (** With exact arithmetic the entries are equal. *)
  Theorem C84_active h (a : ptensor K) n_active n_core : interaction_ok h a -> (forall p q, (p < n_qubits a)%nat -> same p q = Nat.eqb p q) -> only_zero small ->
    exists h' a' modes, remove_inactive_orbitals same small isz nonzero h a n_active n_core = Ok (h', a') /\ interaction_ok h' a' /\ preserved h h' /\ n_qubits a' = length modes /\
      kept (n_qubits a) (seq 0 (2 * n_core)) modes /\ (forall q, In q modes -> between (n_qubits a) n_active n_core q) /\
      forall u v x y, completes (n_qubits a) (seq 0 (2 * n_core)) modes u x -> completes (n_qubits a) (seq 0 (2 * n_core)) modes v y -> tensor_entry h' a' u v = tensor_entry h a x y.
  Proof.
    intros Ha Hs Hx. destruct (C84_active_result h a n_active n_core Ha Hs) as (h' & a' & modes & r & s & r' & E & I & P & N & Hk & Hb & R1 & R2 & R3 & V).
    exists h', a', modes. repeat (split; [assumption|]). intros u v x y Cu Cv. rewrite <- (V u v x y Cu Cv), !fop_ent. rewrite (lval_small small _ r R1 Hx), (lval_small small _ s R2 Hx), (lval_small small _ r' R3 Hx). ring.
  Qed.
  Lemma increasing_full (l : list nat) lo len : (forall i j, (i < j)%nat -> (j < length l)%nat -> (nth i l 0 < nth j l 0)%nat) -> (forall q, In q l -> (lo <= q < lo + len)%nat) -> length l = len -> l = seq lo len.
  Proof.
    intros Hi Hr Hl. assert (G : forall i, (i < length l)%nat -> (lo + i <= nth i l 0)%nat).
    { induction i as [|i IH]; intros H; [specialize (Hr (nth 0 l 0%nat) (nth_In l 0%nat H)); lia|]. assert (IH' := IH (Nat.lt_succ_l _ _ H)). specialize (Hi i (S i) (Nat.lt_succ_diag_r i) H). lia. }
    assert (G' : forall k, (k < length l)%nat -> (nth (length l - 1 - k) l 0 <= lo + len - 1 - k)%nat).
    { induction k as [|k IH]; intros H; [assert (X : (length l - 1 - 0 < length l)%nat) by lia; specialize (Hr _ (nth_In l 0%nat X)); lia|]. specialize (IH ltac:(lia)).
      specialize (Hi (length l - 1 - S k)%nat (length l - 1 - k)%nat ltac:(lia) ltac:(lia)). lia. }
    apply (nth_ext l (seq lo len) 0%nat 0%nat); [rewrite seq_length; exact Hl|]. intros i H. rewrite seq_nth by lia. specialize (G i H). specialize (G' (length l - 1 - i)%nat ltac:(lia)). replace (length l - 1 - (length l - 1 - i))%nat with i in G' by lia. lia.
  Qed.
  Lemma completes_core n n_core m u : length u = (2 * m)%nat -> (2 * n_core + 2 * m <= n)%nat ->
    completes n (seq 0 (2 * n_core)) (seq (2 * n_core) (2 * m)) u (repeat true (2 * n_core) ++ u ++ repeat false (n - (2 * n_core + 2 * m))).
  Proof.
    intros L H. split; [rewrite seq_length; exact L|]. split; [rewrite !app_length, !repeat_length; lia|]. split; [|split].
    - intros q Hq. apply in_seq in Hq. rewrite app_nth1 by (rewrite repeat_length; lia). rewrite (nth_indep _ false true) by (rewrite repeat_length; lia). apply nth_repeat.
    - intros i Hi. rewrite seq_length in Hi. rewrite seq_nth by exact Hi. rewrite app_nth2 by (rewrite repeat_length; lia). rewrite repeat_length, app_nth1 by lia. f_equal. lia.
    - intros q H1 H2. assert (Hq : (2 * n_core + 2 * m <= q)%nat). { destruct (Nat.lt_ge_cases q (2 * n_core)) as [G|G]; [exfalso; apply H1, in_seq; lia|]. destruct (Nat.lt_ge_cases q (2 * n_core + 2 * m)) as [G'|G']; [exfalso; apply H2, in_seq; lia|exact G']. }
      rewrite app_nth2 by (rewrite repeat_length; lia). rewrite repeat_length, app_nth2 by lia. apply nth_repeat.
  Qed.
  (** If the result has two modes for each active orbital, these are the active modes: the entries are those between the states with the core occupied and the virtual orbitals empty. *)
  Theorem C84_active_space h (a : ptensor K) m n_core h' a' : interaction_ok h a -> (forall p q, (p < n_qubits a)%nat -> same p q = Nat.eqb p q) -> only_zero small -> (2 * n_core + 2 * m <= n_qubits a)%nat ->
    remove_inactive_orbitals same small isz nonzero h a (Some m) n_core = Ok (h', a') -> n_qubits a' = (2 * m)%nat ->
    forall u v, length u = (2 * m)%nat -> length v = (2 * m)%nat ->
      let state u := repeat true (2 * n_core) ++ u ++ repeat false (n_qubits a - (2 * n_core + 2 * m)) in tensor_entry h' a' u v = tensor_entry h a (state u) (state v).
  Proof.
    intros Ha Hs Hx Hn E N u v Lu Lv. cbn zeta. destruct (C84_active h a (Some m) n_core Ha Hs Hx) as (h2 & a2 & modes & E2 & _ & _ & N2 & Hk & Hb & V). rewrite E in E2. injection E2 as <- <-.
    assert (M : modes = seq (2 * n_core) (2 * m)). { apply increasing_full; [apply Hk| |lia]. intros q Hq. specialize (Hb q Hq). cbn in Hb. unfold between in Hb. lia. }
    subst modes. apply V; apply completes_core; assumption.
  Qed.
End C84.

(** Two orbitals, that is four modes; the first is the core: n_0 + 2 n_2 + 5 n_3 + 3 n_0 n_2 becomes 1 + 5 n_0 + 5 n_1. *)
From Verif Require Import GaussQ MolProps MolProps2 RdmProps3 JWInterProps.
Definition c84_one : TensorModel.ndarray GQ := {| shape0 := 4; data := fun i => match i with [0; 0] => gq 4 0 | [2; 2] => gq 8 0 | [3; 3] => gq 20 0 | _ => gq 0 0 end |}.
Definition c84_less : TensorModel.ndarray GQ := {| shape0 := 4; data := fun i => match i with [0; 0] => gq 4 0 | [3; 3] => gq 20 0 | _ => gq 0 0 end |}.
Definition c84_two : TensorModel.ndarray GQ := {| shape0 := 4; data := fun i => match i with [0; 2; 2; 0] => gq 12 0 | _ => gq 0 0 end |}.
Definition c84_op : ptensor GQ := {| n_qubits := 4; n_body_tensors := [([], Num (gq 0 0)); ([true; false], Arr 0); ([true; true; false; false], Arr 1)] |}.
Definition gq_nonzero (c : GQ) : bool := negb (gq_zero c).
Lemma c84_ok x y : shape0 x = 4 -> shape0 y = 4 -> interaction_ok [x; y] c84_op.
Proof.
  intros Hx Hy. split; [|reflexivity]. split; [repeat constructor; cbn; intuition discriminate|]. split; [intros k k' r H H'; cbn [c84_op n_body_tensors In] in H, H'; destruct H as [H|[H|[H|[]]]], H' as [H'|[H'|[H'|[]]]]; inversion H; inversion H'; subst; auto; lia|].
  split; [exists [true; false], 0; right; left; reflexivity|]. intros k e [E|[E|[E|[]]]]; inversion E; subst; [reflexivity| |]; (split; [discriminate|]; split; [cbn; lia|assumption]).
Qed.
Lemma gq_nonzero_spec c : gq_nonzero c = false <-> c = k0.
Proof. unfold gq_nonzero. rewrite negb_false_iff. split; [apply gq_zero_spec|intros ->; reflexivity]. Qed.
Example C84_active_hypotheses : interaction_ok [c84_one; c84_two] c84_op /\ (forall c, gq_nonzero c = false <-> c = k0) /\ (forall c, gq_zero c = true -> c = k0) /\ gq_zero k0 = true /\ only_zero gq_zero /\
  (forall p q, p < n_qubits c84_op -> Nat.eqb p q = Nat.eqb p q).
Proof. split; [apply c84_ok; reflexivity|]. split; [exact gq_nonzero_spec|]. split; [exact gq_zero_spec|]. split; [reflexivity|]. split; [exact gq_zero_spec|reflexivity]. Qed.
Definition c84_result x y := remove_inactive_orbitals Nat.eqb gq_zero gq_zero gq_nonzero [x; y] c84_op (Some 1) 1.
Example C84_active_case : match c84_result c84_one c84_two with
  | Ok (h, a) => Nat.eqb (n_qubits a) 2 && gq_eqb (value h a [] []) (gq 4 0) && gq_eqb (value h a [true; false] [0; 0]) (gq 20 0) && gq_eqb (value h a [true; false] [1; 1]) (gq 20 0) && gq_zero (value h a [true; true; false; false] [0; 1; 1; 0])
  | Err _ => false end = true.
Proof. vm_compute. reflexivity. Qed.
(** An active mode that no term uses is removed as well, and the modes after it are renumbered: the result does not act on the active modes. *)
Theorem C84_unused_refuted : exists (h : heap GQ) a h' a', interaction_ok h a /\ remove_inactive_orbitals Nat.eqb gq_zero gq_zero gq_nonzero h a (Some 1) 1 = Ok (h', a') /\ n_qubits a' = 1 /\
  value h' a' [true; false] [0; 0] = value h a [true; false] [3; 3] /\ value h' a' [true; false] [0; 0] <> value h a [true; false] [2; 2].
Proof.
  assert (Ha : interaction_ok [c84_less; zeros_array 4] c84_op) by (apply c84_ok; reflexivity). exists [c84_less; zeros_array 4], c84_op.
  destruct (C84_active Nat.eqb gq_zero gq_zero gq_nonzero gq_nonzero_spec gq_zero_spec eq_refl [c84_less; zeros_array 4] c84_op (Some 1) 1 Ha (fun _ _ _ => eq_refl) gq_zero_spec) as (h' & a' & modes & E & _).
  exists h', a'. split; [exact Ha|]. split; [exact E|].
  assert (Q : match c84_result c84_less (zeros_array 4) with
    | Ok (h', a') => Nat.eqb (n_qubits a') 1 && gq_eqb (value h' a' [true; false] [0; 0]) (value [c84_less; zeros_array 4] c84_op [true; false] [3; 3])
        && negb (gq_eqb (value h' a' [true; false] [0; 0]) (value [c84_less; zeros_array 4] c84_op [true; false] [2; 2]))
    | Err _ => false end = true) by (vm_compute; reflexivity).
  unfold c84_result in Q. rewrite E in Q. apply andb_prop in Q as [Q Q3]. apply andb_prop in Q as [Q1 Q2]. split; [apply Nat.eqb_eq, Q1|]. split; [apply gq_eqb_eq, Q2|]. intros X. rewrite X, gq_eqb_refl in Q3. discriminate.
Qed.

Print Assumptions C84_active_result.
Print Assumptions C84_active.
Print Assumptions C84_active_space.
Print Assumptions C84_unused_refuted.
