(** C93: random operators have the symmetries they are documented to have, whatever the generator draws. *)
From Coq Require Import ZArith Ring Lia.
From Verif Require Import Base BaseFacts MatModel MatFacts OpModel OpSpec TensorModel TensorSpec TensorProofs TensorProps ConvModel MolModel DiagSpec JWInterSpec HermTensorProps GateMatProps
  RandOpModel RandOpSpec RandOpProofs.
Open Scope list_scope.
Local Open Scope nat_scope.

Section Tensors.
  Context {K : cring} {G : Type}.
  Add Ring Kring_rop : (kth K).
  Open Scope K_scope.
  Context (seeded : Z -> G) (randn : G -> G * K) (im : K).
  Local Notation random := (random_interaction_operator seeded randn im).
  Local Notation random_term := (random_interaction_operator_term seeded randn im).
  Definition only_real : Prop := forall g, kconj (snd (randn g)) = snd (randn g).
  Definition expanded (n : nat) (two : TensorModel.ndarray K) := fold_left (expand_step two) (indices n 4) (zeros_array (2 * n)).

  Lemma random_run n real seed g h : only_real -> exists g' c one two, kconj c = c /\ shape0 one = n /\ shape0 two = n /\
    (forall p q, data one [q; p] = kconj (data one [p; q])) /\ (real = true -> forall p q, kconj (data one [p; q]) = data one [p; q]) /\ two_ok real two /\
    forall expand, random n expand real seed g h = (g', Ok (if expand then made h c (kron_eye2 one) (expanded n two) else made h c one two)).
  Proof.
    intros R. unfold random_interaction_operator. pose proof (R (reseed seeded seed g)) as Rc. destruct (randn (reseed seeded seed g)) as [g1 c]. cbn [snd] in Rc.
    destruct (hermitian_matrix seeded randn im R n real None g1) as (O1 & O2 & O3). destruct (random_hermitian_matrix seeded randn im n real None g1) as [g2 one]. cbn [snd] in *.
    destruct (two_body_ok randn im R real n g2) as [T1 T2]. destruct (fold_left (two_body_draw randn im real) (indices n 4) (g2, zeros_array n)) as [g3 two]. cbn [snd] in *.
    exists g3, c, one, two. repeat (split; [assumption|]). intros []; rewrite interaction_made; reflexivity.
  Qed.
  Lemma expanded_at n (two : TensorModel.ndarray K) p q r s : Forall (fun x => x < 2 * n)%nat [p; q; r; s] ->
    data (expanded n two) [p; q; r; s] = if same_spins p q r s then data two [orbital p; orbital q; orbital r; orbital s] else 0.
  Proof.
    intros F. unfold expanded. rewrite expand_loop. replace (memb leq _ (indices n 4)) with true; [reflexivity|]. symmetry. apply (memb_In leq leq_iff). apply in_indices. split; [reflexivity|].
    repeat match goal with H : Forall _ (_ :: _) |- _ => inversion H; clear H; subst end. repeat constructor; apply orbital_lt; assumption.
  Qed.
  Lemma expanded_outside n (two : TensorModel.ndarray K) p q r s : ~ Forall (fun x => x < 2 * n)%nat [p; q; r; s] -> data (expanded n two) [p; q; r; s] = 0.
  Proof.
    intros F. unfold expanded. rewrite expand_loop. replace (memb leq _ (indices n 4)) with false; [reflexivity|]. symmetry. apply not_true_iff_false. intros M. apply (memb_In leq leq_iff) in M.
    apply in_indices in M as [_ M]. apply F. repeat match goal with H : Forall _ (_ :: _) |- _ => inversion H; clear H; subst end.
    assert (L : forall x, (orbital x < n)%nat -> (x < 2 * n)%nat) by (intros x Hx; destruct (spin_cases x); lia). repeat constructor; apply L; assumption.
  Qed.
  Lemma expanded_sym n (two : TensorModel.ndarray K) : sym4 two -> sym4 (expanded n two).
  Proof.
    intros H a b c d. assert (D : {Forall (fun x => x < 2 * n)%nat [a; b; c; d]} + {~ Forall (fun x => x < 2 * n)%nat [a; b; c; d]}) by (apply Forall_dec; intros x; apply lt_dec).
    assert (P1 : forall w x y z, Forall (fun x => x < 2 * n)%nat [w; x; y; z] -> Forall (fun x => x < 2 * n)%nat [x; w; z; y])
      by (intros w x y z F; repeat match goal with H : Forall _ (_ :: _) |- _ => inversion H; clear H; subst end; repeat constructor; assumption).
    assert (P2 : forall w x y z, Forall (fun x => x < 2 * n)%nat [w; x; y; z] -> Forall (fun x => x < 2 * n)%nat [z; y; x; w])
      by (intros w x y z F; repeat match goal with H : Forall _ (_ :: _) |- _ => inversion H; clear H; subst end; repeat constructor; assumption).
    destruct (H (orbital a) (orbital b) (orbital c) (orbital d)) as [H1 H2]. destruct D as [F|F].
    - rewrite !expanded_at by auto. rewrite H1, H2. unfold same_spins. rewrite (Nat.eqb_sym (spin d) (spin a)), (Nat.eqb_sym (spin c) (spin b)), (andb_comm (Nat.eqb (spin b) (spin c))).
      destruct (Nat.eqb (spin a) (spin d) && Nat.eqb (spin b) (spin c))%bool; split; try reflexivity. symmetry. apply kconj_0.
    - rewrite !expanded_outside; [split; [reflexivity|symmetry; apply kconj_0]|..]; first [exact F|intros N; apply F, P2, N|intros N; apply F, P1, N].
  Qed.
  Lemma made_exchange h c (one two : TensorModel.ndarray K) : sym4 two -> particles_exchange (fst (made h c one two)) (snd (made h c one two)).
  Proof. intros H p q r s _. pose proof (made_value h c one two) as V. destruct (made h c one two) as [h' a]. cbn [fst snd]. destruct V as (_ & _ & V). rewrite !V. apply H. Qed.

  (** The operator exists and is well formed, in new arrays; it is Hermitian and symmetric under the exchange of the two particles; drawn real, its coefficients are
      real, and before the expansion also symmetric under exchanging p and r. *)
  Theorem C93_random_interaction n expand real seed g h : only_real -> exists g' h' a, random n expand real seed g h = (g', Ok (h', a)) /\
    n_qubits a = (if expand then 2 * n else n)%nat /\ preserved h h' /\ interaction_ok h' a /\ hermitian_coefficients h' a /\ hermitian_tensor h' a /\ particles_exchange h' a /\
    (real = true -> forall k i, In k (dkeys (n_body_tensors a)) -> addresses (n_qubits a) k i -> kconj (value h' a k i) = value h' a k i) /\
    (real = true -> expand = false -> real_orbitals h' a).
  Proof.
    intros R. destruct (random_run n real seed g h R) as (g' & c & one & two & Hc & S1 & S2 & H1 & R1 & [T4 T8] & E). specialize (E expand).
    set (one' := if expand then kron_eye2 one else one). set (two' := if expand then expanded n two else two).
    assert (Em : random n expand real seed g h = (g', Ok (made h c one' two'))) by (unfold one', two'; destruct expand; exact E). clear E.
    assert (S1' : shape0 one' = if expand then (2 * n)%nat else n) by (unfold one'; destruct expand; [cbn; lia|exact S1]).
    assert (S2' : shape0 two' = shape0 one') by (rewrite S1'; unfold two'; destruct expand; [unfold expanded; rewrite expand_shape; reflexivity|exact S2]).
    assert (H1' : forall p q, data one' [q; p] = kconj (data one' [p; q])).
    { intros p q. unfold one'. destruct expand; [|apply H1]. cbn [data kron_eye2]. rewrite H1, kconj_mul, (Nat.eqb_sym (q mod 2)). destruct (Nat.eqb (p mod 2) (q mod 2)); [rewrite kconj_1|rewrite kconj_0]; reflexivity. }
    assert (H2' : sym4 two') by (unfold two'; destruct expand; [apply expanded_sym|]; exact T4).
    pose proof (made_ok h c one' two' S2') as Ok1. pose proof (made_hermitian h c one' two' Hc H1' H2') as Hh. pose proof (made_exchange h c one' two' H2') as He. pose proof (made_value h c one' two') as V.
    assert (Pr : preserved h (fst (made h c one' two'))) by (intros r Hr; unfold read, made; cbn [fst]; apply app_nth1; exact Hr).
    assert (Nq : n_qubits (snd (made h c one' two')) = shape0 one') by reflexivity.
    assert (Rr : real = true -> forall k i, In k (dkeys (n_body_tensors (snd (made h c one' two')))) -> addresses (n_qubits (snd (made h c one' two'))) k i ->
      kconj (value (fst (made h c one' two')) (snd (made h c one' two')) k i) = value (fst (made h c one' two')) (snd (made h c one' two')) k i).
    { intros Hr k i Hk [Li Fi]. destruct (made h c one' two') as [h' a] eqn:E0. cbn [fst snd] in *. destruct V as (V0 & V1 & V2). destruct (T8 Hr) as [_ Ar].
      assert (Ek : dkeys (n_body_tensors a) = [[]; one_body; two_body]) by (unfold made in E0; inversion E0; reflexivity). rewrite Ek in Hk. destruct Hk as [<-|[<-|[<-|[]]]].
      - rewrite !V0. exact Hc.
      - rewrite !V1. destruct i as [|p [|q [|? ?]]]; try discriminate. unfold one'. destruct expand; [|apply R1; exact Hr]. cbn [data kron_eye2]. rewrite kconj_mul, (R1 Hr).
        destruct (Nat.eqb (p mod 2) (q mod 2)); [rewrite kconj_1|rewrite kconj_0]; reflexivity.
      - rewrite !V2. destruct i as [|p [|q [|r [|s [|? ?]]]]]; try discriminate. unfold two'. destruct expand; [|apply Ar]. rewrite Nq, S1' in Fi. rewrite expanded_at by exact Fi.
        destruct (same_spins p q r s); [apply Ar|apply kconj_0]. }
    exists g', (fst (made h c one' two')), (snd (made h c one' two')). rewrite Em.
    split; [destruct (made h c one' two'); reflexivity|]. split; [rewrite Nq; exact S1'|]. split; [exact Pr|]. split; [exact Ok1|]. split; [exact Hh|].
    split; [apply C73_hermitian_coefficients; assumption|]. split; [exact He|]. split; [exact Rr|]. intros Hr Hx. split; [apply Rr; exact Hr|]. intros p q r s _.
    destruct (made h c one' two') as [h' a]. cbn [fst snd]. destruct V as (_ & _ & V). rewrite !V. unfold two'. rewrite Hx. apply (T8 Hr).
  Qed.
  (** Expanding the spins of the same draws. *)
  Theorem C93_spin_expansion n real seed g h : only_real -> exists g' h1 a h2 b, random n false real seed g h = (g', Ok (h1, a)) /\ random n true real seed g h = (g', Ok (h2, b)) /\
    spin_expanded h1 a h2 b.
  Proof.
    intros R. destruct (random_run n real seed g h R) as (g' & c & one & two & Hc & S1 & S2 & H1 & R1 & _ & E).
    exists g', (fst (made h c one two)), (snd (made h c one two)), (fst (made h c (kron_eye2 one) (expanded n two))), (snd (made h c (kron_eye2 one) (expanded n two))).
    split; [rewrite E; destruct (made h c one two); reflexivity|]. split; [rewrite E; destruct (made h c (kron_eye2 one) (expanded n two)); reflexivity|].
    pose proof (made_value h c one two) as V. pose proof (made_value h c (kron_eye2 one) (expanded n two)) as W.
    assert (N1 : n_qubits (snd (made h c one two)) = n) by exact S1. assert (N2 : n_qubits (snd (made h c (kron_eye2 one) (expanded n two))) = (2 * n)%nat) by (cbn; rewrite S1; reflexivity).
    destruct (made h c one two) as [h1 a]. destruct (made h c (kron_eye2 one) (expanded n two)) as [h2 b]. cbn [fst snd] in *. destruct V as (V0 & V1 & V2). destruct W as (W0 & W1 & W2).
    split; [congruence|]. split; [rewrite V0, W0; reflexivity|]. split.
    - intros p q _ _. rewrite W1, V1. cbn [data kron_eye2]. rewrite !half_spec. unfold spin. destruct (Nat.eqb (p mod 2) (q mod 2)); ring.
    - intros p q r s F. rewrite N2 in F. rewrite W2, V2. apply expanded_at. exact F.
  Qed.
  (** A seed decides the operator, whatever was drawn before. *)
  Lemma random_same_seed n expand real s g1 g2 h : random n expand real (Some s) g1 h = random n expand real (Some s) g2 h.
  Proof. reflexivity. Qed.

  (** Random matrices. *)
  Theorem C93_random_matrices n real seed g : only_real ->
    let a := snd (random_hermitian_matrix seeded randn im n real seed g) in let b := snd (random_antisymmetric_matrix seeded randn im n real seed g) in
    shape0 a = n /\ shape0 b = n /\ (forall p q, data a [q; p] = kconj (data a [p; q]) /\ data b [q; p] = - data b [p; q]) /\
    (real = true -> forall p q, kconj (data a [p; q]) = data a [p; q] /\ kconj (data b [p; q]) = data b [p; q]).
  Proof.
    intros R. destruct (hermitian_matrix seeded randn im R n real seed g) as (A1 & A2 & A3). destruct (antisymmetric_matrix seeded randn im R n real seed g) as (B1 & B2 & B3).
    cbv zeta. repeat split; auto.
  Qed.

  (** *** Terms of a given number of orbitals *)
  Lemma clear_at order l (x : TensorModel.ndarray K) i : data (fold_left (clear_step order) l x) i = if (memb leq i l && negb (Nat.eqb (different i) order))%bool then 0 else data x i.
  Proof.
    revert x. induction l as [|j l IH]; intros x; cbn [fold_left]; [reflexivity|]. rewrite IH. unfold memb. cbn [existsb]. unfold clear_step. rewrite distinct_different.
    destruct (leq i j) eqn:E.
    - apply leq_iff in E. subst j. destruct (Nat.eqb (different i) order); cbn [negb orb]; rewrite ?andb_false_r, ?andb_true_r; [reflexivity|].
      destruct (existsb (leq i) l); [reflexivity|]. rewrite assign_data. rewrite (proj2 (leq_iff i i) eq_refl). reflexivity.
    - cbn [orb]. destruct (Nat.eqb (different j) order); cbn [negb]; [reflexivity|]. rewrite assign_data, E. reflexivity.
  Qed.
  Lemma clear_shape order l : forall x : TensorModel.ndarray K, shape0 (fold_left (clear_step order) l x) = shape0 x.
  Proof. induction l as [|i l IH]; intros x; cbn [fold_left]; [reflexivity|]. rewrite IH. unfold clear_step. destruct (negb _); reflexivity. Qed.
  Lemma write_one (h : heap K) one two x : TensorModel.write (h ++ [one; two]) (length h) x = h ++ [x; two].
  Proof. induction h as [|y h IH]; cbn; [reflexivity|rewrite IH; reflexivity]. Qed.
  Lemma write_two (h : heap K) one two x : TensorModel.write (h ++ [one; two]) (S (length h)) x = h ++ [one; x].
  Proof. induction h as [|y h IH]; [reflexivity|]. cbn [app length]. cbn [TensorModel.write]. f_equal. exact IH. Qed.
  Definition cleared (order rank : nat) (x : TensorModel.ndarray K) := fold_left (clear_step order) (indices order rank) x.
  Lemma term_run order real seed g h : only_real -> exists g' c one two, kconj c = c /\ shape0 one = order /\ shape0 two = order /\
    (forall p q, data one [q; p] = kconj (data one [p; q])) /\ (real = true -> forall p q, kconj (data one [p; q]) = data one [p; q]) /\ two_ok real two /\
    random order false real seed g h = (g', Ok (made h c one two)) /\
    random_term order real seed g h = (if Nat.ltb 4 order then g else g', Ok (if Nat.ltb 4 order then made h 0 (zeros_array order) (zeros_array order) else made h 0 (cleared order 2 one) (cleared order 4 two))).
  Proof.
    intros R. destruct (random_run order real seed g h R) as (g' & c & one & two & Hc & S1 & S2 & H1 & R1 & T & E). exists g', c, one, two. repeat (split; [assumption|]). specialize (E false). split; [exact E|].
    unfold random_interaction_operator_term. destruct (Nat.ltb 4 order); [rewrite interaction_made; reflexivity|]. rewrite E. unfold made at 1. cbn [rbind]. f_equal.
    unfold clear. cbn -[TensorModel.write read indices app]. rewrite read_one, write_one, read_two, write_two. unfold made, cleared. rewrite clear_shape. reflexivity.
  Qed.
  (** The operator has [order] orbitals, no constant, and only coefficients with that number of different indices: those of the random operator of the same draws. *)
  Theorem C93_random_term order real seed g h : only_real -> exists g' h' a, random_term order real seed g h = (g', Ok (h', a)) /\ n_qubits a = order /\ preserved h h' /\ interaction_ok h' a /\
    hermitian_tensor h' a /\ particles_exchange h' a /\ (real = true -> real_orbitals h' a) /\ value h' a [] [] = 0 /\
    (forall k i, addresses order k i -> different i <> order -> value h' a k i = 0) /\
    exists g1 h1 b, random order false real seed g h = (g1, Ok (h1, b)) /\
      forall k i, In k [one_body; two_body] -> addresses order k i -> different i = order -> value h' a k i = value h1 b k i.
  Proof.
    intros R. destruct (term_run order real seed g h R) as (g' & c & one & two & Hc & S1 & S2 & H1 & R1 & [T4 T8] & Er & Et).
    set (one' := if Nat.ltb 4 order then zeros_array order else cleared order 2 one). set (two' := if Nat.ltb 4 order then zeros_array order else cleared order 4 two).
    assert (Em : random_term order real seed g h = (if Nat.ltb 4 order then g else g', Ok (made h 0 one' two'))) by (rewrite Et; unfold one', two'; destruct (Nat.ltb 4 order); reflexivity). clear Et.
    assert (S1' : shape0 one' = order) by (unfold one', cleared; destruct (Nat.ltb 4 order); [reflexivity|rewrite clear_shape; exact S1]).
    assert (S2' : shape0 two' = order) by (unfold two', cleared; destruct (Nat.ltb 4 order); [reflexivity|rewrite clear_shape; exact S2]).
    (* what the arrays hold *)
    assert (Db : forall i, (length i <= 4)%nat -> Nat.ltb 4 order = true -> different i <> order).
    { intros i Li Ho Hd. apply Nat.ltb_lt in Ho. assert (L : (different i <= length i)%nat) by (unfold different; apply NoDup_incl_length; [apply NoDup_nodup|intros x Hx; apply nodup_In in Hx; exact Hx]). lia. }
    assert (D1 : forall i, length i = 2%nat -> Forall (fun p => p < order)%nat i -> data one' i = if Nat.eqb (different i) order then data one i else 0).
    { intros i Li Fi. unfold one'. destruct (Nat.ltb 4 order) eqn:Ho; [rewrite (proj2 (Nat.eqb_neq _ _)); [reflexivity|apply Db; [lia|exact eq_refl]]|].
      unfold cleared. rewrite clear_at. replace (memb leq i (indices order 2)) with true by (symmetry; apply (memb_In leq leq_iff), in_indices; split; assumption). cbn [andb]. destruct (Nat.eqb (different i) order); reflexivity. }
    assert (D2 : forall i, length i = 4%nat -> Forall (fun p => p < order)%nat i -> data two' i = if Nat.eqb (different i) order then data two i else 0).
    { intros i Li Fi. unfold two'. destruct (Nat.ltb 4 order) eqn:Ho; [rewrite (proj2 (Nat.eqb_neq _ _)); [reflexivity|apply Db; [lia|exact eq_refl]]|].
      unfold cleared. rewrite clear_at. replace (memb leq i (indices order 4)) with true by (symmetry; apply (memb_In leq leq_iff), in_indices; split; assumption). cbn [andb]. destruct (Nat.eqb (different i) order); reflexivity. }
    pose proof (made_ok h 0 one' two' (eq_trans S2' (eq_sym S1'))) as Ok1. pose proof (made_value h 0 one' two') as V. pose proof (made_value h c one two) as W.
    assert (Nq : n_qubits (snd (made h 0 one' two')) = order) by exact S1'.
    assert (Pr : preserved h (fst (made h 0 one' two'))) by (intros r Hr; unfold read, made; cbn [fst]; apply app_nth1; exact Hr).
    destruct (made h 0 one' two') as [h' a] eqn:Ea. destruct (made h c one two) as [h1 b]. cbn [fst snd] in *. destruct V as (V0 & V1 & V2). destruct W as (W0 & W1 & W2).
    assert (Ek : dkeys (n_body_tensors a) = [[]; one_body; two_body]) by (unfold made in Ea; inversion Ea; reflexivity).
    assert (Hh : hermitian_coefficients h' a).
    { intros k i Hk [Li Fi]. rewrite Ek in Hk. rewrite Nq in Fi. destruct Hk as [<-|[<-|[<-|[]]]].
      - rewrite !V0. apply kconj_0.
      - rewrite !V1. rewrite (D1 (rev i)) by first [rewrite rev_length; exact Li|apply Forall_rev; exact Fi]. rewrite D1 by assumption. rewrite (different_ext (rev i) i) by (intros x; split; intros Hx; [rewrite in_rev|rewrite <- in_rev]; exact Hx).
        destruct i as [|p [|q [|? ?]]]; try discriminate. cbn [rev app]. rewrite (H1 p q). destruct (Nat.eqb _ order); [reflexivity|apply kconj_0].
      - rewrite !V2. rewrite (D2 (rev i)) by first [rewrite rev_length; exact Li|apply Forall_rev; exact Fi]. rewrite D2 by assumption. rewrite (different_ext (rev i) i) by (intros x; split; intros Hx; [rewrite in_rev|rewrite <- in_rev]; exact Hx).
        destruct i as [|p [|q [|r [|s [|? ?]]]]]; try discriminate. cbn [rev app]. rewrite (proj2 (T4 p q r s)). destruct (Nat.eqb _ order); [reflexivity|apply kconj_0]. }
    assert (Sw : forall w x y z w' x' y' z', (forall u, In u [w'; x'; y'; z'] <-> In u [w; x; y; z]) -> Forall (fun p => p < order)%nat [w; x; y; z] -> data two [w'; x'; y'; z'] = data two [w; x; y; z] ->
      value h' a two_body [w'; x'; y'; z'] = value h' a two_body [w; x; y; z]).
    { intros w x y z w' x' y' z' Hs F E. rewrite !V2, !D2 by first [reflexivity|exact F|apply Forall_forall; intros u Hu; apply Hs in Hu; rewrite Forall_forall in F; apply F; exact Hu].
      rewrite (different_ext [w'; x'; y'; z'] [w; x; y; z] Hs), E. reflexivity. }
    exists (if Nat.ltb 4 order then g else g'), h', a. split; [exact Em|]. split; [exact Nq|]. split; [exact Pr|]. split; [exact Ok1|]. split; [apply C73_hermitian_coefficients; assumption|].
    split; [intros p q r s F; rewrite Nq in F; apply Sw; [intros u; cbn; tauto|exact F|apply T4]|]. split.
    { intros Hr. destruct (T8 Hr) as [E8 Ar]. split.
      - intros k i Hk [Li Fi]. rewrite Ek in Hk. rewrite Nq in Fi. destruct Hk as [<-|[<-|[<-|[]]]].
        + rewrite !V0. apply kconj_0.
        + rewrite !V1, D1 by assumption. destruct i as [|p [|q [|? ?]]]; try discriminate. destruct (Nat.eqb _ order); [apply R1; exact Hr|apply kconj_0].
        + rewrite !V2, D2 by assumption. destruct (Nat.eqb _ order); [apply Ar|apply kconj_0].
      - intros p q r s F. rewrite Nq in F. apply Sw; [intros u; cbn; tauto|exact F|apply E8]. }
    split; [apply V0|]. split.
    { intros k i [Li Fi] Hd. destruct (dget key_eqb k (n_body_tensors a)) eqn:Dk; [|unfold value; rewrite Dk; reflexivity].
      assert (Ik : In k (dkeys (n_body_tensors a))) by (apply (BaseFacts.dget_In _ key_eqb_spec) in Dk; apply (in_map fst) in Dk; exact Dk).
      rewrite Ek in Ik. destruct Ik as [<-|[<-|[<-|[]]]]; [apply V0|rewrite V1, D1 by assumption|rewrite V2, D2 by assumption]; rewrite (proj2 (Nat.eqb_neq _ _) Hd); reflexivity. }
    exists g', h1, b. split; [exact Er|]. intros k i [<-|[<-|[]]] [Li Fi] Hd; [rewrite V1, W1, D1 by assumption|rewrite V2, W2, D2 by assumption]; rewrite Hd, Nat.eqb_refl; reflexivity.
  Qed.
End Tensors.

(** ** Examples: a generator that counts, over the integers and over the Gaussian rationals *)
Definition count_z (g : nat) : nat * ZR := (S g, Z.of_nat g).
Definition count_gq (g : nat) : nat * GaussQ.GQ := (S g, GaussQ.gq (Z.of_nat (4 * g)) 0).
Example C93_only_real_z : only_real count_z.
Proof. intros g. reflexivity. Qed.
Lemma gq_real x : kconj (GaussQ.gq x 0) = GaussQ.gq x 0.
Proof. unfold GaussQ.gq. cbn. apply f_equal. apply Qcanon.Qc_is_canon. vm_compute. reflexivity. Qed.
Example C93_only_real_gq : only_real count_gq.
Proof. intros g. apply gq_real. Qed.
Definition value_in {K : cring} {G} (r : G * result (heap K * ptensor K)) (k : key) (i : list nat) : K := match snd r with Ok (h, a) => value h a k i | Err _ => k0 end.
(** Three orbitals, complex: an element with three different indices has an imaginary part, and so does its conjugate. *)
Example C93_complex : let v := value_in (random_interaction_operator (fun _ => 0) count_gq GaussQ.qi 3 false false (Some 5%Z) 7 []) two_body in
  GaussQ.gq_zero (ksub (kconj (v [0; 1; 2; 0])) (v [0; 1; 2; 0])) = false /\ GaussQ.gq_zero (ksub (v [0; 2; 1; 0]) (kconj (v [0; 1; 2; 0]))) = true.
Proof. split; vm_compute; reflexivity. Qed.
(** Expanding the spins keeps neither symmetry that real orbitals have: not the exchange of p and r, which the function builds, nor that of p and s. *)
Theorem C93_expanded_eight_fold_refuted : exists (g' : nat) h' a, random_interaction_operator (fun _ => 0) count_z (0%Z : ZR) 2 true true None 1 [] = (g', Ok (h', a)) /\
  (exists p q r s, Forall (fun x => x < n_qubits a) [p; q; r; s] /\ value h' a two_body [r; q; p; s] <> value h' a two_body [p; q; r; s]) /\
  exists p q r s, Forall (fun x => x < n_qubits a) [p; q; r; s] /\ value h' a two_body [s; q; r; p] <> value h' a two_body [p; q; r; s].
Proof.
  destruct (C93_random_interaction (fun _ => 0) count_z (0%Z : ZR) 2 true true None 1 [] C93_only_real_z) as (g' & h' & a & E & Nq & _). exists g', h', a. split; [exact E|]. rewrite Nq.
  assert (V : forall i, value h' a two_body i = value_in (random_interaction_operator (fun _ => 0) count_z (0%Z : ZR) 2 true true None 1 []) two_body i) by (intros i; unfold value_in; rewrite E; reflexivity).
  split.
  - exists 0, 1, 1, 0. split; [repeat constructor|]. rewrite !V. vm_compute. discriminate.
  - exists 0, 0, 2, 2. split; [repeat constructor|]. rewrite !V. vm_compute. discriminate.
Qed.
(** Two orbitals: only the coefficients of two different orbitals remain. *)
Example C93_two_orbitals : let v := value_in (random_interaction_operator_term (fun _ => 0) count_z (0%Z : ZR) 2 true None 1 []) in
  v one_body [0; 1] = v one_body [1; 0] /\ v one_body [0; 1] <> 0%Z /\ v one_body [0; 0] = 0%Z /\ v two_body [0; 0; 0; 0] = 0%Z /\ v two_body [0; 1; 1; 0] <> 0%Z /\ v [] [] = 0%Z.
Proof. vm_compute. repeat split; discriminate. Qed.
Print Assumptions C93_random_interaction.
Print Assumptions C93_spin_expansion.
Print Assumptions C93_random_term.
