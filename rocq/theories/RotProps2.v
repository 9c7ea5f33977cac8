(** C84: reordering modes, projections, and removing inactive orbitals; stated over RotModel.v, RotSpec.v and RotSpec2.v. *)
From Coq Require Import ZArith Ring Permutation.
From Verif Require Import ReindexProofs2.
From Verif Require Import Base BaseFacts MatModel MatFacts LiftSpec LiftProofs OpModel OpSpec PauliProofs FermiModel FermiSpec FermiProofs2 TensorModel TensorSpec DiagSpec DiagModel ConvModel MolModel RotModel RotSpec RotSpec2 RdmSpec
  MolProofs5 MolProofs6 MolProofs9 RotProofs RotProofs2 RotProps.
Open Scope list_scope.
Local Open Scope nat_scope.

Section C84.
  Context {K : cring}.
  Add Ring Kring_c84 : (kth K).
  Open Scope K_scope.
  Notation arr := (TensorModel.ndarray K).
  Lemma bigsum_one n p (f : nat -> K) : (p < n)%nat -> bigsum n (fun q => if Nat.eqb p q then f q else 0) = f p.
  Proof.
    intros H. rewrite (bigsum_single n p); [rewrite Nat.eqb_refl; reflexivity|exact H|]. intros q _ Hq. destruct (Nat.eqb_spec p q); congruence.
  Qed.
  Lemma so_one n l : Forall (fun p => (p < n)%nat) l -> forall f : list nat -> K, sum_over n (length l) (fun i => if list_eqb Nat.eqb l i then f i else 0) = f l.
  Proof.
    induction 1 as [|p l Hp F IH]; intros f; cbn [length sum_over list_eqb]; [reflexivity|].
    rewrite <- (bigsum_one n p (fun q => f (q :: l)) Hp). apply bigsum_ext. intros q _. destruct (Nat.eqb_spec p q); cbn [andb]; [apply (IH (fun i => f (q :: i)))|].
    etransitivity; [|apply (DiagProofs.sum_over_0 n (length l) (fun _ => 0)); intros; reflexivity]. apply so_ext. intros i _ _. reflexivity.
  Qed.
  Lemma renaming_factors n ordering k : forall old new, length old = length k -> length new = length k ->
    rotation_factors (K := K) (renaming n ordering) k old new = if list_eqb Nat.eqb (map (fun p => nth p ordering 0%nat) new) old then 1 else 0.
  Proof.
    induction k as [|d k IH]; intros [|p old] [|q new] Lo Ln; try discriminate; [reflexivity|]. cbn [rotation_factors map list_eqb]. injection Lo as Lo. injection Ln as Ln. rewrite IH by auto.
    unfold rotation_factor. cbn [renaming ent]. destruct (Nat.eqb (nth q ordering 0%nat) p), (list_eqb Nat.eqb (map (fun p => nth p ordering 0%nat) new) old), d; cbn [andb]; rewrite ?kconj_0, ?kconj_1; ring.
  Qed.
  Lemma new_operator (h : heap K) c x y n : shape0 x = n -> shape0 y = n -> exists p,
    (let h' := h ++ [x; y] in let! p := polynomial_tensor h' [([], Num c); ([true; false], Arr (length h)); ([true; true; false; false], Arr (S (length h)))] in Ok (h', p)) = Ok (h ++ [x; y], p) /\
    interaction_ok (h ++ [x; y]) p /\ n_qubits p = n /\ n_body_tensors p = [([], Num c); ([true; false], Arr (length h)); ([true; true; false; false], Arr (S (length h)))].
  Proof. intros Hx Hy. exact (interaction_ok_new (fun _ => false) h c x y n Hx Hy). Qed.
  Lemma reorder_ok h (a : ptensor K) ordering : interaction_ok h a -> (forall p, In p ordering -> (p < n_qubits a)%nat) ->
    exists h' a', reorder_fermionic_modes h a ordering = Ok (h', a') /\ interaction_ok h' a' /\ n_qubits a' = length ordering /\ preserved h h' /\
      forall k i, value h' a' k i = value h a k (map (fun p => nth p ordering 0%nat) i).
  Proof.
    intros Ha Ho. destruct (interaction_parts h a Ha) as (c & r1 & r2 & E & S1 & S2).
    assert (R : forall x : arr, shape0 x = n_qubits a -> reordered_array x ordering = Ok {| shape0 := length ordering; data := fun i => data x (map (fun p => nth p ordering 0%nat) i) |}).
    { intros x Sx. unfold reordered_array. rewrite Sx. destruct (forallb _ ordering) eqn:F; [reflexivity|]. exfalso. rewrite <- not_true_iff_false in F. apply F, forallb_forall. intros p Hp. apply Nat.ltb_lt, Ho, Hp. }
    pose (x := {| shape0 := length ordering; data := fun i => data (read h r1) (map (fun p => nth p ordering 0%nat) i) |} : arr). pose (y := {| shape0 := length ordering; data := fun i => data (read h r2) (map (fun p => nth p ordering 0%nat) i) |} : arr).
    destruct (new_operator h c x y (length ordering) eq_refl eq_refl) as (p & Ep & Op & Np & Bp). exists (h ++ [x; y]), p.
    split. { unfold reorder_fermionic_modes, array_at, constant. rewrite E. cbn [dget key_eqb list_eqb Bool.eqb andb rbind]. rewrite !R by auto. cbn [rbind]. exact Ep. }
    split; [exact Op|]. split; [exact Np|]. split; [apply preserved_app|]. intros k i. unfold value. rewrite Bp, E. cbn [dget]. destruct (read_app h x y) as [R1 R2].
    destruct (key_eqb k []); [reflexivity|]. destruct (key_eqb k [true; false]); [cbn [element]; rewrite R1; reflexivity|]. destruct (key_eqb k [true; true; false; false]); [cbn [element]; rewrite R2; reflexivity|reflexivity].
  Qed.
  Lemma entry_value h (a : ptensor K) L n i j : interaction_ok h a -> ent (replaced n L h a) i j =
    sum_over (n_qubits a) 0 (fun l => value h a [] l * ent (replaced_term n L (combine l [])) i j) +
    (sum_over (n_qubits a) 2 (fun l => value h a [true; false] l * ent (replaced_term n L (combine l [true; false])) i j) +
     sum_over (n_qubits a) 4 (fun l => value h a [true; true; false; false] l * ent (replaced_term n L (combine l [true; true; false; false])) i j)).
  Proof. intros Ha. destruct (interaction_parts h a Ha) as (c & r1 & r2 & E & _). cbn [replaced ent]. unfold value. rewrite E. cbn [fold_right fst snd length dget key_eqb list_eqb Bool.eqb andb]. ring. Qed.
  Lemma renamed_sum n ordering k (f : list nat -> K) i j : (i < 2 ^ length ordering)%nat -> (j < 2 ^ length ordering)%nat -> (forall p, In p ordering -> (p < n)%nat) ->
    sum_over (length ordering) (length k) (fun l => f (map (fun p => nth p ordering 0%nat) l) * ent (fterm_matrix (length ordering) (combine l k)) i j) =
    sum_over n (length k) (fun l => f l * ent (replaced_term (length ordering) (rotated_ladder (length ordering) (renaming n ordering)) (combine l k)) i j).
  Proof.
    intros Hi Hj Ho. set (m := length ordering) in *. symmetry.
    transitivity (sum_over n (length k) (fun old => sum_over m (length k) (fun new => if list_eqb Nat.eqb (map (fun p => nth p ordering 0%nat) new) old then f old * ent (fterm_matrix m (combine new k)) i j else 0))).
    - apply so_ext. intros old Lo _. rewrite replaced_expand by auto. rewrite so_mul_l. apply so_ext. intros new Ln _. rewrite renaming_factors by auto. destruct (list_eqb Nat.eqb _ old); ring.
    - rewrite so_swap. apply so_ext. intros new Ln Fn. replace (length k) with (length (map (fun p => nth p ordering 0%nat) new)) by (rewrite map_length; exact Ln).
      apply (so_one n (map (fun p => nth p ordering 0%nat) new)). apply Forall_forall. intros q Hq. apply in_map_iff in Hq as (p & <- & Hp). apply Ho, nth_In. rewrite Forall_forall in Fn. apply Fn, Hp.
  Qed.
  (** Reordering replaces the ladder operator of each mode by the one of its new position (the sum of them, if it has more than one; nothing, if it has none). *)
  Theorem C84_reorder h (a : ptensor K) ordering : interaction_ok h a -> (forall p, In p ordering -> (p < n_qubits a)%nat) ->
    exists h' a', reorder_fermionic_modes h a ordering = Ok (h', a') /\ interaction_ok h' a' /\ n_qubits a' = length ordering /\ preserved h h' /\
      meq (tensor_matrix h' a') (replaced (length ordering) (rotated_ladder (length ordering) (renaming (n_qubits a) ordering)) h a).
  Proof.
    intros Ha Ho. destruct (reorder_ok h a ordering Ha Ho) as (h' & a' & E & Ha' & N & P & V). exists h', a'. repeat (split; [assumption|]).
    split; [cbn [tensor_matrix replaced nr]; rewrite N; reflexivity|]. split; [cbn [tensor_matrix replaced nc]; rewrite N; reflexivity|]. intros i j Hi Hj. cbn [tensor_matrix nr nc] in Hi, Hj. rewrite N in Hi, Hj.
    rewrite entry_value by exact Ha. cbn [tensor_matrix ent]. rewrite N. change (tensor_entry h' a' (bits (length ordering) i) (bits (length ordering) j)) with (tensor_entry h' a' (bits (length ordering) i) (bits (length ordering) j)).
    unfold tensor_entry. destruct (interaction_parts h' a' Ha') as (c & r1 & r2 & E' & _). rewrite E'. cbn [fold_right fst snd]. rewrite N, !bval_bits_small by auto.
    pose proof (renamed_sum (n_qubits a) ordering [] (value h a []) i j Hi Hj Ho) as Q0. pose proof (renamed_sum (n_qubits a) ordering [true; false] (value h a [true; false]) i j Hi Hj Ho) as Q1.
    pose proof (renamed_sum (n_qubits a) ordering [true; true; false; false] (value h a [true; true; false; false]) i j Hi Hj Ho) as Q2. cbn [length] in Q0, Q1, Q2. rewrite <- Q0, <- Q1, <- Q2. clear Q0 Q1 Q2.
    transitivity (sum_over (length ordering) 0 (fun l => value h' a' [] l * ent (fterm_matrix (length ordering) (combine l [])) i j) + (sum_over (length ordering) 2 (fun l => value h' a' [true; false] l * ent (fterm_matrix (length ordering) (combine l [true; false])) i j) +
      sum_over (length ordering) 4 (fun l => value h' a' [true; true; false; false] l * ent (fterm_matrix (length ordering) (combine l [true; true; false; false])) i j))).
    - unfold value. rewrite E'. cbn [dget key_eqb list_eqb Bool.eqb andb length]. ring.
    - f_equal; [|f_equal]; apply so_ext; intros l _ _; rewrite V; reflexivity.
  Qed.
  Theorem C84_values h (a : ptensor K) ordering : interaction_ok h a -> (forall p, In p ordering -> (p < n_qubits a)%nat) ->
    exists h' a', reorder_fermionic_modes h a ordering = Ok (h', a') /\ forall k i, value h' a' k i = value h a k (map (fun p => nth p ordering 0%nat) i).
  Proof. intros Ha Ho. destruct (reorder_ok h a ordering Ha Ho) as (h' & a' & E & _ & _ & _ & V). exists h', a'. auto. Qed.
  Lemma renaming_unitary n ordering : Permutation ordering (seq 0 n) -> unitary (renaming (K := K) n ordering).
  Proof.
    intros Hp. assert (L : length ordering = n) by (rewrite (Permutation_length Hp); apply seq_length).
    assert (ND : NoDup ordering) by (apply (Permutation_NoDup (l := seq 0 n)); [apply Permutation_sym, Hp|apply seq_NoDup]).
    split; [cbn; congruence|]. split; (split; [cbn; congruence|]; split; [cbn; congruence|]); intros i j Hi Hj; cbn [mmul adjoint renaming nr nc ent eye] in *; unfold MatModel.delta.
    - transitivity (bigsum n (fun k => if Nat.eqb (nth i ordering 0%nat) k then (if Nat.eqb (nth j ordering 0%nat) k then 1 else 0) else (0 : K))).
      + apply bigsum_ext. intros k _. destruct (Nat.eqb (nth i ordering 0%nat) k), (Nat.eqb (nth j ordering 0%nat) k); rewrite ?kconj_0, ?kconj_1; ring.
      + rewrite (bigsum_one n _ (fun k => if Nat.eqb (nth j ordering 0%nat) k then 1 else 0)).
        * destruct (Nat.eqb_spec (nth j ordering 0%nat) (nth i ordering 0%nat)) as [E|E], (Nat.eqb_spec i j) as [E'|E']; try reflexivity; [|congruence]. exfalso. apply E'. apply (proj1 (NoDup_nth ordering 0%nat) ND); auto.
        * assert (X : In (nth i ordering 0%nat) (seq 0 n)) by (apply (Permutation_in _ Hp), nth_In; lia). apply in_seq in X. lia.
    - assert (X : In i ordering) by (apply (Permutation_in _ (Permutation_sym Hp)), in_seq; lia). destruct (In_nth ordering i 0%nat X) as (m & Hm & Em).
      transitivity (bigsum (length ordering) (fun k => if Nat.eqb m k then (if Nat.eqb i j then 1 else 0) else (0 : K))).
      + apply bigsum_ext. intros k Hk. destruct (Nat.eqb_spec m k) as [->|Nk].
        * rewrite Em, Nat.eqb_refl. destruct (Nat.eqb i j); rewrite ?kconj_0, ?kconj_1; ring.
        * destruct (Nat.eqb_spec (nth k ordering 0%nat) i) as [Q|Q]; [|ring]. exfalso. apply Nk. apply (proj1 (NoDup_nth ordering 0%nat) ND); auto. congruence.
      + apply (bigsum_one (length ordering) m (fun _ => if Nat.eqb i j then 1 else 0) Hm).
  Qed.
  (** Reordering with a permutation of the modes changes the operator only by a change of basis: the spectrum is the same. *)
  Theorem C84_permutation h (a : ptensor K) ordering : interaction_ok h a -> Permutation ordering (seq 0 (n_qubits a)) ->
    exists h' a', reorder_fermionic_modes h a ordering = Ok (h', a') /\ interaction_ok h' a' /\ n_qubits a' = n_qubits a /\ unitarily_equivalent (tensor_matrix h a) (tensor_matrix h' a').
  Proof.
    intros Ha Hp. assert (L : length ordering = n_qubits a) by (rewrite (Permutation_length Hp); apply seq_length).
    destruct (C84_reorder h a ordering Ha) as (h' & a' & E & Ha' & N & _ & M). { intros p H. apply (Permutation_in _ Hp), in_seq in H. lia. }
    exists h', a'. split; [exact E|]. split; [exact Ha'|]. split; [congruence|]. rewrite L in M. destruct (replaced_unitary h a (renaming (n_qubits a) ordering) eq_refl L (renaming_unitary _ _ Hp)) as (U & NU & HU & MU).
    exists U. split; [exact NU|]. split; [exact HU|]. etransitivity; [exact M|exact MU].
  Qed.
  (** A mode that does not exist raises IndexError. *)
  Theorem C84_reorder_error h (a : ptensor K) ordering p : interaction_ok h a -> In p ordering -> (n_qubits a <= p)%nat -> reorder_fermionic_modes h a ordering = Err IndexError.
  Proof.
    intros Ha Hp Hl. destruct (interaction_parts h a Ha) as (c & r1 & r2 & E & S1 & S2). unfold reorder_fermionic_modes, array_at. rewrite E. cbn [dget key_eqb list_eqb Bool.eqb andb rbind].
    unfold reordered_array at 1. rewrite S1. destruct (forallb _ ordering) eqn:F; [|reflexivity]. rewrite forallb_forall in F. specialize (F p Hp). apply Nat.ltb_lt in F. lia.
  Qed.

  (** ** Projections *)
  Lemma selected_keeps sel exact i : selected sel exact i = true <-> keeps sel exact i.
  Proof.
    destruct sel as [m|s]; cbn [selected keeps].
    - assert (U : forall l, NoDup l -> (forall p, In p l <-> In p i) -> length l = length (uniq Nat.eqb i)).
      { intros l Nl Hl. apply Permutation_length, NoDup_Permutation; [exact Nl|apply (uniq_NoDup Nat.eqb nat_eqb_spec)|]. intros p. rewrite (uniq_In Nat.eqb nat_eqb_spec). apply Hl. }
      assert (Q : NoDup (uniq Nat.eqb i) /\ forall p, In p (uniq Nat.eqb i) <-> In p i) by (split; [apply (uniq_NoDup Nat.eqb nat_eqb_spec)|intros p; apply (uniq_In Nat.eqb nat_eqb_spec)]).
      destruct exact.
      + rewrite Nat.eqb_eq. split; [intros H; exists (uniq Nat.eqb i); tauto|]. intros (l & L1 & L2 & L3). rewrite <- (U l L1 L2). exact L3.
      + rewrite Nat.leb_le. split; [intros H; exists (uniq Nat.eqb i); tauto|]. intros (l & L1 & L2 & L3). rewrite <- (U l L1 L2). exact L3.
    - rewrite andb_true_iff, forallb_forall. split.
      + intros [H1 H2]. split; [intros p Hp; apply (memb_In Nat.eqb nat_eqb_spec), H1, Hp|]. intros ->. rewrite forallb_forall in H2. intros p Hp. apply (memb_In Nat.eqb nat_eqb_spec), H2, Hp.
      + intros [H1 H2]. split; [intros p Hp; apply (memb_In Nat.eqb nat_eqb_spec), H1, Hp|]. destruct exact; [|reflexivity]. apply forallb_forall. intros p Hp. apply (memb_In Nat.eqb nat_eqb_spec), H2; auto.
  Qed.
  Lemma product_In dims m : forall i, In i (product dims m) <-> length i = m /\ forall p, In p i -> In p dims.
  Proof.
    induction m as [|m IH]; intros i.
    - cbn. split; [intros [<-|[]]; split; [reflexivity|intros p []]|]. intros [H _]. destruct i; [left; reflexivity|discriminate].
    - change (product dims (S m)) with (flat_map (fun p => map (cons p) (product dims m)) dims). rewrite in_flat_map. split.
      + intros (p & Hp & Hi). apply in_map_iff in Hi as (l & <- & Hl). apply IH in Hl as [L H]. split; [cbn; congruence|]. intros q [<-|Hq]; auto.
      + intros [L H]. destruct i as [|p i]; [discriminate|]. exists p. split; [apply H; left; reflexivity|]. apply in_map, IH. split; [injection L; auto|]. intros q Hq. apply H. right; exact Hq.
  Qed.
  Lemma copy_some (x : arr) (P : list nat -> bool) l : (forall i, In i l -> P i = true -> Forall (fun p => (p < shape0 x)%nat) i) -> forall y,
    exists z, foldM (fun y i => if P i then let! c := aget x i in Ok (assign y i c) else Ok y) l y = Ok z /\ shape0 z = shape0 y /\
      forall j, data z j = if memb (list_eqb Nat.eqb) j l && P j then data x j else data y j.
  Proof.
    induction l as [|i l IH]; intros H y; [exists y; repeat split|]. cbn [foldM].
    assert (H' : forall j, In j l -> P j = true -> Forall (fun p => (p < shape0 x)%nat) j) by (intros j Hj; apply H; right; exact Hj).
    destruct (P i) eqn:Pi.
    - rewrite aget_ok by (apply H; [left; reflexivity|exact Pi]). cbn [rbind]. destruct (IH H' (assign y i (data x i))) as (z & E & S & D). exists z. split; [exact E|]. split; [exact S|]. intros j. rewrite D, assign_at.
      unfold memb. cbn [existsb]. fold (memb (list_eqb Nat.eqb) j l). destruct (list_eqb Nat.eqb j i) eqn:Ej; cbn [orb].
      + apply (list_eqb_spec Nat.eqb nat_eqb_spec) in Ej. subst j. rewrite Pi. cbn [andb]. destruct (memb (list_eqb Nat.eqb) i l && true); reflexivity.
      + reflexivity.
    - destruct (IH H' y) as (z & E & S & D). exists z. split; [exact E|]. split; [exact S|]. intros j. rewrite D. unfold memb. cbn [existsb]. fold (memb (list_eqb Nat.eqb) j l).
      destruct (list_eqb Nat.eqb j i) eqn:Ej; cbn [orb]; [|reflexivity]. apply (list_eqb_spec Nat.eqb nat_eqb_spec) in Ej. subst j. rewrite Pi, !andb_false_r. reflexivity.
  Qed.
  Lemma projected_array_ok n sel exact k (x : arr) : shape0 x = n -> selection_within n sel ->
    exists y, projected_array n sel exact k x = Ok y /\ shape0 y = n /\ forall i, length i = length k -> Forall (fun p => (p < n)%nat) i -> data y i = if selected sel exact i then data x i else 0.
  Proof.
    intros Sx W. unfold projected_array. destruct (copy_some x (selected sel exact) (product (selection_dims n sel) (length k))) with (y := zeros_array (K := K) (shape0 x)) as (y & E & S & D).
    { intros i Hi _. apply product_In in Hi as [_ Hi]. apply Forall_forall. intros p Hp. specialize (Hi p Hp). destruct sel as [m|s]; cbn [selection_dims] in Hi; [apply in_seq in Hi; lia|]. rewrite Sx. apply W, (uniq_In Nat.eqb nat_eqb_spec), Hi. }
    exists y. split; [exact E|]. split; [rewrite S; exact Sx|]. intros i Li Fi. rewrite D. cbn [zeros_array data].
    destruct (selected sel exact i) eqn:P; [|rewrite andb_false_r; reflexivity]. rewrite andb_true_r.
    assert (M : memb (list_eqb Nat.eqb) i (product (selection_dims n sel) (length k)) = true); [|rewrite M; reflexivity].
    apply (memb_In (list_eqb Nat.eqb) (list_eqb_spec Nat.eqb nat_eqb_spec)), product_In. split; [exact Li|]. intros p Hp. rewrite Forall_forall in Fi. destruct sel as [m|s]; cbn [selection_dims]; [apply in_seq; specialize (Fi p Hp); lia|].
    apply (uniq_In Nat.eqb nat_eqb_spec). apply selected_keeps in P. apply P, Hp.
  Qed.
  (** The projection has the numbers of the terms that are kept, and zero elsewhere; the operator is not changed. *)
  Theorem C84_projected h (a : ptensor K) sel exact : interaction_ok h a -> selection_within (n_qubits a) sel ->
    exists h' a', projected h a sel exact = Ok (h', a') /\ interaction_ok h' a' /\ n_qubits a' = n_qubits a /\ preserved h h' /\
      forall k i, addresses (n_qubits a) k i -> (keeps sel exact i -> value h' a' k i = value h a k i) /\ (~ keeps sel exact i -> value h' a' k i = 0).
  Proof.
    intros Ha W. destruct (interaction_parts h a Ha) as (c & r1 & r2 & E & S1 & S2). assert (R2 : (r2 < length h)%nat).
    { destruct Ha as [(_ & _ & _ & T) _]. rewrite E in T. apply (T [true; true; false; false] (Arr r2)). cbn. auto. }
    destruct (projected_array_ok (n_qubits a) sel exact [true; false] (read h r1) S1 W) as (x & Ex & Sx & Dx).
    destruct (projected_array_ok (n_qubits a) sel exact [true; true; false; false] (read h r2) S2 W) as (y & Ey & Sy & Dy).
    set (c' := if exact && truthy sel then 0 else c). destruct (new_operator h c' x y (n_qubits a) Sx Sy) as (p & Ep & Op & Np & Bp). exists (h ++ [x; y]), p. split.
    { unfold projected, projected_n_body_tensors. rewrite E. cbn [foldM fst snd rbind app]. rewrite Ex. cbn [rbind foldM fst snd app]. rewrite rd_app by exact R2. rewrite Ey. cbn [rbind fst snd app mapM dget key_eqb list_eqb Bool.eqb andb].
      rewrite <- app_assoc. cbn [app]. rewrite app_length. cbn [length]. replace (length h + 1)%nat with (S (length h)) by lia.
      replace (if exact && truthy sel then Num 0 else Num c) with (Num c') by (unfold c'; destruct (exact && truthy sel); reflexivity). exact Ep. }
    split; [exact Op|]. split; [exact Np|]. split; [apply preserved_app|]. destruct (read_app h x y) as [Rx Ry]. intros k i [Li Fi].
    assert (V : value (h ++ [x; y]) p k i = if selected sel exact i then value h a k i else 0).
    { unfold value. rewrite Bp, E. cbn [dget]. destruct (key_eqb k []) eqn:K0.
      - apply (list_eqb_spec Bool.eqb bool_eqb_spec) in K0. subst k. destruct i; [|discriminate]. cbn [element]. unfold c'. destruct sel as [[|m]|[|p0 s]], exact; cbn; reflexivity.
      - destruct (key_eqb k [true; false]) eqn:K1; [apply (list_eqb_spec Bool.eqb bool_eqb_spec) in K1; subst k; cbn [element]; rewrite Rx; apply Dx; auto|].
        destruct (key_eqb k [true; true; false; false]) eqn:K2; [apply (list_eqb_spec Bool.eqb bool_eqb_spec) in K2; subst k; cbn [element]; rewrite Ry; apply Dy; auto|]. destruct (selected sel exact i); reflexivity. }
    rewrite V. destruct (selected sel exact i) eqn:Sl; (split; [intros Hk; try reflexivity|intros Hk; try reflexivity]).
    - exfalso. apply Hk, selected_keeps, Sl.
    - apply selected_keeps in Hk. congruence.
  Qed.
  (** The zero operator. *)
  Theorem C84_zero (h : heap K) n : exists h' a, zero_operator h n = Ok (h', a) /\ interaction_ok h' a /\ n_qubits a = n /\ preserved h h' /\ forall x y, tensor_entry h' a x y = 0.
  Proof.
    destruct (new_operator h 0 (zeros_array n) (zeros_array n) n eq_refl eq_refl) as (p & Ep & Op & Np & Bp). exists (h ++ [zeros_array n; zeros_array n]), p. split; [exact Ep|]. split; [exact Op|]. split; [exact Np|]. split; [apply preserved_app|].
    intros x y. unfold tensor_entry. rewrite Bp. cbn [fold_right fst snd element]. destruct (read_app h (zeros_array n) (zeros_array n)) as [R1 R2]. rewrite R1, R2. cbn [zeros_array data].
    assert (Z : forall m k, sum_over (n_qubits p) m (fun i => 0 * ent (fterm_matrix (n_qubits p) (combine i k)) (bval x) (bval y)) = (0 : K)).
    { intros m k. apply (DiagProofs.sum_over_0 (n_qubits p) m). intros i _ _. ring. }
    rewrite !Z. ring.
  Qed.
End C84.

From Verif Require Import GaussQ MolProps MolProps2 RdmProps3 JWInterProps.
Example C84_hypotheses : interaction_ok c79_heap c79_op /\ Permutation [1; 0] (seq 0 (n_qubits c79_op)) /\ selection_within (n_qubits c79_op) (Modes [0]).
Proof. split; [apply C79_hypotheses|]. split; [apply perm_swap|]. intros p [<-|[]]. cbn. lia. Qed.
Example C84_reorder_case : match reorder_fermionic_modes c79_heap c79_op [1; 0] with
  | Ok (h, a) => gq_eqb (value h a [true; false] [0; 0]) (gq 8 0) && gq_eqb (value h a [true; false] [1; 1]) (gq 4 0) && gq_eqb (value h a [] []) (gq 4 0) | Err _ => false end = true.
Proof. vm_compute. reflexivity. Qed.
(** the terms of at most one mode, of exactly one mode, of mode 0 only *)
Example C84_projected_case : keeps (Count 1) true [1; 1] /\ ~ keeps (Count 1) true [] /\ ~ keeps (Modes [0]) false [1; 1] /\
  match projected c79_heap c79_op (Count 1) true, projected c79_heap c79_op (Modes [0]) false with
  | Ok (h, a), Ok (h', a') => gq_zero (value h a [] []) && gq_eqb (value h a [true; false] [1; 1]) (gq 8 0) && gq_eqb (value h' a' [] []) (gq 4 0) && gq_eqb (value h' a' [true; false] [0; 0]) (gq 4 0) && gq_zero (value h' a' [true; false] [1; 1])
  | _, _ => false end = true.
Proof.
  split; [|split; [|split; [|vm_compute; reflexivity]]].
  - exists [1]. split; [repeat constructor; intros []|]. split; [|reflexivity]. intros p. cbn. tauto.
  - intros (l & _ & H & L). destruct l as [|p l]; [discriminate|]. apply (H p). left; reflexivity.
  - intros [H _]. destruct (H 1 (or_introl eq_refl)) as [X|[]]. discriminate.
Qed.
(** An ordering that leaves out a mode is accepted: the terms of that mode are gone. *)
Theorem C84_short_ordering_refuted : exists (h : heap GQ) a h' a', interaction_ok h a /\ reorder_fermionic_modes h a [0] = Ok (h', a') /\ n_qubits a = 2 /\ n_qubits a' = 1.
Proof.
  destruct (C84_reorder c79_heap c79_op [0]) as (h' & a' & E & _ & N & _); [apply C79_hypotheses|intros p [<-|[]]; cbn; lia|]. exists c79_heap, c79_op, h', a'. split; [apply C79_hypotheses|]. auto.
Qed.

Print Assumptions C84_reorder.
Print Assumptions C84_values.
Print Assumptions C84_permutation.
Print Assumptions C84_reorder_error.
Print Assumptions C84_projected.
Print Assumptions C84_zero.
Print Assumptions C84_short_ordering_refuted.
