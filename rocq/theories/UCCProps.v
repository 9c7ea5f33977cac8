(** Theorems for C77 (generators of unitary coupled cluster), stated over UCCModel.v, FermiSpec.v, UCCSpec.v and SectorOpSpec.v. *)
From Coq Require Import Ring.
From Verif Require Import Base BaseFacts MatModel MatFacts LiftSpec LiftProofs OpModel OpSpec OpProofs OpProofs2 ConjProofs FermiModel FermiSpec FermiProofs FermiProofs2 FermiProofs3 FermiProofs6 FermiProofs7
  SectorSpec SectorProofs2 SectorOpSpec JWInterModel UCCModel UCCSpec UCCProofs2 UCCProofs3 UCCProofs4 UCCProofs5 UCCProofs6 GaussZ.
Open Scope list_scope.
Local Open Scope nat_scope.

Section S.
  Context {K : cring} (small nonzero : K -> bool).
  Add Ring Kring_uccp : (kth K).
  Open Scope K_scope.
  Notation F n g := (fop_matrix (K := K) n g).
  (** the indices of lists of amplitudes are modes of the register *)
  Definition modes2 (n : nat) (l : list (nat * nat * K)) : Prop := forall a, In a l -> (fst (fst a) < n)%nat /\ (snd (fst a) < n)%nat.
  Definition modes4 (n : nat) (l : list (nat * nat * (nat * nat) * K)) : Prop :=
    forall a, In a l -> (fst (fst (fst a)) < n)%nat /\ (snd (fst (fst a)) < n)%nat /\ (fst (snd (fst a)) < n)%nat /\ (snd (snd (fst a)) < n)%nat.
  (** the entries of arrays, as lists *)
  Definition entries2 (a : array2 K) : list (nat * nat * K) :=
    flat_map (fun i => map (fun j => ((i, j), at2 a i j)) (seq 0 (snd (dim2 a)))) (seq 0 (fst (dim2 a))).
  Definition entries4 (a : array4 K) : list (nat * nat * (nat * nat) * K) :=
    flat_map (fun i => flat_map (fun j => flat_map (fun k => map (fun l => (((i, j), (k, l)), at4 a i j k l)) (seq 0 (snd (snd (dim4 a))))) (seq 0 (fst (snd (dim4 a))))) (seq 0 (snd (fst (dim4 a))))) (seq 0 (fst (fst (dim4 a)))).

  Lemma term_modes n l m tc : modes2 n l -> modes4 n m -> In tc (map single_term l ++ map double_term m) ->
    (on_modes n (fst tc) /\ on_modes n (dagger (fst tc))) /\ length (creators (fst tc)) = length (annihilators (fst tc)) /\ length (creators (dagger (fst tc))) = length (annihilators (dagger (fst tc))).
  Proof.
    intros H2 H4 H. apply in_app_iff in H as [H|H]; apply in_map_iff in H as (a & <- & Ha).
    - destruct (H2 a Ha) as [A1 A2]. split; [|split; reflexivity]. split; intros f Hf; cbn in Hf; destruct Hf as [<-|[<-|[]]]; cbn; assumption.
    - destruct (H4 a Ha) as (A1 & A2 & A3 & A4). split; [|split; reflexivity]. split; intros f Hf; cbn in Hf; destruct Hf as [<-|[<-|[<-|[<-|[]]]]]; cbn; assumption.
  Qed.
  (** The generator is the documented sum; coefficients the sums prune away are small and at most two for each amplitude. *)
  Theorem C77_generator n l m anti : modes2 n l -> modes4 n m ->
    exists g r, uccsd_generator small nonzero (SList l) (DList m) anti = Ok g /\ on_qubits n g /\ all_small small r /\ (length r <= 2 * (length l + length m))%nat /\ on_qubits n r /\
      meq (madd (F n g) (F n r)) (documented n anti l m).
  Proof.
    intros H2 H4. rewrite generator_run. set (L := map single_term l ++ map double_term m).
    destruct (run_matrix n small anti L (documented n anti l m) (documented_shape n anti l m) (documented_ent n anti l m)) as (r & R1 & R2 & R3 & R4).
    exists (run small anti L []), r. split; [reflexivity|].
    assert (Q : forall u, (exists tc, In tc L /\ (u = fst tc \/ u = dagger (fst tc))) -> forall f, In f u -> (fst f < n)%nat).
    { intros u (tc & Htc & Hu). destruct (term_modes n l m tc H2 H4 Htc) as [[M1 M2] _]. destruct Hu as [->| ->]; [exact M1|exact M2]. }
    split; [|split; [exact R1|split; [|split; [|exact R4]]]].
    - apply on_keys. intros t Ht. apply Q. apply run_keys in Ht as [[]|Ht]. exact Ht.
    - unfold L in R3. rewrite app_length, !map_length in R3. destruct anti; lia.
    - intros t c Ht. apply Q, R2. exact (in_map fst r (t, c) Ht).
  Qed.
  (** Nothing is pruned when only zero is small. *)
  Theorem C77_generator_exact n l m anti g : modes2 n l -> modes4 n m -> only_zero small -> uccsd_generator small nonzero (SList l) (DList m) anti = Ok g -> meq (F n g) (documented n anti l m).
  Proof.
    intros H2 H4 Hz E. destruct (C77_generator n l m anti H2 H4) as (g' & r & E' & _ & R1 & _ & _ & R4). rewrite E in E'. inversion E'; subst g'.
    apply (fop_exact small n _ _ r); auto; apply fop_shape.
  Qed.
  (** With real amplitudes the generator is anti-Hermitian exactly, whatever was pruned. *)
  Theorem C77_anti_hermitian n l m g : small 0 = true -> (forall c, small (- c) = small c) -> (forall a, In a l -> kconj (snd a) = snd a) -> (forall a, In a m -> kconj (snd a) = snd a) ->
    uccsd_generator small nonzero (SList l) (DList m) true = Ok g -> anti_self_adjoint (F n g).
  Proof.
    intros S0 So Rl Rm. rewrite generator_run. intros E. inversion E; subst g. apply run_anti_hermitian; auto.
    intros tc H. apply in_app_iff in H as [H|H]; apply in_map_iff in H as (a & <- & Ha); [apply (Rl a Ha)|apply (Rm a Ha)].
  Qed.
  (** The generator conserves the number of particles, for any amplitudes. *)
  Theorem C77_number n l m anti g : modes2 n l -> modes4 n m -> uccsd_generator small nonzero (SList l) (DList m) anti = Ok g -> conserves_number n (F n g).
  Proof.
    intros H2 H4. rewrite generator_run. intros E. inversion E; subst g. apply fop_conserves. intros t c Ht.
    assert (I : In t (dkeys (run small anti (map single_term l ++ map double_term m) []))) by exact (in_map fst _ (t, c) Ht).
    apply run_keys in I as [[]|(tc & Htc & Hu)]. destruct (term_modes n l m tc H2 H4 Htc) as ([M1 M2] & C1 & C2). destruct Hu as [->| ->]; auto.
  Qed.
  (** ** Arrays of amplitudes *)
  Lemma entries2_eq (a : array2 K) : entries2 a = map (fun ij => (ij, at2 a (fst ij) (snd ij))) (product_range (fst (dim2 a)) (snd (dim2 a))).
  Proof.
    unfold entries2, product_range. induction (seq 0 (fst (dim2 a))) as [|i l IH]; [reflexivity|]. cbn [flat_map]. rewrite map_app, <- IH, map_map. reflexivity.
  Qed.
  Lemma flat_map_flat_map {X Y Z} (f : Y -> list Z) (g : X -> list Y) l : flat_map f (flat_map g l) = flat_map (fun x => flat_map f (g x)) l.
  Proof. induction l as [|x l IH]; [reflexivity|]. cbn [flat_map]. rewrite flat_map_app, IH. reflexivity. Qed.
  Lemma flat_map_map {X Y Z} (f : Y -> list Z) (g : X -> Y) l : flat_map f (map g l) = flat_map (fun x => f (g x)) l.
  Proof. rewrite !flat_map_concat_map, map_map. reflexivity. Qed.
  Lemma map_flat_map {X Y Z} (f : Y -> Z) (g : X -> list Y) l : map f (flat_map g l) = flat_map (fun x => map f (g x)) l.
  Proof. induction l as [|x l IH]; [reflexivity|]. cbn [flat_map]. rewrite map_app, IH. reflexivity. Qed.
  Lemma entries4_eq (a : array4 K) : entries4 a = map (fun ijkl => (ijkl, at4 a (fst (fst ijkl)) (snd (fst ijkl)) (fst (snd ijkl)) (snd (snd ijkl))))
    (flat_map (fun ij => map (fun kl => (ij, kl)) (product_range (fst (snd (dim4 a))) (snd (snd (dim4 a))))) (product_range (fst (fst (dim4 a))) (snd (fst (dim4 a))))).
  Proof.
    unfold entries4, product_range. rewrite map_flat_map, flat_map_flat_map. apply flat_map_ext. intros i. rewrite flat_map_map. apply flat_map_ext. intros j.
    rewrite map_map, map_flat_map. apply flat_map_ext. intros k. rewrite map_map. reflexivity.
  Qed.
  Lemma lsum_filter {X} (f : X -> K) (p : X -> bool) l : (forall x, In x l -> p x = false -> f x = 0) -> lsum (map f (filter p l)) = lsum (map f l).
  Proof.
    induction l as [|x l IH]; intros H; [reflexivity|]. cbn [filter map lsum]. destruct (p x) eqn:E; cbn [map lsum]; rewrite IH by (intros y Hy; apply H; right; exact Hy); [reflexivity|].
    rewrite (H x (or_introl eq_refl) E). ring.
  Qed.
  Lemma filter_length_le {X} (p : X -> bool) l : (length (filter p l) <= length l)%nat.
  Proof. induction l as [|x l IH]; cbn [filter length]; [|destruct (p x); cbn [length]]; lia. Qed.
  (** Arrays give the documented sum over all their entries; an array and a list cannot be mixed. *)
  Theorem C77_arrays n a b anti : (forall c, nonzero c = false -> c = 0) -> dim2 a = (n, n) -> dim4 b = ((n, n), (n, n)) ->
    exists g r, uccsd_generator small nonzero (SArray a) (DArray b) anti = Ok g /\ on_qubits n g /\ all_small small r /\ (length r <= 2 * (n ^ 2 + n ^ 4))%nat /\ on_qubits n r /\
      meq (madd (F n g) (F n r)) (documented n anti (entries2 a) (entries4 b)).
  Proof.
    intros Hz Da Db. set (l := map (fun ij => (ij, at2 a (fst ij) (snd ij))) (nonzero2 nonzero a)).
    set (m := map (fun ijkl => (ijkl, at4 b (fst (fst ijkl)) (snd (fst ijkl)) (fst (snd ijkl)) (snd (snd ijkl)))) (nonzero4 nonzero b)).
    assert (E : uccsd_generator small nonzero (SArray a) (DArray b) anti = uccsd_generator small nonzero (SList l) (DList m) anti) by reflexivity. rewrite E. clear E.
    assert (M2 : modes2 n l).
    { intros [[i j] c] H. apply in_map_iff in H as ([i' j'] & Q & H). inversion Q; subst. apply filter_In in H as [H _]. rewrite Da in H. apply In_product_range in H. exact H. }
    assert (M4 : modes4 n m).
    { intros [[[i j] [k q]] c] H. apply in_map_iff in H as ([[i' j'] [k' q']] & Q & H). inversion Q; subst. apply filter_In in H as [H _]. apply in_flat_map in H as ([x y] & Hx & H). apply in_map_iff in H as ([z w] & Q' & H).
      inversion Q'; subst. rewrite Db in Hx, H. apply In_product_range in Hx, H. cbn [fst snd] in *. lia. }
    destruct (C77_generator n l m anti M2 M4) as (g & r & E & O & R1 & R2 & R3 & R4). exists g, r. split; [exact E|]. split; [exact O|]. split; [exact R1|]. split; [|split; [exact R3|]].
    - assert (L2 : (length l <= n ^ 2)%nat).
      { unfold l, nonzero2. rewrite map_length. etransitivity; [apply filter_length_le|]. rewrite Da. cbn [fst snd]. rewrite product_range_length. cbn. nia. }
      assert (L4 : (length m <= n ^ 4)%nat).
      { unfold m, nonzero4. rewrite map_length. etransitivity; [apply filter_length_le|]. rewrite Db. cbn [fst snd].
        assert (P : forall (x : list (nat * nat)) (y : list (nat * nat)), length (flat_map (fun ij => map (fun kl => (ij, kl)) y) x) = (length x * length y)%nat).
        { intros x y. induction x as [|z x IH]; [reflexivity|]. cbn [flat_map length]. rewrite app_length, map_length, IH. reflexivity. }
        rewrite P, !product_range_length. cbn. nia. }
      lia.
    - etransitivity; [exact R4|]. destruct (documented_shape (K := K) n anti l m) as [S1 S2], (documented_shape (K := K) n anti (entries2 a) (entries4 b)) as [S3 S4].
      split; [congruence|]. split; [congruence|]. rewrite S1, S2. intros i j Hi Hj. unfold documented. cbn [ent madd]. rewrite !msum_ent, !map_map. rewrite entries2_eq, entries4_eq. unfold l, m, nonzero2, nonzero4. rewrite !map_map.
      f_equal; apply lsum_filter; intros x _ Hx; cbn [ent mscale fst snd]; rewrite (Hz _ Hx); ring.
  Qed.
  Theorem C77_mixed l a m b anti : uccsd_generator small nonzero (SArray a) (DList m) anti = Err AttributeError /\ uccsd_generator small nonzero (SList l) (DArray b) anti = Err AttributeError.
  Proof. split; reflexivity. Qed.

  (** ** The singlet generator *)
  (** The number of amplitudes asked for is the number the generator needs. *)
  Theorem C77_paramsize n k : (n mod 2 = 0)%nat -> (k <= n)%nat -> uccsd_singlet_paramsize n k = Ok (Z.of_nat (amplitude_count n k)).
  Proof. apply count_Z. Qed.
  Theorem C77_odd n k packed anti : (n mod 2 <> 0)%nat -> uccsd_singlet_paramsize n k = Err ValueError /\ uccsd_singlet_generator small packed n k anti = Err ValueError.
  Proof. intros H. apply Nat.eqb_neq in H. unfold uccsd_singlet_paramsize, uccsd_singlet_generator. rewrite H. split; reflexivity. Qed.
  (** Too few amplitudes: IndexError.  Enough: one amplitude for each pair of orbitals, one for each pair excited twice, one for each two pairs, in this order,
      and the rest is ignored; the operator is made of the spin-free excitations with these amplitudes. *)
  Theorem C77_short n k packed anti : (n mod 2 = 0)%nat -> (length packed < amplitude_count n k)%nat -> uccsd_singlet_generator small packed n k anti = Err IndexError.
  Proof. apply singlet_short. Qed.
  Theorem C77_singlet n k packed anti : (n mod 2 = 0)%nat -> (amplitude_count n k <= length packed)%nat ->
    exists g r t1 t2 t3 rest, packed = map t1 (orbital_pairs n k) ++ map t2 (orbital_pairs n k) ++ map (fun pq => t3 (fst pq) (snd pq)) (two_of (orbital_pairs n k)) ++ rest /\
      uccsd_singlet_generator small packed n k anti = Ok g /\ all_small small r /\ meq (madd (F n g) (F n r)) (singlet_generator n k anti t1 t2 t3).
  Proof.
    intros He H. destruct (split_amplitudes n k packed H) as (t1 & t2 & t3 & rest & ->).
    destruct (run_matrix n small anti (all_terms n k t1 t2 t3) (singlet_generator n k anti t1 t2 t3) (singlet_shape n k anti t1 t2 t3) (all_parts small anti n k t1 t2 t3)) as (r & R1 & R2 & R3 & R4).
    exists (run small anti (all_terms n k t1 t2 t3) []), r, t1, t2, t3, rest. split; [reflexivity|]. split; [apply singlet_run; exact He|]. split; [exact R1|exact R4].
  Qed.
  (** The amplitudes packed from arrays are the ones of these excitations. *)
  Theorem C77_packed n k (a : array2 K) (b : array4 K) anti : (n mod 2 = 0)%nat -> dim2 a = (n, n) -> dim4 b = ((n, n), (n, n)) ->
    exists packed g r, uccsd_singlet_get_packed_amplitudes a b n k = Ok packed /\ length packed = amplitude_count n k /\
      uccsd_singlet_generator small packed n k anti = Ok g /\ all_small small r /\
      meq (madd (F n g) (F n r)) (singlet_generator n k anti (fun p => at2 a (2 * fst p)%nat (2 * snd p)%nat)
        (fun p => at4 b (2 * fst p)%nat (2 * snd p)%nat (2 * fst p + 1)%nat (2 * snd p + 1)%nat)
        (fun p q => at4 b (2 * fst p)%nat (2 * snd p)%nat (2 * fst q)%nat (2 * snd q)%nat)).
  Proof.
    intros He Da Db. set (t1 := fun p : nat * nat => at2 a (2 * fst p)%nat (2 * snd p)%nat). set (t2 := fun p : nat * nat => at4 b (2 * fst p)%nat (2 * snd p)%nat (2 * fst p + 1)%nat (2 * snd p + 1)%nat).
    set (t3 := fun p q : nat * nat => at4 b (2 * fst p)%nat (2 * snd p)%nat (2 * fst q)%nat (2 * snd q)%nat).
    destruct (run_matrix n small anti (all_terms n k t1 t2 t3) (singlet_generator n k anti t1 t2 t3) (singlet_shape n k anti t1 t2 t3) (all_parts small anti n k t1 t2 t3)) as (r & R1 & R2 & R3 & R4).
    eexists _, (run small anti (all_terms n k t1 t2 t3) []), r. split; [apply (packed_ok n k a b Da Db)|]. split; [rewrite !app_length, !map_length; unfold amplitude_count; cbn zeta; lia|].
    split; [|split; [exact R1|exact R4]]. pose proof (singlet_run small anti n k t1 t2 t3 [] He) as Q. rewrite app_nil_r in Q. exact Q.
  Qed.
  Lemma singlet_anyrun n k packed anti g : uccsd_singlet_generator small packed n k anti = Ok g ->
    (n mod 2 = 0)%nat /\ exists t1 t2 t3 rest, packed = map t1 (orbital_pairs n k) ++ map t2 (orbital_pairs n k) ++ map (fun pq => t3 (fst pq) (snd pq)) (two_of (orbital_pairs n k)) ++ rest /\ g = run small anti (all_terms n k t1 t2 t3) [].
  Proof.
    intros E. destruct (Nat.eq_dec (n mod 2) 0) as [He|He]; [|rewrite (proj2 (C77_odd n k packed anti He)) in E; discriminate]. split; [exact He|].
    destruct (Nat.lt_ge_cases (length packed) (amplitude_count n k)) as [H|H]; [rewrite C77_short in E by auto; discriminate|].
    destruct (split_amplitudes n k packed H) as (t1 & t2 & t3 & rest & Ep). exists t1, t2, t3, rest. split; [exact Ep|]. rewrite Ep, singlet_run in E by exact He. inversion E. reflexivity.
  Qed.
  Theorem C77_singlet_anti_hermitian n k packed g : small 0 = true -> (forall c, small (- c) = small c) -> (forall c, In c packed -> kconj c = c) ->
    uccsd_singlet_generator small packed n k true = Ok g -> anti_self_adjoint (F n g).
  Proof.
    intros S0 So Hr E. apply singlet_anyrun in E as (_ & t1 & t2 & t3 & rest & Ep & ->). apply run_anti_hermitian; auto. intros tc H. unfold all_terms in H.
    assert (Q1 : forall p, In p (orbital_pairs n k) -> kconj (t1 p) = t1 p /\ kconj (t2 p) = t2 p).
    { intros p Hp. split; apply Hr; rewrite Ep, !in_app_iff, !in_map_iff; [left|right; left]; exists p; auto. }
    assert (Q3 : forall pq, In pq (two_of (orbital_pairs n k)) -> kconj (t3 (fst pq) (snd pq)) = t3 (fst pq) (snd pq)).
    { intros pq Hp. apply Hr. rewrite Ep, !in_app_iff, !in_map_iff. right; right; left. exists pq. auto. }
    apply in_app_iff in H as [H|H]; apply in_flat_map in H as (p & Hp & H).
    - destruct (Q1 p Hp) as [A1 A2]. destruct p as [v o]. cbn in H. destruct H as [<-|[<-|[<-|[<-|[]]]]]; cbn [snd single_of double_of]; assumption.
    - specialize (Q3 p Hp). destruct p as [[v o] [w u]]. unfold two_pair_terms in H. apply in_flat_map in H as ([x y] & _ & H). cbn [fst snd] in *. destruct (Nat.eqb _ _) in H; [destruct H|]. destruct (Nat.eqb _ _) in H; [destruct H|].
      destruct H as [<-|[]]. exact Q3.
  Qed.
  (** The generator commutes with the total spin operators S+ and S-: it conserves the total spin. *)
  Theorem C77_singlet_spin n k packed anti g : only_zero small -> uccsd_singlet_generator small packed n k anti = Ok g -> commute (F n g) (raise_spin n) /\ commute (F n g) (lower_spin n).
  Proof.
    intros Hz E. apply singlet_anyrun in E as (_ & t1 & t2 & t3 & rest & _ & ->).
    destruct (run_matrix n small anti (all_terms n k t1 t2 t3) (singlet_generator n k anti t1 t2 t3) (singlet_shape n k anti t1 t2 t3) (all_parts small anti n k t1 t2 t3)) as (r & R1 & _ & _ & R4).
    set (g := run small anti (all_terms n k t1 t2 t3) []) in *.
    assert (X : meq (F n g) (singlet_generator n k anti t1 t2 t3)) by (apply (fop_exact small n _ _ r); auto; apply fop_shape).
    apply comm2_commute; [split; apply fop_shape|]. eapply comm2_ext; [|apply (singlet_comm2 n k anti t1 t2 t3)]. intros i j Hi Hj. destruct X as (S1 & S2 & X). symmetry. apply X; rewrite ?(proj1 (fop_shape n g)), ?(proj2 (fop_shape n g)); assumption.
  Qed.
  (** It conserves the number of particles of either spin, whatever was pruned and for any amplitudes. *)
  Lemma tcount_dagger P d t : tcount P d (dagger t) = tcount P (negb d) t.
  Proof.
    unfold tcount, dagger. induction t as [|[p e] t IH]; [reflexivity|]. cbn [rev]. rewrite map_app, filter_app, app_length, IH. cbn [map filter flip fst snd]. destruct (P p), e, d; cbn [andb negb Bool.eqb length app]; lia.
  Qed.
  Lemma singlet_terms n k (t1 t2 : nat * nat -> K) (t3 : nat * nat -> nat * nat -> K) tc : In tc (all_terms n k t1 t2 t3) -> on_modes n (fst tc) /\
    forall P, (forall x, P x = Nat.even x) \/ (forall x, P x = Nat.odd x) -> tcount P true (fst tc) = tcount P false (fst tc).
  Proof.
    assert (Pe : forall (P : nat -> bool) x, (forall x, P x = Nat.even x) -> P (2 * x)%nat = true /\ P (2 * x + 1)%nat = false).
    { intros P x H. rewrite !H, Nat.even_add, Nat.even_mul. split; reflexivity. }
    assert (Po : forall (P : nat -> bool) x, (forall x, P x = Nat.odd x) -> P (2 * x)%nat = false /\ P (2 * x + 1)%nat = true).
    { intros P x H. rewrite !H, Nat.odd_add, Nat.odd_mul. split; reflexivity. }
    assert (Pu : forall P x y, (forall x, P x = Nat.even x) \/ (forall x, P x = Nat.odd x) -> P (2 * x)%nat = P (2 * y)%nat /\ P (2 * x + 1)%nat = P (2 * y + 1)%nat).
    { intros P x y [H|H]; [destruct (Pe P x H), (Pe P y H)|destruct (Po P x H), (Po P y H)]; split; congruence. }
    intros H. unfold all_terms in H. apply in_app_iff in H as [H|H]; apply in_flat_map in H as (p & Hp & H).
    - destruct p as [v o]. apply pairs_range in Hp as (R1 & R2 & _). pose proof (UCCProofs.half_lt n v R1). pose proof (UCCProofs.half_lt n o R2). cbn [pair_terms] in H. unfold single_of, double_of in H. destruct H as [<-|[<-|[<-|[<-|[]]]]]; cbn [fst]; (split; [|intros P HP]).
      1,3,5,7: intros f Hf; cbn [In] in Hf; repeat (destruct Hf as [<-|Hf]; [cbn [fst]; lia|]); destruct Hf.
      all: destruct (Pu P v o HP) as [U1 U2]; unfold tcount; cbn [filter fst snd]; rewrite ?U1, ?U2; destruct (P (2 * o)%nat), (P (2 * o + 1)%nat); reflexivity.
    - apply two_of_In in Hp as [Hp Hq]. destruct p as [[v o] [w u]]. cbn [fst snd] in *. apply pairs_range in Hp as (R1 & R2 & _), Hq as (R3 & R4 & _).
      pose proof (UCCProofs.half_lt n v R1). pose proof (UCCProofs.half_lt n o R2). pose proof (UCCProofs.half_lt n w R3). pose proof (UCCProofs.half_lt n u R4).
      unfold two_pair_terms in H. apply in_flat_map in H as ([x y] & Hxy & H). cbn [fst snd] in H. destruct (Nat.eqb _ _) in H; [destruct H|]. destruct (Nat.eqb _ _) in H; [destruct H|]. destruct H as [<-|[]]. cbn [fst double_of].
      assert (Sx : forall z a, (2 * z + 1 < n)%nat -> (spin_index a z < n)%nat) by (intros z a Hz; unfold spin_index, up_index, down_index; destruct (a =? 0)%nat; lia).
      split; [intros f Hf; cbn [In] in Hf; repeat (destruct Hf as [<-|Hf]; [cbn [fst]; apply Sx; assumption|]); destruct Hf|]. intros P HP.
      assert (S2 : forall z z' a, P (spin_index a z) = P (spin_index a z')) by (intros z z' a; unfold spin_index, up_index, down_index; destruct (a =? 0)%nat; apply (Pu P z z' HP)).
      unfold tcount. cbn [filter fst snd]. rewrite (S2 v o x), (S2 w u y). destruct (P (spin_index x o)), (P (spin_index y u)); reflexivity.
  Qed.
  Theorem C77_singlet_particles n k packed anti g : uccsd_singlet_generator small packed n k anti = Ok g ->
    on_qubits n g /\ forall x y, length x = n -> length y = n -> particles_up x <> particles_up y \/ particles_down x <> particles_down y -> ent (F n g) (bval x) (bval y) = 0.
  Proof.
    intros E. apply singlet_anyrun in E as (_ & t1 & t2 & t3 & rest & _ & ->). set (g := run small anti (all_terms n k t1 t2 t3) []).
    assert (Q : forall u, In u (dkeys g) -> on_modes n u /\ forall P, (forall x, P x = Nat.even x) \/ (forall x, P x = Nat.odd x) -> tcount P true u = tcount P false u).
    { intros u Hu. apply run_keys in Hu as [[]|(tc & Htc & Hu)]. destruct (singlet_terms n k t1 t2 t3 tc Htc) as [M C]. destruct Hu as [->| ->]; [split; assumption|]. split.
      - intros f Hf. apply in_map_iff in Hf as (f' & <- & Hf). apply in_rev in Hf. apply (M f' Hf).
      - intros P HP. rewrite !tcount_dagger. symmetry. apply C. exact HP. }
    split; [apply on_keys; intros t Ht; apply Q; exact Ht|]. intros x y Hx Hy [D|D].
    - apply (fop_counts n Nat.even); auto. intros t Ht. destruct (Q t Ht) as [M C]. split; [exact M|]. apply C. left. reflexivity.
    - apply (fop_counts n Nat.odd); auto. intros t Ht. destruct (Q t Ht) as [M C]. split; [exact M|]. apply C. right. reflexivity.
  Qed.
End S.

(** ** Concrete cases, over the Gaussian integers *)
Definition gz_same (a b : GZ) : bool := Z.eqb (fst a) (fst b) && Z.eqb (snd a) (snd b).
Definition gz_terms (x : result (fop GZ)) (l : list (fterm * GZ)) : bool :=
  match x with Ok g => list_eqb (fun a b : fterm * GZ => list_eqb (fun f h : nat * bool => Nat.eqb (fst f) (fst h) && Bool.eqb (snd f) (snd h)) (fst a) (fst b) && gz_same (snd a) (snd b)) g l | Err _ => false end.
Definition z (a : Z) : GZ := (a, 0%Z).
Arguments z a%Z_scope.
Notation gnz := (fun c : GZ => negb (gz_zero c)).
Lemma gz_only_zero : only_zero (K := GZ) gz_zero.
Proof. intros [a b] H. apply andb_true_iff in H as [H1 H2]. apply Z.eqb_eq in H1, H2. cbn [fst snd] in *. subst. reflexivity. Qed.
Lemma gz_opp (c : GZ) : gz_zero (kopp c) = gz_zero c.
Proof. destruct c as [[|a|a] [|b|b]]; reflexivity. Qed.
Definition c77_singles : list (nat * nat * GZ) := [((1, 0), z 2); ((3, 1), z (-1)); ((1, 0), z 3)].
Definition c77_doubles : list (nat * nat * (nat * nat) * GZ) := [(((2, 0), (3, 1)), z 5)].
Example C77_hypotheses : modes2 4 c77_singles /\ modes4 4 c77_doubles /\ (forall a, In a c77_singles -> kconj (snd a) = snd a) /\ (forall a, In a c77_doubles -> kconj (snd a) = snd a) /\
  gz_zero (k0 : GZ) = true /\ (forall c, gz_zero (kopp c) = gz_zero c) /\ (forall c, gnz c = false -> c = k0) /\ only_zero (K := GZ) gz_zero.
Proof.
  split; [intros a [<-|[<-|[<-|[]]]]; cbn; lia|]. split; [intros a [<-|[]]; cbn; lia|]. split; [intros a [<-|[<-|[<-|[]]]]; reflexivity|]. split; [intros a [<-|[]]; reflexivity|].
  split; [reflexivity|]. split; [apply gz_opp|]. split; [|apply gz_only_zero]. intros c H. apply gz_only_zero. destruct (gz_zero c); [reflexivity|discriminate].
Qed.
Example C77_case : gz_terms (uccsd_generator gz_zero gnz (SList c77_singles) (DList c77_doubles) true)
  [([(1, true); (0, false)], z (5)); ([(0, true); (1, false)], z (-5)); ([(3, true); (1, false)], z (-1)); ([(1, true); (3, false)], z (1));
   ([(2, true); (0, false); (3, true); (1, false)], z (5)); ([(1, true); (3, false); (0, true); (2, false)], z (-5))] = true.
Proof. vm_compute. reflexivity. Qed.
(** an array with the same amplitudes *)
Example C77_arrays_case : gz_terms (uccsd_generator gz_zero gnz
  (SArray {| dim2 := (4, 4); at2 := fun i j => match i, j with 1, 0 => z (5) | 3, 1 => z (-1) | _, _ => z (0) end |})
  (DArray {| dim4 := ((4, 4), (4, 4)); at4 := fun i j k l => match i, j, k, l with 2, 0, 3, 1 => z (5) | _, _, _, _ => z (0) end |}) true)
  [([(1, true); (0, false)], z (5)); ([(0, true); (1, false)], z (-5)); ([(3, true); (1, false)], z (-1)); ([(1, true); (3, false)], z (1));
   ([(2, true); (0, false); (3, true); (1, false)], z (5)); ([(1, true); (3, false); (0, true); (2, false)], z (-5))] = true.
Proof. vm_compute. reflexivity. Qed.
(** six modes and two electrons: one occupied and two virtual orbitals, five amplitudes *)
Example C77_singlet_case : orbital_pairs 6 2 = [(1, 0); (2, 0)] /\ amplitude_count 6 2 = 5 /\ uccsd_singlet_paramsize 6 2 = Ok 5%Z /\
  (match uccsd_singlet_generator gz_zero [z 1; z 2; z 3; z 4; z 5; (9, 9)%Z] 6 2 true with Ok g => Nat.eqb (length g) 20
    && gz_same (coef Bool.eqb g [(5, true); (1, false)]) (z (2)) && gz_same (coef Bool.eqb g [(3, true); (1, false); (4, true); (0, false)]) (z (5))
    && gz_same (coef Bool.eqb g [(0, true); (4, false); (1, true); (5, false)]) (z (-4)) | Err _ => false end) = true /\
  uccsd_singlet_generator gz_zero [z 1; z 2; z 3; z 4] 6 2 true = Err IndexError.
Proof. repeat split; vm_compute; reflexivity. Qed.
(** A complex amplitude is negated and not conjugated: the "anti-Hermitian" generator is not anti-Hermitian. *)
Theorem C77_complex_refuted : exists l g, modes2 (K := GZ) 2 l /\ uccsd_generator gz_zero gnz (SList l) (DList []) true = Ok g /\ ~ anti_self_adjoint (fop_matrix 2 g).
Proof.
  exists [((1, 0), gi)]. eexists. split; [intros a [<-|[]]; cbn; lia|]. split; [reflexivity|]. intros (_ & _ & H). specialize (H 1 2). cbn [adjoint nr nc] in H.
  match type of H with ?A -> ?B -> ent ?X 1 2 = ent ?Y 1 2 => assert (Q : gz_same (ent X 1 2) (ent Y 1 2) = false) by (vm_compute; reflexivity) end.
  rewrite H in Q by (vm_compute; lia). unfold gz_same in Q. rewrite !Z.eqb_refl in Q. discriminate.
Qed.
(** With more electrons than modes there are no amplitudes, and another number is asked for. *)
Theorem C77_paramsize_refuted : exists n k m, n mod 2 = 0 /\ uccsd_singlet_paramsize n k = Ok m /\ m <> Z.of_nat (amplitude_count n k).
Proof. exists 2, 6, 9%Z. split; [reflexivity|]. split; [reflexivity|]. vm_compute. discriminate. Qed.

Print Assumptions C77_generator.
Print Assumptions C77_generator_exact.
Print Assumptions C77_anti_hermitian.
Print Assumptions C77_number.
Print Assumptions C77_arrays.
Print Assumptions C77_mixed.
Print Assumptions C77_paramsize.
Print Assumptions C77_odd.
Print Assumptions C77_short.
Print Assumptions C77_singlet.
Print Assumptions C77_packed.
Print Assumptions C77_singlet_anti_hermitian.
Print Assumptions C77_singlet_spin.
Print Assumptions C77_singlet_particles.
Print Assumptions C77_complex_refuted.
Print Assumptions C77_paramsize_refuted.
