(** Proofs for C77: amplitudes. *)
From Coq Require Import Ring.
From Verif Require LayoutProofs.
From Verif Require Import Base BaseFacts MatModel MatFacts LiftSpec LiftProofs OpModel OpSpec OpProofs OpProofs2 ConjProofs BackendProofs FermiModel FermiSpec FermiProofs FermiProofs2 FermiProofs6 FermiProofs7
  JWInterModel UCCModel UCCSpec UCCProofs2 UCCProofs3 UCCProofs4 UCCProofs5.
Open Scope list_scope.
Local Open Scope nat_scope.

Lemma as_function {X Y} (eqb : X -> X -> bool) (He : eqb_spec_of eqb) (d : Y) (l : list X) : NoDup l -> forall c : list Y, length c = length l -> exists f : X -> Y, map f l = c.
Proof.
  induction 1 as [|x l Hx Hl IH]; intros [|y c] Hc; try discriminate; [exists (fun _ => d); reflexivity|]. destruct (IH c) as [f Hf]; [cbn in Hc; lia|].
  exists (fun z => if eqb z x then y else f z). cbn [map]. rewrite (proj2 (He x x) eq_refl). f_equal. rewrite <- Hf. apply map_ext_in. intros z Hz. destruct (eqb z x) eqn:E; [|reflexivity]. apply He in E as ->. contradiction.
Qed.
Definition pair_eqb (p q : nat * nat) : bool := Nat.eqb (fst p) (fst q) && Nat.eqb (snd p) (snd q).
Lemma pair_eqb_spec : eqb_spec_of pair_eqb.
Proof. intros [a b] [c d]. unfold pair_eqb. cbn. rewrite andb_true_iff, !Nat.eqb_eq. split; [intros [-> ->]; reflexivity|intros E; inversion E; auto]. Qed.
Definition quad_eqb (p q : (nat * nat) * (nat * nat)) : bool := pair_eqb (fst p) (fst q) && pair_eqb (snd p) (snd q).
Lemma quad_eqb_spec : eqb_spec_of quad_eqb.
Proof. intros [a b] [c d]. unfold quad_eqb. cbn. rewrite andb_true_iff. rewrite (pair_eqb_spec a c), (pair_eqb_spec b d). split; [intros [-> ->]; reflexivity|intros E; inversion E; auto]. Qed.
Lemma NoDup_product {X Y} (l : list X) (m : list Y) : NoDup l -> NoDup m -> NoDup (flat_map (fun x => map (fun y => (x, y)) m) l).
Proof.
  intros Hl Hm. induction Hl as [|x l Hx Hl IH]; [constructor|]. cbn [flat_map]. apply NoDup_app; auto.
  - apply FinFun.Injective_map_NoDup; [intros a b E; inversion E; auto|exact Hm].
  - intros [a b] H1 H2. apply in_map_iff in H1 as (y & E & _). inversion E; subst. apply in_flat_map in H2 as (z & Hz & H2). apply in_map_iff in H2 as (w & E2 & _). inversion E2; subst. contradiction.
Qed.
Lemma orbital_pairs_NoDup n k : NoDup (orbital_pairs n k).
Proof. unfold orbital_pairs. cbn zeta. apply NoDup_product; apply seq_NoDup. Qed.
Lemma two_of_NoDup {X} (l : list X) : NoDup l -> NoDup (two_of l).
Proof.
  induction 1 as [|x l Hx Hl IH]; [constructor|]. cbn [two_of]. apply NoDup_app; auto.
  - apply FinFun.Injective_map_NoDup; [intros a b E; inversion E; auto|exact Hl].
  - intros p H1 H2. apply in_map_iff in H1 as (y & <- & _). apply two_of_In in H2 as [H2 _]. contradiction.
Qed.
Lemma foldM_err {A X} (f : A -> X -> result A) e l x : (forall g y, In y l -> (exists g', f g y = Ok g') \/ f g y = Err e) -> In x l -> (forall g, f g x = Err e) -> forall g, foldM f l g = Err e.
Proof.
  induction l as [|y l IH]; intros H Hx Hf g; [destruct Hx|]. cbn [foldM]. destruct Hx as [->|Hx]; [rewrite Hf; reflexivity|].
  destruct (H g y (or_introl eq_refl)) as [[g' E]|E]; rewrite E; [|reflexivity]. cbn [rbind]. apply IH; auto. intros g0 z Hz. apply H. right. exact Hz.
Qed.

Section S.
  Context {K : cring} (small : K -> bool).
  Add Ring Kring_ucc6 : (kth K).
  Open Scope K_scope.
  (** a list of the right length is made of three functions of the pairs *)
  Lemma split_amplitudes n k (packed : list K) : (amplitude_count n k <= length packed)%nat -> exists t1 t2 t3 rest,
    packed = map t1 (orbital_pairs n k) ++ map t2 (orbital_pairs n k) ++ map (fun pq => t3 (fst pq) (snd pq)) (two_of (orbital_pairs n k)) ++ rest.
  Proof.
    unfold amplitude_count. cbn zeta. intros H. set (L := orbital_pairs n k) in *. set (m := length L) in *.
    destruct (as_function pair_eqb pair_eqb_spec (0 : K) L (orbital_pairs_NoDup n k) (firstn m packed)) as [t1 H1]; [rewrite firstn_length; lia|].
    destruct (as_function pair_eqb pair_eqb_spec (0 : K) L (orbital_pairs_NoDup n k) (firstn m (skipn m packed))) as [t2 H2]; [rewrite firstn_length, skipn_length; lia|].
    destruct (as_function quad_eqb quad_eqb_spec (0 : K) (two_of L) (two_of_NoDup _ (orbital_pairs_NoDup n k)) (firstn (length (two_of L)) (skipn m (skipn m packed)))) as [t3 H3]; [rewrite firstn_length, !skipn_length; lia|].
    exists t1, t2, (fun p q => t3 (p, q)), (skipn (length (two_of L)) (skipn m (skipn m packed))). rewrite H1, H2. replace (map (fun pq => t3 (fst pq, snd pq)) (two_of L)) with (map t3 (two_of L)) by (apply map_ext; intros [a b]; reflexivity).
    rewrite H3, !firstn_skipn. reflexivity.
  Qed.
  Lemma get1_total (l : list K) i : (exists c, get1 l i = Ok c) \/ get1 l i = Err IndexError.
  Proof. unfold get1. destruct (nth_error l i); [left; eauto|right; reflexivity]. Qed.
  Lemma get1_short (l : list K) i : (length l <= i)%nat -> get1 l i = Err IndexError.
  Proof. intros H. unfold get1. rewrite (proj2 (nth_error_None l i) H). reflexivity. Qed.
  Lemma pair_total anti occ t1 t2 g x : (exists g', pair_excitations small anti occ t1 t2 g x = Ok g') \/ pair_excitations small anti occ t1 t2 g x = Err IndexError.
  Proof.
    destruct x as [i [p q]]. unfold pair_excitations. cbn [seq foldM]. destruct (get1_total t1 i) as [[c1 E1]|E1]; rewrite E1; cbn [rbind]; [|right; reflexivity].
    destruct (get1_total t2 i) as [[c2 E2]|E2]; rewrite E2; cbn [rbind]; [left; eauto|right; reflexivity].
  Qed.
  Lemma pair_error anti occ t1 t2 g i pq : get1 t1 i = Err IndexError \/ get1 t2 i = Err IndexError -> pair_excitations small anti occ t1 t2 g (i, pq) = Err IndexError.
  Proof.
    destruct pq as [p q]. unfold pair_excitations. cbn [seq foldM]. destruct (get1_total t1 i) as [[c1 E1]|E1]; rewrite E1; cbn [rbind]; [|reflexivity].
    intros [H|H]; [discriminate|]. rewrite H. reflexivity.
  Qed.
  Lemma two_pair_total anti occ t3 g x : (exists g', two_pair_excitations small anti occ t3 g x = Ok g') \/ two_pair_excitations small anti occ t3 g x = Err IndexError.
  Proof. destruct x as [i [[p q] [r s]]]. unfold two_pair_excitations. destruct (get1_total t3 i) as [[c1 E1]|E1]; rewrite E1; cbn [rbind]; [left; eauto|right; reflexivity]. Qed.
  Lemma singlet_short n k (packed : list K) anti : (n mod 2 = 0)%nat -> (length packed < amplitude_count n k)%nat -> uccsd_singlet_generator small packed n k anti = Err IndexError.
  Proof.
    intros He. unfold amplitude_count. cbn zeta. rewrite orbital_pairs_map, two_of_map, !map_length. intros H. unfold uccsd_singlet_generator. rewrite He. cbn [Nat.eqb negb]. cbn zeta.
    set (L := virtual_occupied n k) in *. set (occ := occupied_orbitals k) in *.
    replace (occ * Z.to_nat (virtual_orbitals n k))%nat with (length L) by (unfold L, virtual_occupied; rewrite product_range_length; fold occ; lia).
    replace (2 * length L - length L)%nat with (length L) by lia. set (m := length L) in *.
    destruct (Nat.lt_ge_cases (length packed) (2 * m)) as [C|C].
    - assert (X : exists i, (i < m)%nat /\ (get1 (firstn m packed) i = Err IndexError \/ get1 (firstn m (skipn m packed)) i = Err IndexError)).
      { destruct (Nat.lt_ge_cases (length packed) m) as [D|D].
        - exists (length packed). split; [exact D|]. left. apply get1_short. rewrite firstn_length. lia.
        - exists (length packed - m)%nat. split; [lia|]. right. apply get1_short. rewrite firstn_length, skipn_length. lia. }
      destruct X as (i & Hi & Hx). destruct (nth_error L i) as [x|] eqn:Ex; [|apply nth_error_None in Ex; lia].
      rewrite (foldM_err _ IndexError _ (i, x)); [reflexivity| | |]; [intros g y _; apply pair_total|apply enumerate_In; exact Ex|intros g; apply pair_error; exact Hx].
    - assert (X : exists g, foldM (pair_excitations small anti occ (firstn m packed) (firstn m (skipn m packed))) (enumerate L) [] = Ok g).
      { generalize ([] : fop K). assert (Q : forall x, In x (enumerate L) -> forall g, exists g', pair_excitations small anti occ (firstn m packed) (firstn m (skipn m packed)) g x = Ok g').
        - intros [i [p q]] Hx g. apply In_enumerate in Hx. assert (Hi : (i < m)%nat) by (apply nth_error_Some; congruence).
          assert (G1 : exists c, get1 (firstn m packed) i = Ok c) by (unfold get1; destruct (nth_error (firstn m packed) i) eqn:E; [eauto|apply nth_error_None in E; rewrite firstn_length in E; lia]).
          assert (G2 : exists c, get1 (firstn m (skipn m packed)) i = Ok c) by (unfold get1; destruct (nth_error (firstn m (skipn m packed)) i) eqn:E; [eauto|apply nth_error_None in E; rewrite firstn_length, skipn_length in E; lia]).
          destruct G1 as [c1 G1], G2 as [c2 G2]. eexists. apply pair_step; eauto.
        - induction (enumerate L) as [|x l IH]; intros g; [eexists; reflexivity|]. cbn [foldM]. destruct (Q x (or_introl eq_refl) g) as [g' E]. rewrite E. cbn [rbind]. apply IH. intros y Hy. apply Q. right. exact Hy. }
      destruct X as [g ->]. cbn [rbind]. rewrite combinations2_two. destruct (nth_error (two_of L) (length packed - 2 * m)) as [x|] eqn:Ex; [|apply nth_error_None in Ex; lia].
      apply (foldM_err _ IndexError _ (length packed - 2 * m, x)%nat); [intros g0 y _; apply two_pair_total|apply enumerate_In; exact Ex|].
      intros g0. destruct x as [[p q] [r s]]. unfold two_pair_excitations. rewrite get1_short; [reflexivity|]. rewrite skipn_length. lia.
  Qed.
  Lemma get2_ok (a : array2 K) i j : (i < fst (dim2 a))%nat -> (j < snd (dim2 a))%nat -> get2 a i j = Ok (at2 a i j).
  Proof. intros H1 H2. unfold get2. rewrite (proj2 (Nat.ltb_lt _ _) H1), (proj2 (Nat.ltb_lt _ _) H2). reflexivity. Qed.
  Lemma get4_ok (a : array4 K) i j k l : (i < fst (fst (dim4 a)))%nat -> (j < snd (fst (dim4 a)))%nat -> (k < fst (snd (dim4 a)))%nat -> (l < snd (snd (dim4 a)))%nat -> get4 a i j k l = Ok (at4 a i j k l).
  Proof. intros H1 H2 H3 H4. unfold get4. rewrite (proj2 (Nat.ltb_lt _ _) H1), (proj2 (Nat.ltb_lt _ _) H2), (proj2 (Nat.ltb_lt _ _) H3), (proj2 (Nat.ltb_lt _ _) H4). reflexivity. Qed.
  Lemma packed_ok n k (a : array2 K) (b : array4 K) : dim2 a = (n, n) -> dim4 b = ((n, n), (n, n)) ->
    uccsd_singlet_get_packed_amplitudes a b n k = Ok (map (fun p => at2 a (2 * fst p)%nat (2 * snd p)%nat) (orbital_pairs n k) ++
      map (fun p => at4 b (2 * fst p)%nat (2 * snd p)%nat (2 * fst p + 1)%nat (2 * snd p + 1)%nat) (orbital_pairs n k) ++
      map (fun pq => at4 b (2 * fst (fst pq))%nat (2 * snd (fst pq))%nat (2 * fst (snd pq))%nat (2 * snd (snd pq))%nat) (two_of (orbital_pairs n k))).
  Proof.
    intros Da Db. unfold uccsd_singlet_get_packed_amplitudes. cbn zeta.
    assert (R : forall p q, In (p, q) (virtual_occupied n k) -> (2 * (occupied_orbitals k + p) + 1 < n)%nat /\ (2 * q + 1 < n)%nat).
    { intros p q H. assert (I : In (shift (occupied_orbitals k) (p, q)) (orbital_pairs n k)) by (rewrite orbital_pairs_map; apply in_map; exact H). unfold shift in I. cbn [fst snd] in I.
      apply pairs_range in I as (I1 & I2 & _). pose proof (Nat.mul_div_le n 2 ltac:(lia)). lia. }
    rewrite (LayoutProofs.mapM_ok_map _ (fun pq => (at2 a (2 * (occupied_orbitals k + fst pq))%nat (2 * snd pq)%nat,
      at4 b (2 * (occupied_orbitals k + fst pq))%nat (2 * snd pq)%nat (2 * (occupied_orbitals k + fst pq) + 1)%nat (2 * snd pq + 1)%nat))).
    2:{ intros [p q] H. apply R in H as [H1 H2]. cbn [fst snd]. rewrite get2_ok, get4_ok; [reflexivity|..]; rewrite ?Da, ?Db; cbn [fst snd]; unfold up_index, down_index; lia. }
    cbn [rbind]. rewrite (LayoutProofs.mapM_ok_map _ (fun pqrs => at4 b (2 * (occupied_orbitals k + fst (fst pqrs)))%nat (2 * snd (fst pqrs))%nat (2 * (occupied_orbitals k + fst (snd pqrs)))%nat (2 * snd (snd pqrs))%nat)).
    2:{ intros [[p q] [r s]] H. apply two_of_In in H as [H1 H2]. cbn [fst snd] in *. apply R in H1 as [H1 H3], H2 as [H2 H4]. rewrite get4_ok; [reflexivity|..]; rewrite Db; cbn [fst snd]; unfold up_index, down_index; lia. }
    cbn [rbind]. rewrite orbital_pairs_map, two_of_map, !map_map. reflexivity.
  Qed.
  Lemma count_Z n k : (n mod 2 = 0)%nat -> (k <= n)%nat -> uccsd_singlet_paramsize n k = Ok (Z.of_nat (amplitude_count n k)).
  Proof.
    intros He Hk. unfold uccsd_singlet_paramsize. rewrite He. cbn [Nat.eqb negb]. cbn zeta. f_equal. unfold amplitude_count. cbn zeta. rewrite orbital_pairs_map, two_of_map, !map_length.
    pose proof (two_of_length (virtual_occupied n k)) as T. unfold virtual_occupied in T at 2 3. rewrite product_range_length in T. unfold virtual_occupied at 1 2. rewrite product_range_length.
    assert (V : (occupied_orbitals k <= n / 2)%nat).
    { unfold occupied_orbitals. pose proof (Nat.div_mod n 2 ltac:(lia)). apply Nat.lt_succ_r, Nat.div_lt_upper_bound; lia. }
    assert (E : virtual_orbitals n k = Z.of_nat (n / 2 - occupied_orbitals k)) by (unfold virtual_orbitals; lia). rewrite E in *. rewrite Nat2Z.id in *. set (v := (n / 2 - occupied_orbitals k)%nat) in *. set (o := occupied_orbitals k) in *.
    rewrite <- Nat2Z.inj_mul, (Nat.mul_comm o v). set (m := (v * o)%nat) in *. set (c := length (two_of _)) in *. clearbody m c.
    replace (Z.of_nat m * (Z.of_nat m + 1))%Z with ((Z.of_nat c + Z.of_nat m) * 2)%Z; [rewrite Z.div_mul by lia; lia|]. destruct m as [|m]; [lia|]. replace (S m - 1)%nat with m in T by lia. nia.
  Qed.
End S.
