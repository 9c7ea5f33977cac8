(** C68: freezing orbitals. *)
From Coq Require Import Permutation Sorted Ring.
From Verif Require Import Base BaseFacts MatModel MatFacts LiftSpec LiftProofs OpModel OpSpec OpProofs PauliProofs OpProofs2 FermiModel FermiSpec FermiProofs FermiProofs2 FermiProofs3 FermiProofs7
  ReindexModel ReindexProofs ReindexProofs2 FreezeSpec FreezeProofs FreezeProofs2 GateMatProps.
Open Scope list_scope.
Local Open Scope nat_scope.

Section Freeze.
  Context {K : cring} (same : nat -> nat -> bool) (small nonzero : K -> bool) (n : nat).
  Open Scope K_scope.
  Hypothesis nonzero_ok : forall c : K, nonzero c = false -> c = 0.
  Definition list_of (l : option (list nat)) : list nat := match l with Some l => l | None => [] end.

  Lemma sorted_nth (l : list nat) : StronglySorted lt l -> forall i j, (i < j)%nat -> (j < length l)%nat -> (nth i l 0%nat < nth j l 0%nat)%nat.
  Proof.
    induction 1 as [|x l S IH H]; intros i j Hij Hj; [cbn in Hj; lia|]. destruct j as [|j]; [lia|]. cbn in Hj. destruct i as [|i]; cbn.
    - rewrite Forall_forall in H. apply H, nth_In. lia.
    - apply IH; lia.
  Qed.

  (** The operator before renumbering acts on the modes of the operator that are not frozen, and for every choice of modes to keep that includes
      these, the operator renumbered to them has, between any two occupations, the entry of the original operator between the same occupations
      completed by the frozen ones. *)
  Theorem C68_kept_modes (a : fop K) (occupied : list nat) (unoccupied : option (list nat)) :
    wf_op a -> on_qubits n a -> NoDup occupied -> (forall q, In q occupied -> ~ In q (list_of unoccupied)) ->
    (forall q i, uses a q -> In i (occupied ++ list_of unoccupied) -> same q i = Nat.eqb q i) ->
    exists a' r : fop K, freeze_orbitals same small nonzero a occupied unoccupied = prune_unused_indices Bool.eqb a' /\
      wf_op a' /\ (forall q, uses a' q -> uses a q /\ ~ In q (occupied ++ list_of unoccupied)) /\
      all_small small r /\ (length r <= length (occupied ++ list_of unoccupied) * length a)%nat /\ on_qubits n r /\
      forall modes b u v x y, kept n (occupied ++ list_of unoccupied) modes -> renumbered modes a' b ->
        completes n occupied modes u x -> completes n occupied modes v y ->
        ent (fop_matrix (length modes) b) (bval u) (bval v) + ent (fop_matrix n r) (bval x) (bval y) = ent (fop_matrix n a) (bval x) (bval y).
  Proof.
    intros W Ha N D Hs.
    set (fr := map (fun i => (i, true)) occupied ++ match unoccupied with Some l => map (fun i => (i, false)) l | None => [] end).
    assert (Ef : map fst fr = occupied ++ list_of unoccupied).
    { unfold fr. rewrite map_app, map_map, map_id. destruct unoccupied as [l|]; cbn [list_of map]; [|reflexivity]. rewrite map_map, map_id. reflexivity. }
    destruct (freeze_all same small nonzero n nonzero_ok fr a W Ha) as (W' & U & _ & r & R1 & Rl & R2 & R3).
    { intros q i Hq Hi. apply Hs; [auto|]. rewrite <- Ef. apply in_map. auto. }
    set (b0 := fold_left (freeze_one same small nonzero) fr a) in *.
    set (a' := map (fun tc : fterm * K => (fst tc, sgn (parity occupied (fst tc)) * snd tc)) b0).
    exists a', r. split; [|split; [|split; [|split; [|split; [|split]]]]].
    - unfold freeze_orbitals. fold fr. fold b0. f_equal. apply map_ext. intros [t c]. cbn [fst snd]. f_equal. apply adjusted.
    - unfold wf_op, dkeys, a' in *. rewrite map_map. cbn [fst]. exact W'.
    - intros q (t & c & f & H1 & H2 & H3). rewrite <- Ef. apply U. apply in_map_iff in H1 as ([t' c'] & E & H1). inversion E; subst. exists t, c', f. auto.
    - exact R1.
    - rewrite <- Ef, map_length. exact Rl.
    - intros t c H f Hf. apply (uses_lt n a); [exact Ha|]. apply R2. exists t, c, f. auto.
    - intros modes b u v x y Hk Hb Cx Cy.
      rewrite (renumbered_entry n occupied (occupied ++ list_of unoccupied) modes N (fun q Hq => in_or_app _ _ _ (or_introl Hq)) Hk u v x y b0 b Cx Cy Hb).
      rewrite !fop_ent. apply R3; [apply Cx|apply Cy|]. intros p d Hp. unfold fr in Hp. destruct Cx as (_ & _ & C1 & _ & C3), Cy as (_ & _ & D1 & _ & D3).
      apply in_app_iff in Hp as [Hp|Hp].
      + apply in_map_iff in Hp as (q & E & Hq). inversion E; subst. auto.
      + destruct unoccupied as [l|]; [|destruct Hp]. apply in_map_iff in Hp as (q & E & Hq). inversion E; subst.
        assert (H1 : ~ In p occupied) by (intros H; apply (D p H); auto).
        assert (H2 : ~ In p modes) by (intros H; apply (proj2 (proj2 Hk p H)); apply in_app_iff; auto). auto.
  Qed.

  (** The result: its modes are the modes left, in their order, and its entries are those of the original operator between states with the frozen
      occupations. *)
  Theorem C68_result (a : fop K) (occupied : list nat) (unoccupied : option (list nat)) :
    wf_op a -> on_qubits n a -> NoDup occupied -> (forall q, In q occupied -> ~ In q (list_of unoccupied)) ->
    (forall q i, uses a q -> In i (occupied ++ list_of unoccupied) -> same q i = Nat.eqb q i) ->
    let b := freeze_orbitals same small nonzero a occupied unoccupied in
    exists (modes : list nat) (r : fop K),
      kept n (occupied ++ list_of unoccupied) modes /\ (forall i, uses b i <-> i < length modes) /\ all_small small r /\ (length r <= length (occupied ++ list_of unoccupied) * length a)%nat /\ on_qubits n r /\
      forall u v x y, completes n occupied modes u x -> completes n occupied modes v y ->
        ent (fop_matrix (length modes) b) (bval u) (bval v) + ent (fop_matrix n r) (bval x) (bval y) = ent (fop_matrix n a) (bval x) (bval y).
  Proof.
    intros W Ha N D Hs. cbn zeta. destruct (C68_kept_modes a occupied unoccupied W Ha N D Hs) as (a' & r & E & W' & U & R1 & Rl & R2 & R3). rewrite E.
    destruct (indices_spec a') as [Ss Su]. pose proof (prune_map _ bool_eqb_spec a' W') as P.
    assert (Hk : kept n (occupied ++ list_of unoccupied) (indices a')).
    { split; [apply sorted_nth, Ss|]. intros q Hq. apply Su, U in Hq as [Hq Hn]. split; [apply (uses_lt n a); auto|auto]. }
    exists (indices a'), r. split; [exact Hk|]. split; [|split; [exact R1|split; [exact Rl|split; [exact R2|]]]].
    - intros i. rewrite P. rewrite rank_onto. split.
      + intros (t & c & f & H1 & H2 & <-). apply in_map_iff in H1 as ([t' c'] & Q & H1). inversion Q; subst. unfold rename in H2. apply in_map_iff in H2 as (g & <- & H2).
        exists (fst g). split; [exists t', c, g; auto|reflexivity].
      + intros (q & (t & c & f & H1 & H2 & <-) & <-). exists (rename (rank a') t), c, (rank a' (fst f), snd f). split; [|split; [|reflexivity]].
        * apply in_map_iff. exists (t, c). auto.
        * unfold rename. apply in_map_iff. exists f. auto.
    - intros u v x y Cx Cy. apply R3; auto. rewrite P.
      assert (G : forall l : fop K, incl l a' -> renumbered (indices a') l (map (fun tc => (rename (rank a') (fst tc), snd tc)) l)).
      { induction l as [|[t c] l IH]; intros Hl; [constructor|]. constructor; [|apply IH; intros z Hz; apply Hl; right; auto]. cbn [fst snd]. split; [reflexivity|].
        assert (T : forall s : fterm, incl s t -> Forall2 (fun f g : factor bool => fst g < length (indices a') /\ fst f = nth (fst g) (indices a') 0%nat /\ snd f = snd g) s (rename (rank a') s)).
        { induction s as [|f s IHs]; intros Hi; [constructor|]. constructor; [|apply IHs; intros z Hz; apply Hi; right; auto]. cbn [fst snd].
          assert (If : In (fst f) (indices a')) by (apply Su; exists t, c, f; split; [apply Hl; left; auto|split; [apply Hi; left; auto|auto]]).
          destruct (index_of_nth _ _ If) as [I1 I2]. unfold rank. auto. }
        apply T, incl_refl. }
      apply G, incl_refl.
  Qed.
  (** When sums only drop exact zeros, the entries are equal. *)
  Theorem C68_exact (a : fop K) (occupied : list nat) (unoccupied : option (list nat)) :
    wf_op a -> on_qubits n a -> NoDup occupied -> (forall q, In q occupied -> ~ In q (list_of unoccupied)) ->
    (forall q i, uses a q -> In i (occupied ++ list_of unoccupied) -> same q i = Nat.eqb q i) -> only_zero small ->
    let b := freeze_orbitals same small nonzero a occupied unoccupied in
    exists modes : list nat, kept n (occupied ++ list_of unoccupied) modes /\ (forall i, uses b i <-> i < length modes) /\
      forall u v x y, completes n occupied modes u x -> completes n occupied modes v y ->
        ent (fop_matrix (length modes) b) (bval u) (bval v) = ent (fop_matrix n a) (bval x) (bval y).
  Proof.
    intros W Ha N D Hs Hz. cbn zeta. destruct (C68_result a occupied unoccupied W Ha N D Hs) as (modes & r & Hk & U & R1 & _ & R2 & R3). exists modes. split; [auto|]. split; [auto|].
    intros u v x y Cx Cy. rewrite <- (R3 u v x y Cx Cy). rewrite (fop_ent n r), (lval_small small _ r R1 Hz). rewrite (Radd_comm (kth K)). symmetry. apply (Radd_0_l (kth K)).
  Qed.
End Freeze.

(** ** Examples and refuted claims, over the integers *)
Definition is_zero (c : ZR) : bool := Z.eqb c 0.
Definition not_zero (c : ZR) : bool := negb (Z.eqb c 0).
Definition ex_op : fop ZR := [([(0, true); (2, false)], 3%Z); ([(1, true); (1, false)], 5%Z); ([(2, true); (1, true); (1, false); (3, false)], 7%Z); ([(1, true); (2, false)], 4%Z)].
Example C68_ex_value : freeze_orbitals (K := ZR) Nat.eqb is_zero not_zero ex_op [1] (Some [0]) =
  [([], 5%Z); ([(0, true); (1, false)], 7%Z)].
Proof. vm_compute. reflexivity. Qed.
Example C68_ex_hypotheses : wf_op ex_op /\ on_qubits 4 ex_op /\ NoDup [1] /\ (forall q, In q [1] -> ~ In q (list_of (Some [0]))) /\
  (forall q i, uses ex_op q -> In i ([1] ++ list_of (Some [0])) -> Nat.eqb q i = Nat.eqb q i) /\ only_zero is_zero /\ (forall c, not_zero c = false -> c = k0) /\
  kept 4 [1; 0] [2; 3] /\ completes 4 [1] [2; 3] [true; false] [false; true; true; false] /\ completes 4 [1] [2; 3] [false; true] [false; true; false; true] /\
  ent (fop_matrix 4 ex_op) (bval [false; true; true; false]) (bval [false; true; false; true]) = 7%Z.
Proof.
  split. { unfold wf_op. cbn. repeat constructor; cbn; intuition discriminate. }
  split. { intros t c H f Hf. cbn in H. repeat (destruct H as [H|H]; [inversion H; subst; cbn in Hf; repeat (destruct Hf as [<-|Hf]; [cbn; lia|]); destruct Hf|]). destruct H. }
  split; [repeat constructor; intros []|]. split; [intros q [<-|[]] [H|[]]; discriminate|]. split; [auto|].
  split; [intros c H; apply Z.eqb_eq; exact H|]. split; [intros c H; apply Z.eqb_eq, negb_false_iff; exact H|].
  split. { split; [intros i j Hij Hj; cbn in Hj; destruct j as [|[|]], i as [|[|]]; cbn; lia|]. intros q [<-|[<-|[]]]; (split; [lia|]); intros [H|[H|[]]]; discriminate. }
  assert (Q : forall b1 b2 : bool, completes 4 [1] [2; 3] [b1; b2] [false; true; b1; b2]).
  { intros b1 b2. split; [reflexivity|]. split; [reflexivity|]. split; [intros q [<-|[]]; reflexivity|]. split.
    - intros i Hi. cbn in Hi. destruct i as [|[|]]; try lia; reflexivity.
    - intros q H1 H2. destruct q as [|[|[|[|[|]]]]]; try reflexivity; exfalso; [apply H1|apply H2|apply H2]; cbn; auto. }
  split; [apply Q|]. split; [apply Q|]. vm_compute. reflexivity.
Qed.

(** Indices above 256: equal integers need not be the same object, and the orbital is then not frozen. *)
Definition cpython_same (i j : nat) : bool := Nat.eqb i j && (i <=? 256).
Theorem C68_large_index_refuted : exists a : fop ZR,
  freeze_orbitals cpython_same is_zero not_zero a [257] None = [([(0, true); (0, false)], 1%Z)] /\
  freeze_orbitals Nat.eqb is_zero not_zero a [257] None = [([], 1%Z)].
Proof. exists [([(257, true); (257, false)], 1%Z)]. split; vm_compute; reflexivity. Qed.
(** An orbital listed twice: the sign is applied twice, that is, not at all. *)
Theorem C68_duplicate_refuted : exists (a b : fop ZR),
  freeze_orbitals Nat.eqb is_zero not_zero a [1; 1] None = b /\ wf_op a /\ on_qubits 3 a /\
  exists u v x y, completes 3 [1; 1] [0; 2] u x /\ completes 3 [1; 1] [0; 2] v y /\
    ent (fop_matrix 2 b) (bval u) (bval v) <> ent (fop_matrix 3 a) (bval x) (bval y).
Proof.
  exists [([(0, true); (2, false)], 1%Z)], [([(0, true); (1, false)], 1%Z)]. split; [vm_compute; reflexivity|].
  split; [unfold wf_op; cbn; repeat constructor; intros []|].
  split. { intros t c [H|[]] f Hf. inversion H; subst. destruct Hf as [<-|[<-|[]]]; cbn; lia. }
  assert (Q : forall b1 b2 : bool, completes 3 [1; 1] [0; 2] [b1; b2] [b1; true; b2]).
  { intros b1 b2. split; [reflexivity|]. split; [reflexivity|]. split; [intros q [<-|[<-|[]]]; reflexivity|]. split.
    - intros i Hi. cbn in Hi. destruct i as [|[|]]; try lia; reflexivity.
    - intros q H1 H2. destruct q as [|[|[|[|]]]]; try reflexivity; exfalso; [apply H2|apply H1|apply H2]; cbn; auto. }
  exists [true; false], [false; true], [true; true; false], [false; true; true]. split; [apply Q|]. split; [apply Q|]. vm_compute. discriminate.
Qed.
Print Assumptions C68_exact.
Print Assumptions C68_duplicate_refuted.
