(** Proofs for C71: the edges of the grid, and the loop over the sites. *)
From Coq Require Import ZArith Ring.
From Verif Require Import Base BaseFacts MatModel MatFacts LiftSpec LiftProofs OpModel OpSpec OpProofs PauliProofs OpProofs2 ConjProofs BackendProofs
  FermiModel FermiSpec FermiProofs FermiProofs2 FermiProofs3 FermiProofs4 FermiProofs6 FermiProofs7 RevJWModel RevJWSpec RevJWProofs RevJWProps HubbardModel HubbardSpec.
Open Scope list_scope.
Local Open Scope nat_scope.

(** ** The grid *)
Section Grid.
  Context (X Y : nat) (per : bool).
  Lemma site_col r c : c < X -> column X (X * r + c) = c /\ row X (X * r + c) = r.
  Proof. intros H. unfold column, row. rewrite (Nat.mul_comm X r), Nat.add_comm, Nat.mod_add, Nat.div_add, Nat.mod_small, Nat.div_small by lia. lia. Qed.
  Lemma site_split s : s < X * Y -> s = X * row X s + column X s /\ column X s < X /\ row X s < Y.
  Proof.
    intros H. assert (X <> 0) by (intros ->; lia). unfold column, row. split; [apply Nat.div_mod; auto|]. split; [apply Nat.mod_upper_bound; auto|].
    apply Nat.div_lt_upper_bound; auto.
  Qed.
  Lemma site_lt r c : c < X -> r < Y -> X * r + c < X * Y.
  Proof. nia. Qed.
  Lemma site_eqb r c r' c' : c < X -> c' < X -> (X * r + c =? X * r' + c') = (r =? r') && (c =? c').
  Proof.
    intros H H'. destruct (site_col r c H) as [C1 R1], (site_col r' c' H') as [C2 R2]. apply eq_true_iff_eq. rewrite andb_true_iff, !Nat.eqb_eq. split; [|intros [-> ->]; reflexivity].
    intros E. rewrite E in C1, R1. lia.
  Qed.
  Definition nxt (d i : nat) : option nat := if S i =? d then if per && (3 <=? d) then Some 0 else None else Some (S i).
  Lemma right_eq r c : c < X -> r < Y -> fst (neighbors (X * r + c) X Y per) = option_map (fun c' => X * r + c') (nxt X c).
  Proof.
    intros Hc Hr. unfold neighbors, right_neighbor, nxt. cbn [fst].
    assert (E : ((X * r + c + 1) mod X =? 0) = (S c =? X)).
    { replace (X * r + c + 1) with (S c + r * X) by lia. rewrite Nat.mod_add by lia. destruct (Nat.eqb_spec (S c) X) as [->|N]; [rewrite Nat.mod_same by lia; reflexivity|]. rewrite Nat.mod_small by lia. reflexivity. }
    rewrite E. destruct (Nat.eqb_spec X 2) as [E2|N2].
    - assert (M : (X * r + c) mod 2 = c) by (pose proof (proj1 (site_col r c Hc)) as Q; unfold column in Q; rewrite E2 in Q at 2; exact Q).
      rewrite M. replace (X =? 1) with false by (symmetry; apply Nat.eqb_neq; lia). replace (3 <=? X) with false by (symmetry; apply Nat.leb_gt; lia). rewrite andb_false_r. cbn [andb].
      destruct (Nat.eqb_spec (S c) X) as [Ec|Ec].
      + replace (c =? 1) with true by (symmetry; apply Nat.eqb_eq; lia). destruct per; reflexivity.
      + replace (c =? 1) with false by (symmetry; apply Nat.eqb_neq; lia). rewrite andb_false_r. cbn [option_map]. f_equal. lia.
    - cbn [andb]. destruct (Nat.eqb_spec X 1) as [E1|N1].
      { replace (S c =? X) with true by (symmetry; apply Nat.eqb_eq; lia). replace (3 <=? X) with false by (symmetry; apply Nat.leb_gt; lia). rewrite andb_false_r. reflexivity. }
      destruct (Nat.eqb_spec (S c) X) as [Ec|Ec]; [|cbn [option_map]; f_equal; lia].
      replace (3 <=? X) with true by (symmetry; apply Nat.leb_le; lia). rewrite andb_true_r. destruct per; [cbn [option_map]; f_equal; lia|reflexivity].
  Qed.
  Lemma bottom_eq r c : c < X -> r < Y -> snd (neighbors (X * r + c) X Y per) = option_map (fun r' => X * r' + c) (nxt Y r).
  Proof.
    intros Hc Hr. unfold neighbors, bottom_neighbor, nxt. cbn [snd].
    assert (E : (X * Y <? X * r + c + X + 1) = (S r =? Y)).
    { apply eq_true_iff_eq. rewrite Nat.ltb_lt, Nat.eqb_eq. nia. }
    rewrite E. assert (L : X <=? X * r + c = negb (r =? 0)).
    { apply eq_true_iff_eq. rewrite Nat.leb_le, negb_true_iff, Nat.eqb_neq. nia. }
    rewrite L. destruct (Nat.eqb_spec Y 2) as [E2|N2].
    - replace (Y =? 1) with false by (symmetry; apply Nat.eqb_neq; lia). replace (3 <=? Y) with false by (symmetry; apply Nat.leb_gt; lia). rewrite andb_false_r. cbn [andb].
      destruct (Nat.eqb_spec (S r) Y) as [Ec|Ec].
      + replace (r =? 0) with false by (symmetry; apply Nat.eqb_neq; lia). destruct per; reflexivity.
      + replace (r =? 0) with true by (symmetry; apply Nat.eqb_eq; lia). rewrite andb_false_r. cbn [option_map]. f_equal. nia.
    - cbn [andb]. destruct (Nat.eqb_spec Y 1) as [E1|N1].
      { replace (S r =? Y) with true by (symmetry; apply Nat.eqb_eq; lia). replace (3 <=? Y) with false by (symmetry; apply Nat.leb_gt; lia). rewrite andb_false_r. reflexivity. }
      destruct (Nat.eqb_spec (S r) Y) as [Ec|Ec]; [|cbn [option_map]; f_equal; nia].
      replace (3 <=? Y) with true by (symmetry; apply Nat.leb_le; lia). rewrite andb_true_r. destruct per; [cbn [option_map]; f_equal; nia|reflexivity].
  Qed.
  Definition is (o : option nat) (t : nat) : bool := match o with Some u => u =? t | None => false end.
  Lemma nxt_lt d i j : i < d -> nxt d i = Some j -> j < d.
  Proof.
    unfold nxt. intros H. destruct (Nat.eqb_spec (S i) d); [|intros E; inversion E; lia]. destruct (per && _); intros E; inversion E. lia.
  Qed.
  (** of the two directions, exactly one is a step when two places are beside each other, and none otherwise *)
  Lemma nxt_beside d i j : i < d -> j < d -> is (nxt d i) j || is (nxt d j) i = beside per d i j /\ is (nxt d i) j && is (nxt d j) i = false.
  Proof.
    intros Hi Hj. unfold nxt, beside, is.
    destruct (Nat.eqb_spec (S i) d), (Nat.eqb_spec (S j) d), (Nat.leb_spec 3 d), per; cbn [andb orb negb];
      repeat match goal with |- context [?a =? ?b] => destruct (Nat.eqb_spec a b) end; cbn [andb orb negb]; split; try reflexivity; exfalso; lia.
  Qed.
  Lemma nxt_self d i : i < d -> is (nxt d i) i = false.
  Proof.
    intros Hi. unfold nxt, is. destruct (Nat.eqb_spec (S i) d), (Nat.leb_spec 3 d), per; cbn [andb]; auto; apply Nat.eqb_neq; lia.
  Qed.
  Lemma right_is r c r' c' : c < X -> r < Y -> c' < X -> is (fst (neighbors (X * r + c) X Y per)) (X * r' + c') = (r =? r') && is (nxt X c) c'.
  Proof.
    intros Hc Hr Hc'. rewrite right_eq by auto. pose proof (nxt_lt X c) as L. destruct (nxt X c) as [d|]; cbn [option_map is]; [|rewrite andb_false_r; reflexivity].
    apply site_eqb; auto.
  Qed.
  Lemma bottom_is r c r' c' : c < X -> r < Y -> c' < X -> is (snd (neighbors (X * r + c) X Y per)) (X * r' + c') = (c =? c') && is (nxt Y r) r'.
  Proof.
    intros Hc Hr Hc'. rewrite bottom_eq by auto. destruct (nxt Y r) as [d|]; cbn [option_map is]; [|rewrite andb_false_r; reflexivity].
    rewrite site_eqb by auto. apply andb_comm.
  Qed.
  Lemma neighbors_lt s t : s < X * Y -> (fst (neighbors s X Y per) = Some t \/ snd (neighbors s X Y per) = Some t) -> t < X * Y.
  Proof.
    intros Hs. destruct (site_split s Hs) as (E & Hc & Hr). rewrite E, right_eq, bottom_eq by auto.
    intros [H|H].
    - pose proof (nxt_lt X (column X s)) as L. destruct (nxt X (column X s)) as [d|]; cbn [option_map] in H; inversion H; subst. apply site_lt; auto.
    - pose proof (nxt_lt Y (row X s)) as L. destruct (nxt Y (row X s)) as [d|]; cbn [option_map] in H; inversion H; subst. apply site_lt; auto.
  Qed.

  Context {K : cring}.
  Add Ring Kring_hub1 : (kth K).
  Open Scope K_scope.
  Definition opt (f : nat -> nat -> K) (s : nat) (o : option nat) : K := match o with Some t => f s t | None => 0 end.
  Lemma opt_sum f s o N : (forall t, o = Some t -> (t < N)%nat) -> opt f s o = bigsum N (fun t => if is o t then f s t else 0).
  Proof.
    destruct o as [u|]; cbn [opt is]; intros H.
    - rewrite (bigsum_single N u); [rewrite Nat.eqb_refl; reflexivity|auto|]. intros i Hi Hn. replace (u =? i)%nat with false by (symmetry; apply Nat.eqb_neq; auto). reflexivity.
    - symmetry. apply bigsum_0. auto.
  Qed.
  Lemma pairs N (G : nat -> nat -> K) : bigsum N (fun s => bigsum N (G s)) = bigsum N (fun t => bigsum t (fun s => G s t + G t s)) + bigsum N (fun s => G s s).
  Proof.
    induction N as [|N IH]; [cbn; ring|]. cbn [bigsum]. rewrite bigsum_add. transitivity (bigsum N (fun s => bigsum N (G s)) + bigsum N (fun s => G s N) + (bigsum N (G N) + G N N)); [f_equal; symmetry; apply bigsum_add|].
    rewrite IH, bigsum_add. ring.
  Qed.
  (** the steps of the loop run through every edge once *)
  Lemma edges (f : nat -> nat -> K) : (forall s t, (s < X * Y)%nat -> (t < X * Y)%nat -> f s t = f t s) ->
    bigsum (X * Y) (fun s => opt f s (fst (neighbors s X Y per)) + opt f s (snd (neighbors s X Y per))) = over_edges per X Y f.
  Proof.
    intros Hf. unfold over_edges.
    transitivity (bigsum (X * Y) (fun s => bigsum (X * Y) (fun t => (if is (fst (neighbors s X Y per)) t then f s t else 0) + (if is (snd (neighbors s X Y per)) t then f s t else 0)))).
    { apply bigsum_ext. intros s Hs. rewrite (opt_sum f s _ (X * Y)), (opt_sum f s (snd _) (X * Y)) by (intros t Ht; apply (neighbors_lt s t Hs); auto). rewrite bigsum_add. reflexivity. }
    rewrite pairs. rewrite (bigsum_0 (X * Y) (fun s => _ + _)).
    2:{ intros s Hs. destruct (site_split s Hs) as (E & Hc & Hr). 
        assert (A1 : is (fst (neighbors s X Y per)) s = (row X s =? row X s) && is (nxt X (column X s)) (column X s)) by (rewrite E at 1 2; apply right_is; auto).
        assert (A2 : is (snd (neighbors s X Y per)) s = (column X s =? column X s) && is (nxt Y (row X s)) (row X s)) by (rewrite E at 1 2; apply bottom_is; auto).
        rewrite A1, A2, !nxt_self, !andb_false_r by auto. ring. }
    match goal with |- ?A + 0 = ?B => transitivity A; [ring|] end. apply bigsum_ext. intros t Ht. apply bigsum_ext. intros s Hs'. assert (Hs : (s < X * Y)%nat) by lia.
    rewrite (Hf t s Ht Hs). destruct (site_split s Hs) as (Es & Hcs & Hrs). destruct (site_split t Ht) as (Et & Hct & Hrt).
    assert (A1 : is (fst (neighbors s X Y per)) t = (row X s =? row X t) && is (nxt X (column X s)) (column X t)) by (rewrite Es at 1; rewrite Et at 1; apply right_is; auto).
    assert (A2 : is (snd (neighbors s X Y per)) t = (column X s =? column X t) && is (nxt Y (row X s)) (row X t)) by (rewrite Es at 1; rewrite Et at 1; apply bottom_is; auto).
    assert (A3 : is (fst (neighbors t X Y per)) s = (row X t =? row X s) && is (nxt X (column X t)) (column X s)) by (rewrite Et at 1; rewrite Es at 1; apply right_is; auto).
    assert (A4 : is (snd (neighbors t X Y per)) s = (column X t =? column X s) && is (nxt Y (row X t)) (row X s)) by (rewrite Et at 1; rewrite Es at 1; apply bottom_is; auto).
    rewrite A1, A2, A3, A4. unfold connected. rewrite (Nat.eqb_sym (row X t)), (Nat.eqb_sym (column X t)).
    destruct (nxt_beside X (column X s) (column X t) Hcs Hct) as [B1 B2], (nxt_beside Y (row X s) (row X t) Hrs Hrt) as [B3 B4]. rewrite <- B1, <- B3.
    assert (D : (row X s =? row X t) && (column X s =? column X t) = false).
    { apply not_true_iff_false. rewrite andb_true_iff, !Nat.eqb_eq. intros [D1 D2]. rewrite D1, D2 in Es. lia. }
    destruct (row X s =? row X t)%nat, (column X s =? column X t)%nat; try discriminate D; cbn [andb orb];
      destruct (is (nxt X (column X s)) (column X t)), (is (nxt X (column X t)) (column X s)), (is (nxt Y (row X s)) (row X t)), (is (nxt Y (row X t)) (row X s)); try discriminate B2; try discriminate B4; cbn [orb]; ring.
  Qed.
End Grid.

(** ** The loop over the sites *)
Section Loop.
  Context {K : cring} (half : K) (small : K -> bool) (Hh : small (ksub k0 half) = false) (n : nat).
  Add Ring Kring_hub2 : (kth K).
  Open Scope K_scope.
  Notation F := (fop_matrix (K := K) n).
  Notation fadd := (fermion_add small).
  Definition at_ (a : fop K) (x y : list bool) : K := ent (F a) (bval x) (bval y).
  (** [o] denotes the entries [V] up to at most [k] dropped terms *)
  Definition acc (o : fop K) (k : nat) (V : list bool -> list bool -> K) : Prop :=
    on_qubits n o /\ exists r : fop K, all_small small r /\ (length r <= k)%nat /\ on_qubits n r /\
      forall x y, length x = n -> length y = n -> at_ o x y + at_ r x y = V x y.
  Lemma acc_exact (o : fop K) V : on_qubits n o -> (forall x y, length x = n -> length y = n -> at_ o x y = V x y) -> acc o 0 V.
  Proof.
    intros Ho H. split; [auto|]. exists []. split; [constructor|]. split; [cbn; lia|]. split; [intros ? ? []|]. intros x y Hx Hy. rewrite H by auto. unfold at_. cbn. ring.
  Qed.
  Lemma acc_ext o k k' V W : acc o k V -> (k <= k')%nat -> (forall x y, length x = n -> length y = n -> V x y = W x y) -> acc o k' W.
  Proof. intros (Ho & r & R1 & R2 & R3 & R4) Hk H. split; [auto|]. exists r. split; [auto|]. split; [lia|]. split; [auto|]. intros x y Hx Hy. rewrite R4, H; auto. Qed.
  Lemma acc_add o b k kb m V W : acc o k V -> acc b kb W -> (length b <= m)%nat -> acc (fadd o b) (k + kb + m) (fun x y => V x y + W x y).
  Proof.
    intros (Ho & r & R1 & R2 & R3 & R4) (Hb & q & Q1 & Q2 & Q3 & Q4) Hm. split; [apply fadd_on; auto|].
    destruct (add_count Bool.eqb bool_eqb_spec small b o) as (p & P1 & P2 & P3 & P4).
    exists (r ++ q ++ p). split; [apply Forall_app; split; [auto|]; apply Forall_app; auto|]. split; [rewrite !app_length; lia|]. split.
    - intros t c Ht f Hf. apply in_app_iff in Ht as [Ht|Ht]; [eapply R3; eauto|]. apply in_app_iff in Ht as [Ht|Ht]; [eapply Q3; eauto|].
      assert (I : In t (dkeys b)) by (apply P2; exact (in_map fst p (t, c) Ht)). apply in_map_iff in I as ([u d] & <- & I). eapply Hb; eauto.
    - intros x y Hx Hy. rewrite <- R4, <- Q4 by auto. unfold at_. rewrite !fop_ent, !lval_app. specialize (P4 (fun t => ent (fterm_matrix n t) (bval x) (bval y))).
      unfold fermion_add. match type of P4 with ?a + ?b = ?c + ?d => match goal with |- ?e + (?f + (?g + ?h)) = _ => change e with a; change h with b; transitivity (a + b + f + g); [ring|]; rewrite P4 end end. ring.
  Qed.
  Definition move (i j : nat) (x y : list bool) : K := ent (mmul (ladder_matrix (K := K) n (i, true)) (ladder_matrix n (j, false))) (bval x) (bval y).
  Lemma move_ent i j x y : length x = n -> length y = n -> ent (fterm_matrix (K := K) n [(i, true); (j, false)]) (bval x) (bval y) = move i j x y.
  Proof.
    intros Hx Hy. unfold move. cbn [fterm_matrix fold_right].
    assert (E : meq (mmul (ladder_matrix (K := K) n (i, true)) (mmul (ladder_matrix n (j, false)) (eye (2 ^ n)))) (mmul (ladder_matrix (K := K) n (i, true)) (ladder_matrix n (j, false)))).
    { apply (mmul_sq (2 ^ n)); [split; reflexivity|split; reflexivity|reflexivity|]. apply eye_r_sq. split; reflexivity. }
    destruct E as (_ & _ & E). assert (Bx : (bval x < 2 ^ n)%nat) by (rewrite <- Hx; apply bval_lt). assert (By : (bval y < 2 ^ n)%nat) by (rewrite <- Hy; apply bval_lt). apply E; cbn; auto.
  Qed.
  Lemma hop_acc i j c : (i < n)%nat -> (j < n)%nat -> acc (hopping_term small i j c) 1 (fun x y => c * move i j x y + kconj c * move j i x y) /\ (length (hopping_term small i j c) <= 2)%nat.
  Proof.
    intros Hi Hj. split; [|apply (merge_length Bool.eqb small kadd)].
    assert (G : forall p q d, (p < n)%nat -> (q < n)%nat -> acc (fermion_op [(p, true); (q, false)] d) 0 (fun x y => d * move p q x y)).
    { intros p q d Hp Hq. apply acc_exact.
      - intros t e [E|[]] f Hf. inversion E; subst. destruct Hf as [<-|[<-|[]]]; cbn; auto.
      - intros x y Hx Hy. unfold at_. rewrite fop_ent. cbn [fermion_op mk_op fermion_simplify lval fst snd]. rewrite move_ent by auto. ring. }
    eapply acc_ext; [apply (acc_add _ _ 0 0 1); [apply (G i j); auto|apply (G j i); auto|cbn; lia]|lia|]. reflexivity.
  Qed.
  Definition diag (a : fop K) (v : list bool -> K) : Prop := forall x y, length x = n -> length y = n -> at_ a x y = if list_eqb Bool.eqb x y then v x else 0.
  Lemma diag_mul a b v w : diag a v -> diag b w -> diag (fermion_mul a b) (fun x => v x * w x).
  Proof.
    intros Ha Hb x y Hx Hy. unfold at_. destruct (fop_mul_matrix n a b) as (S1 & S2 & E).
    assert (Bx : (bval x < 2 ^ n)%nat) by (rewrite <- Hx; apply bval_lt). assert (By : (bval y < 2 ^ n)%nat) by (rewrite <- Hy; apply bval_lt).
    rewrite E by (rewrite ?(proj1 (fop_shape n _)), ?(proj2 (fop_shape n _)); auto).
    cbn [ent mmul]. rewrite (proj2 (fop_shape n a)). rewrite (bigsum_single (2 ^ n) (bval x)).
    - pose proof (Ha x x Hx Hx) as A. pose proof (Hb x y Hx Hy) as B. unfold at_ in A, B. rewrite A, B. rewrite (proj2 (list_eqb_spec _ bool_eqb_spec x x) eq_refl). destruct (list_eqb Bool.eqb x y); ring.
    - exact Bx.
    - intros k Hk Hn. rewrite <- (bval_bits_small n k Hk). pose proof (Ha x (bits n k) Hx (bits_length n k)) as A. unfold at_ in A. rewrite A.
      replace (list_eqb Bool.eqb x (bits n k)) with false; [ring|]. symmetry. apply not_true_iff_false. intros Q. apply (list_eqb_spec _ bool_eqb_spec) in Q. subst x. apply Hn. symmetry. apply bval_bits_small. auto.
  Qed.
  Lemma number_diag m c : (m < n)%nat -> diag [([(m, true); (m, false)], c)] (fun x => c * occupation x m).
  Proof.
    intros Hm x y Hx Hy. unfold at_. rewrite number_ent by auto. unfold occupation. destruct (list_eqb Bool.eqb x y) eqn:E; [|reflexivity].
    apply (list_eqb_spec _ bool_eqb_spec) in E. subst y. destruct (nth m x false); ring.
  Qed.
  Definition counted (ph : bool) (m : nat) (c : K) : fop K := ([(m, true); (m, false)], c) :: (if ph then [([], 0 - half)] else []).
  Lemma shift_eq m : fermion_sub small (fermion_op [(m, true); (m, false)] 1) (fermion_op [] half) = counted true m 1.
  Proof. unfold fermion_sub, op_sub. cbn [fermion_op mk_op fermion_simplify fold_left]. unfold merge_term. cbn [fst snd dget dset term_eqb list_eqb]. rewrite Hh. reflexivity. Qed.
  Lemma counted_diag ph m c : (m < n)%nat -> diag (op_scale (counted ph m 1) c) (fun x => c * shifted half ph x m).
  Proof.
    intros Hm x y Hx Hy. unfold at_. rewrite fop_ent. unfold counted. cbn [op_scale map lval fst snd].
    pose proof (number_diag m 1 Hm x y Hx Hy) as N. unfold at_ in N. rewrite fop_ent in N. cbn [lval fst snd] in N.
    assert (N' : ent (fterm_matrix (K := K) n [(m, true); (m, false)]) (bval x) (bval y) = if list_eqb Bool.eqb x y then occupation x m else 0).
    { transitivity (1 * ent (fterm_matrix (K := K) n [(m, true); (m, false)]) (bval x) (bval y) + 0); [ring|]. etransitivity; [exact N|]. destruct (list_eqb Bool.eqb x y); ring. }
    rewrite N'. unfold shifted. destruct ph; cbn [map lval fst snd fterm_matrix fold_right ent eye]; [|destruct (list_eqb Bool.eqb x y); ring].
    rewrite eqb_bval by congruence. destruct (list_eqb Bool.eqb x y); cbn [delta]; ring.
  Qed.
  Lemma counted_on ph m c : (m < n)%nat -> on_qubits n (counted ph m c).
  Proof.
    intros Hm t e [E|Hin] f Hf; [inversion E; subst; destruct Hf as [<-|[<-|[]]]; exact Hm|]. destruct ph; [|destruct Hin]. destruct Hin as [E|[]]. inversion E; subst. destruct Hf.
  Qed.
  Lemma coulomb_acc ns i j U ph : (i < n)%nat -> (j < n)%nat -> exists o, coulomb_interaction_term half small ns i j U ph = Ok o /\ (length o <= 4)%nat /\
    acc o 0 (fun x y => if list_eqb Bool.eqb x y then U * (shifted half ph x i * shifted half ph x j) else 0).
  Proof.
    intros Hi Hj. exists (fermion_mul (op_scale (counted ph i 1) U) (counted ph j 1)). split; [|split].
    - unfold coulomb_interaction_term, number_operator. cbn [Z.eqb Pos.eqb negb rbind]. destruct ph; [rewrite !shift_eq; reflexivity|reflexivity].
    - etransitivity; [apply (mul_length Bool.eqb)|]. unfold op_scale, counted. rewrite map_length. destruct ph; cbn; lia.
    - apply acc_exact.
      + apply fmul_on; [|apply counted_on; auto]. pose proof (counted_on ph i 1 Hi) as H. intros t e He f Hf. unfold op_scale in He. apply in_map_iff in He as ([u d] & E & He). inversion E; subst. eapply H; eauto.
      + assert (Dj : diag (counted ph j 1) (fun x => shifted half ph x j)).
        { intros x y Hx Hy. pose proof (counted_diag ph j 1 Hj x y Hx Hy) as D. unfold at_ in *. rewrite fop_ent in *. etransitivity; [|etransitivity; [exact D|]].
          - unfold counted. destruct ph; cbn [op_scale map lval fst snd]; ring.
          - destruct (list_eqb Bool.eqb x y); ring. }
        intros x y Hx Hy. rewrite (diag_mul _ _ _ _ (counted_diag ph i U Hi) Dj x y Hx Hy). destruct (list_eqb Bool.eqb x y); ring.
  Qed.
  Lemma number_acc m c : (m < n)%nat -> acc [([(m, true); (m, false)], c)] 0 (fun x y => if list_eqb Bool.eqb x y then c * occupation x m else 0).
  Proof. intros Hm. apply acc_exact; [apply (counted_on false); auto|apply number_diag; auto]. Qed.
  Lemma acc_nil : acc [] 0 (fun _ _ => 0).
  Proof. apply acc_exact; [intros ? ? []|reflexivity]. Qed.

  (** the loop *)
  Lemma loop_acc (f : fop K -> nat -> result (fop K)) (W : nat -> list bool -> list bool -> K) k N :
    (forall s o j V, (s < N)%nat -> acc o j V -> exists o', f o s = Ok o' /\ acc o' (j + k) (fun x y => V x y + W s x y)) ->
    exists o, foldM f (seq 0 N) [] = Ok o /\ acc o (N * k) (fun x y => bigsum N (fun s => W s x y)).
  Proof.
    intros H. assert (G : forall m, (m <= N)%nat -> exists o, foldM f (seq 0 m) [] = Ok o /\ acc o (m * k) (fun x y => bigsum m (fun s => W s x y))).
    { induction m as [|m IH]; intros Hm; [exists []; split; [reflexivity|]; apply acc_nil|]. destruct IH as (o & E & A); [lia|].
      destruct (H m o _ _ Hm A) as (o' & E' & A'). exists o'. split.
      - rewrite seq_S, foldM_app, E. cbn [rbind foldM Nat.add]. rewrite E'. reflexivity.
      - eapply acc_ext; [exact A'|lia|]. intros x y _ _. reflexivity. }
    apply (G N). lia.
  Qed.
End Loop.
