(** Sparse matrices of operators: triplets, and the ladder operators as Kronecker products. *)
From Coq Require Import Ring.
From Verif Require Import Base BaseFacts MatModel MatFacts LiftSpec LiftProofs OpModel OpSpec OpProofs PauliProofs OpProofs2 ConjProofs FermiModel FermiSpec FermiProofs FermiProofs2 FermiProofs3 SparseModel.
Open Scope list_scope.
Local Open Scope nat_scope.

Section Trip.
  Context {K : cring} (is_zero : K -> bool) (Hz : forall c, is_zero c = true -> c = k0).
  Add Ring Kring_spt : (kth K).
  Open Scope K_scope.
  Definition tsum (e : list (nat * nat * K)) (i j : nat) : K :=
    fold_right (fun e s => if (Nat.eqb (fst (fst e)) i && Nat.eqb (snd (fst e)) j)%bool then snd e + s else s) 0 e.
  Lemma tsum_app e f i j : tsum (e ++ f) i j = tsum e i j + tsum f i j.
  Proof. induction e as [|x e IH]; cbn [app]; [unfold tsum at 2; cbn; ring|]. unfold tsum at 1 2. cbn [fold_right]. fold (tsum (e ++ f) i j). fold (tsum e i j). rewrite IH. destruct (_ && _)%bool; ring. Qed.
  Lemma tsum_flat {X} (f : X -> list (nat * nat * K)) l i j : tsum (flat_map f l) i j = fold_right (fun x s => tsum (f x) i j + s) 0 l.
  Proof. induction l as [|x l IH]; cbn [flat_map fold_right]; [reflexivity|]. rewrite tsum_app, IH. reflexivity. Qed.
  Lemma single_sum (g : nat -> K) n j : (forall k, (k < n)%nat -> k <> j -> g k = 0) -> fold_right (fun k s => g k + s) 0 (seq 0 n) = if Nat.ltb j n then g j else 0.
  Proof.
    induction n as [|n IH]; intros H; [reflexivity|]. rewrite seq_S, fold_right_app. cbn [fold_right Nat.add].
    assert (A : forall l z, fold_right (fun k s => g k + s) z l = fold_right (fun k s => g k + s) 0 l + z) by (induction l as [|a l IHl]; intros z; cbn; [ring|rewrite IHl; ring]).
    rewrite A, IH by (intros; apply H; lia). destruct (Nat.ltb_spec j n), (Nat.ltb_spec j (S n)); try lia.
    - rewrite (H n) by lia. ring.
    - assert (j = n) by lia. subst. ring.
    - rewrite (H n) by lia. ring.
  Qed.
  Lemma csc_tsum (A : mat K) i j : (i < nr A)%nat -> (j < nc A)%nat -> tsum (csc_entries is_zero A) i j = ent A i j.
  Proof.
    intros Hi Hj. unfold csc_entries. rewrite tsum_flat. rewrite (single_sum _ (nc A) j).
    - rewrite (proj2 (Nat.ltb_lt _ _) Hj), tsum_flat, (single_sum _ (nr A) i).
      + rewrite (proj2 (Nat.ltb_lt _ _) Hi). destruct (is_zero (ent A i j)) eqn:E; [rewrite (Hz _ E); reflexivity|]. cbn. rewrite !Nat.eqb_refl. cbn. ring.
      + intros k _ N. destruct (is_zero _); [reflexivity|]. cbn. rewrite (proj2 (Nat.eqb_neq _ _) N). reflexivity.
    - intros k _ N. rewrite tsum_flat. induction (seq 0 (nr A)) as [|x l IH]; cbn [fold_right]; [reflexivity|]. rewrite IH. destruct (is_zero _); cbn; [ring|].
      rewrite (proj2 (Nat.eqb_neq _ _) N), andb_false_r. ring.
  Qed.
  Definition in_shape (r c : nat) (e : list (nat * nat * K)) : Prop := forall x, In x e -> (fst (fst x) < r)%nat /\ (snd (fst x) < c)%nat.
  Lemma csc_in_shape (A : mat K) : in_shape (nr A) (nc A) (csc_entries is_zero A).
  Proof.
    intros x Hx. unfold csc_entries in Hx. apply in_flat_map in Hx as (j & Hj & Hx). apply in_flat_map in Hx as (i & Hi & Hx). apply in_seq in Hi, Hj. destruct (is_zero _); [destruct Hx|].
    destruct Hx as [<-|[]]. cbn. lia.
  Qed.
  Lemma combine_triplets (e : list (nat * nat * K)) : combine (combine (map (fun x => fst (fst x)) e) (map (fun x => snd (fst x)) e)) (map snd e) = e.
  Proof. induction e as [|[[i j] v] e IH]; cbn; [reflexivity|]. rewrite IH. reflexivity. Qed.
  (** the three lists of a list of triplets *)
  Definition lists_of (e : list (nat * nat * K)) : triplets := (map snd e, (map (fun x => fst (fst x)) e, map (fun x => snd (fst x)) e)).
  Lemma lists_app e f : lists_of (e ++ f) = (map snd e ++ map snd f, (map (fun x => fst (fst x)) e ++ map (fun x => fst (fst x)) f, map (fun x => snd (fst x)) e ++ map (fun x => snd (fst x)) f)).
  Proof. unfold lists_of. now rewrite !map_app. Qed.
  Lemma coo_lists e r c : in_shape r c e -> exists A, (let '(values, (rows, columns)) := lists_of e in coo_matrix values rows columns r c) = Ok A /\ nr A = r /\ nc A = c /\ forall i j, ent A i j = tsum e i j.
  Proof.
    intros H. unfold lists_of, coo_matrix. rewrite !map_length, !Nat.eqb_refl. cbn [andb].
    assert (F1 : forallb (fun i => Nat.ltb i r) (map (fun x : nat * nat * K => fst (fst x)) e) = true).
    { apply forallb_forall. intros i Hi. apply in_map_iff in Hi as (x & <- & Hx). apply Nat.ltb_lt. apply H, Hx. }
    assert (F2 : forallb (fun i => Nat.ltb i c) (map (fun x : nat * nat * K => snd (fst x)) e) = true).
    { apply forallb_forall. intros i Hi. apply in_map_iff in Hi as (x & <- & Hx). apply Nat.ltb_lt. apply H, Hx. }
    rewrite F1, F2. cbn [andb]. eexists. split; [reflexivity|]. cbn [nr nc ent]. split; [reflexivity|]. split; [reflexivity|]. intros i j. rewrite combine_triplets. reflexivity.
  Qed.
End Trip.

Lemma setb_app_l q v x z : q < length x -> setb q v (x ++ z) = setb q v x ++ z.
Proof. revert q. induction x as [|b x IH]; intros [|q] H; cbn in *; try lia; [reflexivity|]. f_equal. apply IH. lia. Qed.
Lemma setb_app_r v x b z : setb (length x) v (x ++ b :: z) = x ++ v :: z.
Proof. induction x as [|a x IH]; cbn; [reflexivity|]. f_equal. exact IH. Qed.
Lemma list_eqb_app (x y z w : list bool) : length x = length y -> list_eqb Bool.eqb (x ++ z) (y ++ w) = (list_eqb Bool.eqb x y && list_eqb Bool.eqb z w)%bool.
Proof. revert y. induction x as [|a x IH]; intros [|b y] H; try discriminate; cbn; [reflexivity|]. rewrite IH by (cbn in H; lia). apply andb_assoc. Qed.
Lemma odd_count_app x y : odd_count (x ++ y) = xorb (odd_count x) (odd_count y).
Proof. induction x as [|a x IH]; [cbn [app]; change (odd_count []) with false; destruct (odd_count y); reflexivity|]. cbn [app]. change (odd_count (a :: x ++ y)) with (xorb a (odd_count (x ++ y))). rewrite IH. change (odd_count (a :: x)) with (xorb a (odd_count x)). destruct a, (odd_count x), (odd_count y); reflexivity. Qed.
Lemma split_at {X} n (x : list X) p : length x = n -> p < n -> exists x1 b x2, x = x1 ++ b :: x2 /\ length x1 = p /\ length x2 = n - p - 1.
Proof.
  intros H Hp. destruct (skipn p x) as [|b x2] eqn:E.
  - exfalso. assert (L : length (skipn p x) = 0) by (rewrite E; reflexivity). rewrite skipn_length in L. lia.
  - exists (firstn p x), b, x2. rewrite <- E. split; [symmetry; apply firstn_skipn|]. rewrite firstn_length. split; [lia|]. assert (L : length (skipn p x) = S (length x2)) by (rewrite E; reflexivity). rewrite skipn_length in L. lia.
Qed.

Section Ladders.
  Context {K : cring} (im half : K) (Him : kmul im im = kopp k1) (Hhalf : kadd half half = k1).
  Add Ring Kring_spl : (kth K).
  Open Scope K_scope.
  Lemma kron_scalar (c : K) A : meq (kron (scalar c) A) (mscale c A).
  Proof.
    split; [cbn; lia|]. split; [cbn; lia|]. cbn [nr nc kron scalar ent mscale]. rewrite !Nat.mul_1_l. intros i j Hi Hj. rewrite !Nat.mod_small by auto. reflexivity.
  Qed.
  Lemma fold_kron_ext l : forall A B : mat K, meq A B -> meq (fold_left kron l A) (fold_left kron l B).
  Proof. induction l as [|M l IH]; intros A B H; cbn [fold_left]; [exact H|]. apply IH. apply kron_ext; [exact H|reflexivity]. Qed.
  Definition zprod (p : nat) : mat K := fold_left kron (repeat (pauli_z_csc (K := K)) p) (scalar 1).
  Lemma zprod_S p : zprod (S p) = kron (zprod p) pauli_z_csc.
  Proof. unfold zprod. cbn [repeat]. rewrite repeat_cons, fold_left_app. reflexivity. Qed.
  Lemma zprod_shape p : nr (zprod p) = (2 ^ p)%nat /\ nc (zprod p) = (2 ^ p)%nat.
  Proof. induction p as [|p [IH1 IH2]]; [split; reflexivity|]. rewrite zprod_S. cbn [nr nc kron]. rewrite IH1, IH2. cbn [nr nc pauli_z_csc of_rows length Nat.pow]. split; lia. Qed.
  Lemma last_split {X} (x : list X) p : length x = S p -> exists y b, x = y ++ [b] /\ length y = p.
  Proof. intros H. destruct (split_at (S p) x p H) as (x1 & b & x2 & -> & H1 & H2); [lia|]. assert (H3 : length x2 = 0%nat) by lia. destruct x2; [|discriminate]. eauto. Qed.
  Lemma pauli_z_ent a b : ent (pauli_z_csc (K := K)) (bval [a]) (bval [b]) = if Bool.eqb a b then sgn b else 0.
  Proof. destruct a, b; reflexivity. Qed.
  Lemma zprod_ent p x y : length x = p -> length y = p -> ent (zprod p) (bval x) (bval y) = if list_eqb Bool.eqb x y then sgn (odd_count y) else 0.
  Proof.
    revert x y. induction p as [|p IH]; intros x y Hx Hy.
    - destruct x, y; try discriminate. reflexivity.
    - apply last_split in Hx as (x' & a & -> & Hx). apply last_split in Hy as (y' & b & -> & Hy). rewrite zprod_S, (kron_bits _ _ p 1) by auto.
      rewrite IH, pauli_z_ent, list_eqb_app by congruence. rewrite odd_count_app. cbn [list_eqb]. rewrite andb_true_r.
      destruct (list_eqb Bool.eqb x' y'), (Bool.eqb a b); cbn [andb]; try ring. cbn [odd_count fold_right]. rewrite xorb_false_r. destruct (odd_count y'), b; cbn; ring.
  Qed.
  Definition ladder2 (d : bool) : mat K := if d then q_raise_csc im half else q_lower_csc im half.
  Lemma ladder2_ent d a b : ent (ladder2 d) (bval [a]) (bval [b]) = if (Bool.eqb a d && Bool.eqb b (negb d))%bool then 1 else 0.
  Proof.
    assert (H1 : half * (1 - im * - im) = 0) by (transitivity (half * (1 + im * im)); [ring|rewrite Him; ring]).
    assert (H2 : half * (1 - im * im) = 1) by (rewrite Him; transitivity (half + half); [ring|exact Hhalf]).
    assert (H3 : half * (1 + im * - im) = 1) by (transitivity (half * (1 - im * im)); [ring|exact H2]).
    assert (H4 : half * (1 + im * im) = 0) by (rewrite Him; ring).
    destruct d, a, b; cbn; first [assumption|ring].
  Qed.
  Lemma ladder_sparse_matrix n p d : (p < n)%nat -> exists A, jordan_wigner_ladder_sparse im half n p d = Ok A /\ meq A (ladder_matrix n (p, d)).
  Proof.
    intros Hp. unfold jordan_wigner_ladder_sparse.
    assert (E : (if d then kronecker_operators (repeat pauli_z_csc p ++ [q_raise_csc im half] ++ [eye (2 ^ (n - p - 1))]) else kronecker_operators (repeat pauli_z_csc p ++ [q_lower_csc im half] ++ [eye (2 ^ (n - p - 1))]))
      = kronecker_operators (repeat (pauli_z_csc (K := K)) p ++ [ladder2 d; eye (2 ^ (n - p - 1))])) by (destruct d; reflexivity).
    cbn zeta. rewrite E.
    assert (Q : exists A, kronecker_operators (repeat (pauli_z_csc (K := K)) p ++ [ladder2 d; eye (2 ^ (n - p - 1))]) = Ok A /\ meq A (kron (kron (zprod p) (ladder2 d)) (eye (2 ^ (n - p - 1))))).
    { assert (R : kron (kron (zprod p) (ladder2 d)) (eye (2 ^ (n - p - 1))) = fold_left kron (repeat (pauli_z_csc (K := K)) p ++ [ladder2 d; eye (2 ^ (n - p - 1))]) (scalar 1)) by (rewrite fold_left_app; reflexivity).
      rewrite R. destruct (repeat (pauli_z_csc (K := K)) p ++ [ladder2 d; eye (2 ^ (n - p - 1))]) as [|A l] eqn:El; [destruct p; discriminate|]. eexists. split; [reflexivity|]. cbn [fold_left]. apply fold_kron_ext.
      symmetry. etransitivity; [apply kron_scalar|]. split; [reflexivity|]. split; [reflexivity|]. intros i j _ _. cbn. ring. }
    destruct Q as (A & -> & HA). exists A. split; [reflexivity|]. etransitivity; [exact HA|]. etransitivity; [|symmetry; apply ladder_mono; exact Hp].
    destruct (zprod_shape p) as [S1 S2]. assert (S3 : nr (ladder2 d) = 2%nat /\ nc (ladder2 d) = 2%nat) by (destruct d; split; reflexivity).
    assert (N : (2 ^ p * 2 * 2 ^ (n - p - 1) = 2 ^ n)%nat). { replace n with (p + 1 + (n - p - 1))%nat at 2 by lia. rewrite !Nat.pow_add_r. reflexivity. }
    apply (meq_bits n); try (cbn [nr nc kron eye mono]; rewrite ?S1, ?S2, ?(proj1 S3), ?(proj2 S3); auto; fail).
    intros x y Hx Hy. rewrite mono_ent by (auto; cbn; rewrite setb_length; auto).
    destruct (split_at n x p Hx Hp) as (x1 & a & x2 & -> & Lx1 & Lx2). destruct (split_at n y p Hy Hp) as (y1 & b & y2 & -> & Ly1 & Ly2).
    cbn [ladder_act fst snd]. replace (setb p d (y1 ++ b :: y2)) with (setb (length y1) d (y1 ++ b :: y2)) by now rewrite Ly1. replace (nth p (y1 ++ b :: y2) false) with (nth (length y1) (y1 ++ b :: y2) false) by now rewrite Ly1. replace (firstn p (y1 ++ b :: y2)) with (firstn (length y1) (y1 ++ b :: y2)) by now rewrite Ly1. rewrite setb_app_r, nth_middle, firstn_app, firstn_all2, Nat.sub_diag by lia. cbn [firstn]. rewrite app_nil_r.
    change (a :: x2) with ([a] ++ x2). change (b :: y2) with ([b] ++ y2). change (d :: y2) with ([d] ++ y2). rewrite !app_assoc.
    rewrite (kron_bits _ _ (p + 1) (n - p - 1)); auto; try (rewrite app_length; cbn; lia). rewrite (kron_bits _ _ p 1); auto; try apply S3.
    rewrite zprod_ent, ladder2_ent by auto. rewrite !list_eqb_app by (rewrite ?app_length; cbn; congruence). cbn [ent eye list_eqb]. rewrite eqb_bval by congruence. rewrite andb_true_r.
    destruct (list_eqb Bool.eqb x1 y1), (list_eqb Bool.eqb x2 y2), (Bool.eqb a d), (Bool.eqb b (negb d)); cbn [andb delta]; ring.
  Qed.
End Ladders.
