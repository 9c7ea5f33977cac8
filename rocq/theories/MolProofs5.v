(** Proofs for C78: what the loops compute. *)
From Coq Require Import Ring.
From Verif Require Import Base BaseFacts MatModel MatFacts LiftSpec LiftProofs OpModel OpSpec FermiSpec UCCSpec TensorModel TensorSpec ConvModel DiagModel DiagSpec MatRing UCCProofs UCCProofs2 UCCProofs3 MolModel MolSpec MolProofs MolProofs2 MolProofs3 MolProofs4.
Open Scope list_scope.
Local Open Scope nat_scope.

Section W.
  Context {K : cring}.
  Add Ring Kring_mol5 : (kth K).
  Open Scope K_scope.
  Notation arr := (TensorModel.ndarray K).
  Definition put (w : list (list nat * K)) (x : arr) : arr := fold_left (fun x iv => assign x (fst iv) (snd iv)) w x.
  Lemma put_app w w' x : put (w ++ w') x = put w' (put w x).
  Proof. apply fold_left_app. Qed.
  Lemma put_shape w x : shape0 (put w x) = shape0 x.
  Proof. revert x. induction w as [|iv w IH]; intros x; [reflexivity|]. cbn [put fold_left]. fold (put w (assign x (fst iv) (snd iv))). rewrite IH. reflexivity. Qed.
  Lemma assign_at (x : arr) i v j : data (assign x i v) j = if list_eqb Nat.eqb j i then v else data x j.
  Proof. reflexivity. Qed.
  Lemma ieq_refl i : list_eqb Nat.eqb i i = true.
  Proof. apply (eqb_spec_refl _ (list_eqb_spec _ nat_eqb_spec)). Qed.
  Lemma ieq_ne i j : i <> j -> list_eqb Nat.eqb i j = false.
  Proof. intros H. apply not_true_is_false. intros E. apply (list_eqb_spec _ nat_eqb_spec) in E. auto. Qed.
  Lemma put_none w i : forall x, (forall iv, In iv w -> fst iv <> i) -> data (put w x) i = data x i.
  Proof.
    induction w as [|iv w IH]; intros x H; [reflexivity|]. cbn [put fold_left]. fold (put w (assign x (fst iv) (snd iv))). rewrite IH by (intros jv Hj; apply H; right; exact Hj).
    rewrite assign_at, ieq_ne; [reflexivity|]. intros E. apply (H iv); [left; reflexivity|auto].
  Qed.
  Lemma put_same w i v : forall x, (forall iv, In iv w -> fst iv = i -> snd iv = v) -> data x i = v \/ (exists iv, In iv w /\ fst iv = i) -> data (put w x) i = v.
  Proof.
    induction w as [|iv w IH]; intros x H [E|E].
    - exact E.
    - destruct E as (iv & [] & _).
    - cbn [put fold_left]. fold (put w (assign x (fst iv) (snd iv))). apply IH; [intros jv Hj; apply H; right; exact Hj|]. left. rewrite assign_at. destruct (list_eqb Nat.eqb i (fst iv)) eqn:Q; [|exact E].
      apply (list_eqb_spec _ nat_eqb_spec) in Q. apply H; [left; reflexivity|auto].
    - cbn [put fold_left]. fold (put w (assign x (fst iv) (snd iv))). apply IH; [intros jv Hj; apply H; right; exact Hj|]. destruct E as (jv & [<-|Hj] & Ej); [|right; exists jv; auto].
      left. rewrite assign_at, <- Ej, ieq_refl. apply H; [left; reflexivity|exact Ej].
  Qed.
  Lemma foldM_put {X} (f : arr -> X -> result arr) (ws : X -> list (list nat * K)) l : (forall s, In s l -> forall x, f x s = Ok (put (ws s) x)) -> forall x, foldM f l x = Ok (put (flat_map ws l) x).
  Proof.
    induction l as [|s l IH]; intros H x; [reflexivity|]. cbn [foldM flat_map]. rewrite H by (left; reflexivity). cbn [rbind]. rewrite IH by (intros t Ht; apply H; right; exact Ht). rewrite put_app. reflexivity.
  Qed.
  Lemma foldM_put2 {X} (f : arr * arr -> X -> result (arr * arr)) (w1 w2 : X -> list (list nat * K)) l : (forall s, In s l -> forall x y, f (x, y) s = Ok (put (w1 s) x, put (w2 s) y)) ->
    forall x y, foldM f l (x, y) = Ok (put (flat_map w1 l) x, put (flat_map w2 l) y).
  Proof.
    induction l as [|s l IH]; intros H x y; [reflexivity|]. cbn [foldM flat_map]. rewrite H by (left; reflexivity). cbn [rbind]. rewrite IH by (intros t Ht; apply H; right; exact Ht). rewrite !put_app. reflexivity.
  Qed.
  Lemma aget_ok (x : arr) i : Forall (fun p => (p < shape0 x)%nat) i -> aget x i = Ok (data x i).
  Proof. intros H. unfold aget. replace (forallb _ i) with true; [reflexivity|]. symmetry. apply forallb_forall. intros p Hp. apply Nat.ltb_lt. exact (proj1 (Forall_forall _ _) H p Hp). Qed.

  (** ** Spin orbitals *)
  Context (small : K -> bool).
  Definition writes1 (one : arr) (p q : nat) : list (list nat * K) := [([2 * p; 2 * q], data one [p; q]); ([2 * p + 1; 2 * q + 1], data one [p; q])]%nat.
  Definition writes2 (scale : K -> K) (two : arr) (p q r s : nat) : list (list nat * K) :=
    let c := scale (data two [p; q; r; s]) in
    [([2 * p; 2 * q + 1; 2 * r + 1; 2 * s], c); ([2 * p + 1; 2 * q; 2 * r; 2 * s + 1], c); ([2 * p; 2 * q; 2 * r; 2 * s], c); ([2 * p + 1; 2 * q + 1; 2 * r + 1; 2 * s + 1], c)]%nat.
  Notation quads n ws := (flat_map (fun p => flat_map (fun q => flat_map (fun r => flat_map (fun s => ws p q r s) (seq 0 n)) (seq 0 n)) (seq 0 n)) (seq 0 n)).
  Lemma spin_tensors_put scale one two n : shape0 one = n -> shape0 two = n -> spin_tensors small scale one two =
    Ok (truncate small (put (flat_map (fun p => flat_map (writes1 one p) (seq 0 n)) (seq 0 n)) (zeros_array (2 * n))), truncate small (put (quads n (writes2 scale two)) (zeros_array (2 * n)))).
  Proof.
    intros H1 H2. unfold spin_tensors. cbn zeta. rewrite H1. replace (2 * n / 2)%nat with n by (rewrite Nat.mul_comm, Nat.div_mul; lia).
    rewrite (foldM_put2 _ (fun p => flat_map (writes1 one p) (seq 0 n)) (fun p => flat_map (fun q => flat_map (fun r => flat_map (fun s => writes2 scale two p q r s) (seq 0 n)) (seq 0 n)) (seq 0 n))); [reflexivity|].
    intros p Hp x y. apply foldM_put2. intros q Hq x' y'. apply in_seq in Hp, Hq. unfold spin_bodies. rewrite aget_ok by (rewrite H1; repeat constructor; lia). cbn [rbind].
    rewrite (foldM_put _ (fun r => flat_map (fun s => writes2 scale two p q r s) (seq 0 n))); [reflexivity|].
    intros r Hr z. apply foldM_put. intros s Hs z'. apply in_seq in Hr, Hs. unfold spin_two_body. rewrite aget_ok by (rewrite H2; repeat constructor; lia). reflexivity.
  Qed.
  Definition is_spin1 (n : nat) (A : arr) (h : nat -> nat -> K) : Prop :=
    forall p q a b, (p < n)%nat -> (q < n)%nat -> (a < 2)%nat -> (b < 2)%nat -> data A [2 * p + a; 2 * q + b]%nat = if Nat.eqb a b then h p q else 0.
  Definition is_spin2 (n : nat) (B : arr) (g : nat -> nat -> nat -> nat -> K) : Prop :=
    forall p q r s a b c d, (p < n)%nat -> (q < n)%nat -> (r < n)%nat -> (s < n)%nat -> (a < 2)%nat -> (b < 2)%nat -> (c < 2)%nat -> (d < 2)%nat ->
      data B [2 * p + a; 2 * q + b; 2 * r + c; 2 * s + d]%nat = if (Nat.eqb a d && Nat.eqb b c)%bool then g p q r s else 0.
  Lemma spin1 one n : is_spin1 n (put (flat_map (fun p => flat_map (writes1 one p) (seq 0 n)) (seq 0 n)) (zeros_array (2 * n))) (fun p q => data one [p; q]).
  Proof.
    intros p q a b Hp Hq Ha Hb. destruct (Nat.eqb_spec a b) as [E|Ne].
    - subst b. apply put_same.
      + intros iv H E. apply in_flat_map in H as (p' & _ & H). apply in_flat_map in H as (q' & _ & H). assert (Q : p' = p /\ q' = q) by (destruct H as [<-|[<-|[]]]; cbn [fst] in E; inversion E; lia). destruct Q as (-> & ->). destruct H as [<-|[<-|[]]]; reflexivity.
      + right. exists ([2 * p + a; 2 * q + a]%nat, data one [p; q]). split; [|reflexivity]. apply in_flat_map. exists p. split; [apply in_seq; lia|]. apply in_flat_map. exists q. split; [apply in_seq; lia|].
        destruct a as [|[|a]]; [left; rewrite !Nat.add_0_r; reflexivity|right; left; reflexivity|lia].
    - rewrite put_none; [reflexivity|]. intros iv H E. apply in_flat_map in H as (p' & _ & H). apply in_flat_map in H as (q' & _ & H). destruct H as [<-|[<-|[]]]; cbn [fst snd] in *; inversion E; lia.
  Qed.
  Lemma spin2 scale two n : is_spin2 n (put (quads n (writes2 scale two)) (zeros_array (2 * n))) (fun p q r s => scale (data two [p; q; r; s])).
  Proof.
    intros p q r s a b c d Hp Hq Hr Hs Ha Hb Hc Hd.
    assert (G : forall iv, In iv (quads n (writes2 scale two)) -> fst iv = [2 * p + a; 2 * q + b; 2 * r + c; 2 * s + d]%nat -> snd iv = scale (data two [p; q; r; s]) /\ a = d /\ b = c).
    { intros iv H E. apply in_flat_map in H as (p' & _ & H). apply in_flat_map in H as (q' & _ & H). apply in_flat_map in H as (r' & _ & H). apply in_flat_map in H as (s' & _ & H).
      assert (Q : p' = p /\ q' = q /\ r' = r /\ s' = s /\ a = d /\ b = c) by (destruct H as [<-|[<-|[<-|[<-|[]]]]]; cbn [fst] in E; inversion E; lia).
      destruct Q as (-> & -> & -> & -> & Q1 & Q2). split; [|auto]. destruct H as [<-|[<-|[<-|[<-|[]]]]]; reflexivity. }
    destruct (Nat.eqb a d && Nat.eqb b c)%bool eqn:E.
    - apply andb_true_iff in E as [E1 E2]. apply Nat.eqb_eq in E1, E2. subst d c. apply put_same; [intros iv H Q; apply (G iv H Q)|]. right.
      exists ([2 * p + a; 2 * q + b; 2 * r + b; 2 * s + a]%nat, scale (data two [p; q; r; s])). split; [|reflexivity]. apply in_flat_map; exists p; split; [apply in_seq; lia|]. apply in_flat_map; exists q; split; [apply in_seq; lia|]. apply in_flat_map; exists r; split; [apply in_seq; lia|]. apply in_flat_map; exists s; split; [apply in_seq; lia|].
      unfold writes2. destruct a as [|[|a]], b as [|[|b]]; try lia; rewrite ?Nat.add_0_r; cbn; auto.
    - rewrite put_none; [reflexivity|]. intros iv H Q. destruct (G iv H Q) as (_ & -> & ->). rewrite !Nat.eqb_refl in E. discriminate.
  Qed.
  Lemma truncate_id (Hz : only_zero small) (x : arr) i : data (truncate small x) i = data x i.
  Proof. cbn [truncate data]. destruct (small (data x i)) eqn:E; [symmetry; apply Hz; exact E|reflexivity]. Qed.

  (** ** The operator of a tensor of this form *)
  Lemma bigsum_double n (f : nat -> K) : bigsum (2 * n) f = su (seq 0 n) (fun p => f (2 * p + 0)%nat + f (2 * p + 1)%nat).
  Proof.
    induction n as [|n IH]; [reflexivity|]. rewrite seq_S, su_app, <- IH. replace (2 * S n)%nat with (S (S (2 * n))) by lia. cbn [bigsum]. unfold su. cbn [map lsum]. rewrite Nat.add_0_r. replace (2 * (0 + n))%nat with (2 * n)%nat by lia. rewrite Nat.add_1_r. ring.
  Qed.
  Lemma spin_pick (a b : K) : a = 0 -> b = 0 -> forall x y, x + a + (b + y) = x + y.
  Proof. intros -> -> x y. ring. Qed.
  Lemma entry_electronic (h : heap K) (t : ptensor K) n half c A B f g x y : n_qubits t = (2 * n)%nat -> n_body_tensors t = [([], Num c); ([true; false], A); ([true; true; false; false], B)] ->
    (forall p q a b, (p < n)%nat -> (q < n)%nat -> (a < 2)%nat -> (b < 2)%nat -> element h A [2 * p + a; 2 * q + b]%nat = if Nat.eqb a b then f p q else 0) ->
    (forall p q r s a b c d, (p < n)%nat -> (q < n)%nat -> (r < n)%nat -> (s < n)%nat -> (a < 2)%nat -> (b < 2)%nat -> (c < 2)%nat -> (d < 2)%nat ->
      element h B [2 * p + a; 2 * q + b; 2 * r + c; 2 * s + d]%nat = if (Nat.eqb a d && Nat.eqb b c)%bool then half * g p q r s else 0) ->
    length x = (2 * n)%nat -> length y = (2 * n)%nat -> tensor_entry h t x y = ent (electronic n half c f g) (bval x) (bval y).
  Proof.
    intros En Eb HA HB Hx Hy. assert (Bx : (bval x < 2 ^ (2 * n))%nat) by (rewrite <- Hx; apply bval_lt). assert (By : (bval y < 2 ^ (2 * n))%nat) by (rewrite <- Hy; apply bval_lt).
    rewrite electronic_ent by auto. unfold tensor_entry. rewrite Eb, En. cbn [fold_right fst snd length sum_over combine element].
    set (i := bval x) in *. set (j := bval y) in *. transitivity (c * sq1 (2 ^ (2 * n)) i j + (one_sum n f (fun p q => sf (2 * n) p q i j) + (two_sum n half g (fun p q r s => te n p q r s i j) + 0))); [|ring].
    f_equal. f_equal; [|f_equal].
    - rewrite bigsum_double. apply su_ext. intros p Hp. rewrite !bigsum_double, <- su_add. apply su_ext. intros q Hq. apply in_seq in Hp, Hq. rewrite !HA by lia. cbn [Nat.eqb].
      assert (E : forall a b, ent (K := K) (fterm_matrix (2 * n) [(2 * p + a, true); (2 * q + b, false)]%nat) i j = sq_mul (K := K) _ (cr n p a) (an n q b) i j).
      { intros a b. assert (Q : sq_eq (K := K) (2 ^ (2 * n)) (sq_mul _ (cr n p a) (sq_mul _ (an n q b) (sq1 _))) (sq_mul _ (cr n p a) (an n q b))).
        { generalize (cr (K := K) n p a), (an (K := K) n q b). intros U V. Ncring_tac.non_commutative_ring. } exact (Q i j Bx By). }
      rewrite !E. rewrite sf_cr. unfold sq_add. ring.
    - rewrite bigsum_double. apply su_ext. intros p Hp. rewrite !bigsum_double, <- su_add. apply su_ext. intros q Hq. rewrite !bigsum_double, <- !su_add. apply su_ext. intros r Hr. rewrite !bigsum_double, <- !su_add. apply su_ext. intros s Hs.
      apply in_seq in Hp, Hq, Hr, Hs. rewrite !HB by lia. cbn [Nat.eqb andb]. unfold te, sq_add. rewrite <- !(qd_ent n p _ q _ r _ s _ i j Bx By). ring.
  Qed.
End W.
