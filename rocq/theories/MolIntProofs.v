(** Proofs for C87: diagonal elements of the electronic Hamiltonian, antisymmetric integrals. *)
From Coq Require Import ZArith Ring Lia.
From Verif Require Import Base BaseFacts MatModel MatFacts LiftSpec LiftProofs OpModel OpSpec FermiModel FermiSpec FermiProofs ConjProofs
  TensorModel TensorSpec TensorProps DiagModel DiagSpec DiagProofs ConvModel SectorSpec UCCSpec MatRing UCCProofs UCCProofs5
  MolModel MolSpec MolProofs MolProofs2 MolProofs3 MolProofs4 MolProofs5 MolProofs6 MolProofs7 MolProofs8 RdmProofs4 MolIntModel MolIntSpec.
Open Scope list_scope.
Local Open Scope nat_scope.

Section Energy.
  Context {K : cring} (half : K) (Hhalf : kadd half half = k1) (n : nat) (x : list bool) (Lx : length x = 2 * n).
  Add Ring Kring_mi1 : (kth K).
  Open Scope K_scope.
  Notation i := (bval x).
  Notation o := (occ (K := K) x).
  Lemma Bi : (i < 2 ^ (2 * n))%nat.
  Proof. rewrite <- Lx. apply bval_lt. Qed.
  Lemma occ_idem m : o m * o m = o m.
  Proof. unfold occ. destruct (nth m x false); ring. Qed.
  (** one pair of spins *)
  Lemma qd_diag p a q b r s : (p < n)%nat -> (q < n)%nat -> (r < n)%nat -> (s < n)%nat -> (a < 2)%nat -> (b < 2)%nat ->
    qd (K := K) n p a q b r b s a i i =
      (if (Nat.eqb r q && Nat.eqb s p)%bool then (if (Nat.eqb p q && Nat.eqb a b)%bool then 0 else o (2 * p + a) * o (2 * q + b)) else 0)
      - (if (Nat.eqb r p && Nat.eqb s q && Nat.eqb a b && negb (Nat.eqb p q))%bool then o (2 * p + a) * o (2 * q + b) else 0).
  Proof.
    intros Hp Hq Hr Hs Ha Hb. rewrite <- (qd_ent n p a q b r b s a i i Bi Bi).
    rewrite (T4_diag half Hhalf (2 * n)) by (auto; lia). unfold occ.
    destruct (Nat.eqb_spec p q) as [<-|Npq]; destruct (Nat.eqb_spec a b) as [<-|Nab].
    - rewrite Nat.eqb_refl. cbn [negb andb]. rewrite Bool.andb_false_r. destruct (_ && _)%bool; ring.
    - rewrite (proj2 (Nat.eqb_neq (2 * p + a) (2 * p + b))) by lia. rewrite !Bool.andb_false_r. cbn [negb andb].
      replace (2 * r + b =? 2 * p + b)%nat with (Nat.eqb r p) by (destruct (Nat.eqb_spec r p), (Nat.eqb_spec (2 * r + b) (2 * p + b)); lia || reflexivity).
      replace (2 * s + a =? 2 * p + a)%nat with (Nat.eqb s p) by (destruct (Nat.eqb_spec s p), (Nat.eqb_spec (2 * s + a) (2 * p + a)); lia || reflexivity).
      replace (2 * r + b =? 2 * p + a)%nat with false by (symmetry; apply Nat.eqb_neq; lia). cbn [andb].
      destruct (nth (2 * p + a) x false), (nth (2 * p + b) x false), (Nat.eqb r p), (Nat.eqb s p); cbn [andb]; ring.
    - rewrite (proj2 (Nat.eqb_neq (2 * p + a) (2 * q + a))) by lia. cbn [negb andb]. rewrite ?Bool.andb_true_r.
      replace (2 * r + a =? 2 * q + a)%nat with (Nat.eqb r q) by (destruct (Nat.eqb_spec r q), (Nat.eqb_spec (2 * r + a) (2 * q + a)); lia || reflexivity).
      replace (2 * s + a =? 2 * p + a)%nat with (Nat.eqb s p) by (destruct (Nat.eqb_spec s p), (Nat.eqb_spec (2 * s + a) (2 * p + a)); lia || reflexivity).
      replace (2 * r + a =? 2 * p + a)%nat with (Nat.eqb r p) by (destruct (Nat.eqb_spec r p), (Nat.eqb_spec (2 * r + a) (2 * p + a)); lia || reflexivity).
      replace (2 * s + a =? 2 * q + a)%nat with (Nat.eqb s q) by (destruct (Nat.eqb_spec s q), (Nat.eqb_spec (2 * s + a) (2 * q + a)); lia || reflexivity).
      destruct (Nat.eqb_spec r q) as [->|]; destruct (Nat.eqb_spec s p) as [->|]; cbn [andb].
      + rewrite (proj2 (Nat.eqb_neq q p)) by congruence. cbn [andb]. destruct (nth (2 * p + a) x false), (nth (2 * q + a) x false); cbn [andb]; ring.
      + rewrite (proj2 (Nat.eqb_neq q p)) by congruence. cbn [andb]. destruct (nth (2 * p + a) x false), (nth (2 * q + a) x false); cbn [andb]; ring.
      + rewrite (proj2 (Nat.eqb_neq p q)) by congruence. rewrite ?Bool.andb_false_r. destruct (nth (2 * p + a) x false), (nth (2 * q + a) x false); cbn [andb]; ring.
      + destruct (Nat.eqb r p && Nat.eqb s q)%bool, (nth (2 * p + a) x false), (nth (2 * q + a) x false); cbn [andb]; ring.
    - rewrite (proj2 (Nat.eqb_neq (2 * p + a) (2 * q + b))) by lia. cbn [negb andb]. rewrite ?Bool.andb_false_r. cbn [andb].
      replace (2 * r + b =? 2 * q + b)%nat with (Nat.eqb r q) by (destruct (Nat.eqb_spec r q), (Nat.eqb_spec (2 * r + b) (2 * q + b)); lia || reflexivity).
      replace (2 * s + a =? 2 * p + a)%nat with (Nat.eqb s p) by (destruct (Nat.eqb_spec s p), (Nat.eqb_spec (2 * s + a) (2 * p + a)); lia || reflexivity).
      replace (2 * r + b =? 2 * p + a)%nat with false by (symmetry; apply Nat.eqb_neq; lia). cbn [andb].
      destruct (nth (2 * p + a) x false), (nth (2 * q + b) x false), (Nat.eqb r q), (Nat.eqb s p); cbn [andb]; ring.
  Qed.
  Lemma te_diag p q r s : (p < n)%nat -> (q < n)%nat -> (r < n)%nat -> (s < n)%nat ->
    te (K := K) n p q r s i i =
      (if (Nat.eqb r q && Nat.eqb s p)%bool then in_orbital x p * in_orbital x q - (if Nat.eqb p q then in_orbital x p else 0) else 0)
      - (if (Nat.eqb r p && Nat.eqb s q && negb (Nat.eqb p q))%bool then parallel x p q else 0).
  Proof.
    intros Hp Hq Hr Hs. unfold te, sq_add. rewrite !qd_diag by (assumption || lia). cbn [Nat.eqb andb]. rewrite ?Bool.andb_false_r, ?Bool.andb_true_r. cbn [andb]. unfold in_orbital, parallel. rewrite !Nat.add_0_r.
    destruct (Nat.eqb_spec p q) as [<-|Npq]; cbn [negb andb]; rewrite ?Bool.andb_false_r, ?Bool.andb_true_r.
    - pose proof (occ_idem (2 * p)) as H0. pose proof (occ_idem (2 * p + 1)) as H1. destruct (Nat.eqb r p && Nat.eqb s p)%bool; [|ring].
      transitivity (o (2 * p) * o (2 * p + 1) + o (2 * p + 1) * o (2 * p)); [ring|]. transitivity (o (2 * p) * o (2 * p) + (o (2 * p) * o (2 * p + 1) + o (2 * p + 1) * o (2 * p)) + o (2 * p + 1) * o (2 * p + 1) - (o (2 * p) + o (2 * p + 1))); [rewrite H0, H1; ring|ring].
    - destruct (Nat.eqb r q && Nat.eqb s p)%bool, (Nat.eqb r p && Nat.eqb s q)%bool; ring.
  Qed.
  Lemma su_if a (f : nat -> K) : (a < n)%nat -> su (seq 0 n) (fun k => if Nat.eqb k a then f k else 0) = f a.
  Proof.
    intros Ha. rewrite (su_single _ a).
    - rewrite Nat.eqb_refl. reflexivity.
    - apply seq_NoDup.
    - apply in_seq. lia.
    - intros y _ Hy. rewrite (proj2 (Nat.eqb_neq y a) Hy). reflexivity.
  Qed.
  Lemma su_if2 a b (f : nat -> nat -> K) : (a < n)%nat -> (b < n)%nat -> su (seq 0 n) (fun r => su (seq 0 n) (fun s => if (Nat.eqb r a && Nat.eqb s b)%bool then f r s else 0)) = f a b.
  Proof.
    intros Ha Hb. transitivity (su (seq 0 n) (fun r => if Nat.eqb r a then f r b else 0)); [|exact (su_if a (fun r => f r b) Ha)].
    apply su_ext. intros r _. destruct (Nat.eqb r a); cbn [andb]; [exact (su_if b (f r) Hb)|]. apply su_zero. reflexivity.
  Qed.
  Lemma two_sum_diag (g : nat -> nat -> nat -> nat -> K) : two_sum n half g (fun p q r s => te n p q r s i i) =
    half * bigsum n (fun p => bigsum n (fun q => g p q q p * (in_orbital x p * in_orbital x q) - g p q p q * parallel x p q)).
  Proof.
    unfold two_sum. rewrite <- su_seq, <- su_mul. apply su_ext. intros p Hp. rewrite <- su_seq, <- su_mul. apply su_ext. intros q Hq. apply in_seq in Hp, Hq.
    set (X := in_orbital (K := K) x p * in_orbital x q - (if Nat.eqb p q then in_orbital x p else 0)). set (Y := if Nat.eqb p q then 0 else parallel (K := K) x p q).
    transitivity (su (seq 0 n) (fun r => su (seq 0 n) (fun s => if (Nat.eqb r q && Nat.eqb s p)%bool then half * g p q r s * X else 0))
      + su (seq 0 n) (fun r => su (seq 0 n) (fun s => if (Nat.eqb r p && Nat.eqb s q)%bool then - (half * g p q r s * Y) else 0))).
    - rewrite <- su_add. apply su_ext. intros r Hr. rewrite <- su_add. apply su_ext. intros s Hs. apply in_seq in Hr, Hs. rewrite te_diag by lia. fold X. unfold Y.
      destruct (Nat.eqb r q && Nat.eqb s p)%bool, (Nat.eqb r p && Nat.eqb s q)%bool, (Nat.eqb p q); cbn [negb andb]; ring.
    - rewrite !su_if2 by lia. unfold X, Y. destruct (Nat.eqb_spec p q) as [<-|N]; [|ring].
      assert (P : parallel x p p = in_orbital (K := K) x p) by (unfold parallel, in_orbital; rewrite !occ_idem; reflexivity). rewrite P. ring.
  Qed.
  Lemma exc_diag a b : (a < 2 * n)%nat -> (b < 2 * n)%nat -> ent (mmul (ladder_matrix (K := K) (2 * n) (a, true)) (ladder_matrix (2 * n) (b, false))) i i = if Nat.eqb a b then o a else 0.
  Proof.
    intros Ha Hb. pose proof (E2_diag (K := K) (2 * n) a b x Ha Hb Lx) as Q. fold (o a) in Q. etransitivity; [|exact Q]. clear Q. change (fterm_matrix (K := K) (2 * n) [(a, true); (b, false)]) with (mmul (ladder_matrix (K := K) (2 * n) (a, true)) (mmul (ladder_matrix (2 * n) (b, false)) (eye (2 ^ (2 * n))))).
    assert (S1 : sq (2 ^ (2 * n)) (ladder_matrix (K := K) (2 * n) (a, true))) by (split; reflexivity). assert (S2 : sq (2 ^ (2 * n)) (ladder_matrix (K := K) (2 * n) (b, false))) by (split; reflexivity).
    assert (E : meq (mmul (ladder_matrix (K := K) (2 * n) (a, true)) (ladder_matrix (2 * n) (b, false))) (mmul (ladder_matrix (2 * n) (a, true)) (mmul (ladder_matrix (2 * n) (b, false)) (eye (2 ^ (2 * n)))))).
    { apply (mmul_sq (2 ^ (2 * n))); [exact S1|exact S2|reflexivity|]. symmetry. apply mmul_eye_r. apply S2. }
    destruct E as (_ & _ & E). apply E; cbn [mmul nr nc]; rewrite ?(proj1 S1), ?(proj2 S2); apply Bi.
  Qed.
  Lemma one_sum_diag (f : nat -> nat -> K) : one_sum n f (fun p q => sf (2 * n) p q i i) = bigsum n (fun p => f p p * in_orbital x p).
  Proof.
    unfold one_sum. rewrite <- su_seq. apply su_ext. intros p Hp. apply in_seq in Hp. transitivity (su (seq 0 n) (fun q => if Nat.eqb q p then f p q * in_orbital x p else 0)); [|apply (su_if p (fun q => f p q * in_orbital x p)); lia].
    apply su_ext. intros q Hq. apply in_seq in Hq. rewrite <- spin_free_sq. unfold spin_free, excitation. cbn [ent madd].
    rewrite !exc_diag by lia. destruct (Nat.eqb_spec q p) as [->|N].
    - rewrite !Nat.eqb_refl. reflexivity.
    - rewrite !(proj2 (Nat.eqb_neq _ _)) by lia. ring.
  Qed.
  Lemma electronic_diag c f g : ent (electronic n half c f g) i i = occupation_energy n half c f (fun p q => g p q q p) (fun p q => g p q p q) x.
  Proof.
    rewrite electronic_ent by apply Bi. rewrite one_sum_diag, two_sum_diag. unfold occupation_energy, sq1, MatModel.delta. rewrite Nat.eqb_refl. f_equal. ring.
  Qed.
End Energy.
