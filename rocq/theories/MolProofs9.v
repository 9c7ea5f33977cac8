(** Proofs for C79 and C80. *)
From Coq Require Import Ring.
From Verif Require Import Base BaseFacts MatModel MatFacts LiftSpec OpModel OpSpec FermiSpec SectorSpec TensorModel TensorSpec TensorProps ConvModel ConvProofs DiagModel DiagSpec MatRing UCCProofs MolModel MolSpec MolProofs2 MolProofs5 MolProofs6 MolProofs8.
Open Scope list_scope.
Local Open Scope nat_scope.

Section R.
  Context {K : cring} (small : K -> bool) (recip : Z -> K).
  Add Ring Kring_mol9 : (kth K).
  Open Scope K_scope.
  Notation arr := (TensorModel.ndarray K).
  Lemma interaction_parts (h : heap K) a : interaction_ok h a -> exists c r1 r2, n_body_tensors a = [([], Num c); ([true; false], Arr r1); ([true; true; false; false], Arr r2)] /\
    shape0 (read h r1) = n_qubits a /\ shape0 (read h r2) = n_qubits a.
  Proof.
    intros [(_ & _ & _ & T) Hk]. destruct (n_body_tensors a) as [|[k0 e0] [|[k1 e1] [|[k2 e2] [|]]]] eqn:E; cbn [dkeys map fst] in Hk; try discriminate. injection Hk as -> -> ->.
    pose proof (T [] e0 (or_introl eq_refl)) as T0. pose proof (T _ e1 (or_intror (or_introl eq_refl))) as T1. pose proof (T _ e2 (or_intror (or_intror (or_introl eq_refl)))) as T2.
    destruct e0 as [c|]; [|destruct T0 as [T0 _]; congruence]. destruct e1 as [|r1]; [discriminate|]. destruct e2 as [|r2]; [discriminate|]. exists c, r1, r2. destruct T1 as (_ & _ & T1), T2 as (_ & _ & T2). repeat split; auto.
  Qed.
  Lemma integer_4 k : integer (K := K) (4 * (Z.of_nat k - 1)) = (1 + 1 + 1 + 1) * integer (Z.of_nat k - 1).
  Proof.
    destruct k as [|k]; [change (- (1 + (1 + (1 + (1 + 0)))) = (1 + 1 + 1 + 1) * - (1 + 0) :> K); ring|]. replace (Z.of_nat (S k) - 1)%Z with (Z.of_nat k) by lia. assert (I : forall m, integer (K := K) (Z.of_nat m) = ones m) by (intros [|m]; [reflexivity|cbn [Z.of_nat integer]; rewrite SuccNat2Pos.id_succ; reflexivity]).
    replace (4 * Z.of_nat k)%Z with (Z.of_nat (4 * k)) by lia. rewrite !I. assert (P : forall m p, ones (K := K) (m + p) = ones m + ones p) by (intros m p; induction m as [|m IH]; cbn [ones Nat.add]; [ring|rewrite IH; ring]).
    replace (4 * k)%nat with (k + (k + (k + k)))%nat by lia. rewrite !P. ring.
  Qed.
  Definition reduced_value (nu : K) (h1 h2 : arr) (q : list nat) : K :=
    match q with [i; j; k; l] => nu * (data h1 [i; l] * eye_at j k + data h1 [j; k] * eye_at i l - data h1 [i; k] * eye_at j l - data h1 [j; l] * eye_at i k) + data h2 [i; j; k; l] | _ => 0 end.
  Lemma reduced_put nu h1 h2 n : shape0 h1 = n -> shape0 h2 = n ->
    foldM (reduced_element nu h1 h2) (indices n 4) (zeros_array n) = Ok (put (map (fun q => (q, reduced_value nu h1 h2 q)) (indices n 4)) (zeros_array n)).
  Proof.
    intros H1 H2. rewrite (foldM_put _ (fun q => [(q, reduced_value nu h1 h2 q)])).
    - f_equal.
    - intros q Hq x. apply in_indices in Hq as [Lq Fq]. destruct q as [|i [|j [|k [|l [|]]]]]; try discriminate. inversion Fq as [|? ? Fi F1]; subst. inversion F1 as [|? ? Fj F2]; subst. inversion F2 as [|? ? Fk F3]; subst. inversion F3 as [|? ? Fl _]; subst.
      unfold reduced_element. rewrite !(aget_ok h1) by (repeat constructor; assumption). rewrite !(aget_ok h2) by (rewrite H2; repeat constructor; assumption). reflexivity.
  Qed.
  Lemma reduced_data nu h1 h2 n q : In q (indices n 4) -> data (put (map (fun q => (q, reduced_value nu h1 h2 q)) (indices n 4)) (zeros_array n)) q = reduced_value nu h1 h2 q.
  Proof.
    intros Hq. apply put_same.
    - intros iv H E. apply in_map_iff in H as (q' & <- & _). cbn [fst snd] in *. subst. reflexivity.
    - right. exists (q, reduced_value nu h1 h2 q). split; [|reflexivity]. apply in_map_iff. exists q. split; auto.
  Qed.
  Lemma reduced_ok (h : heap K) a k : inverts recip -> interaction_ok h a -> k <> 1%nat -> exists h' r, make_reduced_hamiltonian recip h a (Z.of_nat k) = Ok (h', r) /\ interaction_ok h' r /\ preserved h h' /\
    n_qubits r = n_qubits a /\ value h' r [] [] = value h a [] [] /\ (forall i, value h' r [true; false] i = 0) /\
    forall x y, length x = n_qubits a -> length y = n_qubits a -> particles y = k -> tensor_entry h' r x y = tensor_entry h a x y.
  Proof.
    intros Hr Ha Hk. destruct (interaction_parts h a Ha) as (c & r1 & r2 & E & S1 & S2). set (n := n_qubits a) in *. set (nu := recip (4 * (Z.of_nat k - 1))).
    unfold make_reduced_hamiltonian, constant, array_at. rewrite E. cbn [dget key_eqb list_eqb Bool.eqb rbind andb]. replace (4 * (Z.of_nat k - 1) =? 0)%Z with false by (symmetry; apply Z.eqb_neq; lia).
    rewrite S1, S2. fold nu. rewrite (reduced_put nu (read h r1) (read h r2) n S1 S2). cbn [rbind]. set (k2 := put _ (zeros_array n)).
    destruct (interaction_ok_new small h c (zeros_array n) k2 n eq_refl) as (r & Er & Or & Nr & Br); [unfold k2; rewrite put_shape; reflexivity|]. rewrite Er. destruct (read_app h (zeros_array n) k2) as [R1 R2].
    do 2 eexists. split; [reflexivity|]. split; [exact Or|]. split; [apply preserved_app|]. split; [exact Nr|]. split; [unfold value; rewrite Br, E; reflexivity|].
    split; [intros i; unfold value; rewrite Br; cbn [dget key_eqb list_eqb Bool.eqb andb element]; rewrite R1; reflexivity|].
    intros x y Hx Hy Hp. assert (Bx : (bval x < 2 ^ n)%nat) by (rewrite <- Hx; apply bval_lt). assert (By : (bval y < 2 ^ n)%nat) by (rewrite <- Hy; apply bval_lt).
    unfold tensor_entry. rewrite Br, E, Nr. fold n. cbn [fold_right fst snd length combine sum_over element]. rewrite R1, R2. f_equal. cbn [data zeros_array]. rewrite <- !su_seq.
    rewrite (su_zero (seq 0 n)) by (intros p _; rewrite <- su_seq; apply su_zero; intros q _; ring).
    transitivity (su (seq 0 n) (fun p => su (seq 0 n) (fun q => data (read h r1) [p; q] * E2 n p q (bval x) (bval y))) +
      su (seq 0 n) (fun p => su (seq 0 n) (fun q => su (seq 0 n) (fun r => su (seq 0 n) (fun s => data (read h r2) [p; q; r; s] * T4 n p q r s (bval x) (bval y)))))).
    2: { transitivity (su (seq 0 n) (fun p => su (seq 0 n) (fun q => data (read h r1) [p; q] * E2 n p q (bval x) (bval y))) +
      (su (seq 0 n) (fun p => su (seq 0 n) (fun q => su (seq 0 n) (fun r => su (seq 0 n) (fun s => data (read h r2) [p; q; r; s] * T4 n p q r s (bval x) (bval y))))) + 0)); [ring|]. f_equal; [|f_equal].
      - apply su_ext. intros p _. rewrite <- su_seq. apply su_ext. intros q _. f_equal. symmetry. apply E2_ent; assumption.
      - apply su_ext. intros p _. rewrite <- su_seq. apply su_ext. intros q _. rewrite <- su_seq. apply su_ext. intros r' _. rewrite <- su_seq. apply su_ext. intros s _. f_equal. symmetry. apply T4_ent; assumption. }
    rewrite <- (reduced_sum n (fun p q => data (read h r1) [p; q]) nu (bval x) y Bx Hy).
    2: { rewrite Hp, <- integer_4. apply Hr. lia. }
    transitivity (su (seq 0 n) (fun p => bigsum n (fun q => bigsum n (fun r => bigsum n (fun s => data k2 [p; q; r; s] * ent (fterm_matrix n [(p, true); (q, true); (r, false); (s, false)]) (bval x) (bval y)))))); [ring|].
    rewrite <- su_add. apply su_ext. intros p Hpp. rewrite <- !su_seq, <- su_add. apply su_ext. intros q Hq. rewrite <- !su_seq, <- su_add. apply su_ext. intros r' Hr'. rewrite <- !su_seq, <- su_add. apply su_ext. intros s Hs. apply in_seq in Hpp, Hq, Hr', Hs.
    unfold k2. rewrite reduced_data by (apply in_indices; split; [reflexivity|repeat constructor; lia]). rewrite T4_ent by assumption. unfold reduced_value. ring.
  Qed.
End R.
