(** Averages are linear; the expectation of an interaction operator. *)
From Coq Require Import ZArith Ring.
From Verif Require Import Base BaseFacts MatModel MatFacts LiftSpec LiftProofs OpModel OpSpec OpProofs PauliProofs OpProofs2 FermiModel FermiSpec FermiProofs FermiProofs2 FermiProofs3
  TensorModel TensorSpec TensorProps DiagModel DiagSpec DiagProofs ConvModel ConvProofs ActsProofs MolModel MolProofs9 SectorSpec SectorProofs SectorProofs2 RdmModel RdmSpec.
Open Scope list_scope.
Local Open Scope nat_scope.

Section S.
  Context {K : cring}.
  Add Ring Kring_rdm1 : (kth K).
  Open Scope K_scope.
  Section AV.
    Context (n : nat) (rho : mat K).
    Definition AV (f : nat -> nat -> K) : K := bigsum (2 ^ n) (fun i => bigsum (2 ^ n) (fun j => ent rho j i * f i j)).
    Lemma AV_ext f g : (forall i j, (i < 2 ^ n)%nat -> (j < 2 ^ n)%nat -> f i j = g i j) -> AV f = AV g.
    Proof. intros H. apply bigsum_ext. intros i Hi. apply bigsum_ext. intros j Hj. rewrite H; auto. Qed.
    Lemma AV_add f g : AV (fun i j => f i j + g i j) = AV f + AV g.
    Proof. unfold AV. rewrite <- bigsum_add. apply bigsum_ext. intros i _. rewrite <- bigsum_add. apply bigsum_ext. intros j _. ring. Qed.
    Lemma AV_mul c f : AV (fun i j => c * f i j) = c * AV f.
    Proof. unfold AV. rewrite bigsum_mul_l. apply bigsum_ext. intros i _. rewrite bigsum_mul_l. apply bigsum_ext. intros j _. ring. Qed.
    Lemma AV_0 : AV (fun _ _ => 0) = 0.
    Proof. apply bigsum_0. intros i _. apply bigsum_0. intros j _. ring. Qed.
    Lemma AV_bigsum m f : AV (fun i j => bigsum m (fun p => f p i j)) = bigsum m (fun p => AV (f p)).
    Proof.
      induction m as [|m IH]; [apply AV_0|]. cbn [bigsum]. rewrite <- IH. rewrite <- AV_add. reflexivity.
    Qed.
    Lemma AV_sum_over k m f : AV (fun i j => sum_over k m (fun l => f l i j)) = sum_over k m (fun l => AV (f l)).
    Proof.
      revert f. induction m as [|m IH]; intros f; [reflexivity|]. cbn [sum_over]. rewrite AV_bigsum. apply bigsum_ext. intros p _. apply (IH (fun l => f (p :: l))).
    Qed.
    Lemma AV_lval {A} (phi : term A -> nat -> nat -> K) (a : sop A K) : AV (fun i j => lval (fun t => phi t i j) a) = lval (fun t => AV (phi t)) a.
    Proof. induction a as [|[t c] a IH]; cbn [lval]; [apply AV_0|]. rewrite <- IH. rewrite AV_add, AV_mul. reflexivity. Qed.
    Lemma average_AV A : average n rho A = AV (ent A). Proof. reflexivity. Qed.
    Lemma average_meq A B : nr A = (2 ^ n)%nat -> nc A = (2 ^ n)%nat -> meq A B -> average n rho A = average n rho B.
    Proof. intros Hr Hc (_ & _ & E). apply AV_ext. intros i j Hi Hj. apply E; congruence. Qed.
    Lemma average_fop (a : fop K) : average n rho (fop_matrix n a) = lval (fun t => average n rho (fterm_matrix n t)) a.
    Proof. rewrite average_AV. rewrite (AV_ext _ (fun i j => lval (fun t => ent (fterm_matrix n t) i j) a)) by (intros; apply fop_ent). apply (AV_lval (fun t => ent (fterm_matrix n t))). Qed.
    Lemma average_qop im (a : qop K) : average n rho (qop_matrix im n a) = lval (fun t => average n rho (term_matrix im n t)) a.
    Proof.
      rewrite average_AV. rewrite (AV_ext _ (fun i j => lval (fun t => ent (term_matrix im n t) i j) a)); [apply (AV_lval (fun t => ent (term_matrix im n t)))|].
      intros i j Hi Hj. unfold qop_matrix. induction a as [|[t c] a IH]; cbn [fold_right lval fst snd madd mscale ent]; [reflexivity|]. rewrite IH. reflexivity.
    Qed.
  End AV.

  Lemma average_pure n (v : vec K) (A : mat K) : vlen v = (2 ^ n)%nat -> average n (pure v) A = mean (K := K) A v.
  Proof.
    intros Hv. unfold average, mean, pure. cbn [ent]. rewrite Hv. apply bigsum_ext. intros i _. rewrite bigsum_mul_l. apply bigsum_ext. intros j _. ring.
  Qed.

  (** Sums over index lists. *)
  Lemma fold_sum {X} (f : X -> K) l : forall s, fold_left (fun s i => s + f i) l s = s + fold_right (fun i s => f i + s) 0 l.
  Proof. induction l as [|x l IH]; intros s; cbn; [ring|]. rewrite IH. ring. Qed.
  Lemma sum_indices n m (f : list nat -> K) : fold_left (fun s i => s + f i) (indices n m) 0 = sum_over n m f.
  Proof.
    rewrite fold_sum. pose proof (lval_sum_over (fun _ => 1) n m (fun i => ([], f i))) as E. cbn [fst snd] in E.
    transitivity (sum_over n m (fun i => f i * 1)); [|apply DiagProofs.sum_over_ext; intros; ring]. rewrite <- E. clear E.
    assert (G : forall l : list (list nat), 0 + fold_right (fun i s => f i + s) 0 l = lval (fun _ => 1) (map (fun i => ([] : term bool, f i)) l)); [|apply G]. induction l as [|x l IH]; cbn; [ring|]. rewrite <- IH. ring.
  Qed.
  Lemma stretched_id (x : ndarray K) i : Forall (fun p => (p < shape0 x)%nat) i -> stretched x i = data x i.
  Proof.
    intros H. unfold stretched. destruct (Nat.eqb_spec (shape0 x) 1) as [E|]; [|reflexivity]. f_equal. induction H as [|p i Hp _ IH]; cbn; [reflexivity|]. rewrite IH. f_equal. lia.
  Qed.
  Lemma products_ok m (x y : ndarray K) n : shape0 x = n -> shape0 y = n -> sum_of_products m x y = Ok (sum_over n m (fun i => data x i * data y i)).
  Proof.
    intros Hx Hy. unfold sum_of_products, broadcast. rewrite Hx, Hy, Nat.eqb_refl. cbn [rbind]. f_equal. rewrite (sum_indices n m (fun i => stretched x i * stretched y i)).
    apply DiagProofs.sum_over_ext. intros i _ Hi. rewrite !stretched_id by (rewrite ?Hx, ?Hy; exact Hi). reflexivity.
  Qed.
  Lemma rdm_parts (h : heap K) a : rdm_ok h a -> exists r1 r2, n_body_tensors a = [([true; false], Arr r1); ([true; true; false; false], Arr r2)] /\
    shape0 (read h r1) = n_qubits a /\ shape0 (read h r2) = n_qubits a.
  Proof.
    intros [(_ & _ & _ & T) Hk]. destruct (n_body_tensors a) as [|[k1 e1] [|[k2 e2] [|]]] eqn:E; cbn [dkeys map fst] in Hk; try discriminate. injection Hk as -> ->.
    pose proof (T _ e1 (or_introl eq_refl)) as T1. pose proof (T _ e2 (or_intror (or_introl eq_refl))) as T2.
    destruct e1 as [|r1]; [discriminate|]. destruct e2 as [|r2]; [discriminate|]. exists r1, r2. destruct T1 as (_ & _ & T1), T2 as (_ & _ & T2). repeat split; auto.
  Qed.
  Lemma interaction_average n (rho : mat K) h rdm a : is_rdm n rho h rdm -> interaction_ok h a -> n_qubits a = n -> normalized n rho ->
    expectation_interaction h rdm a = Ok (average n rho (tensor_matrix h a)).
  Proof.
    intros (Hr & Hn & H1 & H2) Ha Hna Hnorm. destruct (rdm_parts h rdm Hr) as (r1 & r2 & E & S1 & S2). destruct (interaction_parts h a Ha) as (c & s1 & s2 & E' & S1' & S2').
    unfold expectation_interaction, constant, array_at. rewrite E, E'. cbn [dget key_eqb list_eqb Bool.eqb andb rbind].
    rewrite (products_ok 2 _ _ n), (products_ok 4 _ _ n) by congruence. cbn [rbind]. f_equal. unfold value in H1, H2. rewrite E in H1, H2. cbn [dget key_eqb list_eqb Bool.eqb andb element] in H1, H2.
    rewrite average_AV. unfold tensor_matrix. cbn [ent]. rewrite Hna.
    set (F := fun t => ent (fterm_matrix (K := K) n t)).
    transitivity (AV n rho (fun i j => c * F [] i j + (sum_over n 2 (fun l => data (read h s1) l * F (combine l [true; false]) i j) + (sum_over n 4 (fun l => data (read h s2) l * F (combine l [true; true; false; false]) i j) + 0)))).
    2:{ apply AV_ext. intros i j Hi Hj. unfold tensor_entry. rewrite E', Hna. cbn [fold_right fst snd length sum_over element combine]. rewrite !bval_bits_small by auto. reflexivity. }
    rewrite AV_add, AV_add, AV_add, AV_mul, AV_0. rewrite (AV_sum_over n rho n 2 (fun l i j => data (read h s1) l * F (combine l [true; false]) i j)), (AV_sum_over n rho n 4 (fun l i j => data (read h s2) l * F (combine l [true; true; false; false]) i j)).
    assert (N1 : AV n rho (F []) = 1) by exact Hnorm. rewrite N1.
    rewrite (DiagProofs.sum_over_ext n 2 (fun l => AV n rho (fun i j => data (read h s1) l * F (combine l [true; false]) i j)) (fun l => data (read h r1) l * data (read h s1) l)).
    2:{ intros l Hl Hf. rewrite AV_mul. destruct l as [|p [|q [|]]]; try discriminate. inversion Hf as [|? ? Hp Hf']; subst. inversion Hf' as [|? ? Hq _]; subst. rewrite H1 by auto. cbn [combine]. rewrite average_AV. unfold F. ring. }
    rewrite (DiagProofs.sum_over_ext n 4 (fun l => AV n rho (fun i j => data (read h s2) l * F (combine l [true; true; false; false]) i j)) (fun l => data (read h r2) l * data (read h s2) l)).
    2:{ intros l Hl Hf. rewrite AV_mul. destruct l as [|p [|q [|r [|s [|]]]]]; try discriminate. rewrite !Forall_cons_iff in Hf. destruct Hf as (Hp & Hq & Hr' & Hs & _). rewrite H2 by auto. cbn [combine]. rewrite average_AV. unfold F. ring. }
    ring.
  Qed.
End S.
