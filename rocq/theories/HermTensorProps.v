(** C73, continued: an interaction operator with Hermitian coefficients is Hermitian. *)
From Coq Require Import Permutation Ring.
From Verif Require Import Base BaseFacts MatModel MatFacts OpModel OpSpec OpProofs FermiModel FermiSpec FermiProofs2 FermiProofs6 ReindexProofs2 TensorModel TensorSpec TensorProofs TensorProps ConvProofs
  DiagSpec DiagProofs ActsProps RdmProofs JWInterModel JWInterSpec JWInterProofs2 BKInterProofs4 JWInterProps GaussQ MolProps.
Open Scope list_scope.
Local Open Scope nat_scope.

(** A real constant, h_pq* = h_qp and h_pqrs* = h_srqp. *)
Definition hermitian_coefficients {K : cring} (h : heap K) (a : ptensor K) : Prop :=
  forall k i, In k (dkeys (n_body_tensors a)) -> addresses (n_qubits a) k i -> kconj (value h a k i) = value h a k (rev i).

Section Herm.
  Context {K : cring}.
  Add Ring Kring_herm : (kth K).
  Open Scope K_scope.
  Lemma fold_lsum (f : list nat -> K) l : forall s, fold_left (fun s i => s + f i) l s = s + lsum f l.
  Proof. induction l as [|x l IH]; intros s; cbn [fold_left]; [unfold lsum; cbn; ring|]. rewrite IH. unfold lsum. cbn [fold_right]. ring. Qed.
  Lemma sum_lsum n m (f : list nat -> K) : sum_over n m f = lsum f (TensorModel.indices n m).
  Proof. rewrite <- sum_indices, fold_lsum. ring. Qed.
  Lemma lsum_map {X Y} (g : X -> Y) (f : Y -> K) l : lsum f (map g l) = lsum (fun x => f (g x)) l.
  Proof. induction l as [|x l IH]; [reflexivity|]. unfold lsum in *. cbn [map fold_right]. rewrite IH. reflexivity. Qed.
  Lemma sum_rev n m (f : list nat -> K) : sum_over n m f = sum_over n m (fun i => f (rev i)).
  Proof.
    rewrite !sum_lsum. rewrite <- (lsum_map (@rev nat) f). apply lsum_perm. apply NoDup_Permutation.
    - apply ConvProofs.indices_NoDup.
    - apply FinFun.Injective_map_NoDup; [intros x y E; rewrite <- (rev_involutive x), E; apply rev_involutive|apply ConvProofs.indices_NoDup].
    - intros i. assert (R : forall i : list nat, In i (TensorModel.indices n m) -> In (rev i) (TensorModel.indices n m)).
      { intros j Hj. apply in_indices in Hj as [L F]. apply in_indices. rewrite rev_length. split; [exact L|]. apply Forall_rev. exact F. }
      rewrite in_map_iff. split; [intros H; exists (rev i); split; [apply rev_involutive|auto]|intros (j & <- & H); auto].
  Qed.
  Lemma kconj_sum n m : forall f : list nat -> K, kconj (sum_over n m f) = sum_over n m (fun i => kconj (f i)).
  Proof. induction m as [|m IH]; intros f; cbn [sum_over]; [reflexivity|]. rewrite bigsum_conj. apply bigsum_ext. intros l _. apply IH. Qed.
  Lemma combine_app (i j : list nat) (u v : list bool) : length i = length u -> combine (i ++ j) (u ++ v) = combine i u ++ combine j v.
  Proof. revert u. induction i as [|x i IH]; intros [|y u] H; try discriminate; [reflexivity|]. cbn. rewrite IH by (cbn in H; lia). reflexivity. Qed.
  Lemma dagger_combine (i : list nat) : forall k, length i = length k -> dagger (combine i k) = combine (rev i) (map negb (rev k)).
  Proof.
    induction i as [|p i IH]; intros [|b k] H; try discriminate; [reflexivity|]. cbn [combine rev]. change ((p, b) :: combine i k) with ([(p, b)] ++ combine i k).
    rewrite dagger_app, IH by (cbn in H; lia). rewrite map_app, combine_app by (rewrite map_length, !rev_length; cbn in H; lia). reflexivity.
  Qed.
  Theorem C73_hermitian_coefficients (h : heap K) (a : ptensor K) : interaction_ok h a -> hermitian_coefficients h a -> hermitian_tensor h a.
  Proof.
    intros [Ht Hk] Hc x y Hx Hy. unfold tensor_entry. assert (Nk : NoDup (dkeys (n_body_tensors a))) by apply Ht.
    assert (G : forall kv, In kv (n_body_tensors a) -> forall i, addresses (n_qubits a) (fst kv) i -> kconj (element h (snd kv) i) = element h (snd kv) (rev i) /\ map negb (rev (fst kv)) = fst kv).
    { intros [k e] Hin i Ai. split.
      - assert (D : dget key_eqb k (n_body_tensors a) = Some e) by (apply (BaseFacts.In_dget _ key_eqb_spec); [exact Nk|exact Hin]).
        assert (Ik : In k (dkeys (n_body_tensors a))) by (apply (in_map fst) in Hin; exact Hin). pose proof (Hc k i Ik Ai) as Q. unfold value in Q. rewrite D in Q. exact Q.
      - assert (Ik : In k (dkeys (n_body_tensors a))) by (apply (in_map fst) in Hin; exact Hin). rewrite Hk in Ik. destruct Ik as [<-|[<-|[<-|[]]]]; reflexivity. }
    assert (Bx : (bval x < 2 ^ n_qubits a)%nat) by (rewrite <- Hx; apply bval_lt). assert (By : (bval y < 2 ^ n_qubits a)%nat) by (rewrite <- Hy; apply bval_lt).
    clear Hk Hc Ht Nk. revert G. generalize (n_body_tensors a) as d. induction d as [|kv d IH]; intros G; cbn [fold_right]; [apply kconj_0|]. rewrite kconj_add.
    rewrite IH by (intros kv' H'; apply G; right; exact H'). f_equal. rewrite kconj_sum, sum_rev. apply DiagProofs.sum_over_ext. intros i Li Fi. cbv beta.
    assert (Ar : addresses (n_qubits a) (fst kv) (rev i)) by (split; [rewrite rev_length; exact Li|apply Forall_rev; exact Fi]).
    destruct (G kv (or_introl eq_refl) (rev i) Ar) as [G1 G2]. rewrite rev_involutive in G1. rewrite kconj_mul. etransitivity; [apply (f_equal (fun z => z * _)); exact G1|]. apply (f_equal (fun z => element h (snd kv) i * z)).
    assert (Ed : combine (rev i) (fst kv) = dagger (combine i (fst kv))) by (rewrite dagger_combine, G2 by exact Li; reflexivity).
    match goal with |- kconj (ent (fterm_matrix _ ?t) _ _) = _ => replace t with (dagger (combine i (fst kv))) by (symmetry; exact Ed) end.
    destruct (fterm_adjoint (K := K) (n_qubits a) (combine i (fst kv))) as (S1 & S2 & E). destruct (fterm_shape (K := K) (n_qubits a) (dagger (combine i (fst kv)))) as [R1 R2].
    rewrite E by (rewrite ?R1, ?R2; auto). cbn [ent adjoint]. apply kconj_invol.
  Qed.
End Herm.

(** The integrals of the example of C92: four modes, a hopping between the pairs of modes (0, 1) and (2, 3). *)
Definition pair_heap : heap GQ := [
  {| shape0 := 4; data := fun i => match i with [0; 0] => gq 4 0 | [2; 2] => gq 8 0 | [1; 1] => gq (-3) 0 | _ => k0 end |};
  {| shape0 := 4; data := fun i => match i with [0; 1; 3; 2] => gq 1 2 | [2; 3; 1; 0] => gq 1 (-2) | _ => k0 end |}].
Definition pair_tensor : ptensor GQ := {| n_qubits := 4; n_body_tensors := [([], Num (gq 7 0)); ([true; false], Arr 0); ([true; true; false; false], Arr 1)] |}.
Example C73_coefficients : interaction_ok pair_heap pair_tensor /\ hermitian_coefficients pair_heap pair_tensor.
Proof.
  split.
  - split; [|reflexivity]. split; [repeat constructor; cbn; intuition discriminate|]. split; [intros k1 k2 r [E1|[E1|[E1|[]]]] [E2|[E2|[E2|[]]]]; inversion E1; inversion E2; subst; try discriminate; reflexivity|].
    split; [exists [true; false], 0; right; left; reflexivity|]. intros k e [E|[E|[E|[]]]]; inversion E; subst; cbn; [reflexivity| |]; repeat split; try discriminate; lia.
  - assert (B : forallb (fun k => forallb (fun i => gq_zero (ksub (kconj (value pair_heap pair_tensor k i)) (value pair_heap pair_tensor k (rev i)))) (TensorModel.indices 4 (length k)))
      [[]; [true; false]; [true; true; false; false]] = true) by (vm_compute; reflexivity).
    intros k i Hk Hi. rewrite forallb_forall in B. specialize (B k Hk). rewrite forallb_forall in B. apply c73_same, B. apply in_indices. exact Hi.
Qed.
Print Assumptions C73_hermitian_coefficients.
