(** Proofs for C83: rotating the arrays is replacing the ladder operators. *)
From Coq Require Import Ring.
From Verif Require Import Base BaseFacts MatModel MatFacts LiftSpec OpModel OpSpec FermiModel FermiSpec TensorModel TensorSpec DiagSpec ConvModel RotModel RotSpec RdmProofs.
Open Scope list_scope.
Local Open Scope nat_scope.

Section S.
  Context {K : cring}.
  Add Ring Kring_rot1 : (kth K).
  Open Scope K_scope.
  Lemma so_ext n m : forall f g, (forall i, length i = m -> Forall (fun p => (p < n)%nat) i -> f i = g i) -> sum_over (K := K) n m f = sum_over n m g.
  Proof. apply DiagProofs.sum_over_ext. Qed.
  Lemma so_mul_l n m : forall c f, c * sum_over (K := K) n m f = sum_over n m (fun i => c * f i).
  Proof. induction m as [|m IH]; intros c f; cbn [sum_over]; [reflexivity|]. rewrite bigsum_mul_l. apply bigsum_ext. intros p _. apply IH. Qed.
  Lemma so_mul_r n m c f : sum_over (K := K) n m f * c = sum_over n m (fun i => f i * c).
  Proof. transitivity (c * sum_over n m f); [ring|]. rewrite so_mul_l. apply so_ext. intros i _ _. ring. Qed.
  Lemma so_bigsum n m N : forall f : nat -> list nat -> K, bigsum N (fun k => sum_over n m (f k)) = sum_over n m (fun i => bigsum N (fun k => f k i)).
  Proof.
    induction m as [|m IH]; intros f; cbn [sum_over]; [reflexivity|]. rewrite bigsum_swap. apply bigsum_ext. intros p _. apply (IH (fun k i => f k (p :: i))).
  Qed.
  Lemma so_swap n m n' m' : forall f : list nat -> list nat -> K, sum_over n m (fun i => sum_over n' m' (fun j => f i j)) = sum_over n' m' (fun j => sum_over n m (fun i => f i j)).
  Proof.
    induction m as [|m IH]; intros f; cbn [sum_over]; [reflexivity|]. rewrite <- so_bigsum. apply bigsum_ext. intros p _. apply (IH (fun i => f (p :: i))).
  Qed.

  Section Rotated.
    Context (n : nat) (R : mat K).
    Lemma replaced_expand k : forall old i j, length old = length k -> (i < 2 ^ n)%nat -> (j < 2 ^ n)%nat ->
      ent (replaced_term n (rotated_ladder n R) (combine old k)) i j = sum_over n (length k) (fun new => rotation_factors R k old new * ent (fterm_matrix n (combine new k)) i j).
    Proof.
      induction k as [|d k IH]; intros old i j L Hi Hj; destruct old as [|a old]; try discriminate L.
      - cbn [combine length sum_over rotation_factors]. unfold replaced_term, fterm_matrix. cbn [fold_right]. ring.
      - cbn [combine length sum_over]. injection L as L.
        change (replaced_term n (rotated_ladder n R) ((a, d) :: combine old k)) with (mmul (rotated_ladder n R (a, d)) (replaced_term n (rotated_ladder n R) (combine old k))).
        cbn [mmul ent rotated_ladder nc fst snd].
        transitivity (bigsum (2 ^ n) (fun k0 => bigsum n (fun A => sum_over n (length k) (fun new =>
          rotation_factor R d a A * rotation_factors R k old new * (ent (ladder_matrix n (A, d)) i k0 * ent (fterm_matrix n (combine new k)) k0 j))))).
        + apply bigsum_ext. intros k0 H0. rewrite IH by auto. rewrite bigsum_mul_r. apply bigsum_ext. intros A _. rewrite so_mul_l. apply so_ext. intros new _ _. unfold rotation_factor. ring.
        + rewrite bigsum_swap. apply bigsum_ext. intros A _. rewrite so_bigsum. apply so_ext. intros new _ _.
          cbn [combine rotation_factors]. rewrite <- bigsum_mul_l. f_equal.
    Qed.
    Lemma rotated_sum k (x y : ndarray K) i j : nr R = n -> nc R = n -> shape0 x = n -> (i < 2 ^ n)%nat -> (j < 2 ^ n)%nat ->
      (forall new, data y new = fold_left (fun s old => s + data x old * rotation_factors R k old new) (indices (shape0 x) (length k)) 0) ->
      sum_over n (length k) (fun new => data y new * ent (fterm_matrix n (combine new k)) i j) = sum_over n (length k) (fun old => data x old * ent (replaced_term n (rotated_ladder n R) (combine old k)) i j).
    Proof.
      intros _ _ Sx Hi Hj Y. transitivity (sum_over n (length k) (fun new => sum_over n (length k) (fun old => data x old * rotation_factors R k old new * ent (fterm_matrix n (combine new k)) i j))).
      - apply so_ext. intros new _ _. rewrite Y, Sx. rewrite (sum_indices n (length k) (fun old => data x old * rotation_factors R k old new)). apply so_mul_r.
      - rewrite so_swap. apply so_ext. intros old Lo _. rewrite replaced_expand by auto. rewrite so_mul_l. apply so_ext. intros new _ _. ring.
    Qed.
  End Rotated.
End S.
