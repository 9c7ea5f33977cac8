(** Square matrices of a fixed size as a (non-commutative) ring up to equality of their entries, for the tactic non_commutative_ring. *)
From Coq Require Import Ring Setoid Morphisms Ncring Ncring_tac.
From Verif Require Import Base MatModel MatFacts OpSpec.
Local Open Scope nat_scope.

Definition sqm (K : cring) (N : nat) : Type := nat -> nat -> K.
Section R.
  Context {K : cring} (N : nat).
  Add Ring Kring_mr : (kth K).
  Open Scope K_scope.
  Definition sq_eq (A B : sqm K N) : Prop := forall i j, (i < N)%nat -> (j < N)%nat -> A i j = B i j.
  Definition sq0 : sqm K N := fun _ _ => 0.
  Definition sq1 : sqm K N := fun i j => if Nat.eqb i j then 1 else 0.
  Definition sq_add (A B : sqm K N) : sqm K N := fun i j => A i j + B i j.
  Definition sq_opp (A : sqm K N) : sqm K N := fun i j => - A i j.
  Definition sq_sub (A B : sqm K N) : sqm K N := fun i j => A i j - B i j.
  Definition sq_mul (A B : sqm K N) : sqm K N := fun i j => bigsum N (fun k => A i k * B k j).
  Definition sq_scale (c : K) (A : sqm K N) : sqm K N := fun i j => c * A i j.
  Global Instance sq_ops : Ring_ops (T := sqm K N) (ring0 := sq0) (ring1 := sq1) (add := sq_add) (mul := sq_mul) (sub := sq_sub) (opp := sq_opp) (ring_eq := sq_eq) := {}.
  Global Instance sq_equiv : Equivalence sq_eq.
  Proof. split; [intros A i j _ _; reflexivity|intros A B H i j Hi Hj; symmetry; auto|intros A B C H1 H2 i j Hi Hj; rewrite H1; auto]. Qed.
  Global Instance sq_ring : Ring (Ro := sq_ops).
  Proof.
    split; try (exact sq_equiv).
    - intros A B H C D H' i j Hi Hj. cbv [addition add_notation sq_add]. rewrite H, H'; auto.
    - intros A B H C D H' i j Hi Hj. apply bigsum_ext. intros k Hk. rewrite H, H'; auto.
    - intros A B H C D H' i j Hi Hj. cbv [subtraction sub_notation sq_sub]. rewrite H, H'; auto.
    - intros A B H i j Hi Hj. cbv [opposite opp_notation sq_opp]. rewrite H; auto.
    - intros A i j Hi Hj. apply (Radd_0_l (kth K)).
    - intros A B i j Hi Hj. apply (Radd_comm (kth K)).
    - intros A B C i j Hi Hj. apply (Radd_assoc (kth K)).
    - intros A i j Hi Hj. cbv [multiplication mul_notation one one_notation sq_mul sq1]. rewrite (bigsum_single N i); [rewrite Nat.eqb_refl; ring|auto|].
      intros k Hk Hn. replace (Nat.eqb i k) with false by (symmetry; apply Nat.eqb_neq; auto). ring.
    - intros A i j Hi Hj. cbv [multiplication mul_notation one one_notation sq_mul sq1]. rewrite (bigsum_single N j); [rewrite Nat.eqb_refl; ring|auto|].
      intros k Hk Hn. replace (Nat.eqb k j) with false by (symmetry; apply Nat.eqb_neq; auto). ring.
    - intros A B C i j Hi Hj. cbv [multiplication mul_notation sq_mul].
      transitivity (bigsum N (fun k => bigsum N (fun l => A i k * (B k l * C l j)))); [apply bigsum_ext; intros; apply bigsum_mul_l|].
      rewrite bigsum_swap. apply bigsum_ext. intros k Hk. rewrite bigsum_mul_r. apply bigsum_ext. intros l Hl. ring.
    - intros A B C i j Hi Hj. cbv [multiplication mul_notation addition add_notation sq_mul sq_add]. rewrite <- bigsum_add. apply bigsum_ext. intros; ring.
    - intros A B C i j Hi Hj. cbv [multiplication mul_notation addition add_notation sq_mul sq_add]. rewrite <- bigsum_add. apply bigsum_ext. intros; ring.
    - intros A B i j Hi Hj. cbv [subtraction sub_notation addition add_notation opposite opp_notation sq_sub sq_opp sq_add]. ring.
    - intros A i j Hi Hj. cbv [addition add_notation opposite opp_notation zero zero_notation sq_opp sq_add sq0]. ring.
  Qed.
End R.

Declare Scope sq_scope.
Delimit Scope sq_scope with sq.
Section P.
  Context {K : cring} (N : nat).
  Global Instance sq_add_proper : Proper (sq_eq (K := K) N ==> sq_eq N ==> sq_eq N) (sq_add N).
  Proof. exact (@ring_plus_comp _ _ _ _ _ _ _ _ _ (sq_ring (K := K) N)). Qed.
  Global Instance sq_mul_proper : Proper (sq_eq (K := K) N ==> sq_eq N ==> sq_eq N) (sq_mul N).
  Proof. exact (@ring_mult_comp _ _ _ _ _ _ _ _ _ (sq_ring (K := K) N)). Qed.
  Global Instance sq_sub_proper : Proper (sq_eq (K := K) N ==> sq_eq N ==> sq_eq N) (sq_sub N).
  Proof. exact (@ring_sub_comp _ _ _ _ _ _ _ _ _ (sq_ring (K := K) N)). Qed.
  Global Instance sq_opp_proper : Proper (sq_eq (K := K) N ==> sq_eq N) (sq_opp N).
  Proof. exact (@ring_opp_comp _ _ _ _ _ _ _ _ _ (sq_ring (K := K) N)). Qed.
End P.
