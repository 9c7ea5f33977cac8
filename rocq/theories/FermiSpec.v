(** What fermion operators denote (C46-C50): matrices on the occupation-number basis of [n] modes, mode 0 being the first bit. *)
From Coq Require Import Factorial.
From Verif Require Import Base MatModel LiftSpec OpModel OpSpec.
Open Scope list_scope.
Local Open Scope nat_scope.

(** whether an odd number of the listed modes is occupied *)
Definition odd_count (l : list bool) : bool := fold_right xorb false l.

Section S.
  Context {K : cring}.
  Open Scope K_scope.
  Definition sgn (odd : bool) : K := if odd then - (1) else 1.
  (** The creation (true) or annihilation (false) operator of mode p: it changes the occupation of mode p to 1 or 0, gives zero when it has that
      value already, and has the sign of the number of occupied modes before p. *)
  Definition ladder_matrix (n : nat) (f : factor bool) : mat K :=
    Build_mat (2 ^ n) (2 ^ n) (fun i j =>
      let b := bits n i in let c := bits n j in
      if agree_outside n [fst f] b c && Bool.eqb (nth (fst f) b false) (snd f) && Bool.eqb (nth (fst f) c false) (negb (snd f))
      then sgn (odd_count (firstn (fst f) c)) else 0).
  (** A term denotes the product of its ladder operators in the written order, an operator the sum of coefficient times term. *)
  Definition fterm_matrix (n : nat) (t : term bool) : mat K := fold_right (fun f M => mmul (ladder_matrix n f) M) (eye (2 ^ n)) t.
  Definition fop_matrix (n : nat) (a : fop K) : mat K :=
    fold_right (fun tc M => madd (mscale (snd tc) (fterm_matrix n (fst tc))) M) (zeros (2 ^ n) (2 ^ n)) a.
End S.

(** Normal order: creation operators first, each kind with strictly decreasing modes. *)
Definition before (f g : factor bool) : Prop :=
  match snd f, snd g with true, false => True | false, true => False | _, _ => fst g < fst f end.
Definition normal_term (t : term bool) : Prop := forall i j f g, i < j -> nth_error t i = Some f -> nth_error t j = Some g -> before f g.
Definition normal_op {K : cring} (a : fop K) : Prop := forall t c, In (t, c) a -> normal_term t.

(** ** The Bravyi-Kitaev encoding: qubit j stores the parity of the modes j+1-2^k, ..., j where 2^k is the largest power of two dividing j+1. *)
Fixpoint largest_pow2 (fuel n : nat) : nat := match fuel with O => 1 | S f => if Nat.even n then 2 * largest_pow2 f (n / 2) else 1 end.
Definition bk_low (j : nat) : nat := S j - largest_pow2 (S j) (S j).
Definition bk_code (n : nat) (c : list bool) : list bool := map (fun j => odd_count (skipn (bk_low j) (firstn (S j) c))) (seq 0 n).
Definition bk_encoding {K : cring} (n : nat) : mat K :=
  Build_mat (2 ^ n) (2 ^ n) (fun i j => if list_eqb Bool.eqb (bits n i) (bk_code n (bits n j)) then k1 else k0).

(** ** Pruning: sums of operators drop terms whose new coefficient is small. *)
Definition all_small {A} {K : cring} (small : K -> bool) (r : sop A K) : Prop := Forall (fun tc => small (snd tc) = true) r.
Definition only_zero {K : cring} (small : K -> bool) : Prop := forall c, small c = true -> c = k0.
(** A bound on the number of terms dropped while an operator is normal ordered: 2 (k + 1)! for a term of k factors. *)
Definition drop_bound {K : cring} (a : fop K) : nat := fold_right (fun tc s => 2 * fact (S (length (fst tc))) + s) 0 a.
(** A term of k ladder operators, each the sum of two Pauli terms, has an image of at most 2^k terms. *)
Definition image_bound {K : cring} (a : fop K) : nat := fold_right (fun tc s => 2 ^ length (fst tc) + s) 0 a.
