(** What lifting a gate matrix to a register means (C06). *)
From Verif Require Import Base MatModel.

(** The bits of a basis state at the given qubits (qubit 0 is the most significant bit). *)
Definition select (qs : list nat) (b : list bool) : list bool := map (fun q => nth q b false) qs.
(** Two basis states agree on every qubit of an n-qubit register that is not listed. *)
Definition agree_outside (n : nat) (qs : list nat) (b c : list bool) : bool :=
  forallb (fun i => memb Nat.eqb i qs || Bool.eqb (nth i b false) (nth i c false)) (seq 0 n).

Section S.
  Context {K : cring}.
  (** The operator on n qubits that acts as [A] on the listed qubits and as the identity on the others. *)
  Definition embed (n : nat) (qs : list nat) (A : mat K) : mat K :=
    Build_mat (2 ^ n) (2 ^ n) (fun i j =>
      if agree_outside n qs (bits n i) (bits n j)
      then ent A (bval (select qs (bits n i))) (bval (select qs (bits n j))) else k0).
End S.
