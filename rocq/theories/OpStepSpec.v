(** Words for C92. *)
From Verif Require Import Base MatModel.
Open Scope list_scope.

(** The basis state of n modes in which exactly the listed modes are occupied. *)
Definition occupied (n : nat) (modes : list nat) : list bool := map (fun p => existsb (Nat.eqb p) modes) (seq 0 n).
(** The number of ones among the first n bits of an assignment. *)
Definition ones (n : nat) (s : nat -> bool) : nat := length (filter s (seq 0 n)).
(** A natural number in a ring. *)
Definition of_nat {K : cring} (n : nat) : K := Nat.iter n (kadd k1) k0.
