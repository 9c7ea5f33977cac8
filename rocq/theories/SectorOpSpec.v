(** Specification for C76: states reached by a number of excitations. *)
From Verif Require Import Base.
Open Scope list_scope.
Local Open Scope nat_scope.

(** How many of the modes 0 .. n-1 have a property. *)
Definition how_many (P : nat -> bool) (n : nat) : nat := length (filter P (seq 0 n)).
Definition occupied (b : list bool) (i : nat) : bool := nth i b false.
(** The excitations that lead from a state r to a state s: modes occupied in r and not in s. *)
Definition excitations (r s : list bool) : nat := how_many (fun i => occupied r i && negb (occupied s i)) (length r).
(** The particles in even modes (spin up) and in odd modes (spin down). *)
Definition particles_up (b : list bool) : nat := how_many (fun i => Nat.even i && occupied b i) (length b).
Definition particles_down (b : list bool) : nat := how_many (fun i => Nat.odd i && occupied b i) (length b).
(** The state the excitations start from: the one given, or the first k of n modes occupied. *)
Definition starting_state (n k : nat) (given : option (list bool)) : list bool := match given with Some r => r | None => repeat true (Nat.min k n) ++ repeat false (n - k) end.
(** The number of excitations allowed: the one given, or as many as there are particles. *)
Definition allowed_level (k : nat) (given : option nat) : nat := match given with Some l => l | None => k end.
