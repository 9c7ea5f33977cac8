(** Specifications for distances between distributions. *)
From Coq Require Import QArith Qreals Reals Permutation.
From Verif Require Import Base UtilsModel UtilsSpec DistModel.
Local Open Scope list_scope.

(** any way of iterating over a set *)
Definition set_iteration (f : list (list Z) -> list (list Z)) : Prop := forall l, NoDup l -> Permutation (f l) l.
(** the probability a distribution gives to an outcome *)
Definition prob (d : list (list Z * Q)) (k : list Z) : R :=
  match find (fun kv => if list_eq_dec Z.eq_dec (fst kv) k then true else false) d with Some kv => Q2R (snd kv) | None => 0%R end.
(** same outcomes with the same probabilities, where missing outcomes have probability zero *)
Definition same_distribution (a b : list (list Z * Q)) : Prop := forall k, prob a k = prob b k.
(** the sum of [f] over the outcomes listed in [ks] *)
Definition Rsum {A} (f : A -> R) (ks : list A) : R := fold_right Rplus 0%R (map f ks).
(** [ks] lists the outcomes of both distributions, each once *)
Definition lists_outcomes (ks : list (list Z)) (a b : list (list Z * Q)) : Prop :=
  NoDup ks /\ forall k, In k ks <-> In k (map fst a) \/ In k (map fst b).
(** all outcomes are strings of [n] bits *)
Definition over_bits (n : nat) (d : list (list Z * Q)) : Prop := forall k, In k (map fst d) -> length k = n /\ binary k.
