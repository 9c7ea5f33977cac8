(** Specification for C87: chemists' notation, energies of occupation states, antisymmetric integrals. *)
From Coq Require Import ZArith.
From Verif Require Import Base MatModel LiftSpec OpModel OpSpec FermiSpec.
Open Scope list_scope.
Local Open Scope nat_scope.

Section S.
  Context {K : cring}.
  Open Scope K_scope.
  (** The two-electron integral (pq|rs): electron 1 in the orbitals p, q and electron 2 in r, s.  The stored integrals g(p,q,r,s) belong to a^_p a^_q a_r a_s, so
      that electron 1 is in p and s. *)
  Definition chemist (g : nat -> nat -> nat -> nat -> K) (p q r s : nat) : K := g p r s q.
  (** <pq|rs>: electron 1 in p and r, electron 2 in q and s *)
  Definition physicist (g : nat -> nat -> nat -> nat -> K) (p q r s : nat) : K := g p q s r.
  (** 1 for an occupied mode, 0 for an empty one *)
  Definition occ (x : list bool) (m : nat) : K := if nth m x false then 1 else 0.
  (** electrons in the orbital p, which has the modes 2 p and 2 p + 1; pairs of electrons of equal spin in p and q *)
  Definition in_orbital (x : list bool) (p : nat) : K := occ x (2 * p) + occ x (2 * p + 1).
  Definition parallel (x : list bool) (p q : nat) : K := occ x (2 * p) * occ x (2 * q) + occ x (2 * p + 1) * occ x (2 * q + 1).
  (** The energy of an occupation state: nuclear + sum_p h(p,p) N_p + half sum_pq ((pp|qq) N_p N_q - (pq|qp) S_pq) *)
  Definition occupation_energy (n : nat) (half nuclear : K) (h J X : nat -> nat -> K) (x : list bool) : K :=
    nuclear + (bigsum n (fun p => h p p * in_orbital x p) +
      half * bigsum n (fun p => bigsum n (fun q => J p q * (in_orbital x p * in_orbital x q) - X p q * parallel x p q))).
  (** The number of electrons of an occupation state *)
  Definition electrons (x : list bool) : nat := length (filter (fun b => b) x).
End S.
(** The integrals between spin orbitals: spin orbital 2 p + a is orbital p with spin a; each electron keeps its spin. *)
Definition spin_one {K : cring} (f : nat -> nat -> K) (i j : nat) : K := if Nat.eqb (i mod 2) (j mod 2) then f (i / 2) (j / 2) else k0.
Definition spin_two {K : cring} (g : nat -> nat -> nat -> nat -> K) (i j k l : nat) : K :=
  if (Nat.eqb (i mod 2) (l mod 2) && Nat.eqb (j mod 2) (k mod 2))%bool then g (i / 2) (j / 2) (k / 2) (l / 2) else k0.
