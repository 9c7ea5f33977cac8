(** Specification for C78 and C79: the electronic Hamiltonian of a molecule and its restriction to an active space. *)
From Verif Require Import Base MatModel LiftSpec OpModel OpSpec FermiSpec UCCSpec.
Open Scope list_scope.
Local Open Scope nat_scope.

(** The restriction: which states of 2 n modes (orbital p has the modes 2 p and 2 p + 1) stand for a state b of the 2 |active| modes of the active orbitals.
    The occupied orbitals hold two electrons, the active ones what b says, the others none. *)
Definition extends (n : nat) (occupied active : list nat) (b x : list bool) : Prop :=
  length b = 2 * length active /\ length x = 2 * n /\
  (forall p, In p occupied -> nth (2 * p) x false = true /\ nth (2 * p + 1) x false = true) /\
  (forall k, k < length active -> nth (2 * nth k active 0) x false = nth (2 * k) b false /\ nth (2 * nth k active 0 + 1) x false = nth (2 * k + 1) b false) /\
  (forall p, p < n -> ~ In p occupied -> ~ In p active -> nth (2 * p) x false = false /\ nth (2 * p + 1) x false = false).
(** Orbitals that can be chosen: occupied and active ones are different orbitals, the active ones in increasing order. *)
Fixpoint increasing (l : list nat) : Prop := match l with a :: (b :: _) as m => a < b /\ increasing m | _ => True end.
Definition active_space (n : nat) (occupied active : list nat) : Prop :=
  NoDup occupied /\ increasing active /\ (forall p, In p occupied -> ~ In p active) /\ forall p, In p occupied \/ In p active -> p < n.

(** ** Symmetries of the terms (C80) *)
(** pqrs = srqp = qpsr = rspq *)
Definition four_point (x y : list nat) : Prop := exists p q r s, x = [p; q; r; s] /\ (y = [p; q; r; s] \/ y = [s; r; q; p] \/ y = [q; p; s; r] \/ y = [r; s; p; q]).
(** pqrs = rqps = psrq = srqp = qpsr = rspq = spqr = qrsp *)
Definition eight_point (x y : list nat) : Prop :=
  four_point x y \/ exists p q r s, x = [p; q; r; s] /\ (y = [r; q; p; s] \/ y = [p; s; r; q] \/ y = [s; p; q; r] \/ y = [q; r; s; p]).
(** Terms that the documented symmetry relates: of one-body terms pq = qp, of two-body terms the above. *)
Definition same_class (complex_valued : bool) (t u : list (nat * bool)) : Prop :=
  t = u \/ (exists p q, t = [(p, true); (q, false)] /\ u = [(q, true); (p, false)]) \/
  exists x y, t = combine x [true; true; false; false] /\ u = combine y [true; true; false; false] /\ (if complex_valued then four_point x y else eight_point x y).

Section S.
  Context {K : cring}.
  Open Scope K_scope.
  (** The electronic Hamiltonian of n orbitals:
        constant + sum_pq h(p,q) sum_s a^_ps a_qs + half sum_pqrs g(p,q,r,s) sum_st a^_ps a^_qt a_rt a_ss     (s, t: the two spins) *)
  Definition two_electron (n p q r s : nat) : mat K :=
    let term (a b : nat) := fterm_matrix (2 * n) [(2 * p + a, true); (2 * q + b, true); (2 * r + b, false); (2 * s + a, false)]%nat in
    madd (madd (term 0 0) (term 0 1))%nat (madd (term 1 0) (term 1 1))%nat.
  Definition electronic (n : nat) (half constant : K) (h : nat -> nat -> K) (g : nat -> nat -> nat -> nat -> K) : mat K :=
    madd (mscale constant (eye (2 ^ (2 * n))))
      (madd (msum (2 * n) (flat_map (fun p => map (fun q => mscale (h p q) (spin_free (2 * n) p q)) (seq 0 n)) (seq 0 n)))
            (msum (2 * n) (flat_map (fun p => flat_map (fun q => flat_map (fun r => map (fun s => mscale (half * g p q r s) (two_electron n p q r s)) (seq 0 n)) (seq 0 n)) (seq 0 n)) (seq 0 n)))).
  (** Symmetry of the two-electron integrals under exchange of the electrons. *)
  Definition exchange_symmetric (n : nat) (g : nat -> nat -> nat -> nat -> K) : Prop :=
    forall p q r s, (p < n)%nat -> (q < n)%nat -> (r < n)%nat -> (s < n)%nat -> g p q r s = g q p s r.
  (** Hermitian integrals *)
  Definition hermitian_integrals (n : nat) (h : nat -> nat -> K) (g : nat -> nat -> nat -> nat -> K) : Prop :=
    (forall p q, (p < n)%nat -> (q < n)%nat -> kconj (h p q) = h q p) /\
    forall p q r s, (p < n)%nat -> (q < n)%nat -> (r < n)%nat -> (s < n)%nat -> kconj (g p q r s) = g s r q p.
  (** A coefficient that is too small is left out. *)
  Definition clipped (small : K -> bool) (c : K) : K := if small c then 0 else c.
  (** The integers in K. *)
  Fixpoint ones (n : nat) : K := match n with O => 0 | S m => 1 + ones m end.
  Definition integer (z : Z) : K := match z with Z0 => 0 | Zpos p => ones (Pos.to_nat p) | Zneg p => - ones (Pos.to_nat p) end.
  (** A function that inverts the integers other than 0 *)
  Definition inverts (recip : Z -> K) : Prop := forall z, z <> 0%Z -> recip z * integer z = 1.
End S.
