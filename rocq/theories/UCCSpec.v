(** Specification for C77: excitation operators and spin. *)
From Verif Require Import Base MatModel LiftSpec OpModel OpSpec FermiSpec.
Open Scope list_scope.
Local Open Scope nat_scope.

Section S.
  Context {K : cring} (n : nat).
  Open Scope K_scope.
  (** the sum of a list of matrices of the n modes *)
  Definition msum (l : list (mat K)) : mat K := fold_right madd (zeros (2 ^ n) (2 ^ n)) l.
  (** a^_i a_j: a particle goes from mode j to mode i *)
  Definition excitation (i j : nat) : mat K := mmul (ladder_matrix n (i, true)) (ladder_matrix n (j, false)).
  (** X - H.C., or X alone *)
  Definition minus_hc (anti_hermitian : bool) (X : mat K) : mat K := if anti_hermitian then madd X (mscale (- (1)) (adjoint X)) else X.
  (** The documented generator: the sum of t[i,j] (a^_i a_j - H.C.) and of t[i,j,k,l] (a^_i a_j a^_k a_l - H.C.). *)
  Definition documented (anti_hermitian : bool) (singles : list (nat * nat * K)) (doubles : list (nat * nat * (nat * nat) * K)) : mat K :=
    madd (msum (map (fun a => mscale (snd a) (minus_hc anti_hermitian (excitation (fst (fst a)) (snd (fst a))))) singles))
         (msum (map (fun a => mscale (snd a) (minus_hc anti_hermitian (mmul (excitation (fst (fst (fst a))) (snd (fst (fst a)))) (excitation (fst (snd (fst a))) (snd (snd (fst a))))))) doubles)).
  (** A particle goes from orbital o to orbital v and keeps its spin; orbital k has the modes 2 k (up) and 2 k + 1 (down). *)
  Definition spin_free (v o : nat) : mat K := madd (excitation (2 * v) (2 * o)) (excitation (2 * v + 1) (2 * o + 1)).
  (** The total spin operators S+ and S-: a particle's spin is turned up, or down. *)
  Definition raise_spin : mat K := msum (map (fun p => excitation (2 * p) (2 * p + 1)) (seq 0 (n / 2))).
  Definition lower_spin : mat K := msum (map (fun p => excitation (2 * p + 1) (2 * p)) (seq 0 (n / 2))).
  Definition commute (A B : mat K) : Prop := meq (mmul A B) (mmul B A).
  Definition anti_self_adjoint (A : mat K) : Prop := meq (adjoint A) (mscale (- (1)) A).
End S.

(** The occupied orbitals are the first (k + 1) / 2 ones, the virtual ones the others.  The pairs (virtual, occupied), in the order of the amplitudes: *)
Definition orbital_pairs (n k : nat) : list (nat * nat) :=
  let occ := (k + 1) / 2 in flat_map (fun v => map (fun o => (v, o)) (seq 0 occ)) (seq occ (n / 2 - occ)).
(** the pairs of two different elements of a list, in the order of the list *)
Fixpoint two_of {X} (l : list X) : list (X * X) := match l with [] => [] | x :: l' => map (pair x) l' ++ two_of l' end.
(** the number of amplitudes: one for each pair, one for each pair doubly excited, one for each two pairs *)
Definition amplitude_count (n k : nat) : nat := let m := length (orbital_pairs n k) in m + m + length (two_of (orbital_pairs n k)).

Section G.
  Context {K : cring} (n k : nat) (anti_hermitian : bool).
  (** The singlet generator: amplitudes [t1] of the single, [t2] of the double excitation of a pair, [t3] of the excitation of two pairs. *)
  Definition singlet_generator (t1 t2 : nat * nat -> K) (t3 : nat * nat -> nat * nat -> K) : mat K :=
    let E := fun p => spin_free n (fst p) (snd p) in
    madd (msum n (map (fun p => mscale (t1 p) (minus_hc anti_hermitian (E p))) (orbital_pairs n k)))
      (madd (msum n (map (fun p => mscale (t2 p) (minus_hc anti_hermitian (mmul (E p) (E p)))) (orbital_pairs n k)))
            (msum n (map (fun pq => mscale (t3 (fst pq) (snd pq)) (minus_hc anti_hermitian (mmul (E (fst pq)) (E (snd pq))))) (two_of (orbital_pairs n k))))).
End G.
