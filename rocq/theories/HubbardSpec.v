(** Specification for C71: the grid, its edges and the documented Hamiltonians. *)
From Verif Require Import Base MatModel OpModel LiftSpec OpSpec FermiSpec.
Open Scope list_scope.
Local Open Scope nat_scope.

(** Site number s of a grid of the given width is in this column and row. *)
Definition column (width s : nat) : nat := s mod width.
Definition row (width s : nat) : nat := s / width.
(** Two different places on a line (or, if periodic, on a circle) of d places are next to each other. *)
Definition beside (periodic : bool) (d i j : nat) : bool :=
  (j =? S i) || (i =? S j) || (periodic && negb (i =? j) && ((i =? 0) && (j =? d - 1) || (j =? 0) && (i =? d - 1))).
(** Two sites of the grid are connected: they are in one row, in columns next to each other, or in one column, in rows next to each other. *)
Definition connected (periodic : bool) (width height s t : nat) : bool :=
  (row width s =? row width t) && beside periodic width (column width s) (column width t) ||
  (column width s =? column width t) && beside periodic height (row width s) (row width t).

Section Hamiltonians.
  Context {K : cring} (half : K).
  Open Scope K_scope.
  (** The sum over the edges of the grid: every pair of connected sites once. *)
  Definition over_edges (periodic : bool) (width height : nat) (f : nat -> nat -> K) : K :=
    bigsum (width * height) (fun t => bigsum t (fun s => if connected periodic width height s t then f s t else 0)).
  (** The matrix entry of a_i^ a_j + a_j^ a_i. *)
  Definition hopping_entry (n i j : nat) (x y : list bool) : K :=
    ent (madd (mmul (ladder_matrix n (i, true)) (ladder_matrix n (j, false))) (mmul (ladder_matrix n (j, true)) (ladder_matrix n (i, false)))) (bval x) (bval y).
  (** The occupation of a mode, counted from one half if the model is particle-hole symmetric. *)
  Definition occupation (x : list bool) (p : nat) : K := if nth p x false then 1 else 0.
  Definition shifted (particle_hole : bool) (x : list bool) (p : nat) : K := if particle_hole then occupation x p - half else occupation x p.

  (** The spinful model: spin orbitals 2s (up) and 2s + 1 (down) of site s. *)
  Definition spinful_energy (particle_hole : bool) (sites : nat) (U mu h : K) (x : list bool) : K :=
    U * bigsum sites (fun s => shifted particle_hole x (2 * s) * shifted particle_hole x (2 * s + 1))
    - mu * bigsum sites (fun s => occupation x (2 * s) + occupation x (2 * s + 1))
    - h * bigsum sites (fun s => occupation x (2 * s) - occupation x (2 * s + 1)).
  Definition spinful_entry (periodic particle_hole : bool) (width height : nat) (t U mu h : K) (x y : list bool) : K :=
    - t * over_edges periodic width height (fun i j =>
      hopping_entry (2 * (width * height)) (2 * i) (2 * j) x y + hopping_entry (2 * (width * height)) (2 * i + 1) (2 * j + 1) x y)
    + (if list_eqb Bool.eqb x y then spinful_energy particle_hole (width * height) U mu h x else 0).
  (** The spinless model: mode s is site s. *)
  Definition spinless_energy (periodic particle_hole : bool) (width height : nat) (U mu : K) (x : list bool) : K :=
    U * over_edges periodic width height (fun i j => shifted particle_hole x i * shifted particle_hole x j) - mu * bigsum (width * height) (occupation x).
  Definition spinless_entry (periodic particle_hole : bool) (width height : nat) (t U mu : K) (x y : list bool) : K :=
    - t * over_edges periodic width height (fun i j => hopping_entry (width * height) i j x y)
    + (if list_eqb Bool.eqb x y then spinless_energy periodic particle_hole width height U mu x else 0).
End Hamiltonians.
