(** Model of the Fermi-Hubbard Hamiltonians: openfermion/hamiltonians/hubbard.py and general_hubbard.py. Simplification: the dimensions of the grid
    are natural numbers. *)
From Coq Require Import ZArith.
From Verif Require Import Base MatModel OpModel FermiModel RevJWModel.
Open Scope list_scope.
Local Open Scope nat_scope.

(** hubbard.py:277-285 *)
Definition right_neighbor (site x_dimension y_dimension : nat) (periodic : bool) : option nat :=
  if Nat.eqb x_dimension 1 then None
  else if Nat.eqb ((site + 1) mod x_dimension) 0 then if periodic then Some (site + 1 - x_dimension) else None
  else Some (site + 1).
(** 288-296 *)
Definition bottom_neighbor (site x_dimension y_dimension : nat) (periodic : bool) : option nat :=
  if Nat.eqb y_dimension 1 then None
  else if Nat.ltb (x_dimension * y_dimension) (site + x_dimension + 1) then if periodic then Some (site + x_dimension - x_dimension * y_dimension) else None
  else Some (site + x_dimension).
(** 160-169 and 225-234: the neighbors of a site, with edges of periodic grids of width or height 2 counted once *)
Definition neighbors (site x_dimension y_dimension : nat) (periodic : bool) : option nat * option nat :=
  let at_right := right_neighbor site x_dimension y_dimension periodic in
  let at_bottom := bottom_neighbor site x_dimension y_dimension periodic in
  let at_right := if Nat.eqb x_dimension 2 && periodic && Nat.eqb (site mod 2) 1 then None else at_right in
  let at_bottom := if Nat.eqb y_dimension 2 && periodic && Nat.leb x_dimension site then None else at_bottom in
  (at_right, at_bottom).
(** utils/indexing.py: the spin orbitals of a site *)
Definition up_index (index : nat) : nat := 2 * index.
Definition down_index (index : nat) : nat := 2 * index + 1.

Section Hubbard.
  Context {K : cring} (half : K) (small : K -> bool).
  Open Scope K_scope.
  Notation fmk := (fermion_op (K := K)).
  Notation fadd := (fermion_add small).

  (** 258-262 *)
  Definition hopping_term (i j : nat) (coefficient : K) : fop K :=
    fadd (fmk [(i, true); (j, false)] coefficient) (fmk [(j, true); (i, false)] (kconj coefficient)).
  (** 265-274 *)
  Definition coulomb_interaction_term (n_sites i j : nat) (coefficient : K) (particle_hole_symmetry : bool) : result (fop K) :=
    let! number_i := number_operator small n_sites (Some i) 1 (-1) in
    let! number_j := number_operator small n_sites (Some j) 1 (-1) in
    let number_i := if particle_hole_symmetry then fermion_sub small number_i (fmk [] half) else number_i in
    let number_j := if particle_hole_symmetry then fermion_sub small number_j (fmk [] half) else number_j in
    Ok (fermion_mul (op_scale number_i coefficient) number_j).

  (** 157-204, one iteration of the loop *)
  Definition spinful_site (x_dimension y_dimension : nat) (tunneling coulomb chemical_potential magnetic_field : K) (periodic particle_hole_symmetry : bool)
      (model : fop K) (site : nat) : result (fop K) :=
    let n_spin_orbitals := (2 * (x_dimension * y_dimension))%nat in
    let '(at_right, at_bottom) := neighbors site x_dimension y_dimension periodic in
    let hop (model : fop K) (neighbor : option nat) : fop K :=
      match neighbor with
      | Some j => fadd (fadd model (hopping_term (up_index site) (up_index j) (- tunneling))) (hopping_term (down_index site) (down_index j) (- tunneling))
      | None => model
      end in
    let model := hop (hop model at_right) at_bottom in
    let! coulomb_term := coulomb_interaction_term n_spin_orbitals (up_index site) (down_index site) coulomb particle_hole_symmetry in
    let! up := number_operator small n_spin_orbitals (Some (up_index site)) (- chemical_potential - magnetic_field) (-1) in
    let! down := number_operator small n_spin_orbitals (Some (down_index site)) (- chemical_potential + magnetic_field) (-1) in
    Ok (fadd (fadd (fadd model coulomb_term) up) down).
  (** 222-255, one iteration *)
  Definition spinless_site (x_dimension y_dimension : nat) (tunneling coulomb chemical_potential : K) (periodic particle_hole_symmetry : bool)
      (model : fop K) (site : nat) : result (fop K) :=
    let n_sites := (x_dimension * y_dimension)%nat in
    let '(at_right, at_bottom) := neighbors site x_dimension y_dimension periodic in
    let couple (model : fop K) (neighbor : option nat) : result (fop K) :=
      match neighbor with
      | Some j =>
          let model := fadd model (hopping_term site j (- tunneling)) in
          let! coulomb_term := coulomb_interaction_term n_sites site j coulomb particle_hole_symmetry in
          Ok (fadd model coulomb_term)
      | None => Ok model
      end in
    let! model := couple model at_right in
    let! model := couple model at_bottom in
    let! number := number_operator small n_sites (Some site) (- chemical_potential) (-1) in
    Ok (fadd model number).
  (** 23-33, 117-138, 152-155, 204, 218-220, 255 *)
  Definition fermi_hubbard (x_dimension y_dimension : nat) (tunneling coulomb chemical_potential magnetic_field : K) (periodic spinless particle_hole_symmetry : bool) : result (fop K) :=
    foldM (if spinless then spinless_site x_dimension y_dimension tunneling coulomb chemical_potential periodic particle_hole_symmetry
           else spinful_site x_dimension y_dimension tunneling coulomb chemical_potential magnetic_field periodic particle_hole_symmetry)
      (seq 0 (x_dimension * y_dimension)) [].

  (** general_hubbard.py:31-35 *)
  Definition general_number_operator (i : nat) (coefficient : K) (particle_hole_symmetry : bool) : fop K :=
    let op := fmk [(i, true); (i, false)] coefficient in
    if particle_hole_symmetry then fermion_sub small op (fmk [] half) else op.
  (** 38-41 *)
  Definition general_interaction_operator (i j : nat) (coefficient : K) (particle_hole_symmetry : bool) : fop K :=
    fermion_mul (general_number_operator i coefficient particle_hole_symmetry) (general_number_operator j 1 particle_hole_symmetry).
End Hubbard.
