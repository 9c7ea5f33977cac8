(** Model of openfermion/chem/molecular_data.py (antisymtei, j_mat, k_mat, get_j, get_k, get_antisym, numbers of electrons, load_molecular_hamiltonian) and
    of get_molecular_data of openfermion/transforms/repconversions/conversions.py.
    Arrays as in MolModel.v.  The attributes that are loaded from a file on demand are optional values. *)
From Coq Require Import ZArith.
From Verif Require Import Base MatModel TensorModel ConvModel DiagModel MolModel.
Open Scope list_scope.
Local Open Scope nat_scope.

Section MolInt.
  Context {K : cring} (small : K -> bool) (half : K).
  Open Scope K_scope.
  Notation arr := (TensorModel.ndarray K).

  (** array.transpose(axes): the axis m of the result is the axis axes[m] of the array *)
  Fixpoint position (a : nat) (axes : list nat) : nat := match axes with [] => O | b :: rest => if Nat.eqb a b then O else S (position a rest) end.
  Definition transpose (axes : list nat) (x : arr) : arr :=
    {| shape0 := shape0 x; data := fun i => data x (map (fun a => nth (position a axes) i 0%nat) (seq 0 (length axes))) |}.
  (** molecular_data.py:328-340 *)
  Definition antisymtei (two_body_integrals : arr) : arr :=
    let symints := transpose [0; 1; 3; 2]%nat two_body_integrals in
    {| shape0 := shape0 two_body_integrals; data := fun i => data symints i - data two_body_integrals i |}.
  (** molecular_data.py:343-354; numpy.einsum("iijj -> ij") *)
  Definition j_mat (two_body_integrals : arr) : arr :=
    let chem_ordering := transpose [0; 3; 1; 2]%nat two_body_integrals in
    {| shape0 := shape0 chem_ordering; data := fun x => let i := nth 0 x 0%nat in let j := nth 1 x 0%nat in data chem_ordering [i; i; j; j] |}.
  (** molecular_data.py:357-368; numpy.einsum("ijji -> ij") *)
  Definition k_mat (two_body_integrals : arr) : arr :=
    let chem_ordering := transpose [0; 3; 1; 2]%nat two_body_integrals in
    {| shape0 := shape0 chem_ordering; data := fun x => let i := nth 0 x 0%nat in let j := nth 1 x 0%nat in data chem_ordering [i; j; j; i] |}.
  (** molecular_data.py:1165-1220; MissingCalculationError is GenericException; None has no shape (AttributeError) *)
  Definition get_j (two_body_integrals : option arr) : result arr := match two_body_integrals with None => Err GenericException | Some x => Ok (j_mat x) end.
  Definition get_k (two_body_integrals : option arr) : result arr := match two_body_integrals with None => Err GenericException | Some x => Ok (k_mat x) end.
  Definition get_antisym (one_body_integrals two_body_integrals : option arr) : result arr :=
    match two_body_integrals, one_body_integrals with
    | None, _ => Err GenericException
    | Some _, None => Err AttributeError
    | Some two, Some one => let! c := spinorb_from_spatial small one two in Ok (antisymtei (snd c))
    end.

  (** molecular_data.py:1012-1018; int of a floor division *)
  Definition get_n_alpha_electrons (n_electrons multiplicity : Z) : Z := ((n_electrons + (multiplicity - 1)) / 2)%Z.
  Definition get_n_beta_electrons (n_electrons multiplicity : Z) : Z := ((n_electrons - (multiplicity - 1)) / 2)%Z.

  (** The attributes of MolecularData that conversions.py:113-186 sets *)
  Record molecule := { m_nuclear_repulsion : K; m_n_orbitals : nat; m_one_body_integrals : arr; m_two_body_integrals : arr; m_overlap_integrals : arr;
    m_n_qubits : nat; m_n_electrons : option Z; m_multiplicity : Z }.
  (** conversions.py:113-186.  [described]: geometry and basis are given, so that only a missing multiplicity raises ValueError (molecular_data.py:489-503) *)
  Definition get_molecular_data (h : heap K) (interaction_operator : ptensor K) (described : bool) (multiplicity n_electrons : option Z) (reduce_spin : bool) : result molecule :=
    let n_spin_orbitals := n_qubits interaction_operator in
    match described, multiplicity with
    | true, Some multiplicity =>
        let! nuclear_repulsion := TensorModel.constant interaction_operator in
        let reduction_indices := if reduce_spin then map (fun k => 2 * k)%nat (seq 0 ((n_spin_orbitals + 1) / 2)) else seq 0 n_spin_orbitals in
        let! one_body_tensor := array_at h interaction_operator [true; false] in
        let! one := restrict one_body_tensor reduction_indices in
        let! two_body_tensor := array_at h interaction_operator [true; true; false; false] in
        let! two := restrict two_body_tensor reduction_indices in
        Ok {| m_nuclear_repulsion := nuclear_repulsion; m_n_orbitals := length reduction_indices; m_one_body_integrals := one; m_two_body_integrals := two;
              m_overlap_integrals := {| shape0 := length reduction_indices; data := fun i => eye_at (nth 0 i 0%nat) (nth 1 i 0%nat) |};
              m_n_qubits := n_spin_orbitals; m_n_electrons := n_electrons; m_multiplicity := multiplicity |}
    | _, _ => Err ValueError
    end.

  (** An index of an axis of n entries; negative ones count from the end *)
  Definition from_end (n : nat) (z : Z) : result nat :=
    if (z <? 0)%Z then (if (z + Z.of_nat n <? 0)%Z then Err IndexError else Ok (Z.to_nat (z + Z.of_nat n)))
    else Ok (Z.to_nat z).
  (** molecular_data.py:1223-1275, of a molecule that was loaded.  Negative indices are replaced by the ones they stand for. *)
  Definition load_molecular_hamiltonian (h : heap K) (nuclear_repulsion : K) (one_body_integrals two_body_integrals : arr) (n_electrons : Z)
      (n_active_electrons : option Z) (n_active_orbitals : option nat) : result (heap K * ptensor K) :=
    let n_core_orbitals := match n_active_electrons with None => 0%Z | Some k => ((n_electrons - k) / 2)%Z end in
    let occupied_indices := match n_active_electrons with None => None | Some _ => Some (seq 0 (Z.to_nat n_core_orbitals)) end in
    let! active_indices := match n_active_orbitals with
      | None => Ok None
      | Some k => let! l := mapM (fun j => from_end (shape0 one_body_integrals) (n_core_orbitals + Z.of_nat j)) (seq 0 k) in Ok (Some l)
      end in
    get_molecular_hamiltonian small half h nuclear_repulsion one_body_integrals two_body_integrals occupied_indices active_indices.
End MolInt.
