(** Model of openfermion/linalg/sparse_tools.py, lines 470-808: the matrix of a fermion operator among the states reached from a reference state.
    A determinant is a list of booleans (numpy.invert of an array of integers is not modelled); the encodings are unbounded (numpy's are 64 bits wide). *)
From Verif Require Import Base MatModel OpModel OpSpec FermiModel SparseModel.
Open Scope list_scope.
Local Open Scope nat_scope.

(** numpy.where(b)[0] *)
Definition where_true (b : list bool) : list nat := filter (fun i => nth i b false) (seq 0 (length b)).
(** b[::2] and b[1::2] *)
Fixpoint evens (b : list bool) : list bool := match b with [] => [] | [x] => [x] | x :: _ :: b' => x :: evens b' end.
Definition odds (b : list bool) : list bool := match b with [] => [] | _ :: b' => evens b' end.
(** numpy.sum(b) *)
Definition count_true (b : list bool) : nat := length (filter (fun x => x) b).
(** b[i] = x, also used for basis_state[indices] = x *)
Fixpoint set_at (i : nat) (x : bool) (b : list bool) : list bool :=
  match b, i with [], _ => [] | _ :: b', O => x :: b' | y :: b', S i' => y :: set_at i' x b' end.
Definition set_all (x : bool) (indices : list nat) (b : list bool) : list bool := fold_left (fun b i => set_at i x b) indices b.

(** 611-642 *)
Definition iterate_basis_order (reference : list bool) (order : nat) : list (list bool) :=
  let occupied_indices := where_true reference in
  let unoccupied_indices := where_true (map negb reference) in
  flat_map (fun occ_ind => map (fun unocc_ind => set_all true unocc_ind (set_all false occ_ind reference)) (combinations order unoccupied_indices)) (combinations order occupied_indices).
(** 645-702 *)
Definition iterate_basis_spin_order (reference : list bool) (alpha_order beta_order : nat) : list (list bool) :=
  let occupied_alpha_indices := map (fun i => i * 2) (where_true (evens reference)) in
  let unoccupied_alpha_indices := map (fun i => i * 2) (where_true (map negb (evens reference))) in
  let occupied_beta_indices := map (fun i => i * 2 + 1) (where_true (odds reference)) in
  let unoccupied_beta_indices := map (fun i => i * 2 + 1) (where_true (map negb (odds reference))) in
  flat_map (fun alpha_occ_ind => flat_map (fun alpha_unocc_ind => flat_map (fun beta_occ_ind => map (fun beta_unocc_ind =>
    set_all true beta_unocc_ind (set_all false beta_occ_ind (set_all true alpha_unocc_ind (set_all false alpha_occ_ind reference))))
    (combinations beta_order unoccupied_beta_indices)) (combinations beta_order occupied_beta_indices))
    (combinations alpha_order unoccupied_alpha_indices)) (combinations alpha_order occupied_alpha_indices).
(** 566-608 *)
Definition iterate_basis (reference : list bool) (excitation_level : nat) (spin_preserving : bool) : list (list bool) :=
  if negb spin_preserving then flat_map (iterate_basis_order reference) (seq 0 (excitation_level + 1))
  else
    let alpha_excitation_level := Nat.min (count_true (evens reference)) excitation_level in
    let beta_excitation_level := Nat.min (count_true (odds reference)) excitation_level in
    flat_map (fun order => flat_map (fun alpha_order =>
      if Nat.ltb order alpha_order || Nat.ltb beta_excitation_level (order - alpha_order) then [] else iterate_basis_spin_order reference alpha_order (order - alpha_order))
      (seq 0 (alpha_excitation_level + 1))) (seq 0 (excitation_level + 1)).

(** numpy.argsort(values) *)
Definition argsort (values : list nat) : list nat := sort_by (fun i j => Nat.leb (nth i values 0) (nth j values 0)) (seq 0 (length values)).
(** numpy.searchsorted(values, x, sorter=sorter): the number of values below x at the start of the sorted list *)
Fixpoint searchsorted (values : list nat) (x : nat) (sorter : list nat) : nat :=
  match sorter with [] => 0 | i :: sorter' => if Nat.ltb (nth i values 0) x then S (searchsorted values x sorter') else 0 end.

Section SectorOp.
  Context {K : cring} (small : K -> bool).
  Open Scope K_scope.

  (** (-1) ** k *)
  Definition minus_one_to (k : nat) : K := if Nat.even k then 1 else - (1).
  (** 732-747: the orbitals that must be occupied, the orbitals that must not be, and the number of creation less that of annihilation operators *)
  Definition term_needs (t : term bool) : list nat * list nat * Z :=
    fold_left (fun '(occupied, unoccupied, change) (f : nat * bool) =>
      if snd f then (occupied, if memb Nat.eqb (fst f) occupied then unoccupied else unoccupied ++ [fst f], (change + 1)%Z)
      else (occupied ++ [fst f], unoccupied, (change - 1)%Z)) (rev t) ([], [], 0%Z).
  (** 776-786: one determinant; numpy raises IndexError for an orbital that does not exist *)
  Definition act_on (t : term bool) (determinant : list bool) : K * list bool :=
    fold_left (fun '(parity, target) (f : nat * bool) =>
      (parity * minus_one_to (count_true (firstn (fst f) target)), set_at (fst f) (negb (nth (fst f) target false)) target)) (rev t) (1, determinant).
  (** 705-808 *)
  Definition build_term_op (t : term bool) (state_array : list (list bool)) (int_state_array sorting_indices : list nat) (width : nat) : result (mat K) :=
    let space_size := length state_array in
    let '(needs_to_be_occupied, needs_to_be_unoccupied, change) := term_needs t in
    if negb (Z.eqb change 0) then Err ValueError
    else if negb (forallb (fun i => Nat.ltb i width) (needs_to_be_occupied ++ needs_to_be_unoccupied)) then Err IndexError
    else
      let maybe_valid_states := filter (fun j => let s := nth j state_array [] in
        forallb (fun i => nth i s false) needs_to_be_occupied && negb (existsb (fun i => nth i s false) needs_to_be_unoccupied)) (seq 0 space_size) in
      let! lists := foldM (fun (lists : list K * (list nat * list nat)) state =>
        let '(data, (row_ind, col_ind)) := lists in
        let '(parity, target_determinant) := act_on t (nth state state_array []) in
        let int_encoding := bval target_determinant in
        match nth_error sorting_indices (searchsorted int_state_array int_encoding sorting_indices) with
        | None => Err IndexError
        | Some target_state => Ok (if Nat.eqb (nth target_state int_state_array 0%nat) int_encoding then (data ++ [parity], (row_ind ++ [target_state], col_ind ++ [state])) else lists)
        end) maybe_valid_states ([], ([], [])) in
      let '(data, (row_ind, col_ind)) := lists in
      coo_matrix data row_ind col_ind space_size space_size.
  (** 525-541: the basis *)
  Definition sector_basis (num_qubits num_electrons : nat) (spin_preserving : bool) (reference_determinant : option (list bool)) (excitation_level : option nat) : list (list bool) :=
    let reference := match reference_determinant with None => map (fun i => Nat.ltb i num_electrons) (seq 0 num_qubits) | Some b => b end in
    let level := match excitation_level with None => num_electrons | Some l => l end in
    iterate_basis reference level spin_preserving.
  (** 470-563 *)
  Definition get_number_preserving_sparse_operator (a : fop K) (num_qubits num_electrons : nat) (spin_preserving : bool) (reference_determinant : option (list bool)) (excitation_level : option nat) : result (mat K) :=
    let state_array := sector_basis num_qubits num_electrons spin_preserving reference_determinant excitation_level in
    let int_state_array := map bval state_array in
    let sorting_indices := argsort int_state_array in
    let space_size := length state_array in
    foldM (fun sparse_op (tc : term bool * K) => let '(t, coefficient) := tc in
      match t with
      | [] => Ok (madd sparse_op (mscale coefficient (eye space_size)))
      | _ => let! term_op := build_term_op t state_array int_state_array sorting_indices (length (hd [] state_array)) in Ok (madd sparse_op (mscale coefficient term_op))
      end) (normal_ordered small a) (zeros space_size space_size).
End SectorOp.
