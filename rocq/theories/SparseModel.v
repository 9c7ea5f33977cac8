(** Model of openfermion/linalg/sparse_tools.py, lines 29-467: sparse matrices of operators, occupation-number states, number sectors and expectation values.
    A sparse matrix is modelled by its shape and entries; the entries that scipy stores are those that are not 0.  Modes are natural numbers. *)
From Verif Require Import Base MatModel OpModel OpSpec FermiModel TensorModel ConvModel.
Open Scope list_scope.
Local Open Scope nat_scope.

(** itertools.combinations(l, k) *)
Fixpoint combinations {X} (k : nat) (l : list X) : list (list X) :=
  match k, l with
  | O, _ => [[]]
  | S _, [] => []
  | S k', x :: l' => map (cons x) (combinations k' l') ++ combinations k l'
  end.

Section Sparse.
  Context {K : cring} (im half : K) (small is_zero : K -> bool).
  Open Scope K_scope.

  (** ** scipy.sparse *)
  (** the stored entries (row, column, value) of a csc_matrix, column by column; csc_matrix.tocoo keeps this order *)
  Definition csc_entries (A : mat K) : list (nat * nat * K) :=
    flat_map (fun j => flat_map (fun i => if is_zero (ent A i j) then [] else [(i, j, ent A i j)]) (seq 0 (nr A))) (seq 0 (nc A)).
  (** csc_matrix.nonzero(): rows and columns, row by row *)
  Definition csc_nonzero (A : mat K) : list (nat * nat) :=
    flat_map (fun i => flat_map (fun j => if is_zero (ent A i j) then [] else [(i, j)]) (seq 0 (nc A))) (seq 0 (nr A)).
  (** coo_matrix((values, (rows, columns)), shape).tocsc(): values at the same place add up *)
  Definition coo_matrix (values : list K) (rows columns : list nat) (r c : nat) : result (mat K) :=
    if Nat.eqb (length values) (length rows) && Nat.eqb (length rows) (length columns) && forallb (fun i => Nat.ltb i r) rows && forallb (fun j => Nat.ltb j c) columns
    then Ok (Build_mat r c (fun i j => fold_right (fun e s => if Nat.eqb (fst (fst e)) i && Nat.eqb (snd (fst e)) j then snd e + s else s) 0 (combine (combine rows columns) values)))
    else Err ValueError.
  (** a number as an argument of scipy.sparse.kron *)
  Definition scalar (c : K) : mat K := Build_mat 1 1 (fun _ _ => c).

  (** 30-35 *)
  Definition identity_csc : mat K := eye 2.
  Definition pauli_x_csc : mat K := of_rows [[0; 1]; [1; 0]].
  Definition pauli_y_csc : mat K := of_rows [[0; - im]; [im; 0]].
  Definition pauli_z_csc : mat K := of_rows [[1; 0]; [0; - (1)]].
  Definition q_raise_csc : mat K := mscale half (msub pauli_x_csc (mscale im pauli_y_csc)).
  Definition q_lower_csc : mat K := mscale half (madd pauli_x_csc (mscale im pauli_y_csc)).
  (** 36-41 *)
  Definition pauli_matrix_map (p : pauli) : mat K := match p with Pid => identity_csc | Px => pauli_x_csc | Py => pauli_y_csc | Pz => pauli_z_csc end.
  (** 44-51; reduce of an empty list is a TypeError *)
  Definition kronecker_operators (l : list (mat K)) : result (mat K) := match l with [] => Err TypeError | A :: l' => Ok (fold_left kron l' A) end.
  (** 54-79, for a mode below [n_qubits] *)
  Definition jordan_wigner_ladder_sparse (n_qubits tensor_factor : nat) (ladder_type : bool) : result (mat K) :=
    let parities := repeat pauli_z_csc tensor_factor in
    let identities := [eye (2 ^ (n_qubits - tensor_factor - 1))] in
    if ladder_type then kronecker_operators (parities ++ [q_raise_csc] ++ identities) else kronecker_operators (parities ++ [q_lower_csc] ++ identities).

  (** the lists of values, rows and columns that the loops over terms extend *)
  Definition triplets := (list K * (list nat * list nat))%type.
  (** 114-131: one term *)
  Definition jw_term (n_qubits : nat) (jw_operators : list (mat K * mat K)) (lists : triplets) (tc : term bool * K) : result triplets :=
    let '(values, (rows, columns)) := lists in
    let '(t, coefficient) := tc in
    let! sparse_matrix := foldM (fun A (f : nat * bool) => match nth_error jw_operators (fst f) with None => Err IndexError | Some pr => matmul A (if snd f then snd pr else fst pr) end)
      t (mscale coefficient (eye (2 ^ n_qubits))) in
    if is_zero coefficient then Ok lists
    else let e := csc_entries sparse_matrix in Ok (values ++ map snd e, (rows ++ map (fun x => fst (fst x)) e, columns ++ map (fun x => snd (fst x)) e)).
  (** 82-140 *)
  Definition jordan_wigner_sparse (a : fop K) (nq : option nat) : result (mat K) :=
    let n := match nq with None => fermion_count_qubits a | Some n => n end in
    let! jw_operators := mapM (fun p => let! lower := jordan_wigner_ladder_sparse n p false in let! raise := jordan_wigner_ladder_sparse n p true in Ok (lower, raise)) (seq 0 n) in
    let! lists := foldM (jw_term n jw_operators) a ([], ([], [])) in
    let '(values, (rows, columns)) := lists in
    coo_matrix values rows columns (2 ^ n) (2 ^ n).

  (** 167-183: the factors of a term before the final identity *)
  Definition qubit_factors (t : term pauli) (coefficient : K) : nat * list (mat K) :=
    fold_left (fun '(tensor_factor, ops) (f : nat * pauli) =>
      let ops := if Nat.ltb tensor_factor (fst f) then ops ++ [eye (2 ^ (fst f - tensor_factor))] else ops in
      ((fst f + 1)%nat, ops ++ [pauli_matrix_map (snd f)])) t (0%nat, [scalar coefficient]).
  (** 167-199: one term.  csc_matrix.nonzero returns rows and columns, and the code calls the rows columns. *)
  Definition qubit_term (n_qubits : nat) (lists : triplets) (tc : term pauli * K) : result triplets :=
    let '(values, (rows, columns)) := lists in
    let '(t, coefficient) := tc in
    let '(tensor_factor, ops) := qubit_factors t coefficient in
    let ops := if Nat.ltb tensor_factor n_qubits || match t with [] => true | _ => false end then ops ++ [eye (2 ^ (n_qubits - tensor_factor))] else ops in
    let! sparse_matrix := kronecker_operators ops in
    let values := values ++ map snd (csc_entries sparse_matrix) in
    let column_row := csc_nonzero sparse_matrix in
    Ok (values, (rows ++ map snd column_row, columns ++ map fst column_row)).
  (** 143-206 *)
  Definition qubit_operator_sparse (a : qop K) (nq : option nat) : result (mat K) :=
    let n := match nq with None => sorted_count_qubits a | Some n => n end in
    if Nat.ltb n (sorted_count_qubits a) then Err ValueError
    else
      let! lists := foldM (qubit_term n) a ([], ([], [])) in
      let '(values, (rows, columns)) := lists in
      coo_matrix values rows columns (2 ^ n) (2 ^ n).

  (** 440-467; OTensor is any PolynomialTensor, whose n_qubits argument is not used *)
  Inductive operand := OTensor (h : heap K) (a : ptensor K) | OFermion (a : fop K) | OQubit (a : qop K) | OOther.
  Definition get_sparse_operator (o : operand) (nq : option nat) : result (mat K) :=
    match o with
    | OTensor h a => let! f := get_fermion_operator small is_zero h a in jordan_wigner_sparse f None
    | OFermion a => jordan_wigner_sparse a nq
    | OQubit a => qubit_operator_sparse a nq
    | OOther => Err TypeError
    end.

  (** ** States and sectors *)
  (** 209-223; a mode beyond the last gives a fractional index *)
  Definition jw_configuration_state (occupied : list nat) (n_qubits : nat) : result (vec K) :=
    let one_index := fold_left (fun s i => (s + 2 ^ (n_qubits - 1 - i))%nat) occupied 0%nat in
    if forallb (fun i => Nat.ltb i n_qubits) occupied && Nat.ltb one_index (2 ^ n_qubits)
    then Ok (Build_vec (2 ^ n_qubits) (fun i => delta (Nat.eqb i one_index))) else Err IndexError.
  (** 226-229 *)
  Definition jw_hartree_fock_state (n_electrons n_orbitals : nat) : result (vec K) := jw_configuration_state (seq 0 n_electrons) n_orbitals.
  (** 232-251 *)
  Definition jw_number_indices (n_electrons n_qubits : nat) : list nat :=
    map (fun occupation => fold_left (fun s n => (s + 2 ^ n)%nat) occupation 0%nat) (combinations n_electrons (seq 0 n_qubits)).
  (** operator[numpy.ix_(l, l)] *)
  Definition ix (A : mat K) (l : list nat) : result (mat K) :=
    if forallb (fun i => Nat.ltb i (nr A) && Nat.ltb i (nc A)) l then Ok (Build_mat (length l) (length l) (fun i j => ent A (nth i l 0%nat) (nth j l 0%nat))) else Err IndexError.
  (** 254-271; int(numpy.log2(0)) is an OverflowError *)
  Definition jw_number_restrict_operator (A : mat K) (n_electrons : nat) (nq : option nat) : result (mat K) :=
    let! n := match nq with Some n => Ok n | None => if Nat.eqb (nr A) 0 then Err OverflowError else Ok (Nat.log2 (nr A)) end in
    ix A (jw_number_indices n_electrons n).
  (** 274-314; [eigensolver] stands for numpy.linalg.eigh and scipy.sparse.linalg.eigsh: it returns an eigenvalue and an eigenvector *)
  Definition jw_get_ground_state_at_particle_number (eigensolver : mat K -> result (K * vec K)) (A : mat K) (particle_number : nat) : result (K * vec K) :=
    let! n := if Nat.eqb (nr A) 0 then Err OverflowError else Ok (Nat.log2 (nr A)) in
    let! restricted := jw_number_restrict_operator A particle_number (Some n) in
    let! ev := eigensolver restricted in
    let indices := jw_number_indices particle_number n in
    Ok (fst ev, Build_vec (2 ^ n) (fold_left (fun f kx i => if Nat.eqb i (snd kx) then vent (snd ev) (fst kx) else f i) (combine (seq 0 (length indices)) indices) (fun _ => 0))).
  (** 317-323; states[0] of an empty list is an IndexError, zip stops at the shorter list, and a sum of matrices of different shapes is a ValueError *)
  Definition get_density_matrix (states : list (vec K)) (probabilities : list K) : result (mat K) :=
    match states with
    | [] => Err IndexError
    | s0 :: _ => foldM (fun rho (sp : vec K * K) => let '(state, probability) := sp in
          if Nat.eqb (vlen state) (nr rho) then Ok (madd rho (Build_mat (vlen state) (vlen state) (fun i j => probability * vent state i * kconj (vent state j)))) else Err ValueError)
        (combine states probabilities) (zeros (vlen s0) (vlen s0))
    end.
  (** 390-432: a state is a vector, an array with two dimensions, a sparse matrix or something else; an operator may be a scipy LinearOperator *)
  Inductive state_arg := SVector (v : vec K) | SArray (m : mat K) | SSparse (m : mat K) | SOther.
  Definition expectation (linear_operator : bool) (A : mat K) (s : state_arg) : result K :=
    match s with
    | SSparse rho => if linear_operator then Err ValueError
        else let! product := matmul rho A in Ok (bigsum (Nat.min (nr product) (nc product)) (fun i => ent product i i))
    | SVector v => let! w := matvec A v in if Nat.eqb (vlen v) (vlen w) then Ok (inner v w) else Err ValueError
    | SArray m => let! w := matmul A m in let! x := matmul (adjoint m) w in
        if Nat.ltb 0 (nr x) && Nat.ltb 0 (nc x) then Ok (ent x 0%nat 0%nat) else Err IndexError
    | SOther => Err ValueError
    end.
  (** 435-437 *)
  Definition inner_product (u v : vec K) : result K := if Nat.eqb (vlen u) (vlen v) then Ok (inner u v) else Err ValueError.
End Sparse.
