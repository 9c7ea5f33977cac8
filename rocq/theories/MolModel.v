(** Model of molecular Hamiltonians: openfermion/chem/molecular_data.py (spinorb_from_spatial, MolecularData.get_molecular_hamiltonian),
    openfermion/chem/reduced_hamiltonian.py and openfermion/ops/representations/interaction_operator.py.
    Arrays are the ones of TensorModel.v: all dimensions are equal, and no dtype is modelled (the code's arrays of results are real, or have the dtype of the
    two-body tensor for the reduced Hamiltonian).  Indices of orbitals are natural numbers (numpy would count negative ones from the end).
    [small] is the test abs(c) < EQ_TOLERANCE, [isz] the truth value of a number, [half] the number 1 / 2 and [recip] the quotient 1 / z for an integer z <> 0. *)
From Coq Require Import ZArith.
From Verif Require Import Base MatModel TensorModel ConvModel DiagModel.
Open Scope list_scope.
Local Open Scope nat_scope.

Section M.
  Context {K : cring} (small isz : K -> bool) (half : K) (recip : Z -> K).
  Open Scope K_scope.
  Notation arr := (TensorModel.ndarray K).

  (** array[indices]; an index past the end raises IndexError *)
  Definition aget (x : arr) (i : list nat) : result K := if forallb (fun p => (p <? shape0 x)%nat) i then Ok (data x i) else Err IndexError.
  (** array[abs(array) < EQ_TOLERANCE] = 0.0 *)
  Definition truncate (x : arr) : arr := {| shape0 := shape0 x; data := fun i => if small (data x i) then 0 else data x i |}.

  (** ** Spin orbitals from spatial orbitals *)
  (** molecular_data.py:386-402 and, with [scale] the division by 2.0, interaction_operator.py:191-209: the body of the loop over r and s *)
  Definition spin_two_body (scale : K -> K) (two_body_integrals : arr) (p q r : nat) (coefficients : arr) (s : nat) : result arr :=
    let! c := aget two_body_integrals [p; q; r; s] in
    let coefficients := assign coefficients [2 * p; 2 * q + 1; 2 * r + 1; 2 * s]%nat (scale c) in
    let coefficients := assign coefficients [2 * p + 1; 2 * q; 2 * r; 2 * s + 1]%nat (scale c) in
    let coefficients := assign coefficients [2 * p; 2 * q; 2 * r; 2 * s]%nat (scale c) in
    Ok (assign coefficients [2 * p + 1; 2 * q + 1; 2 * r + 1; 2 * s + 1]%nat (scale c)).
  (** molecular_data.py:379-402, interaction_operator.py:186-209: the body of the loop over q *)
  Definition spin_bodies (scale : K -> K) (one_body_integrals two_body_integrals : arr) (n p : nat) (st : arr * arr) (q : nat) : result (arr * arr) :=
    let '(one_body_coefficients, two_body_coefficients) := st in
    let! c := aget one_body_integrals [p; q] in
    let one_body_coefficients := assign one_body_coefficients [2 * p; 2 * q]%nat c in
    let one_body_coefficients := assign one_body_coefficients [2 * p + 1; 2 * q + 1]%nat c in
    let! two_body_coefficients := foldM (fun x r => foldM (spin_two_body scale two_body_integrals p q r) (seq 0 n) x) (seq 0 n) two_body_coefficients in
    Ok (one_body_coefficients, two_body_coefficients).
  Definition spin_tensors (scale : K -> K) (one_body_integrals two_body_integrals : arr) : result (arr * arr) :=
    let n_qubits := (2 * shape0 one_body_integrals)%nat in
    let n := (n_qubits / 2)%nat in
    let! st := foldM (fun st p => foldM (spin_bodies scale one_body_integrals two_body_integrals n p) (seq 0 n) st) (seq 0 n) (zeros_array n_qubits, zeros_array n_qubits) in
    Ok (truncate (fst st), truncate (snd st)).
  (** molecular_data.py:371-408 *)
  Definition spinorb_from_spatial : arr -> arr -> result (arr * arr) := spin_tensors (fun c => c).
  (** interaction_operator.py:169-215 *)
  Definition get_tensors_from_integrals : arr -> arr -> result (arr * arr) := spin_tensors (fun c => c * half).

  (** ** Active spaces: interaction_operator.py:218-280 *)
  (** 253-260 *)
  Definition core_constant (one_body_integrals two_body_integrals : arr) (occupied_indices : list nat) : result K :=
    foldM (fun core_constant i =>
      let! c := aget one_body_integrals [i; i] in
      foldM (fun core_constant j =>
        let! g1 := aget two_body_integrals [i; j; j; i] in
        let! g2 := aget two_body_integrals [i; j; i; j] in
        Ok (core_constant + ((1 + 1) * g1 - g2))) occupied_indices (core_constant + (1 + 1) * c)) occupied_indices 0.
  (** 262-268 *)
  Definition dressed_one_body (one_body_integrals two_body_integrals : arr) (occupied_indices active_indices : list nat) : result arr :=
    foldM (fun x u => foldM (fun x v => foldM (fun x i =>
      let! g1 := aget two_body_integrals [i; u; v; i] in
      let! g2 := aget two_body_integrals [i; u; i; v] in
      let! c := aget x [u; v] in
      Ok (assign x [u; v] (c + ((1 + 1) * g1 - g2)))) occupied_indices x) active_indices x) active_indices one_body_integrals.
  (** array[numpy.ix_(indices, ..., indices)] *)
  Definition restrict (x : arr) (indices : list nat) : result arr :=
    if forallb (fun p => (p <? shape0 x)%nat) indices then Ok {| shape0 := length indices; data := fun i => data x (map (fun k => nth k indices 0%nat) i) |} else Err IndexError.
  (** 218-280; len(None) raises TypeError *)
  Definition get_active_space_integrals (one_body_integrals two_body_integrals : arr) (occupied_indices active_indices : option (list nat)) : result (K * (arr * arr)) :=
    let occupied_indices := match occupied_indices with None => [] | Some l => l end in
    match active_indices with
    | None => Err TypeError
    | Some [] => Err ValueError
    | Some active_indices =>
        let! core_constant := core_constant one_body_integrals two_body_integrals occupied_indices in
        let! one_body_integrals_new := dressed_one_body one_body_integrals two_body_integrals occupied_indices active_indices in
        let! one := restrict one_body_integrals_new active_indices in
        let! two := restrict two_body_integrals active_indices in
        Ok (core_constant, (one, two))
    end.
  (** interaction_operator.py:55-73: the constructor, of new arrays *)
  Definition interaction_operator (h : heap K) (constant : K) (one two : arr) : result (heap K * ptensor K) :=
    let h' := h ++ [one; two] in
    let! p := polynomial_tensor h' [([], Num constant); ([true; false], Arr (length h)); ([true; true; false; false], Arr (S (length h)))] in
    Ok (h', p).
  (** molecular_data.py:1081-1121, of a molecule whose integrals were computed (otherwise MissingCalculationError).  The method of 1040-1079 has the same checks as
      the function it calls. *)
  Definition get_molecular_hamiltonian (h : heap K) (nuclear_repulsion : K) (one_body_integrals two_body_integrals : arr) (occupied_indices active_indices : option (list nat)) : result (heap K * ptensor K) :=
    let! integrals := match occupied_indices, active_indices with
      | None, None => Ok (nuclear_repulsion, (one_body_integrals, two_body_integrals))
      | _, _ => let! a := get_active_space_integrals one_body_integrals two_body_integrals occupied_indices active_indices in Ok (nuclear_repulsion + fst a, snd a)
      end in
    let! coefficients := spinorb_from_spatial (fst (snd integrals)) (snd (snd integrals)) in
    interaction_operator h (fst integrals) (fst coefficients) {| shape0 := shape0 (snd coefficients); data := fun i => half * data (snd coefficients) i |}.

  (** ** The reduced Hamiltonian: reduced_hamiltonian.py:22-70 *)
  Definition eye_at (i j : nat) : K := if Nat.eqb i j then 1 else 0.
  (** 58-68 *)
  Definition reduced_element (normalization : K) (h1 h2 : arr) (k2 : arr) (ijkl : list nat) : result arr :=
    match ijkl with
    | [i; j; k; l] =>
        let! il := aget h1 [i; l] in
        let! jk := aget h1 [j; k] in
        let! ik := aget h1 [i; k] in
        let! jl := aget h1 [j; l] in
        let! c := aget h2 [i; j; k; l] in
        Ok (assign k2 [i; j; k; l] (normalization * (il * eye_at j k + jk * eye_at i l - ik * eye_at j l - jl * eye_at i k) + c))
    | _ => Ok k2
    end.
  Definition make_reduced_hamiltonian (h : heap K) (molecular_hamiltonian : ptensor K) (n_electrons : Z) : result (heap K * ptensor K) :=
    let! constant := TensorModel.constant molecular_hamiltonian in
    let! h1 := array_at h molecular_hamiltonian [true; false] in
    let! h2 := array_at h molecular_hamiltonian [true; true; false; false] in
    let divisor := (4 * (n_electrons - 1))%Z in
    if Z.eqb divisor 0 then Err ZeroDivisionError else
    let! k2 := foldM (reduced_element (recip divisor) h1 h2) (indices (shape0 h1) 4) (zeros_array (shape0 h2)) in
    interaction_operator h constant (zeros_array (shape0 h1)) k2.

  (** ** Iteration over the terms that symmetry does not relate: interaction_operator.py:95-166 *)
  Definition quad_eqb : list nat -> list nat -> bool := list_eqb Nat.eqb.
  (** 156-166 *)
  Definition symmetric_two_body_terms (quad : list nat) (complex_valued : bool) : list (list nat) :=
    match quad with
    | [p; q; r; s] =>
        [[p; q; r; s]; [q; p; s; r]; [s; r; q; p]; [r; s; p; q]] ++
        (if complex_valued then [] else [[p; s; r; q]; [q; r; s; p]; [s; p; q; r]; [r; q; p; s]])
    | _ => []
    end.
  (** 123-127: the terms yielded and the set of quadruples seen; both lists are reversed *)
  Definition unique_step (complex_valued : bool) (two_body_tensor : arr) (st : list (list nat) * list (list nat)) (quad : list nat) : list (list nat) * list (list nat) :=
    let '(yielded, seen) := st in
    if negb (isz (data two_body_tensor quad)) && negb (memb quad_eqb quad seen)
    then (quad :: yielded, symmetric_two_body_terms quad complex_valued ++ seen) else st.
  (** 95-127, the list of what the generator yields *)
  Definition unique_iter (h : heap K) (a : ptensor K) (complex_valued : bool) : result (list (list (nat * bool))) :=
    let! c := TensorModel.constant a in
    let! one := array_at h a [true; false] in
    let! two := array_at h a [true; true; false; false] in
    let n := n_qubits a in
    let ones := filter (fun pq => negb (isz (data one pq))) (flat_map (fun p => map (fun q => [p; q]) (seq 0 (S p))) (seq 0 n)) in
    let twos := rev (fst (fold_left (unique_step complex_valued two) (indices n 4) ([], []))) in
    Ok ((if isz c then [] else [[]]) ++ map (fun pq => combine pq [true; false]) ones ++ map (fun quad => combine quad [true; true; false; false]) twos).
End M.
