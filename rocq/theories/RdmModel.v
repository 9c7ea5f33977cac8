(** Model of reduced density matrices: openfermion/ops/representations/interaction_rdm.py, openfermion/measurements/get_interaction_rdm.py, the functions of
    hamiltonian.py that read them and those of openfermion/zapata_utils/_utils.py that make them.
    Arrays are the ones of TensorModel.v (all dimensions are equal, no dtype).  [small] is the test abs(c) < EQ_TOLERANCE, [isz] the test c == 0, [half] the
    number 1 / 2 and [im] the imaginary unit.  InteractionRDMError is GenericException. *)
From Coq Require Import ZArith.
From Verif Require Import Base MatModel OpModel FermiModel RevJWModel TensorModel ConvModel DiagModel MolModel SparseModel.
Open Scope list_scope.
Local Open Scope nat_scope.

Section Rdm.
  Context {K : cring} (im half : K) (small isz : K -> bool).
  Open Scope K_scope.
  Notation arr := (TensorModel.ndarray K).

  (** interaction_rdm.py:39-49: the constructor, of new arrays *)
  Definition interaction_rdm (h : heap K) (one two : arr) : result (heap K * ptensor K) :=
    let h' := h ++ [one; two] in
    let! p := polynomial_tensor h' [([true; false], Arr (length h)); ([true; true; false; false], Arr (S (length h)))] in
    Ok (h', p).
  (** The product of two arrays of [dims] dimensions and numpy.sum of it: numpy stretches dimensions that are 1, and raises ValueError if they still differ. *)
  Definition broadcast (n m : nat) : result nat :=
    if Nat.eqb n m then Ok n else if Nat.eqb n 1 then Ok m else if Nat.eqb m 1 then Ok n else Err ValueError.
  Definition stretched (x : arr) (i : list nat) : K := data x (if Nat.eqb (shape0 x) 1 then map (fun _ => 0%nat) i else i).
  Definition sum_of_products (dims : nat) (x y : arr) : result K :=
    let! n := broadcast (shape0 x) (shape0 y) in
    Ok (fold_left (fun s i => s + stretched x i * stretched y i) (indices n dims) 0).
  (** 83-93, 96 [expectation] of an InteractionOperator *)
  Definition expectation_interaction (h : heap K) (rdm operator : ptensor K) : result K :=
    let! c := constant operator in
    let! one := array_at h rdm [true; false] in
    let! one' := array_at h operator [true; false] in
    let! s1 := sum_of_products 2 one one' in
    let! two := array_at h rdm [true; true; false; false] in
    let! two' := array_at h operator [true; true; false; false] in
    let! s2 := sum_of_products 4 two two' in
    Ok (c + s1 + s2).

  (** self[indices]: polynomial_tensor.py:168-182 with numpy's bounds check *)
  Definition rdm_item (h : heap K) (rdm : ptensor K) (args : list (nat * bool)) : result K :=
    let! x := array_at h rdm (map snd args) in aget x (map fst args).
  (** 127-151: the loop over the fermion terms *)
  Definition fermion_expectation (h : heap K) (rdm : ptensor K) (expectation : K) (tc : fterm * K) : result K :=
    let '(fermion_term, coefficient) := tc in
    if is_two_body_number_conserving (fermion_op (K := K) fermion_term 1) false
    then match fermion_term with
         | [] => Ok (expectation + coefficient)
         | _ :: _ =>
             let indices := map fst fermion_term in
             let! rdm_element := rdm_item h rdm (if Nat.eqb (length indices) 2 then combine indices [true; false] else combine indices [true; true; false; false]) in
             Ok (expectation + rdm_element * coefficient)
         end
    else if (4 <? length fermion_term)%nat then Err GenericException else Ok expectation.
  (** 117-152, for one term *)
  Definition qubit_expectation (h : heap K) (rdm : ptensor K) (qubit_term : term pauli) : result K :=
    let! f := reverse_jordan_wigner im small (mk_op (qubit_simplify im) qubit_term 1) None in
    foldM (fermion_expectation h rdm) (normal_ordered small f) 0.
  (** 98-153 [get_qubit_expectations]: a copy of the operator whose coefficients are replaced *)
  Definition get_qubit_expectations (h : heap K) (rdm : ptensor K) (a : qop K) : result (qop K) :=
    mapM (fun tc : term pauli * K => let! e := qubit_expectation h rdm (fst tc) in Ok (fst tc, e)) a.
  (** 83-89, 96 [expectation] of a QubitOperator *)
  Definition expectation_qubits (h : heap K) (rdm : ptensor K) (a : qop K) : result K :=
    let! e := get_qubit_expectations h rdm a in
    foldM (fun s (tc : term pauli * K) =>
      match dget (term_eqb pauli_eqb) (fst tc) e with Some v => Ok (s + snd tc * v) | None => Err KeyError end) a 0.

  (** get_interaction_rdm.py:41-55: the expectation of one product of ladder operators is added up in the array *)
  Definition measured_element (measured : qop K) (x : arr) (t : fterm) : arr :=
    fold_left (fun x (tc : term pauli * K) =>
      match dget (term_eqb pauli_eqb) (fst tc) measured with
      | Some v => assign x (map fst t) (data x (map fst t) + snd tc * v)
      | None => x
      end) (jordan_wigner im half small (fermion_op t 1)) x.
  (** 25-57 [get_interaction_rdm] *)
  Definition get_interaction_rdm (h : heap K) (measured : qop K) (nq : option nat) : result (heap K * ptensor K) :=
    let n := match nq with None => sorted_count_qubits measured | Some n => n end in
    let one := fold_left (fun x i => measured_element measured x (combine i [true; false])) (indices n 2) (zeros_array n) in
    let two := fold_left (fun x i => measured_element measured x (combine i [true; true; false; false])) (indices n 4) (zeros_array n) in
    interaction_rdm h one two.

  (** ** Makers of density matrices *)
  (** zapata_utils/_utils.py:668-671: occ[: 2 * n_alpha : 2] = 1; occ[1 : 2 * n_beta + 1 : 2] = 1 *)
  Definition occ (n_alpha n_beta i : nat) : bool := if Nat.even i then (i <? 2 * n_alpha)%nat else (i <? 2 * n_beta + 1)%nat.
  (** 656-682 [hf_rdm]; the numbers of electrons are not negative *)
  Definition hf_rdm (h : heap K) (n_alpha n_beta n_orbitals : nat) : result (heap K * ptensor K) :=
    let n := (2 * n_orbitals)%nat in
    let occ := occ n_alpha n_beta in
    let one := {| shape0 := n; data := fun ij => match ij with [i; j] => if Nat.eqb i j then (if occ i then 1 else 0) else 0 | _ => 0 end |} in
    let two := fold_left (fun x i => fold_left (fun x j =>
        if negb (Nat.eqb i j) && occ i && occ j then assign (assign x [i; j; j; i] 1) [i; j; i; j] (- (1)) else x) (seq 0 n) x) (seq 0 n) (zeros_array n) in
    interaction_rdm h one two.
  (** numpy.conjugate(v) @ A @ v *)
  Definition sandwich (v : vec K) (A : mat K) : result K :=
    if Nat.eqb (vlen v) (nr A) && Nat.eqb (nc A) (vlen v)
    then Ok (bigsum (vlen v) (fun j => bigsum (vlen v) (fun i => kconj (vent v i) * ent A i j) * vent v j)) else Err ValueError.
  (** 576-580, 591-595: the expectation of a product of ladder operators *)
  Definition state_element (n : nat) (v : vec K) (t : fterm) : result K :=
    let! A := get_sparse_operator im half small isz (OFermion (fermion_op t 1)) (Some n) in sandwich v A.
  (** 557-607 [get_ground_state_rdm_from_qubit_op]; [eigensolver] as in SparseModel.v.  The list of one-body elements is reshaped to an array in row order. *)
  Definition one_body_of (n : nat) (v : vec K) : result arr :=
    let! l := mapM (fun ij => state_element n v (combine ij [true; false])) (indices n 2) in
    Ok {| shape0 := n; data := fun ij => match ij with [i; j] => nth (i * n + j)%nat l 0 | _ => 0 end |}.
  Definition two_body_of (n : nat) (v : vec K) : result arr :=
    foldM (fun x p => foldM (fun x q => foldM (fun x r => foldM (fun x s =>
      let! e := state_element n v [(p, true); (q, true); (r, false); (s, false)] in
      Ok (assign (assign (assign (assign x [p; q; r; s] e) [q; p; r; s] (- e)) [q; p; s; r] e) [p; q; s; r] (- e)))
      (seq 0 (r + 1)) x) (seq 0 n) x) (seq 0 (p + 1)) x) (seq 0 n) (zeros_array n).
  Definition get_ground_state_rdm_from_qubit_op (eigensolver : mat K -> result (K * vec K)) (h : heap K) (a : qop K) (n_particles : nat) : result (heap K * ptensor K) :=
    let! A := get_sparse_operator im half small isz (OQubit a) None in
    let! ground := jw_get_ground_state_at_particle_number eigensolver A n_particles in
    let n := sorted_count_qubits a in
    let! one := one_body_of n (snd ground) in
    let! two := two_body_of n (snd ground) in
    interaction_rdm h one two.

  (** ** hamiltonian.py *)
  (** 225-262 [get_expectation_values_from_rdms]: [larger c d] is abs(c) >= abs(d), [complex c] is abs(imag(c)) > 1e-3 and [clip c] is the real part of c, clipped
      to the interval from -1 to 1.  The RuntimeWarning that is raised is RuntimeError here. *)
  Definition get_expectation_values_from_rdms (larger : K -> K -> bool) (complex : K -> bool) (clip : K -> K) (h : heap K) (rdm : ptensor K) (a : qop K) (sort_terms : bool) : result (list K) :=
    let terms := if sort_terms then sort_by (fun tc uc : term pauli * K => larger (snd tc) (snd uc)) a else a in
    let reordered := fold_left (fun o (tc : term pauli * K) => op_add pauli_eqb small o (mk_op (qubit_simplify im) (fst tc) (snd tc))) terms [] in
    let! packed := get_qubit_expectations h rdm reordered in
    if existsb (fun tc : term pauli * K => complex (snd tc)) packed then Err RuntimeError else Ok (map (fun tc : term pauli * K => clip (snd tc)) packed).
  (** 189-222 [get_expectation_values_from_rdms_for_qubitoperator_list] *)
  Definition get_expectation_values_list (larger : K -> K -> bool) (complex : K -> bool) (clip : K -> K) (h : heap K) (rdm : ptensor K) (l : list (qop K)) (sort_terms : bool) : result (list K) :=
    foldM (fun all a => let! e := get_expectation_values_from_rdms larger complex clip h rdm a sort_terms in Ok (all ++ e)) l [].
End Rdm.
