{
 "C01": {
  "note": "Findings: an explicit width smaller than the qubits used is accepted (C01_explicit_width_fits_refuted); circuit + MultiPhaseOperation raises NotImplementedError (C01_append_multiphase_refuted)."
 },
 "C03": {
  "note": "Number-valued maps; sympy's substitution order and automatic simplification are universally quantified oracles with the hypotheses spelled out in CircuitSpec.v. Finding: a custom gate called with symbols from its own parameter list mixes them (refuted theorem)."
 },
 "C09": {
  "note": "str() and sympify are an oracle; the hypotheses say which parameters survive it. Findings: C09_modified_custom_refuted, C09_builtin_name_refuted, C09_second_parameter_refuted. MultiPhaseOperation cannot be serialised."
 },
 "C10": {
  "note": "C10_shapes_refuted: zip truncation"
 },
 "C100": {
  "note": "Eigensolvers are functions with a contract (an eigenvector; of lowest eigenvalue; normalised where that is used). Findings: C100_summed_file_refuted (steps/measure.py uses IsingOperator without importing it, so an operator given as a file name always ends in a NameError), C100_ground_rdm_object_refuted (the annotation admits operators, only file names work), C100_sorted_refuted (with sort_terms the values come in an order that the evaluation step does not expect, and the energy is wrong without an error)."
 },
 "C101": {
  "note": "Findings: C101_run_default_refuted and C101_set_default_refuted (without n_samples, the steps' own default None, both steps always fail with TypeError), C101_set_numpy_refuted (outcomes made of numpy integers, which the single-circuit step accepts, make the list step fail and destroy an existing measurements-set.json), C101_distribution_refuted (the distribution step works with untracked simulators only), C101_expectation_refuted (the expectation step reads backend.n_samples, which no class of the library has: AttributeError unless a backend brings it along, and always when tracked). C101_expectation is for backends that have the attribute, and for real coefficients."
 },
 "C102": {
  "note": "Findings: C102_keyword_refuted (a function whose store_artifact can be given by name only is taken for one that stores artifacts, but every call of the pair fails, because the pair hands the store on by position), C102_order_refuted (a parameter before store_artifact receives the store), C102_set_gradient_refuted (assigning to the gradient of a pair succeeds and has no effect on the pair)."
 },
 "C103": {
  "note": "Findings: C103_bitstring_refuted (for a negative argument the artifact starts with the letter b), C103_function5_short_refuted (with two parameters the call fails after the artifact was stored)."
 },
 "C104": {
  "note": "The eigensolvers of numpy and scipy are arguments with a stated contract, and arithmetic is exact (a negligible difference is zero). Finding: C104_default_refuted (without n_qubits the spectrum of a fermion operator can have 4 entries and that of its Jordan-Wigner transform 1)."
 },
 "C105": {
  "note": "Finding: C105_reverse_refuted (items of earlier groups are never compared with later items from their own side, so an equality that holds in that direction only passes, and fails with the groups in the other order). Comparison methods answer True, False or NotImplemented or raise."
 },
 "C106": {
  "note": "Findings: C106_roundtrip_refuted (without a patch, a last part of digits is read back as the patch), C106_candidate_refuted (a suffix without separator as in 1.2.3rc1 is dropped)."
 },
 "C107": {
  "note": "Findings: C107_race_refuted (save can raise TypeError because another process saves: a property that is None at the first check and not at the second makes h5py compress the scalar False), C107_mixed_refuted (a saved file can join the energies of one process with the orbitals of another), C107_missing_refuted (a reader finds no file in the gap), C107_reader_refuted (a reader can show properties of another process's molecule), C107_copy_refuted (across file systems shutil.move copies, and a crash leaves a torn file under the molecule's name). C107_alone: alone, the interleaved steps do exactly what the model of save of C95 does."
 },
 "C108": {
  "note": "Findings: C108_poisoned (after one record that JSON refuses, e.g. a numpy number of samples passed to get_measurement_outcome_distribution, the tracker is unusable), C108_keeps_file_refuted (a failed call erases the data of the previous one). C108_agrees ties this model to the one of C18."
 },
 "C109": {
  "note": "Exact arithmetic. The printed text and the literal tables pasted from it (test_cases_for_backend_tests.py) are not modelled, nor are the script's five angles: its list of angles is a parameter."
 },
 "C11": {
  "note": "Set iteration order is an arbitrary enumeration. That identities leave the state unchanged follows from C06."
 },
 "C13": {
  "note": "The claim that an unknown layer type is an error is refuted (C13_unknown_type_refuted): the ValueError is built but not raised, the function returns None."
 },
 "C14": {
  "note": "Sympy's own product with -1 is an argument with stated requirements (C14_negation shows cancelling the factor meets them); floats exact where plain/supported says so. A user function named like an operation (e.g. 'sub') is evaluated as that operation: C14_name_clash_refuted. The value theorem ranges over any arithmetic with the listed laws; complex numbers are shown to be one."
 },
 "C15": {
  "note": "Findings: rewriting a controlled U3 loses a relative phase, a custom gate named U3 is rewritten, and the declared width is lost (the _refuted theorems)."
 },
 "C16": {
  "note": "The native execution is any function that applies its operations in order (native_correct in BackendSpec.v). Finding: an empty circuit is not counted as run (C16_empty_circuit_counted_refuted)."
 },
 "C17": {
  "note": "Findings: a shorter list of sample counts silently truncates the set (C17_mismatch_rejected_refuted); the base class with a batch size set runs the batches but returns nothing unless overridden (C17_batching_base_returns_nothing)."
 },
 "C18": {
  "note": "Findings: the file is overwritten by every call, so only the latest call's records are kept (C18_keeps_all_measurements_refuted); the wrapper's own counters stay zero (C18_wrapper_counters_stay_zero)."
 },
 "C19": {
  "note": "Integer indices. Finding: slice assignment on a numpy-backed wavefunction is not rolled back (C19_slice_assignment_refuted), because the saved old value is a view."
 },
 "C22": {
  "note": "The distribution part is in DistProps. Finding: with zero qubits the label has one bit."
 },
 "C23": {
  "note": "Finding: x = 2^n is accepted and gives n+1 bits, for every n (C23_boundary_rejected_refuted)."
 },
 "C24": {
  "note": "Findings: with zero qubits the only string is '0' (C24_zero_qubits_refuted); tuples with entries above 9 do not survive (C24_tuples_round_trip_refuted)."
 },
 "C25": {
  "note": "Exact rationals instead of floats; argsort may order ties arbitrarily. A zero sum is a ZeroDivisionError."
 },
 "C26": {
  "note": "Findings: arrays without elements lose shape and dtype (C26_empty_refuted); a rank-0 complex array with zero imaginary part becomes real (C26_scalar_complex)."
 },
 "C27": {
  "note": "Outcomes are tuples of digits 0-9, as produced by the library."
 },
 "C28": {
  "note": "The random generator is any function that draws from the support (draws_from_support). Distributions with total exactly one; expected numbers that are not integers must be at least 2^-1022 times the number of outcomes away from the integers. Finding: an outcome can occur less than floor(n*p) times (C28_floor_bound_refuted)."
 },
 "C29": {
  "note": "Exact arithmetic; the iteration order of Python sets is any enumeration. A zero denominator (one sample with Bessel correction) gives no covariance."
 },
 "C30": {
  "note": "Exact arithmetic; the precision enters only squared. Finding: coefficients of the terms are ignored by the parities path."
 },
 "C31": {
  "note": "List objects are modelled on a heap, so that aliasing is visible. Arrays with at least one entry, or the empty real vector (see C26 for the others). Finding: an empty list of correlations is read back as None."
 },
 "C32": {
  "note": "Exact rational probabilities; math.isclose's 1e-9 tolerance and the smallest normal double are modelled."
 },
 "C33": {
  "note": "Findings: C33_single_large_outcome_refuted, C33_unnormalised_refuted, C33_collision_refuted. Finding: C33_legacy_set_refuted (load_measurement_outcome_distributions falls back on the old key only if the new key is present too, so set files of older versions are refused with KeyError)."
 },
 "C34": {
  "note": "Over the real numbers; the iteration order of sets is any enumeration. Findings: the divergence of equal distributions is their entropy, not zero (C34_jsd_of_equal_refuted); MMD raises for outcomes with entries above 1 (C34_mmd_needs_bits)."
 },
 "C35": {
  "note": "The generator is any function that draws from the support."
 },
 "C36": {
  "note": "Finding: a term whose coefficient is below 1e-8 and that joins an existing group is dropped by += (C36_small_terms_lost_refuted), while one that opens a group is kept. Operators are assumed to have canonical terms (sorted, one factor per qubit), which every constructor and product yields (C42)."
 },
 "C37": {
  "note": "Coefficients below the tolerance are excluded by hypothesis because the sum that builds the Ising operator prunes them. Angles are exact reals and matrices are over C. 'run' is the model's sequential application of operations to a state vector (C07)."
 },
 "C38": {
  "note": "Relative measurement counts are an argument (the third result of estimate_nmeas_for_frames, C41) given as exact rationals; prior expectation values enter only through it. An all-zero variance list is an error."
 },
 "C39": {
  "note": "The backend, its measurements and the averaging of measurements are arguments; C30 covers the averaging itself. change_operator_type prunes terms below the tolerance, so a measured task's operator is what that conversion returns."
 },
 "C40": {
  "note": "Finding: the docstring promises that one map is used for all tasks, but zip truncates: C40_single_map_refuted."
 },
 "C41": {
  "note": "Expectation values enter as their real parts. Finding: the docstring calls nterms the number of groups; it is the number of terms. Constant terms are ignored only when no expectation values are given."
 },
 "C42": {
  "note": "Exact ring coefficients with an imaginary unit; matrices of terms are products of embedded Pauli matrices. C42_sum/C42_difference state exactly which operator pruning removes."
 },
 "C43": {
  "note": "Validation of factors (only Z, valid indices) is not modelled."
 },
 "C44": {
  "note": "Findings: x -= x on a non-zero operator raises RuntimeError (C44_inplace_self_subtraction_refuted) because the dictionary shrinks while it is iterated; exact associativity fails because intermediate sums are pruned (C44_add_assoc_exact_refuted)."
 },
 "C45": {
  "note": "Findings: the tolerance is multiplied along the loop over shared terms, so the answer depends on set iteration order (C45_order_dependence_refuted) and operators differing by a coefficient 5 compare equal (C45_large_difference_refuted); compress can remove coefficients of modulus above the tolerance (C45_compress_modulus_refuted) and removes every negative sympy coefficient (C45_compress_sympy_negative_refuted). isclose with sympy coefficients is not modelled."
 },
 "C46": {
  "note": "Proved for every pruning test; the matrices are on the occupation basis of any number of modes. BosonOperator and QuadOperator, and InteractionOperator input, are not modelled."
 },
 "C47": {
  "note": "FermionOperator input. Ladder images, CAR, action of any operator (up to pruned terms; exact if only 0 is pruned), products, sums and conjugates."
 },
 "C48": {
  "note": "FermionOperator input, n_qubits given or default; Python's set iteration order is an arbitrary permutation."
 },
 "C49": {
  "note": "FermionOperator and QubitOperator. is_hermitian: complete for self-adjoint operators; accepted operators are bounded by the tolerance of isclose (C45). For fermion operators completeness assumes normal ordering prunes only zeros."
 },
 "C50": {
  "note": "Round trips assume no coefficient is below the pruning tolerance (such terms are dropped by +=)."
 },
 "C51": {
  "note": "Finding: a 1 by 1 matrix (n = 0) raises (C51_one_by_one_refuted), because dec2bin(0, 0) has one digit. Strings such as 'X0 Y1 ' are represented by the list of factors they denote."
 },
 "C52": {
  "note": "Findings: when a lacks a key of b, a - b contains b's entries with a plus sign (C52_difference_refuted); a + b holds b's own arrays for such keys, so scaling the sum in place changes b (C52_sum_is_independent_refuted). numpy dtypes and their casting errors are not modelled."
 },
 "C53": {
  "note": "Full. Findings: get_polynomial_tensor raises StopIteration for constant and zero operators (C53_constants_have_no_tensor); without n_qubits a tensor may come back smaller (C53_size_inferred_refuted); entries at products not normal ordered move (C53_unordered_entries_refuted). Files and the qubit-operator-set/RDM variants of the dictionaries are not modelled separately."
 },
 "C54": {
  "note": "The circuit is proved to act as the limit of the exponential series. C54_constant_phase_refuted: the constant term's phase is dropped."
 },
 "C55": {
  "note": "C55_two_steps_refuted is a finding: with trotter_order > 1 the repeated slices inside the derivative circuits use the full time (time_evolution(hamiltonian, time, method, 1)) instead of time / trotter_order, so the weighted sum is not the derivative. C55_derivative proves the parameter shift rule for trotter_order = 1. Operators with a zero coefficient raise ZeroDivisionError (C55_zero_coefficient)."
 },
 "C56": {
  "note": "Programs are lists of statements over numbered variables, so the theorems quantify over all call sequences, interleavings with mutations and aliasing. C56_value_snapshot_refuted, C56_copy_numbers_refuted and C56_copies_forget_gradient_history are findings: returned arrays are stored by reference, copy.copy shares the list of entries while the call numbers run apart, and both kinds of copy start a new gradient history."
 },
 "C57": {
  "note": "Augmentations that make a new callable with arbitrary behaviour and attributes, loggers, and augmentations that return their argument are covered; assignments to the attributes function and predicate of a logger are not modelled. Findings: C57_only_gradient_refuted, C57_assign_gradient_refuted, C57_logger_artifacts_refuted."
 },
 "C58": {
  "note": "Real arithmetic. Findings: C58_fixed_appended_refuted (the docstring of fix_parameters says appended, the code puts them first), C58_iterator_refuted (an iterator of preprocessors is exhausted by the first call, although the parameter is declared Iterable). Deprecated get_ground_state_cost_function and AnsatzBasedCostFunction are covered; integer arrays are not."
 },
 "C59": {
  "note": "_generate_circuit is a parameter: any state transformer whose circuit is a function of the declared properties and that does not change them. Findings: C59_raising_method_refuted, C59_plain_attribute_refuted, C59_mock_no_qubits."
 },
 "C60": {
  "note": "Algorithms are arbitrary (finite) adaptive strategies. Findings: C60_gradient_appears_refuted (KeyError only with keep_history), C60_gradient_disappears_refuted, C60_continues_refuted (the mock nested optimizer starts each iteration from initial_params), C60_mock_changes_input (the mock optimizer overwrites the caller's array), no iterations raise UnboundLocalError."
 },
 "C61": {
  "note": "Findings (C61_..._refuted): a dictionary with key 'real' is decoded as an array; a dictionary of numbers with digit keys becomes a distribution and one with other keys makes decoding raise ValueError; an entry-like dictionary with extra keys raises TypeError; a result's own 'schema' is lost; a one-variable distribution with a value above 9 becomes a two-variable one; shapes such as (0, n) become (0,). Numbers are rationals; dictionaries have string keys."
 },
 "C62": {
  "note": "networkx's Graph (add_node, add_edge, nodes, edges, node_link_data, node_link_graph) is modelled by its dictionaries; its generators and Python's random are parameters. Findings: the empty graph compares equal to every graph, weights are ignored, and equal graphs built in another order compare different (C62_compare_..._refuted); a node attribute called 'id' is lost by saving (C62_id_attribute_refuted)."
 },
 "C63": {
  "note": "amplitude-level specification in GateValueSpec.v; real arithmetic, sympy.simplify keeps the value"
 },
 "C64": {
  "note": "C64_compare_refuted: compare_unitary(I, X) raises ZeroDivisionError; floating-point rounding is not modelled"
 },
 "C67": {
  "note": "float(), complex() and format() of a coefficient are parameters; round trips need them to agree on the coefficients present (printed_exactly). C67_zero_refuted, C67_small_refuted and C67_unclosed_refuted are findings: str(FermionOperator()) reads back as an annihilation operator, an operator with only negligible coefficients as the identity, and a last bracket that is not closed is dropped."
 },
 "C68": {
  "note": "Python's `is` between indices is a parameter that must agree with equality on the indices involved. C68_large_index_refuted and C68_duplicate_refuted are findings. The unused argument `prune` is not modelled."
 },
 "C69": {
  "note": "Boson operators and scipy matrices are not modelled. C69_complex_hopping_refuted and C69_broadcast_refuted are findings."
 },
 "C70": {
  "note": "The check that the argument is a QubitOperator is not modelled; the scalars are any commutative ring with an imaginary unit in which 1, -2 and -i are not below the pruning threshold."
 },
 "C71": {
  "note": "Dimensions are natural numbers; the sum formula is stated for tunneling equal to its conjugate, hermiticity for any tunneling. Finding: C71_general_particle_hole_refuted."
 },
 "C72": {
  "note": "Arrays are complex and have equal dimensions; a key other than () holds an array. Finding: C72_other_keys_refuted."
 },
 "C73": {
  "note": "Modes are natural numbers (numpy's negative indices are not modelled). hermitised is the Hermitian part off the diagonal. Findings: C73_not_hermitian_refuted, C73_more_refuted."
 },
 "C74": {
  "note": "scipy's csc/coo matrices are modelled by their entries, with duplicate triplets added; modes are natural numbers. Finding: C74_size_refuted (the matrix of a PolynomialTensor ignores n_qubits)."
 },
 "C75": {
  "note": "The eigensolver (scipy eigh/eigsh) is a parameter. Findings: C75_duplicates_refuted; C75_zip_case (zip drops surplus states)."
 },
 "C76": {
  "note": "Determinants are lists of booleans (numpy.invert of integer arrays would select other modes), encodings are unbounded (numpy: 64 bits). sector_basis is the list of states that index the matrix. Finding: C76_level_refuted (sorting_indices[searchsorted] past the end)."
 },
 "C77": {
  "note": "Arrays have any shape and amplitudes in a commutative ring; the tests nonzero and small are arguments. Findings: C77_complex_refuted (-coefficient instead of -conj(coefficient)), C77_paramsize_refuted."
 },
 "C78": {
  "note": "Integrals are arrays over a commutative ring with a half; indices are natural numbers (Python's negative ones are not modelled). The numerical work of producing integrals is not modelled. An occupied orbital listed twice is counted twice (C78_duplicates_case)."
 },
 "C79": {
  "note": "Division by 4(k-1) is an argument that inverts nonzero integers (complex numbers meet this, c79_inverts). numpy.zeros_like keeps an integer dtype, which would round the quotients; not modelled. C79_other_refuted: the equality is only on the k-electron states."
 },
 "C80": {
  "note": "Findings: C80_real_refuted, C80_upper_refuted."
 },
 "C81": {
  "note": "Arrays over a commutative ring with i; the state is a matrix rho and an average is the trace of rho A. InteractionRDMError is GenericException in the model. Finding: C81_number_refuted (number-changing strings silently get 0 when the state mixes numbers). C81_stretched_case: arrays of one mode are broadcast without an error."
 },
 "C82": {
  "note": "The sparse eigensolver is an argument that returns some eigenvector of its matrix; abs, imag and clip are arguments. Finding: C82_small_refuted (terms with small coefficients get no value)."
 },
 "C83": {
  "note": "Arrays over a commutative ring with conjugation; numpy's stretching of dimensions that are 1 is not modelled. The unitary on the states is built from the rotated creation operators applied to the vacuum."
 },
 "C84": {
  "note": "remove_inactive_orbitals: the general theorem has remainders with small coefficients, which vanish if only zeros are small. same is Python's 'is' on integers (C68). Findings: C84_unused_refuted (an active mode that no term uses is removed and the others renumbered, so the result does not have 2 * n_active modes), C84_short_ordering_refuted (an ordering that leaves out modes is accepted)."
 },
 "C85": {
  "note": "Exact over a commutative ring with an imaginary unit and a half; the theorem about whole operators assumes only zeros are dropped (products of operators with dropped terms have no uniform bound), the one about single excitations bounds the dropped terms by four. Findings: C85_more_refuted (n_qubits larger than the number of modes raises IndexError although only smaller values are refused), C85_not_hermitian_refuted (only the lower triangle of the tensors is read, so a non-Hermitian operator is silently replaced by another)."
 },
 "C86": {
  "note": "Random numbers are an arbitrary history of the calls to uniform, sample and randint that keeps their contracts. Findings: C86_random_refuted (the generator never returns when more terms are requested than strings of that locality exist), C86_identity_refuted (the circuit of the constant term is empty, on no qubits, and asking for its unitary raises TypeError); coefficients and values beyond the number of labels and terms are silently ignored, too few raise IndexError; strings with a negligible coefficient are dropped, so fewer terms than requested may come out. The value with reversed qubits is exact up to dropped negligible coefficients."
 },
 "C87": {
  "note": "Exact arithmetic, any commutative ring with conjugation; attributes that MolecularData reads from its file are optional values. Findings: C87_roundtrip_refuted (get_molecular_data of a molecular Hamiltonian halves the two-electron integrals, so that the Hamiltonian of the result is another operator), C87_data_undescribed (with its default arguments geometry, basis and multiplicity None, get_molecular_data always raises ValueError), C87_load_defaults (n_active_electrons without n_active_orbitals raises TypeError), C87_load_too_many_refuted (more active electrons than the molecule has are not refused: negative orbital numbers select the last orbitals), C87_spins (an impossible multiplicity silently loses one electron)."
 },
 "C88": {
  "note": "Exact real arithmetic; coefficients that are sympy expressions are not covered; the order is an integer, as documented. The triangle inequality holds for any threshold below which a sum drops terms. Findings: C88_tiny_refuted (renormalize refuses operators that are small but not zero), C88_trace_norm_refuted (the documentation promises trace norm 1; Z is unchanged and has trace norm 2), C88_other_orders (order 0 always raises ZeroDivisionError; a negative order works exactly for operators with terms and no zero coefficient)."
 },
 "C89": {
  "note": "Translations and functions are arbitrary state transformers; that rebuilt sequences are new objects is not modelled, so a function that changes an argument list in place is outside. Findings: C89_inner_failure_refuted (a TranslationFailed raised by the function itself, such as by another decorated function it calls, makes the fallback run after the function's effects), C89_warning_error_refuted (where warnings are errors the deprecation warning turns every translation into a failure)."
 },
 "C90": {
  "note": "Functions have parameters that can be given by position or name, with or without defaults, and perhaps a ** parameter. Findings: C90_unknown_refuted (a misspelt parameter of a function is dropped silently, although the function would refuse it), C90_var_keyword_refuted (a function that takes ** gets none of the specified extra parameters), C90_noise_class (load_noise_model of a class instantiates it without the data and calls the instance), C90_nmeas_refuted (an estimate saved without frames, the default, cannot be loaded)."
 },
 "C91": {
  "note": "The generator is any record of draws that stay in their populations; angles are in an arbitrary range. numpy is taken to accept the array of lists of different lengths, as the releases of that time do. Findings: C91_one_qubit_refuted (on one qubit the draws decide whether ValueError is raised), C91_width_refuted (the circuit may have fewer qubits than requested); contrary to its documentation the function saves no file."
 },
 "C92": {
  "note": "A step is modelled by the operator it saves; files are C51 and C52. Results are exact when only zero coefficients are pruned, and interpolation is stated with the pruned terms. Findings: C92_hydrogen_zero_refuted (a KeyError whenever one of the three matrix elements is zero, since terms[()] has no default), C92_idle_mode_refuted (the Bravyi-Kitaev step takes the number of qubits from the fermion operator, so with an unused last mode the result is not the transform of the interaction operator); without qubits the local zero state operator is the identity."
 },
 "C93": {
  "note": "Generators are functions of an arbitrary state; the only facts assumed are that choices are in range, that normal draws are real, and, for wavefunctions, that the drawn vector is not zero. The loop that redraws a used qubit has fuel: running out of it is the only way create_random_qubitop does not return. Numbers are exact. Not covered: random_unitary_matrix (scipy's qr). Findings: C93_expanded_eight_fold_refuted (the symmetry built for real orbitals exchanges p with r, the spin expansion pairs p with s, so the expanded operator has neither symmetry), C93_term_count_refuted (equal terms merge, so create_random_qubitop may have fewer terms than asked for), C93_real_hermitian_refuted (random_qubit_operator may draw X0 Y0, that is iZ0), C93_seed_zero_refuted (create_random_wavefunction ignores seed 0)."
 },
 "C94": {
  "note": "The part of the steps that builds objects; loading circuits, running them and writing the results are arbitrary programs. The list of preprocessors is written into the dictionary once complete (the code writes an empty list and appends). Findings: C94_documented_tracking_refuted (track_measurements alone raises KeyError after the backend was made, the documentation promises raw_data.json), C94_noise_remembered_refuted and C94_remembered (a dictionary keeps the noise model, so a later step that asks for none gets it), C94_preprocessors_remembered_refuted (the same for preprocessors), C94_optimize_then_evaluate_refuted (optimizing a QAOAFarhiAnsatz writes cost_hamiltonian into the dictionary, with which evaluating then raises ValueError)."
 },
 "C95": {
  "note": "HDF5 is a map from names to data given back as stored; a crash happens between steps, one step per data set. Findings: C95_crash_between and C95_crash_refuted (the old file is removed before the new one is moved, so a crash can leave no file under the molecule's name), C95_save_twice_refuted and C95_unsaveable (a molecule saved without general calculations and opened again cannot be saved: AttributeError, and the temporary file stays), C95_rename_refuted (saving an opened molecule under another name loses unread properties), C95_reload_refuted and C95_load_keeps (load keeps properties read before), C95_set_none (assigning None does not delete), C95_overwritten_refuted and C95_default_file (molecules that differ in positions share the default file), C95_rdm (truncation changes the object's own matrices). The atoms of an opened molecule are bytes. A negative charge is named _-1-."
 },
 "C96": {
  "note": "Files hold documents; arrays are one-dimensional and real. Circuits must be writable in the sense of C09. Findings: C96_evaluate_refuted (evaluate_parametrized_circuit raises AttributeError for every input: circuits have no symbolic_params), C96_failed_save and C96_concatenate_clash (saving opens the file before the document is made, so an error, e.g. two custom gates with one name, destroys the previous file), C96_batch and C96_batch_missing and C96_retry_refuted (the caller's list is extended, also when the step fails, so a retry duplicates circuits)."
 },
 "C97": {
  "note": "The marshal format is a type and a list of terms; plain text uses the printer and parser of C67, with coefficients printed exactly. Findings: C97_zero_refuted (as plain text the zero fermionic operator is loaded as the annihilation operator of mode 0, the zero qubit operator cannot be loaded, and an operator with only small coefficients is loaded as the identity), C97_crash_refuted (overwriting is not atomic)."
 },
 "C98": {
  "note": "Estimators are functions from tasks to arrays of values with a state; the exact estimator runs the circuits of the contracts with the gate matrices of C05. Findings: C98_values_refuted (squared coefficients and constants that count as zero are accepted: only a difference is checked), C98_sampling_refuted (an estimator that samples is rejected unless a second sample is exactly equal to the first)."
 },
 "C99": {
  "note": "Files hold a JSON document or text that is none; the text layer of json is trusted. Findings: C99_failed_save_refuted (the file is emptied before the document is made, so a list that cannot be written destroys the one that was there), C99_path_refuted (a path object can be saved to but most loaders reject it), C99_schema_refuted (the schema is not looked at: an interaction operator loads as density matrices), C99_grid_twice_refuted (saving grid evaluations changes the caller's dictionaries, so they cannot be saved again), C99_list_tuple_refuted (tuples come back as lists, value estimates without precision), C99_integers_scalar_refuted (without a size the step stores a number in place of a list)."
 }
}