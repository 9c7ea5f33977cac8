{
 "claims": [
  {
   "property": "C01",
   "status": "proved",
   "theorems": [
    "C01_concat",
    "C01_concat_associative",
    "C01_empty_unit",
    "C01_append_is_concat",
    "C01_inferred_width",
    "C01_explicit_width",
    "C01_append_sequence",
    "C01_fits_preserved",
    "C01_explicit_width_fits_refuted",
    "C01_append_multiphase_refuted"
   ],
   "note": "Findings: an explicit width smaller than the qubits used is accepted (C01_explicit_width_fits_refuted); circuit + MultiPhaseOperation raises NotImplementedError (C01_append_multiphase_refuted)."
  },
  {
   "property": "C02",
   "status": "proved",
   "theorems": [
    "C02_split_circuit"
   ],
   "note": ""
  },
  {
   "property": "C03",
   "status": "proved",
   "theorems": [
    "C03_free_symbols_exact",
    "C03_free_symbols_order",
    "C03_bind_meaning",
    "C03_bind_succeeds",
    "C03_bind_removes_symbols",
    "C03_bind_keeps_other_symbols",
    "C03_bind_twice",
    "C03_bind_then_unitary",
    "C03_custom_gate_bind_matrix_refuted"
   ],
   "note": "Number-valued maps; sympy's substitution order and automatic simplification are universally quantified oracles with the hypotheses spelled out in CircuitSpec.v. Finding: a custom gate called with symbols from its own parameter list mixes them (refuted theorem)."
  },
  {
   "property": "C04",
   "status": "proved",
   "theorems": [
    "C04_normal_form",
    "C04_arity_and_params",
    "C04_dagger_involution",
    "C04_controlled",
    "C04_controlled_adds",
    "C04_controlled_dagger_commute",
    "C04_plain_control_count_rejected",
    "C04_replace_params_commutes",
    "C04_replace_params",
    "C04_bind"
   ],
   "note": ""
  },
  {
   "property": "C05",
   "status": "proved",
   "theorems": [
    "C05_dagger",
    "C05_dagger_custom",
    "C05_hermitian_flag_truthful",
    "C05_controlled",
    "C05_modifier_sequence",
    "C05_custom_matrix_of_numbers"
   ],
   "note": ""
  },
  {
   "property": "C06",
   "status": "proved",
   "theorems": [
    "C06_entries",
    "C06_success",
    "C06_repeated_qubits_rejected",
    "C06_action",
    "C06_product",
    "C06_identity"
   ],
   "note": ""
  },
  {
   "property": "C07",
   "status": "proved",
   "theorems": [
    "C07_unitary_is_sequential_application",
    "C07_failures_agree",
    "C07_concat_is_product",
    "C07_empty_rejected"
   ],
   "note": ""
  },
  {
   "property": "C08",
   "status": "proved",
   "theorems": [
    "C08_builtin_unitary",
    "C08_wrong_parameter_count",
    "C08_modified_gate_unitary",
    "C08_circuit_unitary",
    "C08_norm_preserved"
   ],
   "note": ""
  },
  {
   "property": "C09",
   "status": "proved",
   "theorems": [
    "C09_round_trip",
    "C09_circuitset",
    "C09_schema",
    "C09_clash",
    "C09_modified_custom_refuted",
    "C09_builtin_name_refuted",
    "C09_second_parameter_refuted"
   ],
   "note": "str() and sympify are an oracle; the hypotheses say which parameters survive it. Findings: C09_modified_custom_refuted, C09_builtin_name_refuted, C09_second_parameter_refuted. MultiPhaseOperation cannot be serialised."
  },
  {
   "property": "C10",
   "status": "proved",
   "theorems": [
    "C10_same_shape",
    "C10_unitary_shape",
    "C10_shapes_refuted"
   ],
   "note": "C10_shapes_refuted: zip truncation"
  },
  {
   "property": "C11",
   "status": "proved",
   "theorems": [
    "C11_apply_gate_to_qubits",
    "C11_apply_gate_succeeds",
    "C11_wrong_parameter_count",
    "C11_layer",
    "C11_add_ancilla"
   ],
   "note": "Set iteration order is an arbitrary enumeration. That identities leave the state unchanged follows from C06."
  },
  {
   "property": "C12",
   "status": "proved",
   "theorems": [
    "C12_apply",
    "C12_length_mismatch_rejected",
    "C12_free_symbols_rejected",
    "C12_moduli_preserved",
    "C12_compose",
    "C12_construction"
   ],
   "note": ""
  },
  {
   "property": "C13",
   "status": "proved",
   "theorems": [
    "C13_nearest_neighbor",
    "C13_sycamore",
    "C13_sycamore_empty",
    "C13_unknown_type_refuted",
    "C13_failures",
    "C13_dicts",
    "C13_saved_schema"
   ],
   "note": "The claim that an unknown layer type is an error is refuted (C13_unknown_type_refuted): the ValueError is built but not raised, the function returns None."
  },
  {
   "property": "C14",
   "status": "proved",
   "theorems": [
    "C14_value",
    "C14_supported",
    "C14_negation",
    "C14_unsupported",
    "C14_unknown_function",
    "C14_name_clash_refuted"
   ],
   "note": "Sympy's own product with -1 is an argument with stated requirements (C14_negation shows cancelling the factor meets them); floats exact where plain/supported says so. A user function named like an operation (e.g. 'sub') is evaluated as that operation: C14_name_clash_refuted. The value theorem ranges over any arithmetic with the listed laws; complex numbers are shown to be one."
  },
  {
   "property": "C15",
   "status": "proved",
   "theorems": [
    "C15_rules_in_order",
    "C15_concatenation",
    "C15_no_match_identity",
    "C15_sound_rules_preserve_action",
    "C15_u3_rotations",
    "C15_u3_circuit",
    "C15_controlled_u3_trivial_phase",
    "C15_controlled_u3_refuted",
    "C15_custom_gate_named_u3_refuted",
    "C15_width",
    "C15_declared_width_refuted"
   ],
   "note": "Findings: rewriting a controlled U3 loses a relative phase, a custom gate named U3 is rewritten, and the declared width is lost (the _refuted theorems)."
  },
  {
   "property": "C16",
   "status": "proved",
   "theorems": [
    "C16_any_split",
    "C16_simulators_agree",
    "C16_counts_native_runs",
    "C16_native_circuit_counts_once",
    "C16_empty_circuit_counted_refuted",
    "C16_symbolic_simulator",
    "C16_symbolic_run_free_symbols",
    "C16_symbolic_run_binds",
    "C16_wavefunction_amplitudes",
    "C16_first_column"
   ],
   "note": "The native execution is any function that applies its operations in order (native_correct in BackendSpec.v). Finding: an empty circuit is not counted as run (C16_empty_circuit_counted_refuted)."
  },
  {
   "property": "C17",
   "status": "proved",
   "theorems": [
    "C17_counters_after_any_history",
    "C17_batch_size_checked",
    "C17_batches",
    "C17_set_results",
    "C17_set_one_result_per_circuit",
    "C17_zero_samples_rejected",
    "C17_mismatch_rejected_refuted",
    "C17_batching_base_returns_nothing"
   ],
   "note": "Findings: a shorter list of sample counts silently truncates the set (C17_mismatch_rejected_refuted); the base class with a batch size set runs the batches but returns nothing unless overridden (C17_batching_base_returns_nothing)."
  },
  {
   "property": "C18",
   "status": "proved",
   "theorems": [
    "C18_forwards_run",
    "C18_forwards_run_set",
    "C18_forwards_distribution",
    "C18_clean_between_calls",
    "C18_file_after_run",
    "C18_file_after_run_set",
    "C18_file_after_distribution",
    "C18_failed_run_keeps_file",
    "C18_keeps_all_measurements_refuted",
    "C18_wrapper_counters_stay_zero"
   ],
   "note": "Findings: the file is overwritten by every call, so only the latest call's records are kept (C18_keeps_all_measurements_refuted); the wrapper's own counters stay zero (C18_wrapper_counters_stay_zero)."
  },
  {
   "property": "C19",
   "status": "proved",
   "theorems": [
    "C19_reachable_valid",
    "C19_constructor_exact",
    "C19_failed_assignment_unchanged",
    "C19_assignment_exact",
    "C19_bind_exact",
    "C19_slice_assignment_refuted"
   ],
   "note": "Integer indices. Finding: slice assignment on a numpy-backed wavefunction is not rolled back (C19_slice_assignment_refuted), because the saved old value is a view."
  },
  {
   "property": "C20",
   "status": "proved",
   "theorems": [
    "C20_dicke_state",
    "C20_binomial",
    "C20_bad_arguments"
   ],
   "note": ""
  },
  {
   "property": "C21",
   "status": "proved",
   "theorems": [
    "C21_bit_reversal",
    "C21_involution",
    "C21_flip_wavefunction"
   ],
   "note": ""
  },
  {
   "property": "C22",
   "status": "proved",
   "theorems": [
    "C22_distribution",
    "C22_outcome_labels",
    "C22_samples",
    "C22_basis_state_samples",
    "C22_no_samples",
    "C22_zero_qubits_refuted"
   ],
   "note": "The distribution part is in DistProps. Finding: with zero qubits the label has one bit."
  },
  {
   "property": "C23",
   "status": "proved",
   "theorems": [
    "C23_bin2dec_value",
    "C23_dec2bin_fits",
    "C23_round_trip_number",
    "C23_round_trip_digits",
    "C23_too_large",
    "C23_negative",
    "C23_boundary_rejected_refuted"
   ],
   "note": "Finding: x = 2^n is accepted and gives n+1 bits, for every n (C23_boundary_rejected_refuted)."
  },
  {
   "property": "C24",
   "status": "proved",
   "theorems": [
    "C24_ordered_bitstrings",
    "C24_each_once",
    "C24_zero_qubits_refuted",
    "C24_strings_round_trip",
    "C24_bitstrings_convert",
    "C24_tuples_round_trip",
    "C24_tuples_round_trip_refuted",
    "C24_non_digit_rejected"
   ],
   "note": "Findings: with zero qubits the only string is '0' (C24_zero_qubits_refuted); tuples with entries above 9 do not survive (C24_tuples_round_trip_refuted)."
  },
  {
   "property": "C25",
   "status": "proved",
   "theorems": [
    "C25_scale_and_discretize",
    "C25_largest_remainders",
    "C25_zero_sum"
   ],
   "note": "Exact rationals instead of floats; argsort may order ties arbitrarily. A zero sum is a ZeroDivisionError."
  },
  {
   "property": "C26",
   "status": "proved",
   "theorems": [
    "C26_real_round_trip",
    "C26_complex_round_trip",
    "C26_scalar_complex",
    "C26_empty_refuted",
    "C26_value_estimate_round_trip",
    "C26_value_estimate_equality"
   ],
   "note": "Findings: arrays without elements lose shape and dtype (C26_empty_refuted); a rank-0 complex array with zero imaginary part becomes real (C26_scalar_complex)."
  },
  {
   "property": "C27",
   "status": "proved",
   "theorems": [
    "C27_get_counts",
    "C27_from_counts",
    "C27_add_counts",
    "C27_bad_counts",
    "C27_save_load",
    "C27_get_distribution"
   ],
   "note": "Outcomes are tuples of digits 0-9, as produced by the library."
  },
  {
   "property": "C28",
   "status": "proved",
   "theorems": [
    "C28_representing",
    "C28_floor_bound_refuted"
   ],
   "note": "The random generator is any function that draws from the support (draws_from_support). Distributions with total exactly one; expected numbers that are not integers must be at least 2^-1022 times the number of outcomes away from the integers. Finding: an outcome can occur less than floor(n*p) times (C28_floor_bound_refuted)."
  },
  {
   "property": "C29",
   "status": "proved",
   "theorems": [
    "C29_expectation_values",
    "C29_range",
    "C29_errors"
   ],
   "note": "Exact arithmetic; the iteration order of Python sets is any enumeration. A zero denominator (one sample with Bessel correction) gives no covariance."
  },
  {
   "property": "C30",
   "status": "proved",
   "theorems": [
    "C30_parities",
    "C30_sums",
    "C30_expectation_values",
    "C30_no_samples"
   ],
   "note": "Exact arithmetic; the precision enters only squared. Finding: coefficients of the terms are ignored by the parities path."
  },
  {
   "property": "C31",
   "status": "proved",
   "theorems": [
    "C31_concatenate",
    "C31_expectation_values_round_trip",
    "C31_parities_round_trip",
    "C31_wavefunction_round_trip",
    "C31_to_real"
   ],
   "note": "List objects are modelled on a heap, so that aliasing is visible. Arrays with at least one entry, or the empty real vector (see C26 for the others). Finding: an empty list of correlations is read back as None."
  },
  {
   "property": "C32",
   "status": "proved",
   "theorems": [
    "C32_constructed",
    "C32_proportions",
    "C32_accepted",
    "C32_bad_keys"
   ],
   "note": "Exact rational probabilities; math.isclose's 1e-9 tolerance and the smallest normal double are modelled."
  },
  {
   "property": "C33",
   "status": "proved",
   "theorems": [
    "C33_keys_read",
    "C33_notation_irrelevant",
    "C33_save_load",
    "C33_save_load_set",
    "C33_legacy_set",
    "C33_legacy_set_refuted",
    "C33_single_large_outcome_refuted",
    "C33_unnormalised_refuted",
    "C33_collision_refuted"
   ],
   "note": "Findings: C33_single_large_outcome_refuted, C33_unnormalised_refuted, C33_collision_refuted. Finding: C33_legacy_set_refuted (load_measurement_outcome_distributions falls back on the old key only if the new key is present too, so set files of older versions are refused with KeyError)."
  },
  {
   "property": "C34",
   "status": "proved",
   "theorems": [
    "C34_nll",
    "C34_nll_nonneg",
    "C34_nll_minimal",
    "C34_nll_epsilon",
    "C34_jsd_symmetric",
    "C34_jsd_of_equal_refuted",
    "C34_mmd_value",
    "C34_mmd_multi",
    "C34_mmd",
    "C34_mmd_needs_bits",
    "C34_evaluate"
   ],
   "note": "Over the real numbers; the iteration order of sets is any enumeration. Findings: the divergence of equal distributions is their entropy, not zero (C34_jsd_of_equal_refuted); MMD raises for outcomes with entries above 1 (C34_mmd_needs_bits)."
  },
  {
   "property": "C35",
   "status": "proved",
   "theorems": [
    "C35_samples",
    "C35_comma_keys"
   ],
   "note": "The generator is any function that draws from the support."
  },
  {
   "property": "C36",
   "status": "proved",
   "theorems": [
    "C36_greedy_groups",
    "C36_exact_partition",
    "C36_tasks",
    "C36_individually",
    "C36_names",
    "C36_small_terms_lost_refuted"
   ],
   "note": "Finding: a term whose coefficient is below 1e-8 and that joins an existing group is dropped by += (C36_small_terms_lost_refuted), while one that opens a group is kept. Operators are assumed to have canonical terms (sorted, one factor per qubit), which every constructor and product yields (C42)."
  },
  {
   "property": "C37",
   "status": "proved",
   "theorems": [
    "C37_context_selection",
    "C37_expectation",
    "C37_rejected",
    "C37_accepted",
    "C37_tasks"
   ],
   "note": "Coefficients below the tolerance are excluded by hypothesis because the sum that builds the Ising operator prunes them. Angles are exact reals and matrices are over C. 'run' is the model's sequential application of operations to a state vector (C07)."
  },
  {
   "property": "C38",
   "status": "proved",
   "theorems": [
    "C38_uniform",
    "C38_proportional",
    "C38_proportional_rejected"
   ],
   "note": "Relative measurement counts are an argument (the third result of estimate_nmeas_for_frames, C41) given as exact rationals; prior expectation values enter only through it. An all-zero variance list is an error."
  },
  {
   "property": "C39",
   "status": "proved",
   "theorems": [
    "C39_not_measured",
    "C39_split",
    "C39_averaging",
    "C39_succeeds",
    "C39_exact"
   ],
   "note": "The backend, its measurements and the averaging of measurements are arguments; C30 covers the averaging itself. change_operator_type prunes terms below the tolerance, so a measured task's operator is what that conversion returns."
  },
  {
   "property": "C40",
   "status": "proved",
   "theorems": [
    "C40_positionwise",
    "C40_succeeds",
    "C40_single_map_refuted"
   ],
   "note": "Finding: the docstring promises that one map is used for all tasks, but zip truncates: C40_single_map_refuted."
  },
  {
   "property": "C41",
   "status": "proved",
   "theorems": [
    "C41_variances",
    "C41_variance_bounds",
    "C41_rejected",
    "C41_counts",
    "C41_optimal"
   ],
   "note": "Expectation values enter as their real parts. Finding: the docstring calls nterms the number of groups; it is the number of terms. Constant terms are ignored only when no expectation values are given."
  },
  {
   "property": "C42",
   "status": "proved",
   "theorems": [
    "C42_product",
    "C42_sum",
    "C42_difference",
    "C42_sum_exact",
    "C42_scalar",
    "C42_constructor",
    "C42_add_scalar",
    "C42_power",
    "C42_product_form"
   ],
   "note": "Exact ring coefficients with an imaginary unit; matrices of terms are products of embedded Pauli matrices. C42_sum/C42_difference state exactly which operator pruning removes."
  },
  {
   "property": "C43",
   "status": "proved",
   "theorems": [
    "C43_product",
    "C43_simplify",
    "C43_sum"
   ],
   "note": "Validation of factors (only Z, valid indices) is not modelled."
  },
  {
   "property": "C44",
   "status": "proved",
   "theorems": [
    "C44_add_coefficients",
    "C44_sub_coefficients",
    "C44_add_comm",
    "C44_sub_self",
    "C44_inplace_self_subtraction_refuted",
    "C44_binary_operators_do_not_mutate",
    "C44_inplace_only_left",
    "C44_get_operators",
    "C44_get_operator_groups",
    "C44_power_negative",
    "C44_power_succ",
    "C44_many_body_order",
    "C44_add_error",
    "C44_add_assoc",
    "C44_add_assoc_exact_refuted"
   ],
   "note": "Findings: x -= x on a non-zero operator raises RuntimeError (C44_inplace_self_subtraction_refuted) because the dictionary shrinks while it is iterated; exact associativity fails because intermediate sums are pruned (C44_add_assoc_exact_refuted)."
  },
  {
   "property": "C45",
   "status": "proved",
   "theorems": [
    "C45_accepts",
    "C45_accepted_bound",
    "C45_exact",
    "C45_symmetric",
    "C45_order_dependence_refuted",
    "C45_large_difference_refuted",
    "C45_compress",
    "C45_compress_modulus_refuted",
    "C45_compress_sympy_negative_refuted",
    "C45_induced_norm"
   ],
   "note": "Findings: the tolerance is multiplied along the loop over shared terms, so the answer depends on set iteration order (C45_order_dependence_refuted) and operators differing by a coefficient 5 compare equal (C45_large_difference_refuted); compress can remove coefficients of modulus above the tolerance (C45_compress_modulus_refuted) and removes every negative sympy coefficient (C45_compress_sympy_negative_refuted). isclose with sympy coefficients is not modelled."
  },
  {
   "property": "C46",
   "status": "proved",
   "theorems": [
    "C46_same_operator",
    "C46_same_operator_exact",
    "C46_normal",
    "C46_recognised",
    "C46_fixed",
    "C46_idempotent",
    "C46_unique",
    "C46_chemist",
    "C46_chemist_error"
   ],
   "note": "Proved for every pruning test; the matrices are on the occupation basis of any number of modes. BosonOperator and QuadOperator, and InteractionOperator input, are not modelled."
  },
  {
   "property": "C47",
   "status": "proved",
   "theorems": [
    "C47_ladder",
    "C47_anticommute",
    "C47_acts",
    "C47_acts_exact",
    "C47_product",
    "C47_sum",
    "C47_conjugate"
   ],
   "note": "FermionOperator input. Ladder images, CAR, action of any operator (up to pruned terms; exact if only 0 is pruned), products, sums and conjugates."
  },
  {
   "property": "C48",
   "status": "proved",
   "theorems": [
    "C48_encoding",
    "C48_ladder",
    "C48_anticommute",
    "C48_total",
    "C48_acts",
    "C48_acts_exact",
    "C48_product",
    "C48_sum",
    "C48_default",
    "C48_update_set",
    "C48_update_set_changes",
    "C48_parity_set",
    "C48_occupation_set"
   ],
   "note": "FermionOperator input, n_qubits given or default; Python's set iteration order is an arbitrary permutation."
  },
  {
   "property": "C49",
   "status": "proved",
   "theorems": [
    "C49_involution",
    "C49_product_fermion",
    "C49_adjoint_fermion",
    "C49_adjoint_qubit",
    "C49_product_qubit",
    "C49_hermitian_qubit",
    "C49_hermitian_qubit_bound",
    "C49_hermitian_fermion",
    "C49_hermitian_fermion_bound"
   ],
   "note": "FermionOperator and QubitOperator. is_hermitian: complete for self-adjoint operators; accepted operators are bounded by the tolerance of isclose (C45). For fermion operators completeness assumes normal ordering prunes only zeros."
  },
  {
   "property": "C50",
   "status": "proved",
   "theorems": [
    "C50_reverse_total",
    "C50_reverse_matrix",
    "C50_bit_reversal_unitary",
    "C50_reverse_involution",
    "C50_reverse_default",
    "C50_count_fermion",
    "C50_count_qubit",
    "C50_up_then_down_bijection",
    "C50_up_then_down_order",
    "C50_reorder",
    "C50_reorder_undone",
    "C50_reorder_missing",
    "C50_reorder_qubit",
    "C50_prune"
   ],
   "note": "Round trips assume no coefficient is below the pruning tolerance (such terms are dropped by +=)."
  },
  {
   "property": "C51",
   "status": "proved",
   "theorems": [
    "C51_matrix_recovered",
    "C51_matrix_recovered_exactly",
    "C51_operator_recovered",
    "C51_rejects_shapes",
    "C51_rejects_empty",
    "C51_one_by_one_refuted"
   ],
   "note": "Finding: a 1 by 1 matrix (n = 0) raises (C51_one_by_one_refuted), because dec2bin(0, 0) has one digit. Strings such as 'X0 Y1 ' are represented by the list of factors they denote."
  },
  {
   "property": "C52",
   "status": "proved",
   "theorems": [
    "C52_sum",
    "C52_inplace_sum",
    "C52_sizes_must_agree",
    "C52_difference_entries",
    "C52_difference",
    "C52_elementwise",
    "C52_negation",
    "C52_difference_is_sum_with_negative",
    "C52_inplace_scaling",
    "C52_scaling",
    "C52_sum_with_number",
    "C52_difference_with_number",
    "C52_number_minus_tensor",
    "C52_product",
    "C52_equality",
    "C52_sizes_differ_not_equal",
    "C52_difference_refuted",
    "C52_sum_is_independent_refuted",
    "C52_iteration"
   ],
   "note": "Findings: when a lacks a key of b, a - b contains b's entries with a plus sign (C52_difference_refuted); a + b holds b's own arrays for such keys, so scaling the sum in place changes b (C52_sum_is_independent_refuted). numpy dtypes and their casting errors are not modelled."
  },
  {
   "property": "C53",
   "status": "proved",
   "theorems": [
    "C53_operator_of_tensor_acts",
    "C53_operator_of_tensor_acts_exact",
    "C53_interaction_of_operator_acts",
    "C53_tensor_of_operator_acts",
    "C53_qubit_round_trip",
    "C53_ising_round_trip",
    "C53_interaction_round_trip",
    "C53_operator_of_tensor",
    "C53_too_few_qubits",
    "C53_interaction_of_operator",
    "C53_interaction_error",
    "C53_tensor_of_operator",
    "C53_constants_have_no_tensor",
    "C53_operator_round_trip",
    "C53_tensor_round_trip",
    "C53_size_inferred_refuted",
    "C53_unordered_entries_refuted"
   ],
   "note": "Full. Findings: get_polynomial_tensor raises StopIteration for constant and zero operators (C53_constants_have_no_tensor); without n_qubits a tensor may come back smaller (C53_size_inferred_refuted); entries at products not normal ordered move (C53_unordered_entries_refuted). Files and the qubit-operator-set/RDM variants of the dictionaries are not modelled separately."
  },
  {
   "property": "C54",
   "status": "proved",
   "theorems": [
    "C54_term_evolution",
    "C54_term_unitary",
    "C54_constant_term",
    "C54_not_one_term",
    "C54_constant_phase_refuted"
   ],
   "note": "The circuit is proved to act as the limit of the exponential series. C54_constant_phase_refuted: the constant term's phase is dropped."
  },
  {
   "property": "C55",
   "status": "proved",
   "theorems": [
    "C55_repetitions",
    "C55_trotter_product",
    "C55_other_methods",
    "C55_nothing_to_reduce",
    "C55_derivative_counts",
    "C55_derivative_sequences",
    "C55_zero_coefficient",
    "C55_derivative",
    "C55_two_steps_refuted"
   ],
   "note": "C55_two_steps_refuted is a finding: with trotter_order > 1 the repeated slices inside the derivative circuits use the full time (time_evolution(hamiltonian, time, method, 1)) instead of time / trotter_order, so the weighted sum is not the derivative. C55_derivative proves the parameter shift rule for trotter_order = 1. Operators with a zero coefficient raise ZeroDivisionError (C55_zero_coefficient)."
  },
  {
   "property": "C56",
   "status": "proved",
   "theorems": [
    "C56_transparent",
    "C56_history",
    "C56_gradient_history",
    "C56_always_every_nth",
    "C56_kinds",
    "C56_raising_condition",
    "C56_every_zeroth",
    "C56_raising_function",
    "C56_copy_shares",
    "C56_copies_forget_gradient_history",
    "C56_attributes",
    "C56_native_attributes",
    "C56_value_snapshot_refuted",
    "C56_copy_numbers_refuted",
    "C56_deepcopy"
   ],
   "note": "Programs are lists of statements over numbered variables, so the theorems quantify over all call sequences, interleavings with mutations and aliasing. C56_value_snapshot_refuted, C56_copy_numbers_refuted and C56_copies_forget_gradient_history are findings: returned arrays are stored by reference, copy.copy shares the list of entries while the call numbers run apart, and both kinds of copy start a new gradient history."
  },
  {
   "property": "C57",
   "status": "proved",
   "theorems": [
    "C57_calls",
    "C57_gradient",
    "C57_attributes_kept",
    "C57_attributes_added",
    "C57_assignment",
    "C57_logger",
    "C57_only_gradient_refuted",
    "C57_assign_gradient_refuted",
    "C57_logger_artifacts_refuted"
   ],
   "note": "Augmentations that make a new callable with arbitrary behaviour and attributes, loggers, and augmentations that return their argument are covered; assignments to the attributes function and predicate of a logger are not modelled. Findings: C57_only_gradient_refuted, C57_assign_gradient_refuted, C57_logger_artifacts_refuted."
  },
  {
   "property": "C58",
   "status": "proved",
   "theorems": [
    "C58_pipeline",
    "C58_every_call",
    "C58_gradient_attribute",
    "C58_fix_parameters",
    "C58_noise_creation",
    "C58_noise",
    "C58_same_seed",
    "C58_deprecated_noise",
    "C58_factory",
    "C58_substitution",
    "C58_dynamic",
    "C58_factories_agree",
    "C58_shot_allocation_ignores_binding",
    "C58_ansatz_based",
    "C58_ground_state",
    "C58_fixed_appended_refuted",
    "C58_iterator_refuted",
    "C58_gradient",
    "C58_gradient_raises",
    "C58_gradient_quotient",
    "C58_zero_step",
    "C58_quadratic",
    "C58_gradient_error"
   ],
   "note": "Real arithmetic. Findings: C58_fixed_appended_refuted (the docstring of fix_parameters says appended, the code puts them first), C58_iterator_refuted (an iterator of preprocessors is exhausted by the first call, although the parameter is declared Iterable). Deprecated get_ground_state_cost_function and AnsatzBasedCostFunction are covered; integer arrays are not."
  },
  {
   "property": "C59",
   "status": "proved",
   "theorems": [
    "C59_properties",
    "C59_current",
    "C59_generated_once",
    "C59_executable",
    "C59_unsupported",
    "C59_none",
    "C59_negative_layers",
    "C59_raising_method_refuted",
    "C59_plain_attribute_refuted",
    "C59_mock",
    "C59_mock_no_qubits",
    "C59_mock_constructed"
   ],
   "note": "_generate_circuit is a parameter: any state transformer whose circuit is a function of the declared properties and that does not change them. Findings: C59_raising_method_refuted, C59_plain_attribute_refuted, C59_mock_no_qubits."
  },
  {
   "property": "C60",
   "status": "proved",
   "theorems": [
    "C60_minimize",
    "C60_minimize_unrecorded",
    "C60_nested",
    "C60_nested_unrecorded",
    "C60_construct",
    "C60_extend",
    "C60_mock_changes_input",
    "C60_gradient_appears_refuted",
    "C60_gradient_disappears_refuted",
    "C60_continues_refuted"
   ],
   "note": "Algorithms are arbitrary (finite) adaptive strategies. Findings: C60_gradient_appears_refuted (KeyError only with keep_history), C60_gradient_disappears_refuted, C60_continues_refuted (the mock nested optimizer starts each iteration from initial_params), C60_mock_changes_input (the mock optimizer overwrites the caller's array), no iterations raise UnboundLocalError."
  },
  {
   "property": "C61",
   "status": "proved",
   "theorems": [
    "C61_round_trip",
    "C61_same",
    "C61_dumps",
    "C61_encodable",
    "C61_unknown",
    "C61_save_load",
    "C61_real_key_refuted",
    "C61_counts_refuted",
    "C61_numbers_refuted",
    "C61_entry_like_refuted",
    "C61_own_schema_refuted",
    "C61_large_outcome_refuted",
    "C61_empty_array_refuted"
   ],
   "note": "Findings (C61_..._refuted): a dictionary with key 'real' is decoded as an array; a dictionary of numbers with digit keys becomes a distribution and one with other keys makes decoding raise ValueError; an entry-like dictionary with extra keys raises TypeError; a result's own 'schema' is lost; a one-variable distribution with a value above 9 becomes a two-variable one; shapes such as (0, n) become (0,). Numbers are rationals; dictionaries have string keys."
  },
  {
   "property": "C62",
   "status": "proved",
   "theorems": [
    "C62_compare",
    "C62_compare_same_size",
    "C62_compare_empty_refuted",
    "C62_compare_weights_refuted",
    "C62_compare_order_refuted",
    "C62_node_numbers",
    "C62_save_load",
    "C62_schema",
    "C62_id_attribute_refuted",
    "C62_weights",
    "C62_multigraph",
    "C62_constant",
    "C62_uniform",
    "C62_choice",
    "C62_choice_empty",
    "C62_specs",
    "C62_specs_missing",
    "C62_specs_unknown",
    "C62_specs_result",
    "C62_seed"
   ],
   "note": "networkx's Graph (add_node, add_edge, nodes, edges, node_link_data, node_link_graph) is modelled by its dictionaries; its generators and Python's random are parameters. Findings: the empty graph compares equal to every graph, weights are ignored, and equal graphs built in another order compare different (C62_compare_..._refuted); a node attribute called 'id' is lost by saving (C62_id_attribute_refuted)."
  },
  {
   "property": "C63",
   "status": "proved",
   "theorems": [
    "C63_paulis",
    "C63_phases",
    "C63_rotations",
    "C63_u3",
    "C63_two_qubits",
    "C63_two_qubit_rotations",
    "C63_names",
    "C63_rotations_compose",
    "C63_identities"
   ],
   "note": "amplitude-level specification in GateValueSpec.v; real arithmetic, sympy.simplify keeps the value"
  },
  {
   "property": "C64",
   "status": "proved",
   "theorems": [
    "C64_identity",
    "C64_not_square",
    "C64_unitary_accepted",
    "C64_unitary",
    "C64_equal_up_to_phase",
    "C64_accepted_close",
    "C64_overlap_zero",
    "C64_compare_refuted"
   ],
   "note": "C64_compare_refuted: compare_unitary(I, X) raises ZeroDivisionError; floating-point rounding is not modelled"
  },
  {
   "property": "C65",
   "status": "proved",
   "theorems": [
    "C65_check_parity",
    "C65_check_parity_out_of_range",
    "C65_vectorised",
    "C65_bitstring_to_int",
    "C65_symbols_map"
   ],
   "note": ""
  },
  {
   "property": "C66",
   "status": "proved",
   "theorems": [
    "C66_comparable",
    "C66_order",
    "C66_natural",
    "C66_revlex",
    "C66_fixed_names",
    "C66_fixed_names_order",
    "C66_fixed_names_errors"
   ],
   "note": ""
  },
  {
   "property": "C67",
   "status": "proved",
   "theorems": [
    "C67_term_text",
    "C67_term_unique",
    "C67_sum",
    "C67_sum_invalid",
    "C67_sequence",
    "C67_printed",
    "C67_round_trip",
    "C67_classes",
    "C67_white_space",
    "C67_actions",
    "C67_other_arguments",
    "C67_zero_refuted",
    "C67_small_refuted",
    "C67_unclosed_refuted"
   ],
   "note": "float(), complex() and format() of a coefficient are parameters; round trips need them to agree on the coefficients present (printed_exactly). C67_zero_refuted, C67_small_refuted and C67_unclosed_refuted are findings: str(FermionOperator()) reads back as an annihilation operator, an operator with only negligible coefficients as the identity, and a last bracket that is not closed is dropped."
  },
  {
   "property": "C68",
   "status": "proved",
   "theorems": [
    "C68_kept_modes",
    "C68_result",
    "C68_exact",
    "C68_large_index_refuted",
    "C68_duplicate_refuted"
   ],
   "note": "Python's `is` between indices is a parameter that must agree with equality on the indices involved. C68_large_index_refuted and C68_duplicate_refuted are findings. The unused argument `prune` is not modelled."
  },
  {
   "property": "C69",
   "status": "proved",
   "theorems": [
    "C69_qubit",
    "C69_fermion",
    "C69_ising",
    "C69_array",
    "C69_types",
    "C69_double",
    "C69_hopping",
    "C69_double_exact",
    "C69_complex_hopping_refuted",
    "C69_broadcast_refuted"
   ],
   "note": "Boson operators and scipy matrices are not modelled. C69_complex_hopping_refuted and C69_broadcast_refuted are findings."
  },
  {
   "property": "C70",
   "status": "proved",
   "theorems": [
    "C70_acts",
    "C70_exact",
    "C70_too_few",
    "C70_width",
    "C70_from_qubits",
    "C70_from_fermions",
    "C70_number_mode",
    "C70_number_total",
    "C70_number_parity"
   ],
   "note": "The check that the argument is a QubitOperator is not modelled; the scalars are any commutative ring with an imaginary unit in which 1, -2 and -i are not below the pruning threshold."
  },
  {
   "property": "C71",
   "status": "proved",
   "theorems": [
    "C71_hermitian",
    "C71_spinful",
    "C71_spinless",
    "C71_exact",
    "C71_general",
    "C71_general_particle_hole_refuted"
   ],
   "note": "Dimensions are natural numbers; the sum formula is stated for tunneling equal to its conjugate, hermiticity for any tunneling. Finding: C71_general_particle_hole_refuted."
  },
  {
   "property": "C72",
   "status": "proved",
   "theorems": [
    "C72_tensor",
    "C72_interaction",
    "C72_other_argument",
    "C72_number",
    "C72_other_keys_refuted"
   ],
   "note": "Arrays are complex and have equal dimensions; a key other than () holds an array. Finding: C72_other_keys_refuted."
  },
  {
   "property": "C73",
   "status": "proved",
   "theorems": [
    "C73_hermitian_coefficients",
    "C73_one_body",
    "C73_two_body",
    "C73_interaction",
    "C73_hermitian",
    "C73_exact",
    "C73_same_as_fermions",
    "C73_too_few",
    "C73_more_refuted",
    "C73_not_hermitian_refuted"
   ],
   "note": "Modes are natural numbers (numpy's negative indices are not modelled). hermitised is the Hermitian part off the diagonal. Findings: C73_not_hermitian_refuted, C73_more_refuted."
  },
  {
   "property": "C74",
   "status": "proved",
   "theorems": [
    "C74_fermion",
    "C74_fermion_default",
    "C74_fermion_too_few",
    "C74_qubit",
    "C74_qubit_default",
    "C74_qubit_too_few",
    "C74_jordan_wigner",
    "C74_other",
    "C74_tensor",
    "C74_size_refuted"
   ],
   "note": "scipy's csc/coo matrices are modelled by their entries, with duplicate triplets added; modes are natural numbers. Finding: C74_size_refuted (the matrix of a PolynomialTensor ignores n_qubits)."
  },
  {
   "property": "C75",
   "status": "proved",
   "theorems": [
    "C75_configuration",
    "C75_configuration_beyond",
    "C75_hartree_fock",
    "C75_hartree_fock_beyond",
    "C75_indices",
    "C75_restrict",
    "C75_ground_state",
    "C75_lowest",
    "C75_operator",
    "C75_expectation",
    "C75_column",
    "C75_density",
    "C75_basis_state",
    "C75_real",
    "C75_refused",
    "C75_duplicates_refuted"
   ],
   "note": "The eigensolver (scipy eigh/eigsh) is a parameter. Findings: C75_duplicates_refuted; C75_zip_case (zip drops surplus states)."
  },
  {
   "property": "C76",
   "status": "proved",
   "theorems": [
    "C76_basis",
    "C76_all",
    "C76_matrix",
    "C76_matrix_exact",
    "C76_defined",
    "C76_defined_from",
    "C76_not_conserving",
    "C76_level_refuted"
   ],
   "note": "Determinants are lists of booleans (numpy.invert of integer arrays would select other modes), encodings are unbounded (numpy: 64 bits). sector_basis is the list of states that index the matrix. Finding: C76_level_refuted (sorting_indices[searchsorted] past the end)."
  },
  {
   "property": "C77",
   "status": "proved",
   "theorems": [
    "C77_generator",
    "C77_generator_exact",
    "C77_anti_hermitian",
    "C77_number",
    "C77_arrays",
    "C77_mixed",
    "C77_paramsize",
    "C77_odd",
    "C77_short",
    "C77_singlet",
    "C77_packed",
    "C77_singlet_anti_hermitian",
    "C77_singlet_spin",
    "C77_singlet_particles",
    "C77_complex_refuted",
    "C77_paramsize_refuted"
   ],
   "note": "Arrays have any shape and amplitudes in a commutative ring; the tests nonzero and small are arguments. Findings: C77_complex_refuted (-coefficient instead of -conj(coefficient)), C77_paramsize_refuted."
  },
  {
   "property": "C78",
   "status": "proved",
   "theorems": [
    "C78_hamiltonian",
    "C78_tensors",
    "C78_states",
    "C78_active",
    "C78_choices",
    "C78_no_orbital",
    "C78_hermitian",
    "C78_spin",
    "C78_particles"
   ],
   "note": "Integrals are arrays over a commutative ring with a half; indices are natural numbers (Python's negative ones are not modelled). The numerical work of producing integrals is not modelled. An occupied orbital listed twice is counted twice (C78_duplicates_case)."
  },
  {
   "property": "C79",
   "status": "proved",
   "theorems": [
    "C79_reduced",
    "C79_one_electron",
    "C79_other_refuted"
   ],
   "note": "Division by 4(k-1) is an argument that inverts nonzero integers (complex numbers meet this, c79_inverts). numpy.zeros_like keeps an integer dtype, which would round the quotients; not modelled. C79_other_refuted: the equality is only on the k-electron states."
  },
  {
   "property": "C80",
   "status": "proved",
   "theorems": [
    "C80_unique",
    "C80_real_refuted",
    "C80_upper_refuted"
   ],
   "note": "Findings: C80_real_refuted, C80_upper_refuted."
  },
  {
   "property": "C81",
   "status": "proved",
   "theorems": [
    "C81_pure",
    "C81_interaction",
    "C81_sizes",
    "C81_qubits",
    "C81_many_body",
    "C81_measured",
    "C81_default",
    "C81_energy",
    "C81_number_refuted"
   ],
   "note": "Arrays over a commutative ring with i; the state is a matrix rho and an average is the trace of rho A. InteractionRDMError is GenericException in the model. Finding: C81_number_refuted (number-changing strings silently get 0 when the state mixes numbers). C81_stretched_case: arrays of one mode are broadcast without an error."
  },
  {
   "property": "C82",
   "status": "proved",
   "theorems": [
    "C82_hartree_fock",
    "C82_basis_state",
    "C82_hartree_fock_energy",
    "C82_ground_state",
    "C82_values",
    "C82_exact",
    "C82_list",
    "C82_small_refuted"
   ],
   "note": "The sparse eigensolver is an argument that returns some eigenvector of its matrix; abs, imag and clip are arguments. Finding: C82_small_refuted (terms with small coefficients get no value)."
  },
  {
   "property": "C83",
   "status": "proved",
   "theorems": [
    "C83_substitution",
    "C83_unitary",
    "C83_errors"
   ],
   "note": "Arrays over a commutative ring with conjugation; numpy's stretching of dimensions that are 1 is not modelled. The unitary on the states is built from the rotated creation operators applied to the vacuum."
  },
  {
   "property": "C84",
   "status": "proved",
   "theorems": [
    "C84_reorder",
    "C84_values",
    "C84_permutation",
    "C84_reorder_error",
    "C84_projected",
    "C84_zero",
    "C84_short_ordering_refuted",
    "C84_active_result",
    "C84_active",
    "C84_active_space",
    "C84_unused_refuted"
   ],
   "note": "remove_inactive_orbitals: the general theorem has remainders with small coefficients, which vanish if only zeros are small. same is Python's 'is' on integers (C68). Findings: C84_unused_refuted (an active mode that no term uses is removed and the others renumbered, so the result does not have 2 * n_active modes), C84_short_ordering_refuted (an ordering that leaves out modes is accepted)."
  },
  {
   "property": "C85",
   "status": "proved",
   "theorems": [
    "C85_excitation",
    "C85_hermitian",
    "C85_same_as_fermions",
    "C85_too_few",
    "C85_more_refuted",
    "C85_not_hermitian_refuted"
   ],
   "note": "Exact over a commutative ring with an imaginary unit and a half; the theorem about whole operators assumes only zeros are dropped (products of operators with dropped terms have no uniform bound), the one about single excitations bounds the dropped terms by four. Findings: C85_more_refuted (n_qubits larger than the number of modes raises IndexError although only smaller values are refused), C85_not_hermitian_refuted (only the lower triangle of the tensors is read, so a non-Hermitian operator is silently replaced by another)."
  },
  {
   "property": "C86",
   "status": "proved",
   "theorems": [
    "C86_label_string",
    "C86_labels",
    "C86_labels_distinct",
    "C86_labels_too_few",
    "C86_random",
    "C86_random_returns",
    "C86_random_round",
    "C86_random_refuted",
    "C86_random_too_local",
    "C86_evaluate",
    "C86_evaluate_too_few",
    "C86_evaluate_list",
    "C86_expectation",
    "C86_expectation_too_few",
    "C86_consistent",
    "C86_expectation_reversed",
    "C86_circuits",
    "C86_identity_refuted"
   ],
   "note": "Random numbers are an arbitrary history of the calls to uniform, sample and randint that keeps their contracts. Findings: C86_random_refuted (the generator never returns when more terms are requested than strings of that locality exist), C86_identity_refuted (the circuit of the constant term is empty, on no qubits, and asking for its unitary raises TypeError); coefficients and values beyond the number of labels and terms are silently ignored, too few raise IndexError; strings with a negligible coefficient are dropped, so fewer terms than requested may come out. The value with reversed qubits is exact up to dropped negligible coefficients."
  },
  {
   "property": "C87",
   "status": "proved",
   "theorems": [
    "C87_coulomb_exchange",
    "C87_missing",
    "C87_energy",
    "C87_antisym",
    "C87_data",
    "C87_data_undescribed",
    "C87_data_hamiltonian",
    "C87_load",
    "C87_load_electrons",
    "C87_load_defaults",
    "C87_load_too_many_refuted",
    "C87_spins",
    "C87_roundtrip_refuted"
   ],
   "note": "Exact arithmetic, any commutative ring with conjugation; attributes that MolecularData reads from its file are optional values. Findings: C87_roundtrip_refuted (get_molecular_data of a molecular Hamiltonian halves the two-electron integrals, so that the Hamiltonian of the result is another operator), C87_data_undescribed (with its default arguments geometry, basis and multiplicity None, get_molecular_data always raises ValueError), C87_load_defaults (n_active_electrons without n_active_orbitals raises TypeError), C87_load_too_many_refuted (more active electrons than the molecule has are not refused: negative orbital numbers select the last orbitals), C87_spins (an impossible multiplicity silently loses one electron)."
  },
  {
   "property": "C88",
   "status": "proved",
   "theorems": [
    "C88_norm",
    "C88_other_orders",
    "C88_zero",
    "C88_scale",
    "C88_triangle",
    "C88_compare",
    "C88_matrix_size",
    "C88_bound",
    "C88_eigenvalues",
    "C88_renormalize",
    "C88_tiny_refuted",
    "C88_trace_norm_refuted"
   ],
   "note": "Exact real arithmetic; coefficients that are sympy expressions are not covered; the order is an integer, as documented. The triangle inequality holds for any threshold below which a sum drops terms. Findings: C88_tiny_refuted (renormalize refuses operators that are small but not zero), C88_trace_norm_refuted (the documentation promises trace norm 1; Z is unchanged and has trace norm 2), C88_other_orders (order 0 always raises ZeroDivisionError; a negative order works exactly for operators with terms and no zero coefficient)."
  },
  {
   "property": "C89",
   "status": "proved",
   "theorems": [
    "C89_translated",
    "C89_transparent",
    "C89_failed",
    "C89_exit",
    "C89_inner_failure_refuted",
    "C89_warning_error_refuted",
    "C89_old_objects"
   ],
   "note": "Translations and functions are arbitrary state transformers; that rebuilt sequences are new objects is not modelled, so a function that changes an argument list in place is outside. Findings: C89_inner_failure_refuted (a TranslationFailed raised by the function itself, such as by another decorated function it calls, makes the fallback run after the function's effects), C89_warning_error_refuted (where warnings are errors the deprecation warning turns every translation into a failure)."
  },
  {
   "property": "C90",
   "status": "proved",
   "theorems": [
    "C90_missing",
    "C90_missing_function",
    "C90_twice",
    "C90_class",
    "C90_function",
    "C90_bad_call",
    "C90_unknown_refuted",
    "C90_var_keyword_refuted",
    "C90_noise_model",
    "C90_noise_class",
    "C90_nmeas",
    "C90_nmeas_refuted"
   ],
   "note": "Functions have parameters that can be given by position or name, with or without defaults, and perhaps a ** parameter. Findings: C90_unknown_refuted (a misspelt parameter of a function is dropped silently, although the function would refuse it), C90_var_keyword_refuted (a function that takes ** gets none of the specified extra parameters), C90_noise_class (load_noise_model of a class instantiates it without the data and calls the instance), C90_nmeas_refuted (an estimate saved without frames, the default, cannot be loaded)."
  },
  {
   "property": "C91",
   "status": "proved",
   "theorems": [
    "C91_random",
    "C91_no_qubits",
    "C91_every_circuit",
    "C91_one_qubit_refuted",
    "C91_width_refuted",
    "C91_unitary"
   ],
   "note": "The generator is any record of draws that stay in their populations; angles are in an arbitrary range. numpy is taken to accept the array of lists of different lengths, as the releases of that time do. Findings: C91_one_qubit_refuted (on one qubit the draws decide whether ValueError is raised), C91_width_refuted (the circuit may have fewer qubits than requested); contrary to its documentation the function saves no file."
  },
  {
   "property": "C92",
   "status": "proved",
   "theorems": [
    "C92_one_qubit_operator",
    "C92_hydrogen",
    "C92_hydrogen_zero_refuted",
    "C92_unknown_transformation",
    "C92_transformations",
    "C92_local_zero",
    "C92_interpolation",
    "C92_interpolation_range",
    "C92_local_zero_value",
    "C92_idle_mode_refuted"
   ],
   "note": "A step is modelled by the operator it saves; files are C51 and C52. Results are exact when only zero coefficients are pruned, and interpolation is stated with the pruned terms. Findings: C92_hydrogen_zero_refuted (a KeyError whenever one of the three matrix elements is zero, since terms[()] has no default), C92_idle_mode_refuted (the Bravyi-Kitaev step takes the number of qubits from the fermion operator, so with an unused last mode the result is not the transform of the interaction operator); without qubits the local zero state operator is the identity."
  },
  {
   "property": "C93",
   "status": "proved",
   "theorems": [
    "C93_random_interaction",
    "C93_spin_expansion",
    "C93_random_matrices",
    "C93_random_term",
    "C93_expanded_eight_fold_refuted",
    "C93_random_qubitop",
    "C93_random_isingop",
    "C93_random_qubitop_form",
    "C93_random_qubit_operator",
    "C93_nothing_to_choose",
    "C93_term_count_refuted",
    "C93_real_hermitian_refuted",
    "C93_random_wavefunction",
    "C93_wavefunction_seed",
    "C93_seed_zero_refuted"
   ],
   "note": "Generators are functions of an arbitrary state; the only facts assumed are that choices are in range, that normal draws are real, and, for wavefunctions, that the drawn vector is not zero. The loop that redraws a used qubit has fuel: running out of it is the only way create_random_qubitop does not return. Numbers are exact. Not covered: random_unitary_matrix (scipy's qr). Findings: C93_expanded_eight_fold_refuted (the symmetry built for real orbitals exchanges p with r, the spin expansion pairs p with s, so the expanded operator has neither symmetry), C93_term_count_refuted (equal terms merge, so create_random_qubitop may have fewer terms than asked for), C93_real_hermitian_refuted (random_qubit_operator may draw X0 Y0, that is iZ0), C93_seed_zero_refuted (create_random_wavefunction ignores seed 0)."
  },
  {
   "property": "C94",
   "status": "proved",
   "theorems": [
    "C94_backend_changes",
    "C94_backend_text",
    "C94_backend_unasked",
    "C94_optimize_changes",
    "C94_evaluate_changes",
    "C94_backend",
    "C94_tracking",
    "C94_tracking_needs_name",
    "C94_backend_error",
    "C94_remembered",
    "C94_saved_noise",
    "C94_optimize_qaoa",
    "C94_optimize_other",
    "C94_optimize_warm",
    "C94_warm_needs_thetas",
    "C94_evaluate_qaoa",
    "C94_evaluate_other",
    "C94_optimize_then_evaluate_refuted",
    "C94_preprocessors",
    "C94_cost_function",
    "C94_refused",
    "C94_documented_tracking_refuted",
    "C94_noise_remembered_refuted",
    "C94_preprocessors_remembered_refuted",
    "C94_optimize_run"
   ],
   "note": "The part of the steps that builds objects; loading circuits, running them and writing the results are arbitrary programs. The list of preprocessors is written into the dictionary once complete (the code writes an empty list and appends). Findings: C94_documented_tracking_refuted (track_measurements alone raises KeyError after the backend was made, the documentation promises raw_data.json), C94_noise_remembered_refuted and C94_remembered (a dictionary keeps the noise model, so a later step that asks for none gets it), C94_preprocessors_remembered_refuted (the same for preprocessors), C94_optimize_then_evaluate_refuted (optimizing a QAOAFarhiAnsatz writes cost_hamiltonian into the dictionary, with which evaluating then raises ValueError)."
  },
  {
   "property": "C95",
   "status": "proved",
   "theorems": [
    "C95_get",
    "C95_set",
    "C95_set_none",
    "C95_save",
    "C95_reopen",
    "C95_load_keeps",
    "C95_crash_before",
    "C95_crash_between",
    "C95_crash_after",
    "C95_unsaveable",
    "C95_save_twice_refuted",
    "C95_rename",
    "C95_rdm",
    "C95_rdm_missing",
    "C95_name",
    "C95_name_same",
    "C95_name_errors",
    "C95_numbers",
    "C95_default_file",
    "C95_geometry",
    "C95_crash_refuted",
    "C95_rename_refuted",
    "C95_overwritten_refuted",
    "C95_reload_refuted"
   ],
   "note": "HDF5 is a map from names to data given back as stored; a crash happens between steps, one step per data set. Findings: C95_crash_between and C95_crash_refuted (the old file is removed before the new one is moved, so a crash can leave no file under the molecule's name), C95_save_twice_refuted and C95_unsaveable (a molecule saved without general calculations and opened again cannot be saved: AttributeError, and the temporary file stays), C95_rename_refuted (saving an opened molecule under another name loses unread properties), C95_reload_refuted and C95_load_keeps (load keeps properties read before), C95_set_none (assigning None does not delete), C95_overwritten_refuted and C95_default_file (molecules that differ in positions share the default file), C95_rdm (truncation changes the object's own matrices). The atoms of an opened molecule are bytes. A negative charge is named _-1-."
  },
  {
   "property": "C96",
   "status": "proved",
   "theorems": [
    "C96_save_circuit",
    "C96_failed_save",
    "C96_concatenate",
    "C96_concatenate_error",
    "C96_concatenate_clash",
    "C96_batch",
    "C96_batch_missing",
    "C96_ancilla",
    "C96_evaluate_refuted",
    "C96_combine",
    "C96_random_params",
    "C96_build_ansatz",
    "C96_build_ansatz_needs_params",
    "C96_retry_refuted"
   ],
   "note": "Files hold documents; arrays are one-dimensional and real. Circuits must be writable in the sense of C09. Findings: C96_evaluate_refuted (evaluate_parametrized_circuit raises AttributeError for every input: circuits have no symbolic_params), C96_failed_save and C96_concatenate_clash (saving opens the file before the document is made, so an error, e.g. two custom gates with one name, destroys the previous file), C96_batch and C96_batch_missing and C96_retry_refuted (the caller's list is extended, also when the step fails, so a retry duplicates circuits)."
  },
  {
   "property": "C97",
   "status": "proved",
   "theorems": [
    "C97_path",
    "C97_no_name",
    "C97_same_file",
    "C97_packed",
    "C97_plain",
    "C97_refused",
    "C97_rejected",
    "C97_nameless",
    "C97_only",
    "C97_load_keeps",
    "C97_crash",
    "C97_wrong_form",
    "C97_zero_refuted",
    "C97_crash_refuted"
   ],
   "note": "The marshal format is a type and a list of terms; plain text uses the printer and parser of C67, with coefficients printed exactly. Findings: C97_zero_refuted (as plain text the zero fermionic operator is loaded as the annihilation operator of mode 0, the zero qubit operator cannot be loaded, and an operator with only small coefficients is loaded as the identity), C97_crash_refuted (overwriting is not atomic)."
  },
  {
   "property": "C98",
   "status": "proved",
   "theorems": [
    "C98_count",
    "C98_order",
    "C98_accepts",
    "C98_rejects_blind",
    "C98_missing",
    "C98_exception",
    "C98_exact",
    "C98_values_refuted",
    "C98_sampling_refuted",
    "C98_nested_history",
    "C98_nested_gradient",
    "C98_nested_unrecorded"
   ],
   "note": "Estimators are functions from tasks to arrays of values with a state; the exact estimator runs the circuits of the contracts with the gate matrices of C05. Findings: C98_values_refuted (squared coefficients and constants that count as zero are accepted: only a difference is checked), C98_sampling_refuted (an estimator that samples is rejected unless a second sample is exactly equal to the first)."
  },
  {
   "property": "C99",
   "status": "proved",
   "theorems": [
    "C99_crash",
    "C99_missing",
    "C99_value_estimate",
    "C99_list",
    "C99_list_tuple_refuted",
    "C99_failed_save_refuted",
    "C99_path_refuted",
    "C99_generic_dict",
    "C99_timing",
    "C99_grid",
    "C99_grid_twice_refuted",
    "C99_grid_rejected",
    "C99_integers",
    "C99_integers_scalar_refuted",
    "C99_integers_rejected",
    "C99_array",
    "C99_expectation_values",
    "C99_parities",
    "C99_wavefunction",
    "C99_nmeas",
    "C99_interaction_operator",
    "C99_rdm",
    "C99_schema_refuted",
    "C99_other_kind",
    "C99_qubit_operator",
    "C99_ising_operator",
    "C99_operator_set",
    "C99_concatenate",
    "C99_concatenate_error",
    "C99_pauli_strings",
    "C99_layouts",
    "C99_measurements",
    "C99_distributions",
    "C99_graph",
    "C99_graph_step",
    "C99_graph_default",
    "C99_graph_bad_specs",
    "C99_graph_sampler",
    "C99_graph_specs"
   ],
   "note": "Files hold a JSON document or text that is none; the text layer of json is trusted. Findings: C99_failed_save_refuted (the file is emptied before the document is made, so a list that cannot be written destroys the one that was there), C99_path_refuted (a path object can be saved to but most loaders reject it), C99_schema_refuted (the schema is not looked at: an interaction operator loads as density matrices), C99_grid_twice_refuted (saving grid evaluations changes the caller's dictionaries, so they cannot be saved again), C99_list_tuple_refuted (tuples come back as lists, value estimates without precision), C99_integers_scalar_refuted (without a size the step stores a number in place of a list)."
  },
  {
   "property": "C100",
   "status": "proved",
   "theorems": [
    "C100_summed",
    "C100_summed_rejected",
    "C100_summed_file_refuted",
    "C100_ground_rdm",
    "C100_ground_rdm_object_refuted",
    "C100_ground_state",
    "C100_values",
    "C100_values_list",
    "C100_evaluate",
    "C100_evaluate_too_few",
    "C100_energy",
    "C100_analysis",
    "C100_analysis_bound",
    "C100_analysis_rejected",
    "C100_untouched",
    "C100_sorted_refuted"
   ],
   "note": "Eigensolvers are functions with a contract (an eigenvector; of lowest eigenvalue; normalised where that is used). Findings: C100_summed_file_refuted (steps/measure.py uses IsingOperator without importing it, so an operator given as a file name always ends in a NameError), C100_ground_rdm_object_refuted (the annotation admits operators, only file names work), C100_sorted_refuted (with sort_terms the values come in an order that the evaluation step does not expect, and the energy is wrong without an error)."
  },
  {
   "property": "C101",
   "status": "proved",
   "theorems": [
    "C101_run",
    "C101_run_once",
    "C101_run_simulated",
    "C101_run_default_refuted",
    "C101_set",
    "C101_set_failed",
    "C101_set_numpy_refuted",
    "C101_set_default_refuted",
    "C101_distribution",
    "C101_distribution_refuted",
    "C101_to_ising",
    "C101_expectation_refuted",
    "C101_expectation",
    "C101_expectation_other",
    "C101_expectation_constant",
    "C101_tracked",
    "C101_tracked_set"
   ],
   "note": "Findings: C101_run_default_refuted and C101_set_default_refuted (without n_samples, the steps' own default None, both steps always fail with TypeError), C101_set_numpy_refuted (outcomes made of numpy integers, which the single-circuit step accepts, make the list step fail and destroy an existing measurements-set.json), C101_distribution_refuted (the distribution step works with untracked simulators only), C101_expectation_refuted (the expectation step reads backend.n_samples, which no class of the library has: AttributeError unless a backend brings it along, and always when tracked). C101_expectation is for backends that have the attribute, and for real coefficients."
  },
  {
   "property": "C102",
   "status": "proved",
   "theorems": [
    "C102_attributes",
    "C102_detected",
    "C102_not_callable",
    "C102_call",
    "C102_call_storing",
    "C102_keyword_refuted",
    "C102_order_refuted",
    "C102_set",
    "C102_set_refused",
    "C102_set_gradient_refuted"
   ],
   "note": "Findings: C102_keyword_refuted (a function whose store_artifact can be given by name only is taken for one that stores artifacts, but every call of the pair fails, because the pair hands the store on by position), C102_order_refuted (a parameter before store_artifact receives the store), C102_set_gradient_refuted (assigning to the gradient of a pair succeeds and has no effect on the pair)."
  },
  {
   "property": "C103",
   "status": "proved",
   "theorems": [
    "C103_function_1",
    "C103_function2",
    "C103_function5",
    "C103_function5_artifacts",
    "C103_function5_short_refuted",
    "C103_sum_of_squares",
    "C103_bitstring",
    "C103_bitstring_refuted"
   ],
   "note": "Findings: C103_bitstring_refuted (for a negative argument the artifact starts with the letter b), C103_function5_short_refuted (with two parameters the call fails after the artifact was stored)."
  },
  {
   "property": "C104",
   "status": "proved",
   "theorems": [
    "C104_ground_state",
    "C104_ground_state_total",
    "C104_mean",
    "C104_sparse",
    "C104_fermion",
    "C104_qubit",
    "C104_encodings",
    "C104_first",
    "C104_default_refuted",
    "C104_real",
    "C104_variational"
   ],
   "note": "The eigensolvers of numpy and scipy are arguments with a stated contract, and arithmetic is exact (a negligible difference is zero). Finding: C104_default_refuted (without n_qubits the spectrum of a fermion operator can have 4 entries and that of its Jordan-Wigner transform 1)."
  },
  {
   "property": "C105",
   "status": "proved",
   "theorems": [
    "C105_add",
    "C105_test",
    "C105_passed",
    "C105_error",
    "C105_lawful",
    "C105_order",
    "C105_pair",
    "C105_reverse_refuted",
    "C105_empty"
   ],
   "note": "Finding: C105_reverse_refuted (items of earlier groups are never compared with later items from their own side, so an equality that holds in that direction only passes, and fails with the groups in the other order). Comparison methods answer True, False or NotImplemented or raise."
  },
  {
   "property": "C106",
   "status": "proved",
   "theorems": [
    "C106_reads",
    "C106_accepts",
    "C106_rejects",
    "C106_roundtrip",
    "C106_next",
    "C106_unreadable",
    "C106_output",
    "C106_monotone",
    "C106_releases",
    "C106_roundtrip_refuted",
    "C106_candidate_refuted"
   ],
   "note": "Findings: C106_roundtrip_refuted (without a patch, a last part of digits is read back as the patch), C106_candidate_refuted (a suffix without separator as in 1.2.3rc1 is dropped)."
  },
  {
   "property": "C107",
   "status": "proved",
   "theorems": [
    "C107_alone",
    "C107_never_torn",
    "C107_others",
    "C107_gap",
    "C107_failure",
    "C107_progress",
    "C107_returns",
    "C107_stays",
    "C107_end",
    "C107_race_refuted",
    "C107_mixed_refuted",
    "C107_missing_refuted",
    "C107_reader_refuted",
    "C107_reads",
    "C107_last",
    "C107_independent",
    "C107_copy",
    "C107_copy_crash",
    "C107_copy_refuted"
   ],
   "note": "Findings: C107_race_refuted (save can raise TypeError because another process saves: a property that is None at the first check and not at the second makes h5py compress the scalar False), C107_mixed_refuted (a saved file can join the energies of one process with the orbitals of another), C107_missing_refuted (a reader finds no file in the gap), C107_reader_refuted (a reader can show properties of another process's molecule), C107_copy_refuted (across file systems shutil.move copies, and a crash leaves a torn file under the molecule's name). C107_alone: alone, the interleaved steps do exactly what the model of save of C95 does."
  },
  {
   "property": "C108",
   "status": "proved",
   "theorems": [
    "C108_call",
    "C108_healthy",
    "C108_poisoned",
    "C108_crash",
    "C108_agrees",
    "C108_keeps_file_refuted"
   ],
   "note": "Findings: C108_poisoned (after one record that JSON refuses, e.g. a numpy number of samples passed to get_measurement_outcome_distribution, the tracker is unusable), C108_keeps_file_refuted (a failed call erases the data of the previous one). C108_agrees ties this model to the one of C18."
  },
  {
   "property": "C109",
   "status": "proved",
   "theorems": [
    "C109_amplitudes_one_qubit",
    "C109_amplitudes_two_qubits",
    "C109_expectations_one_qubit",
    "C109_expectations_two_qubits",
    "C109_expectations_one_qubit_angles",
    "C109_expectations_two_qubits_angles",
    "C109_covers",
    "C109_covers_fixed"
   ],
   "note": "Exact arithmetic. The printed text and the literal tables pasted from it (test_cases_for_backend_tests.py) are not modelled, nor are the script's five angles: its list of angles is a parameter."
  }
 ]
}