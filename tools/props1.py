import json
B="src/python/zquantum/core/"
P=[]
def p(title, statement, quant, why, *anchors):
    P.append(dict(id="C%02d"%(len(P)+1), title=title, statement=statement, quantifier=quant, why_tests_cant=why,
                  anchors=[B+a if not a.startswith(("steps","subtrees")) else a for a in anchors]))
# ---- circuits
p("Circuit concatenation and width",
  "Circuit.__init__ accepts an explicit positive integral n_qubits as is and otherwise infers the smallest width containing every qubit index; c1 + c2 (and c + operation) runs exactly the operations of the left operand followed by those of the right one, on max(widths) qubits, so + on circuits is associative with the empty circuit as unit, and a circuit whose operations fit keeps fitting after any sequence of appends.",
  "all circuits, all operations, all sequences of appends",
  "The laws range over circuits of any length and any index pattern; tests check a few fixed concatenations.",
  "circuits/_circuit.py:Circuit.__init__,__add__,_append_operation,_append_circuit,_circuit_size_by_operations")
p("split_circuit is lossless and maximal",
  "split_circuit(circuit, predicate) yields chunks whose operations all have the yielded predicate value, consecutive chunks have different values, no chunk is empty, every chunk has the width of the input circuit and the concatenation of the chunks' operations is the original operation list.",
  "all circuits and all predicates",
  "The number, order and size of the runs is unbounded; tests use a handful of circuits.",
  "circuits/_circuit.py:split_circuit")
p("bind and free_symbols of circuits",
  "Circuit.bind keeps width, the number, order, qubits and gate structure of operations; a bound symbol disappears and an unmentioned one stays; binding a map in two disjoint number-valued parts equals binding it at once; free_symbols lists each symbol of the circuit once, in order of first appearance (sorted by name inside one operation).",
  "all circuits over all parameter expressions, all symbol maps",
  "Parameter expressions and maps are unbounded; tests bind one or two symbols.",
  "circuits/_circuit.py:Circuit.bind,free_symbols", "circuits/_operations.py:sub_symbols,get_free_symbols", "circuits/_gates.py:MatrixFactoryGate.bind,ControlledGate.bind,Dagger.bind")
p("Gate modifiers form a normal form",
  "For any gate built from a matrix-factory gate by any sequence of .dagger and .controlled(k): the result never nests Dagger in Dagger or Controlled in Controlled, num_qubits is the base arity plus the sum of the control counts, params are the base params, .dagger is an involution, .controlled(j).controlled(k) equals .controlled(j+k), and dagger and controlled commute; controlled(0) or a negative count on a base gate raises ValueError.",
  "all gates, all finite sequences of modifiers",
  "The modifier sequences are unbounded; tests check sequences of length one or two.",
  "circuits/_gates.py:MatrixFactoryGate,ControlledGate,Dagger")
p("Matrices of modified gates",
  "The matrix of g.dagger is the conjugate transpose of the matrix of g (including gates that claim is_hermitian), and the matrix of g.controlled(k) acts as g on the basis states whose k control bits are all 1 and as the identity on all others, through every sequence of modifiers.",
  "all built-in gates with all real parameters and all modifier sequences",
  "Tests compare a few sampled numeric matrices.",
  "circuits/_gates.py:ControlledGate.matrix,Dagger.matrix", "circuits/_matrices.py", "circuits/_builtin_gates.py")
p("Lifting a gate to a register",
  "GateOperation.lifted_matrix(n) is the 2^n matrix whose entry at (row i, column j) is the gate matrix entry addressed by the bits of i and j at the operation's qubits (in the order given, qubit 0 most significant) when i and j agree on all other qubits, and 0 otherwise; repeated qubit indices, and a gate whose matrix size does not match the number of qubits, are rejected.",
  "all square matrices of dimension 2^k, all lists of k distinct qubits in any order, all register widths",
  "Permutations, gaps and widths are unbounded; tests cover at most a few qubits.",
  "circuits/_unitary_tools.py:_lift_matrix,_permutation_matrix,_permutation_making_qubits_adjacent", "circuits/_gates.py:GateOperation.lifted_matrix")
p("to_unitary agrees with sequential application",
  "Circuit.to_unitary() multiplied with a state vector equals applying the operations one by one in circuit order, to_unitary of c1 + c2 (equal widths) is the matrix product of to_unitary(c2) and to_unitary(c1), and an empty circuit raises TypeError.",
  "all non-empty circuits and all amplitude vectors of matching size",
  "Tests compare products of a few small circuits.",
  "circuits/_circuit.py:Circuit.to_unitary", "circuits/_gates.py:GateOperation.apply")
p("Circuits are unitary",
  "Every built-in gate matrix is unitary for every real parameter value, gates flagged is_hermitian are equal to their own adjoint, and therefore to_unitary of every non-empty circuit over built-in gates and their modifiers is unitary and application of any operation preserves the norm of the state.",
  "all real parameters, all circuits",
  "Real parameters and circuit lengths are infinite domains; tests use sampled angles and tolerances.",
  "circuits/_matrices.py", "circuits/_builtin_gates.py", "circuits/_circuit.py:Circuit.to_unitary")
p("Circuit serialization round trip",
  "circuit_from_dict(to_dict(c)) == c for every circuit of built-in gates, arbitrarily nested modifiers and custom gates collected at top level whose names do not clash, and list-of-circuits serialization keeps order and length; two different definitions with one name raise ValueError. The round trip fails for custom gates used only under a modifier and for custom gates named like a module-level name.",
  "all circuits whose operations are gate operations",
  "The set of circuits and nestings is infinite; tests round-trip a fixed list of examples.",
  "circuits/_serde.py:to_dict,circuit_from_dict,_gate_from_dict", "circuits/_circuit.py:collect_custom_gate_definitions")
p("Equality of custom gates is by matrix content",
  "For custom gate definitions of one shape, equality holds exactly when name, parameter ordering and all matrix entries agree; for unitary matrices of at least one qubit equality also implies equal shape. For other matrices of different shapes only the common beginning of the flattened matrices is compared, so different definitions can compare equal.",
  "all pairs of definitions",
  "Equality must be right for every pair of shapes; tests compare same-shaped matrices only.",
  "circuits/_gates.py:CustomGateDefinition.__eq__,_are_matrices_equal")
p("Layers of gates and ancilla registers",
  "create_layer_of_gates(n, gate) applies the gate exactly once to each of the n qubits, apply_gate_to_qubits appends one gate per distinct index and never changes the existing prefix, add_ancilla_register(c, n) widens by exactly n and appends only identities, so the state on the old qubits is unchanged.",
  "all circuits, index collections and counts",
  "Tests use small fixed counts.",
  "circuits/_generators.py")
p("MultiPhaseOperation preserves probabilities",
  "MultiPhaseOperation.apply multiplies component k by exp(i*theta_k), so it preserves the modulus of every amplitude, accepts exactly vectors whose length equals the number of parameters, composes additively, and construction rejects complex parameters with non-zero imaginary part.",
  "all parameter lists and amplitude vectors",
  "Vector contents and lengths are unbounded.",
  "circuits/_wavefunction_operations.py:MultiPhaseOperation")
p("Connectivity layers are a proper partition",
  "build_circuit_layers_and_connectivity for a nearest-neighbour chain returns layers in which no qubit occurs twice, which together contain each edge (i,i+1) of the connectivity exactly once and nothing else; for a sycamore grid of any positive size the connectivity is exactly the zigzag lattice between neighbouring rows, no qubit occurs twice in any of the eight layers, and layers 1,2,5,6 use every connection exactly once, as do layers 3,4,7,8; the dictionary forms of CircuitConnectivity, CircuitLayers and orderings round-trip; an unknown layer type returns None.",
  "all numbers of qubits",
  "Tests enumerate a few sizes.",
  "circuits/layouts.py:build_circuit_layers_and_connectivity,CircuitConnectivity,CircuitLayers")
p("Symbolic expression translation preserves value",
  "Translating a native (sympy-like) expression with expression_from_sympy and evaluating the resulting function-call tree with the arithmetic dialect gives the same value as evaluating the native expression, including the subtraction, division and square-root special cases.",
  "all expressions over symbols, numbers, sums, products, powers and functions and all assignments",
  "Expression trees are unbounded; tests check specific trees.",
  "circuits/symbolic/sympy_expressions.py", "circuits/symbolic/translations.py")
p("Gate decomposition preserves circuit semantics",
  "decompose_operations applies each rule in order to every matching operation and keeps all others in place; U3GateToRotation replaces U3 by three rotations equal to it up to a global phase. For controlled U3 gates, and for the declared width of the circuit, the replacement is not faithful.",
  "all operation lists, rule lists and angles",
  "Angles and operation lists are infinite domains.",
  "decompositions/_decomposition.py", "decompositions/_zquantum_decompositions.py")
# ---- simulator & backends
p("Simulators compute the sequential state for any split",
  "QuantumSimulator.get_wavefunction returns the state obtained by applying all operations in order to the initial state, no matter how the circuit is divided into natively and non-natively supported chunks; number_of_circuits_run grows by one per natively executed chunk; SymbolicSimulator refuses to sample a state that still has free symbols.",
  "all circuits, all native-gate predicates, all initial states, all native back ends that apply gates correctly",
  "The division into chunks is arbitrary; tests use one or two predicates.",
  "interfaces/backend.py:QuantumSimulator.get_wavefunction", "circuits/_circuit.py:split_circuit")
p("Backend counters and batching",
  "After any history of calls number_of_circuits_run equals the total number of circuits executed and number_of_jobs_run the total number of batches; run_circuitset_and_measure of a backend without batching returns one measurement set per circuit (paired with its sample count) in input order, and of a batching backend runs the circuits in consecutive batches of at most the batch size; non-positive sample counts are rejected.",
  "all histories of calls, all batch sizes",
  "Counters depend on the whole call history.",
  "interfaces/backend.py:QuantumBackend")
p("Measurement tracking forwards and records every call",
  "A MeasurementTrackingBackend forwards calls and results unchanged, and after every successful call its raw-data file contains exactly one record, in order, for every circuit of that call; a call that the wrapped backend fails leaves the file as it was.",
  "all histories of run calls",
  "Data loss depends on the sequence of calls and file writes.",
  "trackers.py:MeasurementTrackingBackend")
# ---- wavefunction
p("Wavefunction stays valid under mutation",
  "A Wavefunction always has 2^n amplitudes and, when no symbol is present, unit norm; when some amplitudes are symbolic the numeric part never exceeds norm one; a violating constructor call or item assignment raises and leaves the object unchanged.",
  "all sequences of construction, item assignment by integer index and binding",
  "The invariant must survive every sequence of writes, including failing ones. (For slice assignment on numpy storage the claim is false: see C19_slice_assignment_refuted.)",
  "wavefunction.py:Wavefunction.__init__,__setitem__,bind")
p("Dicke states enumerate exactly the weight-k basis states",
  "Wavefunction.dicke_state(n, k) gives amplitude 1/sqrt(binomial(n,k)) to exactly the basis indices below 2^n with k one bits and 0 to all others.",
  "all n and k with 0 <= k <= n",
  "The enumeration uses a bit trick that must be right for all widths.",
  "wavefunction.py:Wavefunction.dicke_state,_most_significant_set_bit")
p("flip_amplitudes is the bit-reversal involution",
  "flip_amplitudes permutes the amplitudes by reversing the bit order of the index; doing it twice gives back the input; flip_wavefunction preserves the multiset of probabilities.",
  "all vectors of length 2^n",
  "Ranges over every width and index.",
  "wavefunction.py:flip_amplitudes,flip_wavefunction")
p("Outcome labels use one qubit convention",
  "For a state with amplitude 1 on one basis index, get_outcome_probs, sampling from the wavefunction, and the bitstring distribution created from the probability list all refer to the same bits per qubit (outcome probabilities label in reversed order, samples and distributions list qubit 0 first = most significant index bit).",
  "all widths and basis indices",
  "Bit order errors show up only on asymmetric indices; must hold for all.",
  "wavefunction.py:Wavefunction.get_outcome_probs,sample_from_wavefunction", "distribution/_measurement_outcome_distribution.py:create_bitstring_distribution_from_probability_distribution")
# ---- utils
p("Binary conversions",
  "bin2dec(dec2bin(x, n)) == x whenever dec2bin returns, and dec2bin(bin2dec(bits), len(bits)) == bits for non-empty bit lists; dec2bin returns exactly n bits for every 0 <= x < 2^n (n >= 1), terminates for every x > 2^n and raises for negative x.",
  "all naturals and all lengths",
  "Boundary x = 2^n is one point per width among infinitely many.",
  "utils.py:dec2bin,bin2dec")
p("Ordered bitstrings and tuple/string conversions",
  "get_ordered_list_of_bitstrings(n) lists, for n >= 1, all 2^n bitstrings of length n once in increasing binary order; converting bitstrings (or any strings of digits) to tuples and back is the identity, as is converting tuples of one-digit numbers to strings and back; other characters are rejected.",
  "all n, all lists of bitstrings",
  "Exponentially many strings.",
  "utils.py:get_ordered_list_of_bitstrings,convert_bitstrings_to_tuples,convert_tuples_to_bitstrings")
p("scale_and_discretize hits the requested total",
  "scale_and_discretize(values, total) returns one integer per value, the integers add up to total and each differs from its exact proportional share by less than one, the values rounded up being those with the largest remainders.",
  "all lists of exact numbers with non-zero sum, all integer totals, all orders in which equal remainders may be sorted",
  "Rounding interacts with every combination of fractional parts.",
  "utils.py:scale_and_discretize")
p("Array and value-estimate dictionaries round-trip",
  "convert_dict_to_array(convert_array_to_dict(a)) gives back the array for all non-empty real or complex arrays of any rank and ValueEstimate.from_dict(to_dict(v)) == v.",
  "all arrays and value estimates",
  "Shapes and contents are unbounded; the empty complex array is a corner case tests miss.",
  "utils.py:convert_array_to_dict,convert_dict_to_array,ValueEstimate")
# ---- measurements
p("Measurement counts are exact",
  "Measurements.from_counts(c).get_counts() gives back every positive count, get_counts of a list adds up to its length, add_counts adds exactly the given numbers, and the stored JSON form (counts and bitstrings) loads to the same measurements.",
  "all lists of bitstrings and all count dictionaries",
  "Dictionaries and repetitions are unbounded.",
  "measurement.py:Measurements")
p("Representing a distribution with exactly n samples",
  "Measurements.get_measurements_representing_distribution(d, n) returns exactly n bitstrings, each in the support of d; outcomes for which n*p is an integer occur exactly n*p times, and the numbers of all outcomes deviate from the nearest integers to n*p in one direction only, for any outcome of the random choices used to distribute the remainder.",
  "all normalised distributions, all n, all random choices",
  "Random choices and roundings cannot be exhausted by tests.",
  "measurement.py:Measurements.get_measurements_representing_distribution,_check_sample_elimination")
p("Expectation values from measurements",
  "Measurements.get_expectation_values(op) returns for each Ising term coefficient*(even-odd)/total where parity counts the one bits on the term's qubits, correlations are symmetric and covariances follow from the values; every frequency expectation lies in [-1,1].",
  "all non-empty measurement lists and all Ising operators",
  "All bit patterns and term sets.",
  "measurement.py:Measurements.get_expectation_values,check_parity,check_parity_of_vector,get_expectation_value_from_frequencies")
p("Parity tallies",
  "get_parities_from_measurements counts for each term even + odd = number of measurements, correlation tallies are symmetric and count equal parities, and get_expectation_values_from_parities returns the average sign of every term (without its coefficient), with a variance between 0 and 1/N.",
  "all measurement lists, all Ising operators",
  "Unbounded lists and operators.",
  "measurement.py:get_parities_from_measurements,get_expectation_values_from_parities,Parities")
p("Concatenation and serialization of expectation values",
  "concatenate_expectation_values concatenates values in input order and keeps correlations and covariances of each block, without modifying or sharing lists with its inputs; ExpectationValues, Parities and wavefunctions survive being written to and read from dictionaries.",
  "all lists of expectation-value objects",
  "Unbounded lists; aliasing.",
  "measurement.py:concatenate_expectation_values,ExpectationValues,Parities")
# ---- distributions
p("Distributions are probability distributions",
  "A constructed MeasurementOutcomeDistribution has a non-empty dictionary with keys of one length and non-negative values that add up to 1 (when normalisation is on), normalisation keeps the proportions, and invalid dictionaries are rejected.",
  "all input dictionaries",
  "The input space is infinite.",
  "distribution/_measurement_outcome_distribution.py:MeasurementOutcomeDistribution,is_measurement_outcome_distribution,normalize_measurement_outcome_distribution")
p("Distribution dictionaries keep their outcomes",
  "Every notation of an outcome (tuple, digits, comma separated) is read as that outcome, whichever notation is used, and saving and loading a normalised distribution (whose one-position outcomes are at most 9) gives back the same distribution.",
  "all distributions over tuples of naturals",
  "Key collisions depend on arbitrary keys.",
  "distribution/_measurement_outcome_distribution.py:preprocess_distibution_dict,save_measurement_outcome_distribution,load_measurement_outcome_distribution")
p("Distances are symmetric and vanish on equal distributions",
  "compute_mmd is symmetric, never negative, and zero exactly for equal distributions (over bits, positive bandwidths); the clipped negative log likelihood does not depend on the order of outcomes, is not negative and is smallest at the target up to epsilon per outcome; compute_jensen_shannon_divergence is symmetric; evaluate_distribution_distance raises for mixed normalisation or different widths.",
  "all pairs of distributions",
  "Infinite domain of distributions.",
  "distribution/mmd.py", "distribution/jensen_shannon_divergence.py", "distribution/clipped_negative_log_likelihood.py")
p("Samples follow the support and count",
  "sample_from_probability_distribution and the distribution changes of width (change_tuple_dict_keys_to_comma_separated_integers) preserve number of samples and probability mass, and only outcomes of positive probability are drawn.",
  "all distributions and sample counts, all random draws",
  "Random draws cannot be enumerated.",
  "utils.py:sample_from_probability_distribution", "distribution/_measurement_outcome_distribution.py:change_tuple_dict_keys_to_comma_separated_integers")
# ---- estimation
p("Greedy grouping partitions into co-measurable groups",
  "group_comeasureable_terms_greedy and the estimation-task versions put every term of the operator whose coefficient is not below the 1e-8 tolerance into exactly one group with its coefficient, every two terms in a group agree on every shared qubit, the constant term is alone and last, a new group is opened only for terms that clash with every earlier group, and the groups add up to the operator (up to terms below the tolerance), in both sort modes; tasks keep their circuit and shots.",
  "all qubit operators",
  "Operators with any number of terms.",
  "hamiltonian.py:group_comeasureable_terms_greedy,is_comeasureable", "estimation/_estimation.py:group_greedily")
p("Context selection measures the right Pauli operator",
  "get_context_selection_circuit_for_group returns a circuit U and an Ising operator D with U^dagger D U equal to the given group, as operators on the register, for every co-measurable group; groups that are not co-measurable are rejected.",
  "all co-measurable groups over any number of qubits",
  "All operators of all widths; tests sample a few Pauli words.",
  "estimation/_estimation.py:get_context_selection_circuit_for_group,perform_context_selection")
p("Shot allocation",
  "allocate_shots_uniformly gives every task exactly the requested number; allocate_shots_proportionally distributes exactly the total budget and changes nothing else in the tasks; invalid inputs are rejected.",
  "all task lists and budgets",
  "Rounding over arbitrary lists.",
  "estimation/_estimation.py:allocate_shots_uniformly,allocate_shots_proportionally")
p("Estimation by averaging keeps task order",
  "estimate_expectation_values_by_averaging returns one result per task, in task order, constant tasks being evaluated exactly and measured tasks from their own measurements; the measured/not measured split is a partition whose indices merge back to the input order.",
  "all task lists",
  "All interleavings of measured and constant tasks.",
  "estimation/_estimation.py:estimate_expectation_values_by_averaging,split_estimation_tasks_to_measure,evaluate_non_measured_estimation_tasks")
p("Binding symbols in estimation tasks",
  "evaluate_estimation_circuits with as many symbol maps as tasks returns one task per input task with the circuit bound by the symbols map of the same position and operator and shots unchanged. (A single map is not broadcast: only the first task survives.)",
  "all task lists and lists of symbol maps",
  "Length mismatches are silent; must hold for all lengths.",
  "estimation/_estimation.py:evaluate_estimation_circuits")
p("Measurement budget estimates",
  "compute_group_variances gives one non-negative variance per frame (sum of squared coefficients times 1 - <P>^2, or times 1 without constants when no expectation values are given) and rejects wrong numbers of values and values outside [-1, 1]; estimate_nmeas_for_frames returns K2 = (sum of the frames' standard deviations)^2, the number of terms, and per-frame counts that add up to K2 and are optimal: no allocation reaching variance eps^2 uses fewer than K2/eps^2 measurements.",
  "all frames and expectation values",
  "Unbounded numbers of frames.",
  "hamiltonian.py:estimate_nmeas_for_frames,compute_group_variances")
# ---- operators
p("Qubit operators multiply like matrices",
  "For QubitOperators on n qubits the matrix of a*b is the product of the matrices, the matrix of a+b and a-b the sum and difference (with the small-coefficient pruning only removing coefficients below the tolerance), and scalar multiplication scales.",
  "all operators, all widths",
  "Operators with any number of terms and factors.",
  "openfermion/ops/operators/qubit_operator.py:QubitOperator._simplify", "openfermion/ops/operators/symbolic_operator.py:SymbolicOperator.__imul__,__iadd__,__isub__")
p("Ising operators multiply like diagonal matrices",
  "IsingOperator products reduce each qubit's Z power modulo two and agree with multiplication of the +-1 valued functions they denote on bitstrings.",
  "all Ising operators",
  "Unbounded terms.",
  "openfermion/ops/operators/ising_operator.py:IsingOperator._simplify")
p("Symbolic operator arithmetic is well behaved",
  "Addition and subtraction act termwise and drop a coefficient only when it is below the tolerance, so addition is commutative on operators without small coefficients and associative within four tolerances; a - a is the zero operator; powers iterate multiplication; get_operators and get_operator_groups split into consecutive, evenly sized parts that add up to the operator; binary operators never modify their operands and in-place ones only the left one.",
  "all operators, all group counts",
  "Unbounded operators.",
  "openfermion/ops/operators/symbolic_operator.py:SymbolicOperator")
p("Approximate operator comparison",
  "isclose accepts whenever all coefficients (absent ones being 0) differ by less than the tolerance, and whatever it accepts differs by less than the tolerance times the product of max(1, |a_t|, |b_t|) over the shared terms; for shared coefficients of modulus at most 1 it is therefore exact, symmetric and independent of term order. compress keeps exactly the numbers whose real or imaginary part exceeds the tolerance and zeroes the parts that do not.",
  "all operators",
  "Tolerance accumulation depends on the order and size of all terms.",
  "openfermion/ops/operators/symbolic_operator.py:SymbolicOperator.isclose,compress")
p("Normal ordering preserves the operator",
  "normal_ordered(op) denotes the same operator on Fock space as op (up to coefficients pruned as smaller than EQ_TOLERANCE), every term of it is normal ordered and distinct, it is idempotent, is_normal_ordered recognises exactly normal order, and two operators denote the same iff their normal forms have the same coefficients; chemist_ordered does the same for chemist order of two-body number conserving operators and is a TypeError for others.",
  "all fermion operators",
  "The reordering recursion branches on every contraction.",
  "openfermion/transforms/opconversions/term_reordering.py:normal_ordered,normal_ordered_ladder_term", "openfermion/ops/operators/fermion_operator.py:FermionOperator.is_normal_ordered")
p("Jordan-Wigner is a representation of the fermion algebra",
  "jordan_wigner maps products to products and sums to sums and its images of ladder operators satisfy the canonical anticommutation relations, so the result acts on occupation-number states exactly as the fermionic operator.",
  "all fermion operators on any number of modes",
  "Unbounded modes and term lengths.",
  "openfermion/transforms/opconversions/jordan_wigner.py:jordan_wigner")
p("Bravyi-Kitaev is a representation of the fermion algebra",
  "The Bravyi-Kitaev images of ladder operators satisfy the canonical anticommutation relations; update, parity and occupation sets are the sets defined by the encoding matrix.",
  "all mode indices and all register sizes",
  "The sets are computed by bit tricks that must be right for all indices.",
  "openfermion/transforms/opconversions/bravyi_kitaev.py:_update_set,_occupation_set,_parity_set,_transform_ladder_operator")
p("Hermitian conjugation of operators",
  "hermitian_conjugated is an involution, reverses products, denotes the adjoint matrix/operator, and is_hermitian answers accordingly.",
  "all fermion and qubit operators",
  "Unbounded operators.",
  "openfermion/utils/operator_utils.py:hermitian_conjugated,is_hermitian")
p("Qubit reindexing helpers",
  "reverse_qubit_order is an involution for fixed n_qubits (on operators without coefficients below the pruning tolerance) and denotes conjugation by bit reversal; up_then_down and reorder are bijections on mode indices and reverse undoes them when num_modes is given; prune_unused_indices renumbers monotonically; count_qubits is one more than the largest index.",
  "all operators and widths",
  "Ranges over all index patterns.",
  "openfermion/zapata_utils/_utils.py:reverse_qubit_order", "openfermion/transforms/opconversions/term_reordering.py:reorder", "openfermion/utils/indexing.py:up_then_down", "openfermion/transforms/repconversions/operator_tapering.py:prune_unused_indices")
p("Pauli expansion of matrices",
  "get_qubitop_from_matrix returns an operator whose matrix is the input, up to terms whose coefficient is within the tolerance, for every 2^n by 2^n matrix with n >= 1; it gives back the operator whose matrix it is given; and it rejects other shapes (a 1 by 1 matrix is rejected too).",
  "all matrices of dimension 2^n",
  "All sizes and entries.",
  "openfermion/zapata_utils/_utils.py:get_qubitop_from_matrix,get_qubitop_from_coeffs_and_labels")
p("Polynomial tensor arithmetic",
  "PolynomialTensor + and * act entrywise on all tensors (absent tensors being zero), negation and multiplication by a number act on all entries, sums and differences with a number change the constant, == holds exactly when all entries are within the tolerance, and no operand is changed. a - b is entrywise, and equal to a + (-b), when a has all keys of b. Iteration visits the constant (if stored) and the stored non-zero elements, each once, by length, then by pattern, then by indices.",
  "all tensors over all keys",
  "Key sets of the two operands may differ arbitrarily.",
  "openfermion/ops/representations/polynomial_tensor.py:PolynomialTensor.__iadd__,__isub__,__imul__")
p("Operator dictionaries round-trip",
  "convert_dict_to_qubitop(convert_qubitop_to_dict(op)) has exactly the terms and coefficients of op except those whose coefficient is below EQ_TOLERANCE, likewise for Ising operators; interaction operators come back with the same constant and arrays. get_fermion_operator(t) has the tensor's entries as coefficients (without those below EQ_TOLERANCE); get_interaction_operator and get_polynomial_tensor hold the coefficients of the normal form of the operator, so converting there and back gives its normal form, and a tensor with entries only at normal-ordered products comes back unchanged when its size is passed. As operators on occupation-number states, the results of these three conversions are their arguments, up to negligible terms of bounded number. A term that is not of the kinds 1, a^ a, a^ a^ a a raises an error, so does a size that is too small; operators whose normal form is a constant have no polynomial tensor (StopIteration).",
  "all operators",
  "Unbounded operators.",
  "openfermion/zapata_utils/_io.py", "openfermion/transforms/repconversions/conversions.py:get_interaction_operator")
# ---- evolution
p("Time evolution of a Pauli term is exact",
  "time_evolution_for_term(term, t) for a single Pauli term c P with real c and at least one factor is a circuit whose unitary, on every register that holds the term, is exp(-i t c P) exactly (the sum of the exponential series). A constant term gives the empty circuit (its global phase is dropped), and an operator that does not have exactly one term is an error.",
  "all Pauli words on any number of qubits, all times and coefficients",
  "Real time and unbounded widths.",
  "evolution.py:time_evolution_for_term")
p("Trotter circuits concatenate term evolutions",
  "time_evolution(H, t, trotter_order=r) is r repetitions of the concatenation of the term evolutions for time t/r in term order, and acts on states as the r-th power of the ordered product of the exponentials of the terms; other methods, empty operators and non-positive r are errors. time_evolution_derivatives returns 2 r |H| circuits and as many factors +c/r, -c/r; for r = 1 and non-zero real coefficients, the sum of factor times expectation value over the circuits is the derivative with respect to t of the expectation value after time_evolution, for every observable and state. For r = 2 that sum is not the derivative in general.",
  "all operators, times and trotter orders",
  "Unbounded orders and terms.",
  "evolution.py:time_evolution,time_evolution_derivatives,generate_circuit_sequence")
# ---- history & optimisation
p("Recorders are transparent and complete",
  "A program that calls a recorded function and its gradient, creates arrays and overwrites their contents observes exactly what it would with the plain function (values, exceptions, array contents and aliasing, the function's own state). The history contains exactly the calls satisfying the save condition or forcing an artifact, in call order, numbered among all successful calls from zero, with the parameters as they were at the end of the call, unaffected by later changes of the caller's arrays, and with the last artifact stored under each name. The gradient has its own recorder. every_nth saves the calls 0, n, 2n, ...; a raising save condition makes the call raise. Attributes other than the recorder's own are those of the function. Recorded values are references, not snapshots; a copy of a recorder shares the history list, a deep copy has equal entries in new arrays and a list of its own; both forget the gradient's history.",
  "all call sequences, all save predicates",
  "Depends on the full history of calls.",
  "history/recorder.py", "history/save_conditions.py")
p("Cost function augmentations compose in order",
  "augment_cost_function composes cost augmentations left to right around the function (the last one outermost), and gradient augmentations likewise around its gradient, which becomes the gradient of the augmented function. All attributes of the original that no augmentation redefines are available with their values, the latest definition counts, and assigned attributes are read back without changing others. function_logger does not change results and logs exactly the successful calls that satisfy its condition, numbered from zero. Gradient augmentations are not applied if there are no cost augmentations, assigning gradient has no effect, and a logged function does not accept store_artifact.",
  "all lists of augmentations",
  "Unbounded lists and interleavings of attributes.",
  "cost_function_augmentations.py:augment_cost_function")
p("Cost functions evaluate the estimation pipeline",
  "Every call of a cost function made by create_cost_function applies the parameter preprocessors in order, gives the result to the task factory and its tasks to the estimation method, and returns the sum of the real parts of all values with the square root of the sum of all covariances as precision; exceptions end the call. The task factories bind the i-th parameter to the i-th free symbol in the order of the sort key, running their preprocessors once (substitution) or in every call (dynamic), and agree with each other. fix_parameters puts the fixed parameters first; noise preprocessors draw successive numbers from their own generator, equal for equal seeds. finite_differences_gradient evaluates p + h e_i and p - h e_i in order and returns the symmetric difference quotients, is exact for quadratic functions and off by at most B h^2/6 for third derivatives bounded by B. An iterator of preprocessors is used only by the first call.",
  "all parameter vectors and preprocessor lists",
  "Unbounded vectors and lists.",
  "cost_function.py:create_cost_function,fix_parameters,sum_expectation_values", "gradients.py:finite_differences_gradient")
p("Ansatz caching is transparent",
  "After any sequence of assignments to and reads of declared ansatz properties, calls of setters and methods decorated as invalidating (that change nothing if they raise), number_of_params, get_executable_circuit and reads of parametrized_circuit, the circuit returned (or the exception raised) is the one generated from the current property values; it is generated once until the next invalidation. A property has the value last assigned to it or its default. get_executable_circuit binds the i-th number to the i-th free symbol in the sort order, and rejects None and a wrong number of parameters. For the mock ansatz the i-th number is the angle of the i-th layer, for any number of layers. In-place changes of a property's value and invalidating methods that change a property and then raise leave a stale circuit.",
  "all sequences of property writes and reads",
  "Stale caches appear only in specific interleavings.",
  "interfaces/ansatz.py:Ansatz.parametrized_circuit", "interfaces/ansatz_utils.py:ansatz_property,invalidates_parametrized_circuit")
p("Nested optimisation histories",
  "For every algorithm that calls the cost function and its gradient adaptively, minimize with keep_history=True finds what it finds without recording, and the result has the history of the saved calls (and gradient_history iff the cost function has a gradient) in order; with keep_history=False the history is empty. extend_histories puts the old entries before those of the recorder and keeps all; for a nested optimizer whose cost functions all have (or all lack) a gradient the histories are those of all iterations in order, nfev is the total, and value and parameters are those of the last iteration. Cost functions that gain a gradient in a later iteration raise KeyError; ones that lose it drop the recorded gradient history.",
  "all histories",
  "Unbounded histories.",
  "interfaces/optimizer.py:extend_histories,construct_history_info")
# ---- serialization / graphs
p("JSON decoding recovers encoded objects",
  "Encoding a nest of lists, tuples, dictionaries, optimization results, history entries, value estimates, distributions and arrays as JSON and decoding it gives back the same value, with lists for tuples and dictionaries for other namedtuples, whenever none of its dictionaries is mistaken for another object: no key \"real\", not both \"call_number\" and \"value\", not a non-empty dictionary of numbers only, no schema of an estimate or result; distributions have several variables or values up to 9, and empty arrays no dimension after the one of size 0. Everything built from known objects can be encoded, and a value containing any other object raises ValueError. Saving an optimization result and loading it gives the same result; the dictionary passed in gets the key \"schema\".",
  "all nested structures",
  "Nested structures are unbounded; tag guessing depends on the keys present.",
  "serialization.py:preprocess,OrquestraEncoder,OrquestraDecoder")
p("Graph comparison and generation",
  "compare_graphs(g1, g2) is true exactly if the node lists, and the edge lists, agree up to the length of the shorter one (so for graphs of the same size exactly if they list the same nodes and edges in the same order). Nodes are numbered 0, 1, ... in order without repetition. A saved graph whose attributes do not clash with the names used in the file is loaded with the same nodes, edges, order and attributes. Generated graphs have the nodes and edges networkx chose, each edge in order the next value of the sampler as weight, and nothing else changed; the weights of samplers lie in the stated set; with a seed the result does not depend on earlier draws; missing keys raise KeyError, unknown types NotImplementedError, multigraphs ValueError.",
  "all graphs made by adding nodes and edges, all samplers, seeds and specifications",
  "All sizes and construction orders; iterators with arbitrary state.",
  "graph.py:compare_graphs,save_graph,load_graph,generate_graph_node_dict,_weight_graph_edges,generate_graph_from_specs")
# ---- added as the model grew
p("The built-in gates are the textbook gates",
  "Each built-in gate has, for all parameter values, the textbook action on basis states: X, Y, Z, I, H, S, T, PHASE; RX, RY, RZ, RH, XX, YY, ZZ are cos(t/2) - i sin(t/2) P for the respective P (RH times exp(i t/2)); CNOT, CZ, CPHASE apply X, Z, PHASE to the second qubit controlled by the first; SWAP, ISWAP, XY exchange the qubits with the documented factors; U3 is the standard three-angle gate.",
  "all built-in gates and all real parameters",
  "Parameters range over the reals; agreement at sample angles does not exclude wrong half angles or signs elsewhere.",
  "circuits/_matrices.py", "circuits/_builtin_gates.py")
p("Identity, unitarity and equality up to a phase",
  "is_identity and is_unitary accept exactly the square matrices within the stated tolerances and accept every exactly unitary matrix; compare_unitary accepts every pair of unitaries that differ by a global phase, and pairs it accepts are proportional entry by entry up to n(tol + 1e-5). If the first columns are orthogonal it raises ZeroDivisionError instead of answering False.",
  "all matrices, sizes and tolerances (exact arithmetic)",
  "All sizes and all phases; the failing case is a measure-zero set.",
  "utils.py:is_identity,is_unitary,compare_unitary")
p("Parity checks, bitstring values and symbol maps",
  "check_parity is true iff an even number of marked positions hold a one and fails for positions outside; check_parity_of_vector agrees with it on every bitstring; convert_bitstring_to_int reads the first bit as the least significant; create_symbols_map maps the k-th symbol to the k-th value and rejects different lengths.",
  "all bitstrings, marked positions, symbol and parameter lists",
  "Unbounded lists.",
  "measurement.py:check_parity,check_parity_of_vector,convert_bitstring_to_int", "utils.py:create_symbols_map")
p("Orderings of symbols",
  "Comparing natural_key or natural_key_revlex keys of two symbols never fails and is a strict total order up to equal keys; for names made of a digit-free stem and a decimal index, natural_key compares stems as text and then indices as integers, natural_key_revlex indices first and then stems; natural_key_fixed_names_order compares the index, then the position of the name in the given list, and rejects other names.",
  "all symbol names, stems, indices of any length and lists of names",
  "Names and indices are unbounded and the keys mix strings with integers.",
  "circuits/symbolic/_sorting.py:natural_key,natural_key_revlex,natural_key_fixed_names_order")
p("The text form of operators",
  "QubitOperator, IsingOperator and FermionOperator read exactly the documented texts: words made of an action and a decimal index (in the order of the class), separated by any white space; and sums of coefficients followed by bracketed terms, where an omitted coefficient is 1, a lone sign is plus or minus 1, equal terms are added, every coefficient is multiplied by the given one and terms are simplified. Any other word or coefficient raises ValueError; sequences of (index, action) pairs are accepted exactly if every index is a non-negative integer and every action one of the class. Printing lists the terms with non-negligible coefficients in tuple order, one per line; reading the printed text gives the operator back without the negligible terms, if its terms are simplified and its coefficients are printed exactly. The empty operator prints as 0, which reads as something else, an operator with only negligible coefficients as the empty text, which reads as the identity, and an unclosed last bracket is dropped silently.",
  "all texts, sequences, operators of the three classes and coefficient formats",
  "Texts, numbers of terms and indices are unbounded.",
  "openfermion/ops/operators/symbolic_operator.py:SymbolicOperator.__init__,_long_string_init,_parse_sequence,_parse_string,_validate_factor,__str__", "openfermion/ops/operators/qubit_operator.py", "openfermion/ops/operators/ising_operator.py", "openfermion/ops/operators/fermion_operator.py")
p("Freezing orbitals preserves matrix elements",
  "freeze_orbitals(a, occupied, unoccupied) gives a fermion operator on the remaining modes that a uses, numbered 0, 1, ... in increasing order, and its matrix element between any two occupations of these modes is the matrix element of a between the same occupations completed with 1 on the occupied and 0 on the unoccupied orbitals (and on modes a does not use), up to the terms with negligible coefficients that sums of operators drop. This needs every occupied orbital to be listed once and none to be listed in both lists; an orbital listed twice gives wrong signs, and an orbital index above 256 may not be frozen at all, since indices are compared by identity.",
  "all fermion operators, numbers of modes, lists of occupied and unoccupied orbitals and occupations of the other modes",
  "The sign of a term depends on all positions of its ladder operators relative to all frozen orbitals; terms, modes and lists are unbounded.",
  "openfermion/transforms/repconversions/operator_tapering.py:freeze_orbitals,prune_unused_indices")
p("Commutators and anticommutators",
  "commutator(a, b) and anticommutator(a, b) denote AB - BA and AB + BA for qubit operators, Ising operators (which commute), fermion operators (up to the terms with negligible coefficients that sums drop) and square arrays, and raise TypeError exactly if the operands have different types. double_commutator(op1, op2, op3) denotes [op1, [op2, op3]] in normal order; the shortcut for two hopping operators c (a_i^ a_j + a_j^ a_i) given with their index sets denotes the same operator. The shortcut is wrong for hopping operators with complex amplitudes, and a column and a row are broadcast instead of refused.",
  "all operators, arrays, index sets and flags",
  "Operators have any number of terms on any number of modes; that the shortcut agrees with the general formula is an identity in the canonical anticommutation relations.",
  "openfermion/utils/commutators.py:commutator,anticommutator,double_commutator")
p("The reverse Jordan-Wigner transform is the inverse of the Jordan-Wigner transform",
  "reverse_jordan_wigner(q) acts on occupation-number states exactly as q acts on the qubits (up to the terms with negligible coefficients that sums drop, at most 2^n for each term of q). jordan_wigner(reverse_jordan_wigner(q)) has the coefficients of q, and reverse_jordan_wigner(jordan_wigner(f)) has the normal-ordered form of f. n_qubits below the width of q raises ValueError; otherwise its value does not matter. number_operator(n, m, c) is c on the states in which mode m is occupied and 0 on the others; number_operator(n, coefficient=c) is c times the number of occupied modes; every parity but -1 raises ValueError.",
  "all qubit operators in stored form on any number of qubits, all fermion operators, all coefficients and widths",
  "The number of terms and the length of the Jordan-Wigner strings are unbounded; the equality is one of operators on a space of any dimension.",
  "openfermion/transforms/opconversions/reverse_jordan_wigner.py:reverse_jordan_wigner","openfermion/hamiltonians/special_operators.py:number_operator")
p("Fermi-Hubbard Hamiltonians are the documented sums over the edges of the grid",
  "fermi_hubbard(x, y, t, U, mu, h, periodic, spinless, particle_hole) acts on occupation-number states as -t times the sum over the edges of the x-by-y grid, each once and for each spin, of a_i^ a_j + a_j^ a_i, plus U times the sum of the products of the occupations (of both spins of a site, or, spinless, of the two sites of an edge; counted from one half if particle_hole), minus mu times the number of particles, minus h times the difference of the numbers of up and down spins (up to at most 18 (15) negligible terms per site that sums drop). It is hermitian, also for complex t, when the other parameters are real. The operators of general_hubbard are diagonal with the stated values; with particle_hole_symmetry their coefficient multiplies only the first occupation, before one half is taken off, so that they differ from those of fermi_hubbard.",
  "grids of all widths and heights, periodic or not (with widths and heights 1 and 2), all values of the parameters",
  "The grid is unbounded and its boundary cases (width 1, width 2 with periodic boundary, last row) interact; the equality is one of operators on a space of any dimension.",
  "openfermion/hamiltonians/hubbard.py:fermi_hubbard","openfermion/hamiltonians/general_hubbard.py:interaction_operator")
p("The diagonal component of an operator is its diagonal",
  "get_diagonal_component(t), of a PolynomialTensor or an InteractionOperator, returns two new tensors that add up to t element by element. As operators on occupation-number states, the first is exactly the diagonal of t and the second exactly its off-diagonal part. t and every array that existed before are unchanged. Other arguments raise TypeError. (An InteractionOperator to which other keys were added loses them.) get_fermion_number_operator(n, m) is the number of occupied modes minus m.",
  "all tensors with any set of keys and any number of modes, all interaction operators, all numbers of modes and particles",
  "That a product of ladder operators is diagonal exactly when each mode is created as often as annihilated holds for products of any length on any number of modes; the element loops are unbounded.",
  "openfermion/zapata_utils/_utils.py:get_diagonal_component","openfermion/zapata_utils/_utils.py:get_fermion_number_operator")
p("The direct Jordan-Wigner transform of interaction operators is the operator's",
  "jordan_wigner_one_body(p, q, c) is c a_p^ a_q plus its Hermitian conjugate when p != q, and c a_p^ a_p otherwise. jordan_wigner_two_body(p, q, r, s, c) is c a_p^ a_q^ a_r a_s, plus its Hermitian conjugate unless the term is diagonal, whichever modes coincide. jordan_wigner(H) of an InteractionOperator acts on qubit states as H does on occupation-number states if H is Hermitian, with real or complex elements, and gives the same operator as transforming the fermion operator of H. All this holds up to a bounded number of dropped negligible terms, and exactly if only 0 is negligible. Fewer qubits than H has raise ValueError. (If H is not Hermitian the off-diagonal part is silently replaced by its Hermitian part; more qubits than H has raise IndexError.)",
  "all modes, coefficients, numbers of modes, and one- and two-body arrays",
  "The Pauli strings span any number of modes, and the sixteen strings of a two-body term carry signs that depend on the relative order of four arbitrary modes.",
  "openfermion/transforms/opconversions/jordan_wigner.py:jordan_wigner_one_body","openfermion/transforms/opconversions/jordan_wigner.py:jordan_wigner_two_body","openfermion/transforms/opconversions/jordan_wigner.py:_jordan_wigner_interaction_op")
p("The sparse matrix of an operator is its matrix",
  "get_sparse_operator(op, n) is the 2^n x 2^n matrix of op on n modes or qubits: for a FermionOperator the one in which each a_p lowers mode p with the sign of the number of occupied modes before it, for a QubitOperator the sum of coefficients times tensor products of Pauli matrices. Without n the least possible number is used. Too small an n raises IndexError (fermions) or ValueError (qubits), and other operands raise TypeError. jordan_wigner_sparse and qubit_operator_sparse agree with each other through the Jordan-Wigner transform. (For an InteractionOperator n is not used.)",
  "all fermion and qubit operators, numbers of modes, and values of the coefficients",
  "Terms have any length and modes any distance; the qubit version pairs row-major indices with column-major data, which is right only because of a fact about all Pauli strings.",
  "openfermion/linalg/sparse_tools.py:get_sparse_operator","openfermion/linalg/sparse_tools.py:jordan_wigner_sparse","openfermion/linalg/sparse_tools.py:qubit_operator_sparse","openfermion/linalg/sparse_tools.py:jordan_wigner_ladder_sparse")
p("Occupation states, particle-number sectors and expectation values",
  "jw_configuration_state and jw_hartree_fock_state are the basis vectors with the listed (the first) modes occupied, and raise IndexError for modes beyond n. jw_number_indices(k, n) lists the basis states with k particles, each once, and jw_number_restrict_operator has exactly the entries between them. If the eigensolver returns an eigenpair of the matrix it is given, jw_get_ground_state_at_particle_number returns an eigenpair of the whole operator with k particles whenever the operator conserves the number, and its eigenvalue is lowest among those with k particles if the eigensolver's is lowest. expectation(A, v) is <v|A|v>, real for Hermitian A, the same for a column vector, and for get_density_matrix(states, probabilities) it is the weighted average over the states. (A mode listed twice in jw_configuration_state silently gives another state; surplus states or probabilities are ignored.)",
  "all numbers of modes and particles, operators, eigensolvers, states and probabilities",
  "Sectors grow combinatorially, and lowest means lowest of every eigenvector in the sector.",
  "openfermion/linalg/sparse_tools.py:jw_configuration_state","openfermion/linalg/sparse_tools.py:jw_hartree_fock_state","openfermion/linalg/sparse_tools.py:jw_number_indices","openfermion/linalg/sparse_tools.py:jw_number_restrict_operator","openfermion/linalg/sparse_tools.py:jw_get_ground_state_at_particle_number","openfermion/linalg/sparse_tools.py:get_density_matrix","openfermion/linalg/sparse_tools.py:expectation")
p("Number-preserving matrices hold the operator's elements between the states of the sector",
  "get_number_preserving_sparse_operator(op, n, k, spin_preserving, reference, level) is the matrix of <s|op|s'> between the states that at most level excitations reach from the reference (by default the first k of n modes occupied, and k excitations) with the reference's number of particles, and of each spin if spin_preserving; each state appears once, ordered by excitations, the reference first. It is defined for every number-conserving op when the reference is the default one, and for any reference when all excitations are allowed. An op that does not conserve the number raises ValueError. All up to a bounded number of dropped negligible terms, exactly if only 0 is negligible. (With another reference and a smaller level a number-conserving op can raise IndexError.)",
  "all fermion operators, numbers of modes and particles, references, excitation levels",
  "The states are chosen by combinations whose number is not bounded, and looked up through a sorted index; the signs depend on all modes.",
  "openfermion/linalg/sparse_tools.py:get_number_preserving_sparse_operator","openfermion/linalg/sparse_tools.py:_iterate_basis_","openfermion/linalg/sparse_tools.py:_iterate_basis_order_","openfermion/linalg/sparse_tools.py:_iterate_basis_spin_order_","openfermion/linalg/sparse_tools.py:_build_term_op_")
p("Unitary coupled cluster generators are the documented, symmetric excitation operators",
  "uccsd_generator of amplitudes (lists, or arrays) is sum t[i,j] (a^_i a_j - H.C.) + sum t[i,j,k,l] (a^_i a_j a^_k a_l - H.C.) over all amplitudes (without the H.C. parts if anti_hermitian is False); it conserves the number of particles; with real amplitudes it is exactly anti-Hermitian even if small coefficients are dropped. One list and one array raise AttributeError. uccsd_singlet_generator of packed amplitudes is the sum of spin-free excitations from the first (n_electrons+1)/2 orbitals to the others: one amplitude for each pair, one for each double excitation of a pair, one for each two pairs, in this order; it commutes with the total spin operators S+ and S-, conserves the particles of either spin, and is anti-Hermitian for real amplitudes. uccsd_singlet_paramsize is the number of amplitudes it needs, and the number uccsd_singlet_get_packed_amplitudes returns; fewer raise IndexError, further ones are ignored, an odd number of qubits raises ValueError. All up to a bounded number of dropped negligible terms, exactly if only 0 is negligible. (With complex amplitudes the generator is not anti-Hermitian; with more electrons than qubits paramsize is another number.)",
  "all amplitudes, numbers of qubits and electrons",
  "The operator is a sum over all pairs of pairs of orbitals; spin symmetry and anti-Hermiticity are operator identities.",
  "openfermion/circuits/unitary_cc.py:uccsd_generator","openfermion/circuits/unitary_cc.py:uccsd_convert_amplitude_format","openfermion/circuits/unitary_cc.py:uccsd_singlet_paramsize","openfermion/circuits/unitary_cc.py:uccsd_singlet_get_packed_amplitudes","openfermion/circuits/unitary_cc.py:uccsd_singlet_generator")
p("Molecular Hamiltonians are the electronic Hamiltonian, and an active space restricts it",
  "get_molecular_hamiltonian without orbital choices returns an interaction operator on 2n modes with, between any two occupation states, the matrix element of  nuclear repulsion + sum h(p,q) sum_s a^_ps a_qs + 1/2 sum g(p,q,r,s) sum_st a^_ps a^_qt a_rt a_ss  (integrals below the tolerance count as 0); get_tensors_from_integrals gives the tensors of the same operator. With occupied and active orbitals chosen (different, existing orbitals, the active ones increasing, integrals symmetric under exchange of electrons) the result has, between any two states of the active orbitals, exactly the matrix element of the full Hamiltonian between the states with the occupied orbitals doubly filled and all others empty; each active state stands for exactly one such state. Occupied orbitals without active ones raise TypeError, an empty active list ValueError, an orbital that does not exist IndexError. Hermitian integrals give a Hermitian operator; for all integrals it commutes with S+ and S- and conserves the electrons of either spin. The arrays given are unchanged.",
  "all numbers of orbitals, integrals, choices of orbitals and pairs of states",
  "The frozen-core formula is an operator identity over sums of all four-index terms and all basis states.",
  "openfermion/chem/molecular_data.py:spinorb_from_spatial","openfermion/chem/molecular_data.py:get_molecular_hamiltonian","openfermion/chem/molecular_data.py:get_active_space_integrals","openfermion/ops/representations/interaction_operator.py:get_tensors_from_integrals","openfermion/ops/representations/interaction_operator.py:get_active_space_integrals","openfermion/ops/representations/interaction_operator.py:InteractionOperator")
p("The reduced Hamiltonian equals the Hamiltonian on its number of electrons",
  "make_reduced_hamiltonian of any interaction operator and any number k of electrons other than 1 returns an interaction operator with the same constant and no one-body terms which has, on every state with k electrons, the same matrix elements as the Hamiltonian; the operator given is unchanged. k = 1 raises ZeroDivisionError. (On states with another number of electrons it is another operator.)",
  "all interaction operators, numbers of modes and electrons, all states",
  "It needs the identity sum_j a^_i a^_j a_j a_l = (k-1) a^_i a_l on the k-electron sector of any size.",
  "openfermion/chem/reduced_hamiltonian.py:make_reduced_hamiltonian")
p("unique_iter lists exactly one term of each documented symmetry class",
  "InteractionOperator.unique_iter lists terms with a nonzero coefficient, none twice, no two of which are related by the documented symmetry (pq = qp; four-point for complex_valued=True, eight-point by default), and every term with a nonzero coefficient is related to one that is listed (for a one-body term pq if qp is nonzero too). (The documented eight-point symmetry is not the symmetry of real integrals in this index order: for the Hamiltonian of real integrals the default lists a term of coefficient 1/2 and leaves out the repulsion terms of coefficient 5/2 it takes for equal; a one-body term above the diagonal is lost if its mirror image is zero.)",
  "all interaction operators, both settings",
  "Completeness and uniqueness range over all terms of tensors of any size, and depend on the order of the iteration.",
  "openfermion/ops/representations/interaction_operator.py:InteractionOperator.unique_iter","openfermion/ops/representations/interaction_operator.py:_symmetric_two_body_terms")
p("Reduced density matrices give the averages of operators in their state",
  "Let an InteractionRDM hold the averages of all a^_p a_q and a^_p a^_q a_r a_s in a normalized (pure or mixed) state. expectation of an interaction operator of the same size is its average in the state (other sizes raise ValueError, unless one of the two is 1). If the state does not mix numbers of particles, get_qubit_expectations gives each Pauli string its average, and expectation of a qubit operator is its average, whenever every string is a combination of products of at most four ladder operators; otherwise both raise InteractionRDMError. get_interaction_rdm of measured Pauli averages returns exactly the density matrices of the measured state (of the least number of modes by default), so the energy computed from it is the average of the Hamiltonian. (For states that mix particle numbers, strings that change the number silently get 0.)",
  "all numbers of modes, states, interaction operators, qubit operators and measured operators",
  "It is a linear-algebra identity between sums over all index tuples, the Jordan-Wigner image of every product and the trace over all basis states.",
  "openfermion/ops/representations/interaction_rdm.py:InteractionRDM","openfermion/ops/representations/interaction_rdm.py:InteractionRDM.expectation","openfermion/ops/representations/interaction_rdm.py:InteractionRDM.get_qubit_expectations","openfermion/measurements/get_interaction_rdm.py:get_interaction_rdm")
p("Hartree-Fock and ground-state density matrices are those of their states, and the values read from them are the averages",
  "hf_rdm returns the density matrices of the determinant with the lowest n_alpha even and n_beta odd modes occupied, so that the expectation of any interaction operator is its diagonal element there. get_ground_state_rdm_from_qubit_op of an operator that conserves the number of particles returns the density matrices of an eigenvector with the given number of particles whose eigenvalue is the lowest among those. get_expectation_values_from_rdms returns, in order of the terms (or of decreasing absolute coefficient), the real part of each term's average clipped to [-1, 1], or raises if one is complex; for a list of operators, the values one operator after the other. (Terms whose coefficient is below the tolerance get no value.)",
  "all numbers of electrons and orbitals, operators, eigensolvers that return eigenvectors, states and lists of operators",
  "It needs the averages of all products of ladder operators in determinants and eigenvectors of any size.",
  "openfermion/zapata_utils/_utils.py:hf_rdm","openfermion/zapata_utils/_utils.py:get_ground_state_rdm_from_qubit_op","hamiltonian.py:get_expectation_values_from_rdms","hamiltonian.py:get_expectation_values_from_rdms_for_qubitoperator_list")
p("Rotating the basis of the modes replaces each ladder operator by the rotated one, and keeps the spectrum",
  "rotate_basis of a polynomial tensor (hence of an interaction operator or density matrix) with a square matrix R of the size of the modes gives the operator in which each a_p is replaced by the sum over A of R[p, A] a_A and each creation operator by the adjoint of that; with a matrix of half the size both spins of each orbital are rotated. Constants, keys, size and all other arrays stay. If R is unitary the new operator is U H U^-1 for a unitary U on the states, so the spectrum is the same. Keys with more than 26 factors and other sizes raise ValueError.",
  "all tensors of any number of modes and any keys, and all (complex) matrices",
  "It relates the einsum over all index tuples to products of 2^n x 2^n matrices, and needs the existence of the second-quantised rotation, for every n and every R.",
  "openfermion/ops/representations/polynomial_tensor.py:general_basis_change","openfermion/ops/representations/polynomial_tensor.py:PolynomialTensor.rotate_basis")
p("Reordering modes, projecting, and removing inactive orbitals give the operators they name",
  "reorder_fermionic_modes renames mode ordering[i] to i: its numbers are those of the renamed indices, and for a permutation the operator is unitarily equivalent to the original; a mode that does not exist raises IndexError. projected keeps exactly the terms whose modes satisfy the selection (number of different modes, or set of modes, at most or exactly) and puts zero elsewhere; zero is the zero operator. The entries of remove_inactive_orbitals between occupations of its modes are those of the original operator between the states with the core orbitals occupied and the virtual ones empty; its modes are the active modes that are used, so if it has two modes for each active orbital, they are all active modes.",
  "all interaction operators, orderings, selections, and numbers of core and active orbitals",
  "It needs the signs of all terms with frozen modes, the normal order of the result and the action on all occupations, for every size.",
  "hamiltonian.py:reorder_fermionic_modes","openfermion/ops/representations/interaction_operator.py:InteractionOperator.projected","openfermion/ops/representations/interaction_operator.py:InteractionOperator.zero","openfermion/ops/representations/polynomial_tensor.py:PolynomialTensor.projected_n_body_tensors","openfermion/zapata_utils/_utils.py:remove_inactive_orbitals")
p("The direct Bravyi-Kitaev transform of an interaction operator is the transform of its fermion operator",
  "bravyi_kitaev of a Hermitian InteractionOperator gives a qubit operator whose entries between Bravyi-Kitaev encoded occupation states are those of the tensors between the occupation states, and which has the same coefficient for every Pauli term as bravyi_kitaev of get_fermion_operator of it. In particular the strings of the Seeley-Richard-Love table for modes i, j are c a_i^ a_j on encoded states, in all eleven cases, whatever the order in which sets are iterated. Fewer qubits than modes raise ValueError.",
  "all Hermitian interaction operators of any number of modes, all pairs of modes and numbers of qubits",
  "The eleven cases depend on the binary structure of the mode numbers; the loops cover pairs sharing a mode and disjoint pairs separately, and that they miss nothing needs all sizes.",
  "openfermion/transforms/opconversions/bravyi_kitaev.py:_bravyi_kitaev_interaction_operator","openfermion/transforms/opconversions/bravyi_kitaev.py:_seeley_richard_love","openfermion/transforms/opconversions/bravyi_kitaev.py:_two_body_coef","openfermion/transforms/opconversions/bravyi_kitaev.py:_hermitian_one_body_product","openfermion/transforms/opconversions/bravyi_kitaev.py:_qubit_operator_creation")
p("Helpers for qubit operators mean what their matrices say",
  "get_qubitop_from_coeffs_and_labels gives every Pauli string the sum of the coefficients of its vectors of labels. generate_random_qubitop, when it returns, gives the requested number of different strings with the requested number of letters and the coefficients in order, and it returns exactly when enough different labels are drawn. get_expectation_value is the expectation value of the matrix of the operator in the state, or, with reverse_operator, in the state with reversed bits. evaluate_qubit_operator with the expectation values of the Pauli strings is the real part of the expectation value of the operator; a list of operators is evaluated like all its terms. create_circuits_from_qubit_operator gives one circuit per term, which applies the Pauli string of the term.",
  "all vectors of labels and coefficients, all histories of random numbers, all operators, states and numbers of qubits",
  "Termination of the random generator depends on the history of random numbers; the other claims relate texts, dictionaries, sparse matrices and circuits of every size.",
  "openfermion/zapata_utils/_utils.py:get_qubitop_from_coeffs_and_labels","openfermion/zapata_utils/_utils.py:generate_random_qubitop","openfermion/zapata_utils/_utils.py:evaluate_qubit_operator","openfermion/zapata_utils/_utils.py:evaluate_qubit_operator_list","openfermion/zapata_utils/_utils.py:get_expectation_value","openfermion/zapata_utils/_utils.py:create_circuits_from_qubit_operator")
p("Integrals of a molecule give the energies of its states",
  "get_j and get_k return the matrices of Coulomb and exchange integrals (pp|qq) and (pq|qp), and with the one-electron integrals they give the diagonal element of the molecular Hamiltonian for every occupation state. get_antisym returns <ij||kl> over the spin orbitals, antisymmetric in its pairs, and the Hamiltonian is a quarter of it over all pairs. get_molecular_data returns the constant and the elements of the tensors of an interaction operator, between all modes or between the even ones; for a molecular Hamiltonian these are the integrals of the molecule, the two-electron ones halved, and doubling them gives the same operator again. load_molecular_hamiltonian with active electrons and orbitals fills the lowest orbitals with the other electrons and has the matrix elements of the whole Hamiltonian between the states so extended, which hold two more electrons per filled orbital. The numbers of electrons with spin up and down add up to the electrons and differ by the multiplicity less one whenever the multiplicity is possible.",
  "all integrals, numbers of orbitals and electrons, occupation states and interaction operators",
  "The sums range over all orbitals and spins, and the claims compare matrix elements between any two of exponentially many states.",
  "openfermion/chem/molecular_data.py:antisymtei","openfermion/chem/molecular_data.py:j_mat","openfermion/chem/molecular_data.py:k_mat","openfermion/chem/molecular_data.py:MolecularData","openfermion/chem/molecular_data.py:load_molecular_hamiltonian","openfermion/transforms/repconversions/conversions.py:get_molecular_data")
p("Norms of operators measure their coefficients and matrices",
  "induced_norm(p) of an operator is the p-th root of the sum of |coefficient|^p for every positive integer p; it is zero exactly when every coefficient is, scales with the operator, and the norm of a sum of operators is at most the sum of the norms. Orders 1 and 2 bound each other by the number of terms. For qubit operators the squared moduli of all entries of the matrix add up to 2^n times the square of the norm of order 2, and the norm of order 1 bounds the growth of every vector and every eigenvalue. renormalize divides by the norm of order 2, which becomes 1, or raises ZeroDivisionError when it is at most 1e-8.",
  "all operators, coefficients, orders, numbers of qubits and vectors",
  "The inequalities hold for all real coefficients and all vectors of exponentially growing dimension.",
  "openfermion/ops/operators/symbolic_operator.py:SymbolicOperator","openfermion/ops/operators/qubit_operator.py:QubitOperator")
p("Functions decorated for old types translate, fall back or fail as documented",
  "A function decorated with compatible_with_old_type is called with every old object in its positional and keyword arguments replaced by its translation, at any depth inside of sequences of the listed types and nowhere else; warnings and translations happen from left to right, positional arguments first. Without old objects it behaves as the undecorated function. At the first translation that fails the function is not called: with a fallback a warning is given and the fallback gets the original arguments, without one TranslationFailed is raised; other exceptions of the function are passed on.",
  "all arguments with arbitrarily nested sequences, translations, warnings, functions and fallbacks, as programs on an arbitrary state",
  "The nesting and the order of effects range over all arguments and all functions.",
  "wip/compatibility_tools.py:compatible_with_old_type","wip/compatibility_tools.py:TranslationFailed")
p("Objects made from specifications get the parameters that were specified",
  "create_object(specs, **kwargs) finds the creator named by module_name and function_name and never changes the caller's dictionary. A class is called with all parameters of specs and kwargs. A function is not called but returned with those parameters bound, so that calling the result is calling the function with them, later keywords overriding them, as long as all of them are parameters of the function. A missing name raises KeyError, and a parameter given twice raises ValueError before anything is called. A noise model that was saved is loaded by calling the named function on the saved data, and a saved estimate of the number of measurements with its frames is loaded unchanged.",
  "all dictionaries, values, signatures, modules, functions and classes, as programs on an arbitrary state; all JSON data and arrays with at least one entry",
  "The combinations of parameters, signatures and effects are unbounded.",
  "utils.py:create_object","utils.py:get_func_from_specs","utils.py:load_from_specs","utils.py:load_noise_model","utils.py:save_noise_model","utils.py:save_nmeas_estimate","utils.py:load_nmeas_estimate")
p("Random circuits are well formed whatever the generator draws",
  "create_random_circuit(n_qubits, n_gates, rng) with at least two qubits returns a circuit of exactly n_gates operations, each one of fourteen built-in gates with an angle between -pi and pi where the gate has a parameter, on as many different qubits below n_qubits as the gate needs. The circuit has no free symbols, its number of qubits is the least that contains its operations, and its matrix is unitary. Every sequence of such operations is the circuit of some draws. Without qubits ValueError is raised.",
  "all numbers of qubits and gates, all generators that draw from the given populations, and all their states",
  "All histories of draws are covered, not those of some seeds.",
  "circuits/_testing.py:create_random_circuit")
p("The steps that make operators make the operators they name",
  "get_one_qubit_hydrogen_hamiltonian of a Hermitian interaction operator on at least four modes saves the one-qubit operator whose matrix is the operator restricted to the two states with modes 0, 1 and modes 2, 3 occupied, when no entry of that restriction is zero. create_one_qubit_operator(x, y, z, c) has the matrix c + xX + yY + zZ. get_local_zero_state_operator(n) has the value 2w/n on a bitstring with w ones. interpolate_qubit_operators gives epsilon * target + (1 - epsilon) * reference up to pruned terms for epsilon in [0, 1] and a ValueError outside. transform_interaction_operator gives operators that act as the input, related by the unitary Bravyi-Kitaev encoding, and a RuntimeError for any other name.",
  "all interaction operators, all coefficients, all numbers of qubits, all bitstrings, all operators, all real epsilon, all names of transformations",
  "The matrices are compared on all operators and coefficients; a test has a handful of molecules.",
  "steps/operators.py:get_one_qubit_hydrogen_hamiltonian,create_one_qubit_operator,get_local_zero_state_operator,interpolate_qubit_operators",
  "steps/transforms.py:transform_interaction_operator")
p("Random test operators have the promised symmetries whatever is drawn",
  "random_interaction_operator returns a well-formed interaction operator in new arrays that is Hermitian (h_pq* = h_qp, h_pqrs* = h_srqp, so its matrix is Hermitian) and symmetric under exchanging the particles; asked for real numbers, every coefficient is real and, before the expansion to spin orbitals, h_pqrs = h_rqps. expand_spin gives the coefficients of the same draws wherever both particles keep their spin, and zero elsewhere. random_interaction_operator_term(k) keeps exactly the coefficients of k different orbitals. random_hermitian_matrix and random_antisymmetric_matrix are Hermitian and antisymmetric. create_random_qubitop and create_random_isingop return the sum of the drawn products of Paulis on different qubits (hence Hermitian operators). random_qubit_operator stays within its bounds on qubits, terms and order. create_random_wavefunction is a valid wavefunction with total probability 1.",
  "every generator and generator state, every seed, every number of orbitals, qubits and terms",
  "A test checks a few seeds. Each loop iteration overwrites elements written by earlier ones, so the symmetry has to hold for every sequence of draws and every coincidence of indices.",
  "openfermion/testing/testing_utils.py:random_interaction_operator,random_hermitian_matrix,random_antisymmetric_matrix,random_qubit_operator",
  "openfermion/testing/random.py:random_interaction_operator_term",
  "testing/_initialize.py:create_random_qubitop,create_random_isingop,create_random_wavefunction")
p("Steps build backends, ansatzes and cost functions from specifications, touching only named entries of the caller's dictionaries",
  "A step given its backend as text changes no dictionary of the caller; given a dictionary it changes at most noise_model and device_connectivity of it, and only when these are asked for, whatever fails. The backend's class is called once, with every entry of the specification but the two names plus the noise model and connectivity asked for; with track_measurements the result is wrapped with the file name and the record_bitstrings flag of the specification. Optimizing writes only thetas and cost_hamiltonian of the ansatz's specification, and an ansatz whose name contains QAOA always gets the operator of this call. Evaluating a cost function writes only its named entries; preprocessors are made in order, each with the prior expectation values and the keywords; estimation settings inside the cost function's specification are refused with RuntimeError.",
  "every store of dictionaries, every specification (text or dictionary, aliased or not), every behaviour of imports, constructors and files",
  "A test runs a step once with fresh dictionaries. The claims are about what stays in dictionaries the caller reuses, for every failure point and every constructor.",
  "steps/measure.py:run_circuit_and_measure,run_circuitset_and_measure,get_bitstring_distribution,evaluate_ansatz_based_cost_function",
  "steps/evaluation.py:get_expectation_values_for_qubit_operator",
  "steps/optimize.py:optimize_parametrized_circuit_for_ground_state_of_operator,optimize_ansatz_based_cost_function")
p("A saved molecule opens as it was, a crash while saving damages nothing but the file being written, and properties load on demand",
  "Saving a molecule writes its file only and leaves no temporary file; opening that file by name gives the geometry, basis, charge, multiplicity, numbers, energies and every property loaded on demand as before, including those that had not been read, and the general calculations if there are any. Whatever happens before the old file is removed, all files but the temporary one are as before; right after the removal the complete new file is under the temporary name. Reading a property gives the assigned value or else the file's, and the value stays. A molecule's name is its atoms by atomic number with counts, basis, multiplicity in words, charge and description, whatever the iteration order of sets and the order and positions of the atoms. Electrons are protons less charge.",
  "every molecule, file system, temporary name, crash point and iteration order of sets",
  "Tests save and load a few molecules. Crash points, other files, unread properties and every iteration order of a set are outside what they run.",
  "openfermion/chem/molecular_data.py:MolecularData,name_molecule,geometry_from_file,save,load,get_from_file,get_molecular_rdm")
p("The circuit steps write what they are asked for, to their own file only, and read it back",
  "Every circuit step changes only its own result file. Concatenating writes the circuit with all operations in order, as wide as the widest circuit; batching writes the given set followed by the circuits in order; adding ancillas appends the register; building an ansatz writes the executable circuit if parameters are given, else the parametrized one, and raises if the ansatz has none; random parameters are as many as the ansatz has, from the given range, and exactly one of specification and number must be given; combining writes the first parameters before the second. What is written reads back as the same circuit or array.",
  "every file system, every circuit given as object or by file name, every ansatz and every draw",
  "The acceptance tests run each step once on small files. They do not range over circuits, missing files, custom gates or lists the caller uses again.",
  "steps/circuit.py:generate_random_ansatz_params,combine_ansatz_params,build_ansatz_circuit,add_ancilla_register_to_circuit,concatenate_circuits,batch_circuits,evaluate_parametrized_circuit",
  "circuits/_serde.py:save_circuit,save_circuitset,load_circuit,load_circuitset", "serialization.py:ensure_open,save_array,load_array")
p("A saved operator is loaded as it was, in the named file only, and an existing file is never overwritten without permission",
  "The file is in the given or the default directory, with .data at the end of its name once. Saving a fermionic or qubit operator changes only that file; loading it by any name that means the file gives an operator of the same class with the same terms and coefficients, except terms with small coefficients. Without permission an existing file is left alone; every refused save (no name, another class, symbolic coefficients) changes nothing. After a crash, or in the other format, loading raises instead of giving another operator.",
  "every operator with simplified terms, both formats, every file name, directory and file system, a crash after the file is opened",
  "The tests save and load a few operators of two terms. They do not range over operators, over names that mean the same file or over what the directory holds.",
  "openfermion/utils/operator_utils.py:get_file_path,load_operator,save_operator", "openfermion/ops/operators/symbolic_operator.py:SymbolicOperator")
p("The contracts for estimators and nested optimizers accept what they describe and reject what breaks it",
  "Every estimator that answers task by task and in order, with values that depend on coefficients and constants, passes all estimator contracts; the exact values of the simulator do. An estimator with too few results, with results in another order, blind to coefficients or blind to constant terms fails the contract for it, and an exception of the estimator is that of the contract. The nested optimizer of the library passes the history contract exactly if a call is saved, and the other nested contracts whenever its inner optimizer succeeds.",
  "every estimator (a function with a state), every values it returns, every inner optimizer, cost function factory and initial parameters",
  "The tests apply the contracts to a handful of estimators and malicious variants. What a contract accepts is a statement over all estimators.",
  "interfaces/estimator_contract.py:ESTIMATOR_CONTRACTS", "interfaces/optimizer_test.py:NESTED_OPTIMIZER_CONTRACTS", "estimation/_estimation.py:calculate_exact_expectation_values")
p("Results saved to a file are loaded as they were, and saving touches no other file, even if it is stopped",
  "Value estimates, lists, arrays, expectation values, parities, wavefunctions, interaction operators and density matrices, qubit and Ising operators and lists of them, layouts, measurements, distributions and graphs that are saved under a name are loaded from it as they were, whether the file is given by its name or open. No other file changes; if saving fails or is stopped, the file holds what it held, cannot be read, or holds all of the new content. Grid evaluations are written with value and precision. The steps that write graphs, lists of integers and concatenated operators write what was generated, and write nothing if generation fails; the sampler of weights is made from text and from a dictionary alike, and without one all weights are 1. Pauli strings determine the terms.",
  "every object of each kind, every state of the files, every name, every point at which saving is stopped, every world of random generators and modules",
  "The tests save and load single examples in an empty directory and never stop a program half-way; that all other files survive, and that every object comes back, ranges over all files and objects.",
  "utils.py:save_list", "utils.py:load_list", "utils.py:save_value_estimate", "utils.py:load_value_estimate", "utils.py:save_generic_dict", "utils.py:save_timing", "measurement.py:save_expectation_values", "measurement.py:load_expectation_values", "measurement.py:save_parities", "measurement.py:load_parities", "serialization.py:ensure_open", "serialization.py:save_array", "openfermion/zapata_utils/_io.py:save_qubit_operator_set", "openfermion/zapata_utils/_io.py:save_parameter_grid_evaluation", "openfermion/zapata_utils/_io.py:get_pauli_strings", "openfermion/zapata_utils/_io.py:save_interaction_rdm", "circuits/layouts.py:save_circuit_layers", "steps/graph.py:_make_sampler", "steps/utils.py:generate_random_list_of_integers", "steps/operators.py:concatenate_qubit_operator_lists")
p("The measurement and evaluation steps compute, from files, the numbers their names promise",
  "The step for ground-state density matrices writes the averages of all one- and two-particle products in an eigenvector of lowest eigenvalue within the sector, and the step for ground states writes that eigenvector and eigenvalue. From such density matrices the next steps write the expectation values of the terms of an operator or of a list of operators, in their order, and the evaluation step writes the real part of the sum of coefficient times value; run one after the other they write the real part of the ground-state energy. Summed expectation values are the mean over the shots of the energy of each bitstring, with precision the square root of the mean squared deviation over the number of shots, or that number less one with the correction. The analysis of groups writes for each group its standard deviation times the sum of all, the square of that sum, and the number of terms. A step changes only its output files, and a step that fails changes none.",
  "every operator, list of operators, state, list of measurements, and every content of all files, for every eigensolver that meets its contract",
  "The tests run these steps not at all or on single files; that the numbers are right for every operator and state, and that other files survive, ranges over all of them.",
  "steps/evaluation.py:get_ground_state_rdm_from_qubit_operator", "steps/evaluation.py:jw_get_ground_state_at_particle_number", "steps/evaluation.py:evaluate_qubit_operator_list", "steps/measure.py:grouped_hamiltonian_analysis", "steps/measure.py:expectation_values_from_rdms", "steps/measure.py:expectation_values_from_rdms_for_qubitoperator_list", "steps/measure.py:get_summed_expectation_values")
p("The steps that run circuits run each circuit once and write exactly what the backend returned",
  "The step for one circuit, given as a dictionary or by the name of a file, runs that circuit once with the requested number of samples and writes all outcomes in order; it fails as the backend fails and then writes nothing. The step for a list of circuits does so for each circuit in order; if one fails, the later ones are not run and nothing is written. The step for distributions writes the distribution of the simulated probabilities. The step for expectation values runs the circuit once and writes, for each term of an operator of Z factors, the coefficient times the mean of the product of the signs; a constant needs no run, and an operator with other factors is refused with nothing written. A backend whose measurements are tracked leads to the same files. No step touches another file.",
  "every circuit, list of circuits, operator and content of all files; every backend, seen as a state with functions that run circuits; every number of samples",
  "The tests run these steps on a handful of circuits with one simulator; that outcomes and files correspond for every backend, circuit, operator and failure ranges over all of them.",
  "steps/measure.py:run_circuit_and_measure", "steps/measure.py:run_circuitset_and_measure", "steps/measure.py:get_bitstring_distribution", "steps/evaluation.py:get_expectation_values_for_qubit_operator", "interfaces/backend.py:QuantumBackend", "trackers.py:MeasurementTrackingBackend")
p("Pairing a function with a gradient changes nothing about the function",
  "function_with_gradient(f, g) has the gradient g; it takes artifacts exactly if f does, through any chain of decorators and for pairs of pairs, so recorders treat both alike; calling it enters f with the arguments of a direct call; every attribute of f that is not a name of the tuple is found on it; an attribute set on it is set on f and changes nothing else, in particular no call; objects that are not callable are refused.",
  "every collection of functions, callable instances, functions without signature, decorated functions (also with cyclic chains) and pairs, with any parameters and attributes; every argument",
  "The tests pair a handful of functions; that detection, calls and attributes agree for every chain of decorators, every nesting and every signature ranges over all of them.",
  "interfaces/functions.py:function_with_gradient", "interfaces/functions.py:has_store_artifact_param", "interfaces/functions.py:FunctionWithGradient", "interfaces/functions.py:FunctionWithGradientStoringArtifacts", "history/recorder.py:recorder")
p("The example functions have the gradients and artifacts that they document",
  "The gradients of function_1, Function2 and Function5 are, entry by entry, the derivatives of the function with respect to that parameter, also when artifacts are stored. sum_of_squares is never negative, zero for zeros only, and does not depend on the order. The bitstring stored by function_3 and function_4 is the binary representation of the argument without leading zeros, and is forced by function_4 exactly for even numbers; both return twice the argument.",
  "every array of real parameters, every multiplier, every non-negative integer",
  "The tests compare finitely many values; being the derivative at every point and the binary form of every number range over all of them.",
  "history/example_functions.py:function_1", "history/example_functions.py:Function2", "history/example_functions.py:Function5", "history/example_functions.py:function_3", "history/example_functions.py:function_4", "history/example_functions.py:sum_of_squares")
p("Spectra are the sorted eigenvalues, start with the ground-state energy and do not depend on the encoding",
  "eigenspectrum of a fermion or qubit operator on n qubits returns 2^n numbers in ascending order that are exactly the eigenvalues of the operator's matrix. get_ground_state returns an eigenvector with its eigenvalue, which is below every other eigenvalue, is the first number of the spectrum, and is the expectation value of the operator in the normalised state; no normalised state has a lower expectation value, and eigenvalues of Hermitian matrices are real. A fermion operator and its Jordan-Wigner and Bravyi-Kitaev transforms have the same eigenvalues with the same multiplicities.",
  "every operator on any number of qubits, every square sparse matrix, every initial guess; eigensolvers that return eigenvalues of the matrices they are given",
  "The tests compute a few spectra of small operators; that two encodings share all eigenvalues, with multiplicities, is a statement about every operator and every number of qubits.",
  "openfermion/linalg/sparse_tools.py:eigenspectrum", "openfermion/linalg/sparse_tools.py:sparse_eigenspectrum", "openfermion/linalg/sparse_tools.py:get_ground_state", "openfermion/utils/operator_utils.py:is_hermitian")
p("A passed equality test means what it documents",
  "EqualsTester accepts a sequence of groups exactly if any two items of one group are equal by ==, by != and by their methods, and have one hash, and every item is different, in all these ways, from the items of earlier groups and from an object of an unknown class. A rejected group raises AssertionError and leaves the tester as it was. If equality is a symmetric relation of which != is the negation, the groups pass exactly if they are pieces of different classes, in whatever order they are added. A pair from a factory is two successive products.",
  "every class of subjects, with any comparison methods, hash and subclass relations; every sequence of groups of any size",
  "The class is itself a test tool; what an accepted sequence guarantees depends on every possible equality method, hash and order of groups.",
  "openfermion/testing/testing_utils.py:EqualsTester", "openfermion/testing/testing_utils.py:_ClassUnknownToSubjects")
p("The release script reads every version and names a higher one",
  "Every way to write a version (two numbers, optionally a patch, optionally a last part after a point or dash, optionally a line end) is read as those numbers; texts that do not start with two numbers around a point are a ValueError and set no output. A version that is written is read back unchanged. The script sets the output to major.(minor+1).0: a single line of digits and points that is above every version with the same first two numbers and not beyond the next one; k releases add k to the minor number, and versions keep their order.",
  "every text reported by setup.py, every version with numbers of any size",
  "The tests parse a handful of strings; reading every spelling, the order and repeated releases range over all texts and numbers.",
  "subtrees/z_quantum_actions/bin/get_next_version.py:parse_version_str", "subtrees/z_quantum_actions/bin/get_next_version.py:Semver", "subtrees/z_quantum_actions/bin/get_next_version.py:main")
p("Processes that save molecules at the same time never leave a torn file",
  "Whatever number of processes save molecules over one file system, in every interleaving of their steps and wherever each of them stops: the file of a molecule is at every moment what it was before, or missing, or loads as the whole molecule of one of the processes, with the properties that process had in memory; every property it shows comes from some process or from an earlier file; other files never change; a file that existed or was saved is missing only between the removal and the move of some process. A process with its whole molecule in memory needs 45 own steps, whatever the others do, and when it returns its file holds its molecule, until another process with that file goes on; other processes can fail only with TypeError. When all have returned no temporary file is left and every file holds the molecule of one of its processes. If the data directory is on another file system, saving has the same outcome, and wherever it stops the complete new file is under one of the two names once it is written.",
  "every number of processes, every schedule, every crash point, every molecule and file system with new temporary names",
  "A test runs one process, or a few schedules by chance; the claim ranges over all interleavings of 45 steps of each of any number of processes.",
  "openfermion/chem/molecular_data.py:MolecularData.save", "openfermion/chem/molecular_data.py:MolecularData.load", "openfermion/chem/molecular_data.py:MolecularData.get_from_file")
p("A tracking backend whose records cannot be written loses answers",
  "Every call of a tracking backend reaches the wrapped backend once. If all records can be written as JSON, every history of calls is answered as by the backend alone, and the file holds the records of the last answered call. A record that JSON refuses makes the call fail with TypeError, empties the file and stays: no call of any later history returns an answer, though the backend runs each of them, and the file is never filled again. A process that dies while it writes leaves the old file, an empty one or the complete new one.",
  "every wrapped backend, every history of calls, every crash point of a write, every choice of records that JSON refuses",
  "The tests make single calls whose records can be written; what a failed write does to all later calls ranges over histories.",
  "trackers.py:MeasurementTrackingBackend", "trackers.py:MeasurementTrackingBackend.save_raw_data")
p("Generated backend test cases expect what the library's gates give",
  "The script that generates the test cases of the backend suite uses gate matrices of its own. For every list of angles, every row it prints is right about the library: the circuit that the backend tests build from the row, with the gates found by the printed names, turns |0...0> into the printed amplitudes, and each printed expectation value is that of the named Pauli operator in the state of that circuit. The rows cover every angle of the list with every initial state and every gate of the script.",
  "every list of angles, every parameter value or expression with that value, every generated row",
  "The generated tables contain five angles and are compared with a simulator, not with the library's matrices; agreement at every angle is an identity of functions.",
  "testing/generate_cases_for_backend_tests.py:main", "testing/generate_cases_for_backend_tests.py:generate_cases_2_qubits_exp_vals_with_angles", "circuits/_matrices.py", "interfaces/backend_test.py")

if __name__=="__main__":
    with open("/verif/properties.jsonl","w") as f:
        for x in P: f.write(json.dumps(x)+"\n")
    print(len(P))
