# Formal model of z-quantum-core in Coq 8.16

Source modelled: `/repo/src/python/zquantum/core` (paths below are relative to it).
Everything is under `rocq/theories` (logical name `Verif`).

## 1. Approach

* Python functions are modelled one by one as total Gallina functions.  Exceptions are
  values: `result A := Ok a | Err exn` (`Base.v`).  Python dictionaries are insertion ordered
  association lists with in-place update; sets are lists without duplicates whose
  iteration order is left to an argument wherever it can be observed.
* Loops are folds / structural recursion.  Where the code loops on a condition, the model has
  explicit fuel and returns a distinct error on exhaustion; theorems prove that the error is never
  returned.
* Numbers: integers are `Z`/`nat`/`N`.  Floating point numbers are replaced by exact numbers:
  canonical rationals `Qc` or Gaussian rationals where the model has to compute, the real numbers of the
  standard library (and complex numbers built from pairs of them) where trigonometry is needed,
  and an arbitrary commutative ring with involution where the statement is purely algebraic.
  Round-off is therefore not modelled.
* Randomness, user callbacks (predicates, cost functions, native back ends), the text layer of JSON and
  sympy simplification are arguments of the model functions (closed Section variables), so theorems
  quantify over them.
* Each area has a model file (`XxxModel.v`, no proofs), a proof file (`XxxProofs.v`) and a file with
  only the property theorems (`XxxProps.v`), with `Example`s showing that
  the hypotheses can be met, and with `Print Assumptions` of each theorem.
  Specifications independent of the model are in `XxxSpec.v` or at the head of the Props file.
* A property which is false of the code as written is stated as `..._refuted` with a concrete witness,
  next to the part which does hold.

## 2. Plan per property

For each property: the model files, the file with its theorems, what is modelled and how it is proved.

| id | title | model | theorems in | modelled as; proof |
|---|---|---|---|---|
| C01 | Circuit concatenation and width | CircuitModel | CircuitProps.v | circuits as lists of operations with a width; list induction |
| C02 | split_circuit is lossless and maximal | CircuitModel | CircuitProps.v | the split loop as a fold over operations and predicates; invariant: concatenation is the input, neighbouring parts differ |
| C03 | bind and free_symbols of circuits | CircuitModel, GateMatModel | CircuitProps.v, GateMatProps.v | parameters as expression trees, substitution; structural induction on expressions and gates |
| C04 | Gate modifiers form a normal form | CircuitModel | CircuitProps.v | gate trees with dagger and control; structural induction |
| C05 | Matrices of modified gates | GateMatModel, MatModel | GateMatProps.v | matrices as functions nat -> nat -> K; structural induction on gate trees, matrix algebra over a commutative ring with involution |
| C06 | Lifting a gate to a register | LiftModel | GateMatProps.v | kron, permutation and matrix product as coded; specification by bit lists; sums over bit lists |
| C07 | to_unitary agrees with sequential application | GateMatModel | GateMatProps.v | product of lifted matrices against application to a state; induction on operations, associativity |
| C08 | Circuits are unitary | GateMatModel | GateMatProps.v | closure of unitarity under the constructors; trigonometric identities over R for the built-in gates |
| C09 | Circuit serialization round trip | SerdeModel | SerdeProps.v | dictionaries as an inductive JSON type, each branch of the (de)serialisers; induction on gates; refutation witnesses |
| C10 | Equality of custom gates is by matrix content | SerdeModel, CircuitModel | SerdeProps.v | entrywise comparison of matrices; list induction; refutation of the zip comparison |
| C11 | Layers of gates and ancilla registers | CircuitModel | CircuitProps.v | generators as folds over ranges; list induction |
| C12 | MultiPhaseOperation preserves probabilities | GateMatModel | GateMatProps.v | phases as unit complex numbers; |exp(ix)z| = |z| over R |
| C13 | Connectivity layers are a proper partition | LayoutModel | LayoutProps.v | layer construction as list comprehensions over ranges; arithmetic on indices |
| C14 | Symbolic expression translation preserves value | SymModel | SymProps.v | sympy trees and native trees with evaluators over a field; structural induction |
| C15 | Gate decomposition preserves circuit semantics | DecompModel | DecompProps.v | rule application as a fuel-bounded flat map; list induction; U3 identity over C |
| C16 | Simulators compute the sequential state for any split | BackendModel | BackendProps.v | simulator loop over the parts of a split circuit with oracles for native back ends; induction on parts |
| C17 | Backend counters and batching | BackendModel | BackendProps.v | step functions on counters; induction over histories of calls |
| C18 | Measurement tracking forwards and records every call | BackendModel | BackendProps.v | tracker state machine with a file; induction over histories of calls |
| C19 | Wavefunction stays valid under mutation | WfModel | WfProps.v | amplitudes as vectors, mutations as steps that validate; invariant over histories |
| C20 | Dicke states enumerate exactly the weight-k basis states | WfModel | WfProps.v | Gosper iteration on N with fuel; bit lemmas, lexicographic order invariant |
| C21 | flip_amplitudes is the bit-reversal involution | WfModel | WfProps.v | reindexing by reversed bits; bit-list involution |
| C22 | Outcome labels use one qubit convention | WfModel, DistModel | DistProps.v, WfProps.v | labels produced by each function; equality of conventions for every index |
| C23 | Binary conversions | UtilsModel | UtilsProps.v | bits of Z/nat; induction |
| C24 | Ordered bitstrings and tuple/string conversions | UtilsModel | UtilsProps.v | enumeration of tuples; induction on the length |
| C25 | scale_and_discretize hits the requested total | UtilsModel | UtilsProps.v | rounding on Q, correction loop; arithmetic invariants |
| C26 | Array and value-estimate dictionaries round-trip | UtilsModel | UtilsProps.v | dictionaries of real and imaginary parts; list induction |
| C27 | Measurement counts are exact | MeasModel | MeasProps.v | counts as ordered dictionaries; induction on samples |
| C28 | Representing a distribution with exactly n samples | MeasModel | MeasProps.v | rounding with residual allocation, random choices as an argument; sums; refutation of the floor bound |
| C29 | Expectation values from measurements | MeasModel, EvModel | MeasProps.v | parities of bits, means and covariances over Q / a field; induction on samples |
| C30 | Parity tallies | MeasModel | MeasProps.v | even/odd tallies; induction on samples |
| C31 | Concatenation and serialization of expectation values | EvModel | MeasProps.v | lists and block matrices; induction |
| C32 | Distributions are probability distributions | DistModel | DistProps.v | association lists over R; sums |
| C33 | Distribution dictionaries keep their outcomes | DistModel, UtilsModel | DistProps.v | text keys and dictionaries; induction |
| C34 | Distances are symmetric and vanish on equal distributions | DistanceModel | DistanceProps.v | log-likelihood, Jensen-Shannon and MMD over R; sums, symmetry, refutations |
| C35 | Samples follow the support and count | DistModel | DistProps.v | samples as histories of an oracle that respects its weights; induction |
| C36 | Greedy grouping partitions into co-measurable groups | EstModel | EstProps.v | the greedy grouping fold; invariants (qubit-wise commutation, permutation of terms) |
| C37 | Context selection measures the right Pauli operator | EstModel | EstProps.v | per-qubit basis changes by RX/RY; identities of 2x2 matrices over C, tensor products |
| C38 | Shot allocation | EstModel | EstProps2.v | allocation formulas over R with rounding; sums and bounds |
| C39 | Estimation by averaging keeps task order | EstModel | EstProps2.v | evaluation pipeline over oracles; list induction |
| C40 | Binding symbols in estimation tasks | EstModel, SymModel | EstProps2.v | mapping of bindings; list induction, refutation |
| C41 | Measurement budget estimates | EstModel | EstProps2.v | budget sums over R; inequalities |
| C42 | Qubit operators multiply like matrices | OpModel | OpProps.v | operators as ordered dictionaries of Pauli words; matrices as tensor products; induction on words and terms |
| C43 | Ising operators multiply like diagonal matrices | OpModel | OpProps.v | Ising words; diagonal matrices; induction |
| C44 | Symbolic operator arithmetic is well behaved | OpModel | OpProps.v | all arithmetic dunders on dictionaries; fold invariants, coefficient sums |
| C45 | Approximate operator comparison | OpModel | OpProps2.v | isclose and friends; induction; refutations |
| C46 | Normal ordering preserves the operator | FermiModel | FermiProps.v | normal ordering by fuel-bounded rewriting; semantics as operators on bit vectors; invariants, termination |
| C47 | Jordan-Wigner is a representation of the fermion algebra | FermiModel | FermiProps2.v | ladder operators as Pauli sums; matrix elements on bit vectors |
| C48 | Bravyi-Kitaev is a representation of the fermion algebra | FermiModel | FermiProps2.v | Fenwick tree sets by recursion on the binary structure; encoding is a bijection of bit vectors; matrix elements |
| C49 | Hermitian conjugation of operators | FermiModel, OpModel | FermiProps3.v | conjugation of dictionaries; adjoint matrices |
| C50 | Qubit reindexing helpers | ReindexModel | FermiProps3.v | renaming of qubits; permutation matrices of wires |
| C51 | Pauli expansion of matrices | PauliExpModel | PauliExpProps.v | loop over label tuples and trace; completeness of the Pauli basis |
| C52 | Polynomial tensor arithmetic | TensorModel | TensorProps.v, TensorProps2.v | PolynomialTensor as a dictionary into a heap of arrays; state monad, aliasing |
| C53 | Operator dictionaries round-trip | ConvModel | ActsProps.v, ConvProps.v | dictionary and representation conversions; induction; matrix elements |
| C54 | Time evolution of a Pauli term is exact | EvolModel | EvolProps.v | basis changes, CNOT ladder and RZ; exponential as cos/sin of an involution; induction on the word |
| C55 | Trotter circuits concatenate term evolutions | EvolModel | EvolProps.v | lists of term circuits per step; induction on terms and steps; refutation |
| C56 | Recorders are transparent and complete | HistModel | HistProps.v, HistProps2.v | objects on a heap, recorders as state machines; induction over histories of calls |
| C57 | Cost function augmentations compose in order | AugModel | AugProps.v | function transformers with state; composition, induction |
| C58 | Cost functions evaluate the estimation pipeline | CostModel | CostProps.v | cost functions over an oracle for estimation; finite differences |
| C59 | Ansatz caching is transparent | AnsatzModel | AnsatzProps.v | cache state machine with invalidation; induction over histories |
| C60 | Nested optimisation histories | OptModel | OptProps.v | nested histories; induction |
| C61 | JSON decoding recovers encoded objects | EncModel | EncProps.v | inductive JSON trees; encoder/decoder branch by branch; induction; refutations |
| C62 | Graph comparison and generation | GraphModel | GraphProps.v | graphs as ordered adjacency lists, random generation over an oracle; induction |
| C63 | The built-in gates are the textbook gates | GateMatModel | GateValueProps.v | every factory of the gate library; specification by the textbook matrices |
| C64 | Identity, unitarity and equality up to a phase | CmpModel | CmpProps.v | loops over entries with tolerance over R; characterisation; refutation |
| C65 | Parity checks, bitstring values and symbol maps | UtilsModel, CircuitModel | SmallProps.v | folds over text and lists; induction |
| C66 | Orderings of symbols | SymModel | SymProps.v | sort keys and comparison of texts; sortedness, totality |
| C67 | The text form of operators | OpTextModel | OpTextProps.v | parser and printer on lists of characters; grammar as specification; induction |
| C68 | Freezing orbitals preserves matrix elements | ReindexModel | FreezeProps.v | loops over ladder words with frozen modes; matrix elements between product states |
| C69 | Commutators and anticommutators | CommModel | CommProps.v | products and differences of dictionaries; matrix identities; predicates by cases |
| C70 | The reverse Jordan-Wigner transform is the inverse of the Jordan-Wigner transform | RevJWModel | RevJWProps.v | Pauli by Pauli expansion in ladder operators; matrix elements; uniqueness of normal form |
| C71 | Fermi-Hubbard Hamiltonians are the documented sums over the edges of the grid | HubbardModel | HubbardProps.v | loops over the grid; specification as sums over edges; induction |
| C72 | The diagonal component of an operator is its diagonal | DiagModel | DiagProps.v, DiagProps2.v | filters of terms; diagonal of the matrix |
| C73 | The direct Jordan-Wigner transform of interaction operators is the operator's | JWInterModel | HermTensorProps.v, JWInterProps.v | case analysis loops over tensors; matrix elements, symmetries of the tensors |
| C74 | The sparse matrix of an operator is its matrix | SparseModel | SparseProps.v | loops over tensor factors; matrix of bit vectors |
| C75 | Occupation states, particle-number sectors and expectation values | SparseModel | SectorProps.v | occupation numbers, index sets; bit lists and sums |
| C76 | Number-preserving matrices hold the operator's elements between the states of the sector | SectorOpModel | SectorOpProps.v | enumeration of sector states and matrix elements by parity sums; induction on words |
| C77 | Unitary coupled cluster generators are the documented, symmetric excitation operators | UCCModel | UCCProps.v | enumeration of excitations; particle number, spin and anti-Hermiticity; permutations |
| C78 | Molecular Hamiltonians are the electronic Hamiltonian, and an active space restricts it | MolModel | MolProps.v | spin-orbital tensors, active-space integrals; sums over spin orbitals, elements between product states |
| C79 | The reduced Hamiltonian equals the Hamiltonian on its number of electrons | MolModel | MolProps2.v | reduced tensors; algebra on the sector of fixed particle number |
| C80 | unique_iter lists exactly one term of each documented symmetry class | MolModel | MolProps2.v | enumerations with complex/real symmetries; orbit representatives |
| C81 | Reduced density matrices give the averages of operators in their state | RdmModel | RdmProps.v, RdmProps3.v | contraction of tensors; averages in a state |
| C82 | Hartree-Fock and ground-state density matrices are those of their states, and the values read from them are the averages | RdmModel | RdmProps2.v, RdmProps3.v | tensors of product states and of a ground-state oracle; sums |
| C83 | Rotating the basis of the modes replaces each ladder operator by the rotated one, and keeps the spectrum | RotModel | RotProps.v | einsum over rotated indices; Bogoliubov-type substitution of ladder operators; unitary case |
| C84 | Reordering modes, projecting, and removing inactive orbitals give the operators they name | RotModel | RotProps2.v, RotProps3.v | renaming, projection and removal of modes; matrix elements |
| C85 | The direct Bravyi-Kitaev transform of an interaction operator is the transform of its fermion operator | BKInterModel | BKInterProps.v | Seeley-Richard-Love table and the interaction loops; encoded states, independence of Pauli words |
| C86 | Helpers for qubit operators mean what their matrices say | QopUtilModel | QopUtilProps.v | labels, random histories, evaluation and circuits; induction, counting, matrix of wires |
| C87 | Integrals of a molecule give the energies of its states | MolIntModel | MolIntProps.v | arrays of integrals, transposes and einsum, even indices, optional attributes; diagonal of the second-quantised sums, exchange of summation indices, restriction to active orbitals |
| C88 | Norms of operators measure their coefficients and matrices | NormModel | NormProps.v | complex coefficients over the reals, powers and roots with Python's failures; convexity and Minkowski's inequality by induction, orthogonality of Pauli words, unitarity of words |
| C89 | Functions decorated for old types translate, fall back or fail as documented | CompatModel | CompatProps.v | functions as state transformers with three outcomes, arguments as trees; induction on the tree for the replaced arguments, the order of effects and the first failure |
| C90 | Objects made from specifications get the parameters that were specified | CreateModel | CreateProps.v | dictionaries in a store, Python's binding of arguments, functools.partial, imports and calls as programs on a world; symbolic execution of create_object |
| C91 | Random circuits are well formed whatever the generator draws | RandCircModel | RandCircProps.v | the generator as a record of draws over an arbitrary state; induction on the number of gates; a scripted generator shows that every circuit can come up |
| C92 | The steps that make operators make the operators they name | OpStepModel | OpStepProps.v | the constant of a normal ordered product is the vacuum expectation (every other normal ordered term vanishes there); ladder terms as monomial matrices; C42, C46, C48, C53, C73 |
| C93 | Random test operators have the promised symmetries whatever is drawn | RandOpModel, RandWfModel | RandOpProps.v, RandOpProps2.v, RandWfProps.v | the symmetries are invariants of the loop: each iteration overwrites a whole orbit of indices; invariants over the draws; C73, C49 |
| C94 | Steps build backends, ansatzes and cost functions from specifications, touching only named entries of the caller's dictionaries | BackendStepModel | BackendStepProps.v, BackendStepProps2.v, BackendStepProps3.v, BackendStepProps4.v | a frame rule for programs on the store of dictionaries (entries that may change, bound on fresh dictionaries); symbolic runs; C90 |
| C95 | A saved molecule opens as it was, a crash while saving damages nothing but the file being written, and properties load on demand | MolFileModel | MolFileProps.v, MolFileProps2.v, MolFileProps3.v | symbolic run of the save steps with an invariant (fields equal, every property shows the same); frame lemma for crash points; uniqueness of strictly sorted lists for names |
| C96 | The circuit steps write what they are asked for, to their own file only, and read it back | CircStepModel | CircStepProps.v | runs of the steps on a file map; round trip from C09, sums from C01, ancillas from C11 |
| C97 | A saved operator is loaded as it was, in the named file only, and an existing file is never overwritten without permission | OpFileModel | OpFileProps.v | round trips from C67 and the sum of C44; runs of save and load on a file map |
| C98 | The contracts for estimators and nested optimizers accept what they describe and reject what breaks it | ContractModel | ContractProps.v, ContractProps2.v | runs of the contracts for arbitrary estimators; the mean after RX from the gate matrices; nested optimizers from C60 |
| C99 | Results saved to a file are loaded as they were, and saving touches no other file, even if it is stopped | ArtModel, GraphStepModel | ArtProps.v, ArtProps2.v, GraphStepProps.v | a generic lemma about writing and reading one file, with the round trips of dictionaries of C13, C26, C27, C31, C33, C53, C62 and C90; induction on JSON values; unique reading of Pauli strings |
| C100 | The measurement and evaluation steps compute, from files, the numbers their names promise | EvalStepModel, on RdmModel, SparseModel, QopUtilModel, EstModel, MeasModel and CostModel | EvalStepProps.v, EvalStepProps2.v, EvalStepProps3.v, EvalStepProps4.v, EvalStepProps5.v | composition of C27, C36, C41, C75, C81, C82 and C86 through files; sums of covariances rewritten as the mean squared deviation of the energy, by induction on terms and shots; failures by the frame of the reading monad |
| C101 | The steps that run circuits run each circuit once and write exactly what the backend returned | RunStepModel, on BackendModel, SerdeModel, EstModel, MeasModel, DistModel and CostModel | RunStepProps.v, RunStepProps2.v, RunStepProps3.v | composition of C18, C26, C29, C32 and C39 through files and backend states; induction over the list of circuits |
| C102 | Pairing a function with a gradient changes nothing about the function | FuncModel: a memory of callables with attributes and signatures | FuncProps.v, FuncProps2.v | chains of decorators as a relation, shown equal to the search with a memory of visited objects (pigeonhole); induction on the age of pairs |
| C103 | The example functions have the gradients and artifacts that they document | ExFunModel, over the standard library's reals | ExFunProps.v | derivatives of polynomials; binary digits of C23 |
| C104 | Spectra are the sorted eigenvalues, start with the ground-state energy and do not depend on the encoding | SpectrumModel over SparseModel; eigensolvers are arguments | SpectrumProps.v, SpectrumProps2.v, SpectrumProps3.v | sorting lemmas; conjugation by the unitary encoding of C48 carries eigenvectors and diagonalisations over |
| C105 | A passed equality test means what it documents | EqTestModel: subjects with arbitrary comparison methods; Python's rules for == and != | EqTestProps.v | checks shown equivalent to declarative predicates; induction on the sequence of groups, permutations |
| C106 | The release script reads every version and names a higher one | VersionModel: the regular expression as a deterministic reader | VersionProps.v | induction on texts; decimal numerals as in the models of symbols and operator texts |
| C107 | Processes that save molecules at the same time never leave a torn file | MolConcModel: processes with the steps of save, over shared files, and a schedule | MolConcProps.v, MolConcProps2.v, MolConcProps3.v, MolCopyProps.v | an invariant of all processes and files, kept by every step of every process; refinement of C95's save by a process alone |
| C108 | A tracking backend whose records cannot be written loses answers | TrackFileModel: the tracker's calls with the steps of writing the file | TrackFileProps.v | case analysis of one call; induction over histories; agreement with C18's model |
| C109 | Generated backend test cases expect what the library's gates give | GenCasesModel: the script's matrices, rows and tables; the library side is the model of C06-C09 | GenCasesProps.v | equality of matrices by trigonometric identities; lifting gives the circuit's state; Pauli operators applied by the library's gates |

Nothing is declared not applicable; a theorem that proves only a part of a property would carry the suffix `_partial` (there is none at present).

## 3. Findings

Properties or natural readings of them that are false of the code, each with a theorem ending in `_refuted`, and related remarks.

* **C01** (`C01_explicit_width_fits_refuted`, `C01_append_multiphase_refuted`) Findings: an explicit width smaller than the qubits used is accepted (C01_explicit_width_fits_refuted); circuit + MultiPhaseOperation raises NotImplementedError (C01_append_multiphase_refuted).
* **C03** (`C03_custom_gate_bind_matrix_refuted`) Number-valued maps; sympy's substitution order and automatic simplification are universally quantified oracles with the hypotheses spelled out in CircuitSpec.v. Finding: a custom gate called with symbols from its own parameter list mixes them (refuted theorem).
* **C09** (`C09_modified_custom_refuted`, `C09_builtin_name_refuted`, `C09_second_parameter_refuted`) str() and sympify are an oracle; the hypotheses say which parameters survive it. Findings: C09_modified_custom_refuted, C09_builtin_name_refuted, C09_second_parameter_refuted. MultiPhaseOperation cannot be serialised.
* **C10** (`C10_shapes_refuted`) C10_shapes_refuted: zip truncation
* **C11** Set iteration order is an arbitrary enumeration. That identities leave the state unchanged follows from C06.
* **C13** (`C13_unknown_type_refuted`) The claim that an unknown layer type is an error is refuted (C13_unknown_type_refuted): the ValueError is built but not raised, the function returns None.
* **C14** (`C14_name_clash_refuted`) Sympy's own product with -1 is an argument with stated requirements (C14_negation shows cancelling the factor meets them); floats exact where plain/supported says so. A user function named like an operation (e.g. 'sub') is evaluated as that operation: C14_name_clash_refuted. The value theorem ranges over any arithmetic with the listed laws; complex numbers are shown to be one.
* **C15** (`C15_controlled_u3_refuted`, `C15_custom_gate_named_u3_refuted`, `C15_declared_width_refuted`) Findings: rewriting a controlled U3 loses a relative phase, a custom gate named U3 is rewritten, and the declared width is lost (the _refuted theorems).
* **C16** (`C16_empty_circuit_counted_refuted`) The native execution is any function that applies its operations in order (native_correct in BackendSpec.v). Finding: an empty circuit is not counted as run (C16_empty_circuit_counted_refuted).
* **C17** (`C17_mismatch_rejected_refuted`) Findings: a shorter list of sample counts silently truncates the set (C17_mismatch_rejected_refuted); the base class with a batch size set runs the batches but returns nothing unless overridden (C17_batching_base_returns_nothing).
* **C18** (`C18_keeps_all_measurements_refuted`) Findings: the file is overwritten by every call, so only the latest call's records are kept (C18_keeps_all_measurements_refuted); the wrapper's own counters stay zero (C18_wrapper_counters_stay_zero).
* **C19** (`C19_slice_assignment_refuted`) Integer indices. Finding: slice assignment on a numpy-backed wavefunction is not rolled back (C19_slice_assignment_refuted), because the saved old value is a view.
* **C22** (`C22_zero_qubits_refuted`) The distribution part is in DistProps. Finding: with zero qubits the label has one bit.
* **C23** (`C23_boundary_rejected_refuted`) Finding: x = 2^n is accepted and gives n+1 bits, for every n (C23_boundary_rejected_refuted).
* **C24** (`C24_zero_qubits_refuted`, `C24_tuples_round_trip_refuted`) Findings: with zero qubits the only string is '0' (C24_zero_qubits_refuted); tuples with entries above 9 do not survive (C24_tuples_round_trip_refuted).
* **C25** Exact rationals instead of floats; argsort may order ties arbitrarily. A zero sum is a ZeroDivisionError.
* **C26** (`C26_empty_refuted`) Findings: arrays without elements lose shape and dtype (C26_empty_refuted); a rank-0 complex array with zero imaginary part becomes real (C26_scalar_complex).
* **C27** Outcomes are tuples of digits 0-9, as produced by the library.
* **C28** (`C28_floor_bound_refuted`) The random generator is any function that draws from the support (draws_from_support). Distributions with total exactly one; expected numbers that are not integers must be at least 2^-1022 times the number of outcomes away from the integers. Finding: an outcome can occur less than floor(n*p) times (C28_floor_bound_refuted).
* **C29** Exact arithmetic; the iteration order of Python sets is any enumeration. A zero denominator (one sample with Bessel correction) gives no covariance.
* **C30** Exact arithmetic; the precision enters only squared. Finding: coefficients of the terms are ignored by the parities path.
* **C31** List objects are modelled on a heap, so that aliasing is visible. Arrays with at least one entry, or the empty real vector (see C26 for the others). Finding: an empty list of correlations is read back as None.
* **C32** Exact rational probabilities; math.isclose's 1e-9 tolerance and the smallest normal double are modelled.
* **C33** (`C33_legacy_set_refuted`, `C33_single_large_outcome_refuted`, `C33_unnormalised_refuted`, `C33_collision_refuted`) Findings: C33_single_large_outcome_refuted, C33_unnormalised_refuted, C33_collision_refuted. Finding: C33_legacy_set_refuted (load_measurement_outcome_distributions falls back on the old key only if the new key is present too, so set files of older versions are refused with KeyError).
* **C34** (`C34_jsd_of_equal_refuted`) Over the real numbers; the iteration order of sets is any enumeration. Findings: the divergence of equal distributions is their entropy, not zero (C34_jsd_of_equal_refuted); MMD raises for outcomes with entries above 1 (C34_mmd_needs_bits).
* **C35** The generator is any function that draws from the support.
* **C36** (`C36_small_terms_lost_refuted`) Finding: a term whose coefficient is below 1e-8 and that joins an existing group is dropped by += (C36_small_terms_lost_refuted), while one that opens a group is kept. Operators are assumed to have canonical terms (sorted, one factor per qubit), which every constructor and product yields (C42).
* **C37** Coefficients below the tolerance are excluded by hypothesis because the sum that builds the Ising operator prunes them. Angles are exact reals and matrices are over C. 'run' is the model's sequential application of operations to a state vector (C07).
* **C38** Relative measurement counts are an argument (the third result of estimate_nmeas_for_frames, C41) given as exact rationals; prior expectation values enter only through it. An all-zero variance list is an error.
* **C39** The backend, its measurements and the averaging of measurements are arguments; C30 covers the averaging itself. change_operator_type prunes terms below the tolerance, so a measured task's operator is what that conversion returns.
* **C40** (`C40_single_map_refuted`) Finding: the docstring promises that one map is used for all tasks, but zip truncates: C40_single_map_refuted.
* **C41** Expectation values enter as their real parts. Finding: the docstring calls nterms the number of groups; it is the number of terms. Constant terms are ignored only when no expectation values are given.
* **C42** Exact ring coefficients with an imaginary unit; matrices of terms are products of embedded Pauli matrices. C42_sum/C42_difference state exactly which operator pruning removes.
* **C43** Validation of factors (only Z, valid indices) is not modelled.
* **C44** (`C44_inplace_self_subtraction_refuted`, `C44_add_assoc_exact_refuted`) Findings: x -= x on a non-zero operator raises RuntimeError (C44_inplace_self_subtraction_refuted) because the dictionary shrinks while it is iterated; exact associativity fails because intermediate sums are pruned (C44_add_assoc_exact_refuted).
* **C45** (`C45_order_dependence_refuted`, `C45_large_difference_refuted`, `C45_compress_modulus_refuted`, `C45_compress_sympy_negative_refuted`) Findings: the tolerance is multiplied along the loop over shared terms, so the answer depends on set iteration order (C45_order_dependence_refuted) and operators differing by a coefficient 5 compare equal (C45_large_difference_refuted); compress can remove coefficients of modulus above the tolerance (C45_compress_modulus_refuted) and removes every negative sympy coefficient (C45_compress_sympy_negative_refuted). isclose with sympy coefficients is not modelled.
* **C46** Proved for every pruning test; the matrices are on the occupation basis of any number of modes. BosonOperator and QuadOperator, and InteractionOperator input, are not modelled.
* **C47** FermionOperator input. Ladder images, CAR, action of any operator (up to pruned terms; exact if only 0 is pruned), products, sums and conjugates.
* **C48** FermionOperator input, n_qubits given or default; Python's set iteration order is an arbitrary permutation.
* **C49** FermionOperator and QubitOperator. is_hermitian: complete for self-adjoint operators; accepted operators are bounded by the tolerance of isclose (C45). For fermion operators completeness assumes normal ordering prunes only zeros.
* **C50** Round trips assume no coefficient is below the pruning tolerance (such terms are dropped by +=).
* **C51** (`C51_one_by_one_refuted`) Finding: a 1 by 1 matrix (n = 0) raises (C51_one_by_one_refuted), because dec2bin(0, 0) has one digit. Strings such as 'X0 Y1 ' are represented by the list of factors they denote.
* **C52** (`C52_difference_refuted`, `C52_sum_is_independent_refuted`) Findings: when a lacks a key of b, a - b contains b's entries with a plus sign (C52_difference_refuted); a + b holds b's own arrays for such keys, so scaling the sum in place changes b (C52_sum_is_independent_refuted). numpy dtypes and their casting errors are not modelled.
* **C53** (`C53_size_inferred_refuted`, `C53_unordered_entries_refuted`) Full. Findings: get_polynomial_tensor raises StopIteration for constant and zero operators (C53_constants_have_no_tensor); without n_qubits a tensor may come back smaller (C53_size_inferred_refuted); entries at products not normal ordered move (C53_unordered_entries_refuted). Files and the qubit-operator-set/RDM variants of the dictionaries are not modelled separately.
* **C54** (`C54_constant_phase_refuted`) The circuit is proved to act as the limit of the exponential series. C54_constant_phase_refuted: the constant term's phase is dropped.
* **C55** (`C55_two_steps_refuted`) C55_two_steps_refuted is a finding: with trotter_order > 1 the repeated slices inside the derivative circuits use the full time (time_evolution(hamiltonian, time, method, 1)) instead of time / trotter_order, so the weighted sum is not the derivative. C55_derivative proves the parameter shift rule for trotter_order = 1. Operators with a zero coefficient raise ZeroDivisionError (C55_zero_coefficient).
* **C56** (`C56_value_snapshot_refuted`, `C56_copy_numbers_refuted`) Programs are lists of statements over numbered variables, so the theorems quantify over all call sequences, interleavings with mutations and aliasing. C56_value_snapshot_refuted, C56_copy_numbers_refuted and C56_copies_forget_gradient_history are findings: returned arrays are stored by reference, copy.copy shares the list of entries while the call numbers run apart, and both kinds of copy start a new gradient history.
* **C57** (`C57_only_gradient_refuted`, `C57_assign_gradient_refuted`, `C57_logger_artifacts_refuted`) Augmentations that make a new callable with arbitrary behaviour and attributes, loggers, and augmentations that return their argument are covered; assignments to the attributes function and predicate of a logger are not modelled. Findings: C57_only_gradient_refuted, C57_assign_gradient_refuted, C57_logger_artifacts_refuted.
* **C58** (`C58_fixed_appended_refuted`, `C58_iterator_refuted`) Real arithmetic. Findings: C58_fixed_appended_refuted (the docstring of fix_parameters says appended, the code puts them first), C58_iterator_refuted (an iterator of preprocessors is exhausted by the first call, although the parameter is declared Iterable). Deprecated get_ground_state_cost_function and AnsatzBasedCostFunction are covered; integer arrays are not.
* **C59** (`C59_raising_method_refuted`, `C59_plain_attribute_refuted`) _generate_circuit is a parameter: any state transformer whose circuit is a function of the declared properties and that does not change them. Findings: C59_raising_method_refuted, C59_plain_attribute_refuted, C59_mock_no_qubits.
* **C60** (`C60_gradient_appears_refuted`, `C60_gradient_disappears_refuted`, `C60_continues_refuted`) Algorithms are arbitrary (finite) adaptive strategies. Findings: C60_gradient_appears_refuted (KeyError only with keep_history), C60_gradient_disappears_refuted, C60_continues_refuted (the mock nested optimizer starts each iteration from initial_params), C60_mock_changes_input (the mock optimizer overwrites the caller's array), no iterations raise UnboundLocalError.
* **C61** (`C61_real_key_refuted`, `C61_counts_refuted`, `C61_numbers_refuted`, `C61_entry_like_refuted`, `C61_own_schema_refuted`, `C61_large_outcome_refuted`, `C61_empty_array_refuted`) Findings (C61_..._refuted): a dictionary with key 'real' is decoded as an array; a dictionary of numbers with digit keys becomes a distribution and one with other keys makes decoding raise ValueError; an entry-like dictionary with extra keys raises TypeError; a result's own 'schema' is lost; a one-variable distribution with a value above 9 becomes a two-variable one; shapes such as (0, n) become (0,). Numbers are rationals; dictionaries have string keys.
* **C62** (`C62_compare_empty_refuted`, `C62_compare_weights_refuted`, `C62_compare_order_refuted`, `C62_id_attribute_refuted`) networkx's Graph (add_node, add_edge, nodes, edges, node_link_data, node_link_graph) is modelled by its dictionaries; its generators and Python's random are parameters. Findings: the empty graph compares equal to every graph, weights are ignored, and equal graphs built in another order compare different (C62_compare_..._refuted); a node attribute called 'id' is lost by saving (C62_id_attribute_refuted).
* **C63** amplitude-level specification in GateValueSpec.v; real arithmetic, sympy.simplify keeps the value
* **C64** (`C64_compare_refuted`) C64_compare_refuted: compare_unitary(I, X) raises ZeroDivisionError; floating-point rounding is not modelled
* **C67** (`C67_zero_refuted`, `C67_small_refuted`, `C67_unclosed_refuted`) float(), complex() and format() of a coefficient are parameters; round trips need them to agree on the coefficients present (printed_exactly). C67_zero_refuted, C67_small_refuted and C67_unclosed_refuted are findings: str(FermionOperator()) reads back as an annihilation operator, an operator with only negligible coefficients as the identity, and a last bracket that is not closed is dropped.
* **C68** (`C68_large_index_refuted`, `C68_duplicate_refuted`) Python's `is` between indices is a parameter that must agree with equality on the indices involved. C68_large_index_refuted and C68_duplicate_refuted are findings. The unused argument `prune` is not modelled.
* **C69** (`C69_complex_hopping_refuted`, `C69_broadcast_refuted`) Boson operators and scipy matrices are not modelled. C69_complex_hopping_refuted and C69_broadcast_refuted are findings.
* **C70** The check that the argument is a QubitOperator is not modelled; the scalars are any commutative ring with an imaginary unit in which 1, -2 and -i are not below the pruning threshold.
* **C71** (`C71_general_particle_hole_refuted`) Dimensions are natural numbers; the sum formula is stated for tunneling equal to its conjugate, hermiticity for any tunneling. Finding: C71_general_particle_hole_refuted.
* **C72** (`C72_other_keys_refuted`) Arrays are complex and have equal dimensions; a key other than () holds an array. Finding: C72_other_keys_refuted.
* **C73** (`C73_more_refuted`, `C73_not_hermitian_refuted`) Modes are natural numbers (numpy's negative indices are not modelled). hermitised is the Hermitian part off the diagonal. Findings: C73_not_hermitian_refuted, C73_more_refuted.
* **C74** (`C74_size_refuted`) scipy's csc/coo matrices are modelled by their entries, with duplicate triplets added; modes are natural numbers. Finding: C74_size_refuted (the matrix of a PolynomialTensor ignores n_qubits).
* **C75** (`C75_duplicates_refuted`) The eigensolver (scipy eigh/eigsh) is a parameter. Findings: C75_duplicates_refuted; C75_zip_case (zip drops surplus states).
* **C76** (`C76_level_refuted`) Determinants are lists of booleans (numpy.invert of integer arrays would select other modes), encodings are unbounded (numpy: 64 bits). sector_basis is the list of states that index the matrix. Finding: C76_level_refuted (sorting_indices[searchsorted] past the end).
* **C77** (`C77_complex_refuted`, `C77_paramsize_refuted`) Arrays have any shape and amplitudes in a commutative ring; the tests nonzero and small are arguments. Findings: C77_complex_refuted (-coefficient instead of -conj(coefficient)), C77_paramsize_refuted.
* **C78** Integrals are arrays over a commutative ring with a half; indices are natural numbers (Python's negative ones are not modelled). The numerical work of producing integrals is not modelled. An occupied orbital listed twice is counted twice (C78_duplicates_case).
* **C79** (`C79_other_refuted`) Division by 4(k-1) is an argument that inverts nonzero integers (complex numbers meet this, c79_inverts). numpy.zeros_like keeps an integer dtype, which would round the quotients; not modelled. C79_other_refuted: the equality is only on the k-electron states.
* **C80** (`C80_real_refuted`, `C80_upper_refuted`) Findings: C80_real_refuted, C80_upper_refuted.
* **C81** (`C81_number_refuted`) Arrays over a commutative ring with i; the state is a matrix rho and an average is the trace of rho A. InteractionRDMError is GenericException in the model. Finding: C81_number_refuted (number-changing strings silently get 0 when the state mixes numbers). C81_stretched_case: arrays of one mode are broadcast without an error.
* **C82** (`C82_small_refuted`) The sparse eigensolver is an argument that returns some eigenvector of its matrix; abs, imag and clip are arguments. Finding: C82_small_refuted (terms with small coefficients get no value).
* **C83** Arrays over a commutative ring with conjugation; numpy's stretching of dimensions that are 1 is not modelled. The unitary on the states is built from the rotated creation operators applied to the vacuum.
* **C84** (`C84_short_ordering_refuted`, `C84_unused_refuted`) remove_inactive_orbitals: the general theorem has remainders with small coefficients, which vanish if only zeros are small. same is Python's 'is' on integers (C68). Findings: C84_unused_refuted (an active mode that no term uses is removed and the others renumbered, so the result does not have 2 * n_active modes), C84_short_ordering_refuted (an ordering that leaves out modes is accepted).
* **C85** (`C85_more_refuted`, `C85_not_hermitian_refuted`) Exact over a commutative ring with an imaginary unit and a half; the theorem about whole operators assumes only zeros are dropped (products of operators with dropped terms have no uniform bound), the one about single excitations bounds the dropped terms by four. Findings: C85_more_refuted (n_qubits larger than the number of modes raises IndexError although only smaller values are refused), C85_not_hermitian_refuted (only the lower triangle of the tensors is read, so a non-Hermitian operator is silently replaced by another).
* **C86** (`C86_random_refuted`, `C86_identity_refuted`) Random numbers are an arbitrary history of the calls to uniform, sample and randint that keeps their contracts. Findings: C86_random_refuted (the generator never returns when more terms are requested than strings of that locality exist), C86_identity_refuted (the circuit of the constant term is empty, on no qubits, and asking for its unitary raises TypeError); coefficients and values beyond the number of labels and terms are silently ignored, too few raise IndexError; strings with a negligible coefficient are dropped, so fewer terms than requested may come out. The value with reversed qubits is exact up to dropped negligible coefficients.
* **C87** (`C87_load_too_many_refuted`, `C87_roundtrip_refuted`) Exact arithmetic, any commutative ring with conjugation; attributes that MolecularData reads from its file are optional values. Findings: C87_roundtrip_refuted (get_molecular_data of a molecular Hamiltonian halves the two-electron integrals, so that the Hamiltonian of the result is another operator), C87_data_undescribed (with its default arguments geometry, basis and multiplicity None, get_molecular_data always raises ValueError), C87_load_defaults (n_active_electrons without n_active_orbitals raises TypeError), C87_load_too_many_refuted (more active electrons than the molecule has are not refused: negative orbital numbers select the last orbitals), C87_spins (an impossible multiplicity silently loses one electron).
* **C88** (`C88_tiny_refuted`, `C88_trace_norm_refuted`) Exact real arithmetic; coefficients that are sympy expressions are not covered; the order is an integer, as documented. The triangle inequality holds for any threshold below which a sum drops terms. Findings: C88_tiny_refuted (renormalize refuses operators that are small but not zero), C88_trace_norm_refuted (the documentation promises trace norm 1; Z is unchanged and has trace norm 2), C88_other_orders (order 0 always raises ZeroDivisionError; a negative order works exactly for operators with terms and no zero coefficient).
* **C89** (`C89_inner_failure_refuted`, `C89_warning_error_refuted`) Translations and functions are arbitrary state transformers; that rebuilt sequences are new objects is not modelled, so a function that changes an argument list in place is outside. Findings: C89_inner_failure_refuted (a TranslationFailed raised by the function itself, such as by another decorated function it calls, makes the fallback run after the function's effects), C89_warning_error_refuted (where warnings are errors the deprecation warning turns every translation into a failure).
* **C90** (`C90_unknown_refuted`, `C90_var_keyword_refuted`, `C90_nmeas_refuted`) Functions have parameters that can be given by position or name, with or without defaults, and perhaps a ** parameter. Findings: C90_unknown_refuted (a misspelt parameter of a function is dropped silently, although the function would refuse it), C90_var_keyword_refuted (a function that takes ** gets none of the specified extra parameters), C90_noise_class (load_noise_model of a class instantiates it without the data and calls the instance), C90_nmeas_refuted (an estimate saved without frames, the default, cannot be loaded).
* **C91** (`C91_one_qubit_refuted`, `C91_width_refuted`) The generator is any record of draws that stay in their populations; angles are in an arbitrary range. numpy is taken to accept the array of lists of different lengths, as the releases of that time do. Findings: C91_one_qubit_refuted (on one qubit the draws decide whether ValueError is raised), C91_width_refuted (the circuit may have fewer qubits than requested); contrary to its documentation the function saves no file.
* **C92** (`C92_hydrogen_zero_refuted`, `C92_idle_mode_refuted`) A step is modelled by the operator it saves; files are C51 and C52. Results are exact when only zero coefficients are pruned, and interpolation is stated with the pruned terms. Findings: C92_hydrogen_zero_refuted (a KeyError whenever one of the three matrix elements is zero, since terms[()] has no default), C92_idle_mode_refuted (the Bravyi-Kitaev step takes the number of qubits from the fermion operator, so with an unused last mode the result is not the transform of the interaction operator); without qubits the local zero state operator is the identity.
* **C93** (`C93_expanded_eight_fold_refuted`, `C93_term_count_refuted`, `C93_real_hermitian_refuted`, `C93_seed_zero_refuted`) Generators are functions of an arbitrary state; the only facts assumed are that choices are in range, that normal draws are real, and, for wavefunctions, that the drawn vector is not zero. The loop that redraws a used qubit has fuel: running out of it is the only way create_random_qubitop does not return. Numbers are exact. Not covered: random_unitary_matrix (scipy's qr). Findings: C93_expanded_eight_fold_refuted (the symmetry built for real orbitals exchanges p with r, the spin expansion pairs p with s, so the expanded operator has neither symmetry), C93_term_count_refuted (equal terms merge, so create_random_qubitop may have fewer terms than asked for), C93_real_hermitian_refuted (random_qubit_operator may draw X0 Y0, that is iZ0), C93_seed_zero_refuted (create_random_wavefunction ignores seed 0).
* **C94** (`C94_optimize_then_evaluate_refuted`, `C94_documented_tracking_refuted`, `C94_noise_remembered_refuted`, `C94_preprocessors_remembered_refuted`) The part of the steps that builds objects; loading circuits, running them and writing the results are arbitrary programs. The list of preprocessors is written into the dictionary once complete (the code writes an empty list and appends). Findings: C94_documented_tracking_refuted (track_measurements alone raises KeyError after the backend was made, the documentation promises raw_data.json), C94_noise_remembered_refuted and C94_remembered (a dictionary keeps the noise model, so a later step that asks for none gets it), C94_preprocessors_remembered_refuted (the same for preprocessors), C94_optimize_then_evaluate_refuted (optimizing a QAOAFarhiAnsatz writes cost_hamiltonian into the dictionary, with which evaluating then raises ValueError).
* **C95** (`C95_save_twice_refuted`, `C95_crash_refuted`, `C95_rename_refuted`, `C95_overwritten_refuted`, `C95_reload_refuted`) HDF5 is a map from names to data given back as stored; a crash happens between steps, one step per data set. Findings: C95_crash_between and C95_crash_refuted (the old file is removed before the new one is moved, so a crash can leave no file under the molecule's name), C95_save_twice_refuted and C95_unsaveable (a molecule saved without general calculations and opened again cannot be saved: AttributeError, and the temporary file stays), C95_rename_refuted (saving an opened molecule under another name loses unread properties), C95_reload_refuted and C95_load_keeps (load keeps properties read before), C95_set_none (assigning None does not delete), C95_overwritten_refuted and C95_default_file (molecules that differ in positions share the default file), C95_rdm (truncation changes the object's own matrices). The atoms of an opened molecule are bytes. A negative charge is named _-1-.
* **C96** (`C96_evaluate_refuted`, `C96_retry_refuted`) Files hold documents; arrays are one-dimensional and real. Circuits must be writable in the sense of C09. Findings: C96_evaluate_refuted (evaluate_parametrized_circuit raises AttributeError for every input: circuits have no symbolic_params), C96_failed_save and C96_concatenate_clash (saving opens the file before the document is made, so an error, e.g. two custom gates with one name, destroys the previous file), C96_batch and C96_batch_missing and C96_retry_refuted (the caller's list is extended, also when the step fails, so a retry duplicates circuits).
* **C97** (`C97_zero_refuted`, `C97_crash_refuted`) The marshal format is a type and a list of terms; plain text uses the printer and parser of C67, with coefficients printed exactly. Findings: C97_zero_refuted (as plain text the zero fermionic operator is loaded as the annihilation operator of mode 0, the zero qubit operator cannot be loaded, and an operator with only small coefficients is loaded as the identity), C97_crash_refuted (overwriting is not atomic).
* **C98** (`C98_values_refuted`, `C98_sampling_refuted`) Estimators are functions from tasks to arrays of values with a state; the exact estimator runs the circuits of the contracts with the gate matrices of C05. Findings: C98_values_refuted (squared coefficients and constants that count as zero are accepted: only a difference is checked), C98_sampling_refuted (an estimator that samples is rejected unless a second sample is exactly equal to the first).
* **C99** (`C99_list_tuple_refuted`, `C99_failed_save_refuted`, `C99_path_refuted`, `C99_grid_twice_refuted`, `C99_integers_scalar_refuted`, `C99_schema_refuted`) Files hold a JSON document or text that is none; the text layer of json is trusted. Findings: C99_failed_save_refuted (the file is emptied before the document is made, so a list that cannot be written destroys the one that was there), C99_path_refuted (a path object can be saved to but most loaders reject it), C99_schema_refuted (the schema is not looked at: an interaction operator loads as density matrices), C99_grid_twice_refuted (saving grid evaluations changes the caller's dictionaries, so they cannot be saved again), C99_list_tuple_refuted (tuples come back as lists, value estimates without precision), C99_integers_scalar_refuted (without a size the step stores a number in place of a list).
* **C100** (`C100_summed_file_refuted`, `C100_ground_rdm_object_refuted`, `C100_sorted_refuted`) Eigensolvers are functions with a contract (an eigenvector; of lowest eigenvalue; normalised where that is used). Findings: C100_summed_file_refuted (steps/measure.py uses IsingOperator without importing it, so an operator given as a file name always ends in a NameError), C100_ground_rdm_object_refuted (the annotation admits operators, only file names work), C100_sorted_refuted (with sort_terms the values come in an order that the evaluation step does not expect, and the energy is wrong without an error).
* **C101** (`C101_run_default_refuted`, `C101_set_numpy_refuted`, `C101_set_default_refuted`, `C101_distribution_refuted`, `C101_expectation_refuted`) Findings: C101_run_default_refuted and C101_set_default_refuted (without n_samples, the steps' own default None, both steps always fail with TypeError), C101_set_numpy_refuted (outcomes made of numpy integers, which the single-circuit step accepts, make the list step fail and destroy an existing measurements-set.json), C101_distribution_refuted (the distribution step works with untracked simulators only), C101_expectation_refuted (the expectation step reads backend.n_samples, which no class of the library has: AttributeError unless a backend brings it along, and always when tracked). C101_expectation is for backends that have the attribute, and for real coefficients.
* **C102** (`C102_keyword_refuted`, `C102_order_refuted`, `C102_set_gradient_refuted`) Findings: C102_keyword_refuted (a function whose store_artifact can be given by name only is taken for one that stores artifacts, but every call of the pair fails, because the pair hands the store on by position), C102_order_refuted (a parameter before store_artifact receives the store), C102_set_gradient_refuted (assigning to the gradient of a pair succeeds and has no effect on the pair).
* **C103** (`C103_function5_short_refuted`, `C103_bitstring_refuted`) Findings: C103_bitstring_refuted (for a negative argument the artifact starts with the letter b), C103_function5_short_refuted (with two parameters the call fails after the artifact was stored).
* **C104** (`C104_default_refuted`) The eigensolvers of numpy and scipy are arguments with a stated contract, and arithmetic is exact (a negligible difference is zero). Finding: C104_default_refuted (without n_qubits the spectrum of a fermion operator can have 4 entries and that of its Jordan-Wigner transform 1).
* **C105** (`C105_reverse_refuted`) Finding: C105_reverse_refuted (items of earlier groups are never compared with later items from their own side, so an equality that holds in that direction only passes, and fails with the groups in the other order). Comparison methods answer True, False or NotImplemented or raise.
* **C106** (`C106_roundtrip_refuted`, `C106_candidate_refuted`) Findings: C106_roundtrip_refuted (without a patch, a last part of digits is read back as the patch), C106_candidate_refuted (a suffix without separator as in 1.2.3rc1 is dropped).
* **C107** (`C107_race_refuted`, `C107_mixed_refuted`, `C107_missing_refuted`, `C107_reader_refuted`, `C107_copy_refuted`) Findings: C107_race_refuted (save can raise TypeError because another process saves: a property that is None at the first check and not at the second makes h5py compress the scalar False), C107_mixed_refuted (a saved file can join the energies of one process with the orbitals of another), C107_missing_refuted (a reader finds no file in the gap), C107_reader_refuted (a reader can show properties of another process's molecule), C107_copy_refuted (across file systems shutil.move copies, and a crash leaves a torn file under the molecule's name). C107_alone: alone, the interleaved steps do exactly what the model of save of C95 does.
* **C108** (`C108_keeps_file_refuted`) Findings: C108_poisoned (after one record that JSON refuses, e.g. a numpy number of samples passed to get_measurement_outcome_distribution, the tracker is unusable), C108_keeps_file_refuted (a failed call erases the data of the previous one). C108_agrees ties this model to the one of C18.
* **C109** Exact arithmetic. The printed text and the literal tables pasted from it (test_cases_for_backend_tests.py) are not modelled, nor are the script's five angles: its list of angles is a parameter.

## 4. What is modelled

By source file (relative to src/python/zquantum/core), the functions and classes that properties are about; the functions they call are modelled as well.

* `circuits/_builtin_gates.py`: whole file (C05, C08, C63)
* `circuits/_circuit.py`: Circuit.__init__,__add__,_append_operation,_append_circuit,_circuit_size_by_operations (C01); split_circuit (C02, C16); Circuit.bind,free_symbols (C03); Circuit.to_unitary (C07, C08); collect_custom_gate_definitions (C09)
* `circuits/_gates.py`: MatrixFactoryGate.bind,ControlledGate.bind,Dagger.bind (C03); MatrixFactoryGate,ControlledGate,Dagger (C04); ControlledGate.matrix,Dagger.matrix (C05); GateOperation.lifted_matrix (C06); GateOperation.apply (C07); CustomGateDefinition.__eq__,_are_matrices_equal (C10)
* `circuits/_generators.py`: whole file (C11)
* `circuits/_matrices.py`: whole file (C05, C08, C109, C63)
* `circuits/_operations.py`: sub_symbols,get_free_symbols (C03)
* `circuits/_serde.py`: to_dict,circuit_from_dict,_gate_from_dict (C09); save_circuit,save_circuitset,load_circuit,load_circuitset (C96)
* `circuits/_testing.py`: create_random_circuit (C91)
* `circuits/_unitary_tools.py`: _lift_matrix,_permutation_matrix,_permutation_making_qubits_adjacent (C06)
* `circuits/_wavefunction_operations.py`: MultiPhaseOperation (C12)
* `circuits/layouts.py`: build_circuit_layers_and_connectivity,CircuitConnectivity,CircuitLayers (C13); save_circuit_layers (C99)
* `circuits/symbolic/_sorting.py`: natural_key,natural_key_revlex,natural_key_fixed_names_order (C66)
* `circuits/symbolic/sympy_expressions.py`: whole file (C14)
* `circuits/symbolic/translations.py`: whole file (C14)
* `cost_function.py`: create_cost_function,fix_parameters,sum_expectation_values (C58)
* `cost_function_augmentations.py`: augment_cost_function (C57)
* `decompositions/_decomposition.py`: whole file (C15)
* `decompositions/_zquantum_decompositions.py`: whole file (C15)
* `distribution/_measurement_outcome_distribution.py`: create_bitstring_distribution_from_probability_distribution (C22); MeasurementOutcomeDistribution,is_measurement_outcome_distribution,normalize_measurement_outcome_distribution (C32); preprocess_distibution_dict,save_measurement_outcome_distribution,load_measurement_outcome_distribution (C33); change_tuple_dict_keys_to_comma_separated_integers (C35)
* `distribution/clipped_negative_log_likelihood.py`: whole file (C34)
* `distribution/jensen_shannon_divergence.py`: whole file (C34)
* `distribution/mmd.py`: whole file (C34)
* `estimation/_estimation.py`: group_greedily (C36); get_context_selection_circuit_for_group,perform_context_selection (C37); allocate_shots_uniformly,allocate_shots_proportionally (C38); estimate_expectation_values_by_averaging,split_estimation_tasks_to_measure,evaluate_non_measured_estimation_tasks (C39); evaluate_estimation_circuits (C40); calculate_exact_expectation_values (C98)
* `evolution.py`: time_evolution_for_term (C54); time_evolution,time_evolution_derivatives,generate_circuit_sequence (C55)
* `gradients.py`: finite_differences_gradient (C58)
* `graph.py`: compare_graphs,save_graph,load_graph,generate_graph_node_dict,_weight_graph_edges,generate_graph_from_specs (C62)
* `hamiltonian.py`: group_comeasureable_terms_greedy,is_comeasureable (C36); estimate_nmeas_for_frames,compute_group_variances (C41); get_expectation_values_from_rdms (C82); get_expectation_values_from_rdms_for_qubitoperator_list (C82); reorder_fermionic_modes (C84)
* `history/example_functions.py`: function_1 (C103); Function2 (C103); Function5 (C103); function_3 (C103); function_4 (C103); sum_of_squares (C103)
* `history/recorder.py`: whole file (C56); recorder (C102)
* `history/save_conditions.py`: whole file (C56)
* `interfaces/ansatz.py`: Ansatz.parametrized_circuit (C59)
* `interfaces/ansatz_utils.py`: ansatz_property,invalidates_parametrized_circuit (C59)
* `interfaces/backend.py`: QuantumSimulator.get_wavefunction (C16); QuantumBackend (C101, C17)
* `interfaces/backend_test.py`: whole file (C109)
* `interfaces/estimator_contract.py`: ESTIMATOR_CONTRACTS (C98)
* `interfaces/functions.py`: function_with_gradient (C102); has_store_artifact_param (C102); FunctionWithGradient (C102); FunctionWithGradientStoringArtifacts (C102)
* `interfaces/optimizer.py`: extend_histories,construct_history_info (C60)
* `interfaces/optimizer_test.py`: NESTED_OPTIMIZER_CONTRACTS (C98)
* `measurement.py`: Measurements (C27); Measurements.get_measurements_representing_distribution,_check_sample_elimination (C28); Measurements.get_expectation_values,check_parity,check_parity_of_vector,get_expectation_value_from_frequencies (C29); get_parities_from_measurements,get_expectation_values_from_parities,Parities (C30); concatenate_expectation_values,ExpectationValues,Parities (C31); check_parity,check_parity_of_vector,convert_bitstring_to_int (C65); save_expectation_values (C99); load_expectation_values (C99); save_parities (C99); load_parities (C99)
* `openfermion/chem/molecular_data.py`: spinorb_from_spatial (C78); get_molecular_hamiltonian (C78); get_active_space_integrals (C78); antisymtei (C87); j_mat (C87); k_mat (C87); MolecularData (C87); load_molecular_hamiltonian (C87); MolecularData,name_molecule,geometry_from_file,save,load,get_from_file,get_molecular_rdm (C95); MolecularData.save (C107); MolecularData.load (C107); MolecularData.get_from_file (C107)
* `openfermion/chem/reduced_hamiltonian.py`: make_reduced_hamiltonian (C79)
* `openfermion/circuits/unitary_cc.py`: uccsd_generator (C77); uccsd_convert_amplitude_format (C77); uccsd_singlet_paramsize (C77); uccsd_singlet_get_packed_amplitudes (C77); uccsd_singlet_generator (C77)
* `openfermion/hamiltonians/general_hubbard.py`: interaction_operator (C71)
* `openfermion/hamiltonians/hubbard.py`: fermi_hubbard (C71)
* `openfermion/hamiltonians/special_operators.py`: number_operator (C70)
* `openfermion/linalg/sparse_tools.py`: get_sparse_operator (C74); jordan_wigner_sparse (C74); qubit_operator_sparse (C74); jordan_wigner_ladder_sparse (C74); jw_configuration_state (C75); jw_hartree_fock_state (C75); jw_number_indices (C75); jw_number_restrict_operator (C75); jw_get_ground_state_at_particle_number (C75); get_density_matrix (C75); expectation (C75); get_number_preserving_sparse_operator (C76); _iterate_basis_ (C76); _iterate_basis_order_ (C76); _iterate_basis_spin_order_ (C76); _build_term_op_ (C76); eigenspectrum (C104); sparse_eigenspectrum (C104); get_ground_state (C104)
* `openfermion/measurements/get_interaction_rdm.py`: get_interaction_rdm (C81)
* `openfermion/ops/operators/fermion_operator.py`: FermionOperator.is_normal_ordered (C46); whole file (C67)
* `openfermion/ops/operators/ising_operator.py`: IsingOperator._simplify (C43); whole file (C67)
* `openfermion/ops/operators/qubit_operator.py`: QubitOperator._simplify (C42); whole file (C67); QubitOperator (C88)
* `openfermion/ops/operators/symbolic_operator.py`: SymbolicOperator.__imul__,__iadd__,__isub__ (C42); SymbolicOperator (C44, C88, C97); SymbolicOperator.isclose,compress (C45); SymbolicOperator.__init__,_long_string_init,_parse_sequence,_parse_string,_validate_factor,__str__ (C67)
* `openfermion/ops/representations/interaction_operator.py`: get_tensors_from_integrals (C78); get_active_space_integrals (C78); InteractionOperator (C78); InteractionOperator.unique_iter (C80); _symmetric_two_body_terms (C80); InteractionOperator.projected (C84); InteractionOperator.zero (C84)
* `openfermion/ops/representations/interaction_rdm.py`: InteractionRDM (C81); InteractionRDM.expectation (C81); InteractionRDM.get_qubit_expectations (C81)
* `openfermion/ops/representations/polynomial_tensor.py`: PolynomialTensor.__iadd__,__isub__,__imul__ (C52); general_basis_change (C83); PolynomialTensor.rotate_basis (C83); PolynomialTensor.projected_n_body_tensors (C84)
* `openfermion/testing/random.py`: random_interaction_operator_term (C93)
* `openfermion/testing/testing_utils.py`: random_interaction_operator,random_hermitian_matrix,random_antisymmetric_matrix,random_qubit_operator (C93); EqualsTester (C105); _ClassUnknownToSubjects (C105)
* `openfermion/transforms/opconversions/bravyi_kitaev.py`: _update_set,_occupation_set,_parity_set,_transform_ladder_operator (C48); _bravyi_kitaev_interaction_operator (C85); _seeley_richard_love (C85); _two_body_coef (C85); _hermitian_one_body_product (C85); _qubit_operator_creation (C85)
* `openfermion/transforms/opconversions/jordan_wigner.py`: jordan_wigner (C47); jordan_wigner_one_body (C73); jordan_wigner_two_body (C73); _jordan_wigner_interaction_op (C73)
* `openfermion/transforms/opconversions/reverse_jordan_wigner.py`: reverse_jordan_wigner (C70)
* `openfermion/transforms/opconversions/term_reordering.py`: normal_ordered,normal_ordered_ladder_term (C46); reorder (C50)
* `openfermion/transforms/repconversions/conversions.py`: get_interaction_operator (C53); get_molecular_data (C87)
* `openfermion/transforms/repconversions/operator_tapering.py`: prune_unused_indices (C50); freeze_orbitals,prune_unused_indices (C68)
* `openfermion/utils/commutators.py`: commutator,anticommutator,double_commutator (C69)
* `openfermion/utils/indexing.py`: up_then_down (C50)
* `openfermion/utils/operator_utils.py`: hermitian_conjugated,is_hermitian (C49); get_file_path,load_operator,save_operator (C97); is_hermitian (C104)
* `openfermion/zapata_utils/_io.py`: whole file (C53); save_qubit_operator_set (C99); save_parameter_grid_evaluation (C99); get_pauli_strings (C99); save_interaction_rdm (C99)
* `openfermion/zapata_utils/_utils.py`: reverse_qubit_order (C50); get_qubitop_from_matrix,get_qubitop_from_coeffs_and_labels (C51); get_diagonal_component (C72); get_fermion_number_operator (C72); hf_rdm (C82); get_ground_state_rdm_from_qubit_op (C82); remove_inactive_orbitals (C84); get_qubitop_from_coeffs_and_labels (C86); generate_random_qubitop (C86); evaluate_qubit_operator (C86); evaluate_qubit_operator_list (C86); get_expectation_value (C86); create_circuits_from_qubit_operator (C86)
* `serialization.py`: preprocess,OrquestraEncoder,OrquestraDecoder (C61); ensure_open,save_array,load_array (C96); ensure_open (C99); save_array (C99)
* `steps/circuit.py`: generate_random_ansatz_params,combine_ansatz_params,build_ansatz_circuit,add_ancilla_register_to_circuit,concatenate_circuits,batch_circuits,evaluate_parametrized_circuit (C96)
* `steps/evaluation.py`: get_expectation_values_for_qubit_operator (C101, C94); get_ground_state_rdm_from_qubit_operator (C100); jw_get_ground_state_at_particle_number (C100); evaluate_qubit_operator_list (C100)
* `steps/graph.py`: _make_sampler (C99)
* `steps/measure.py`: run_circuit_and_measure,run_circuitset_and_measure,get_bitstring_distribution,evaluate_ansatz_based_cost_function (C94); grouped_hamiltonian_analysis (C100); expectation_values_from_rdms (C100); expectation_values_from_rdms_for_qubitoperator_list (C100); get_summed_expectation_values (C100); run_circuit_and_measure (C101); run_circuitset_and_measure (C101); get_bitstring_distribution (C101)
* `steps/operators.py`: get_one_qubit_hydrogen_hamiltonian,create_one_qubit_operator,get_local_zero_state_operator,interpolate_qubit_operators (C92); concatenate_qubit_operator_lists (C99)
* `steps/optimize.py`: optimize_parametrized_circuit_for_ground_state_of_operator,optimize_ansatz_based_cost_function (C94)
* `steps/transforms.py`: transform_interaction_operator (C92)
* `steps/utils.py`: generate_random_list_of_integers (C99)
* `subtrees/z_quantum_actions/bin/get_next_version.py`: parse_version_str (C106); Semver (C106); main (C106)
* `testing/_initialize.py`: create_random_qubitop,create_random_isingop,create_random_wavefunction (C93)
* `testing/generate_cases_for_backend_tests.py`: main (C109); generate_cases_2_qubits_exp_vals_with_angles (C109)
* `trackers.py`: MeasurementTrackingBackend (C101, C108, C18); MeasurementTrackingBackend.save_raw_data (C108)
* `utils.py`: dec2bin,bin2dec (C23); get_ordered_list_of_bitstrings,convert_bitstrings_to_tuples,convert_tuples_to_bitstrings (C24); scale_and_discretize (C25); convert_array_to_dict,convert_dict_to_array,ValueEstimate (C26); sample_from_probability_distribution (C35); is_identity,is_unitary,compare_unitary (C64); create_symbols_map (C65); create_object (C90); get_func_from_specs (C90); load_from_specs (C90); load_noise_model (C90); save_noise_model (C90); save_nmeas_estimate (C90); load_nmeas_estimate (C90); save_list (C99); load_list (C99); save_value_estimate (C99); load_value_estimate (C99); save_generic_dict (C99); save_timing (C99)
* `wavefunction.py`: Wavefunction.__init__,__setitem__,bind (C19); Wavefunction.dicke_state,_most_significant_set_bit (C20); flip_amplitudes,flip_wavefunction (C21); Wavefunction.get_outcome_probs,sample_from_wavefunction (C22)
* `wip/compatibility_tools.py`: compatible_with_old_type (C89); TranslationFailed (C89)

## 5. What is not modelled

* Floating point: rounding errors, overflow, NaN and the dtype of numpy arrays (integer arrays that truncate,
  `numpy.invert` of integers, 64-bit encodings).  Tolerances are kept where the code compares with them
  (`small`, `isclose`), as predicates or as real inequalities.
* The text layer of JSON and of files: `json`, `open` and `h5py` are a map from names to documents, in which a write
  can stop half-way and leave a torn file (C95-C101); concurrent writers are modelled for molecules only (C107).
* sympy beyond the expression trees of `SymModel`/`CircuitModel`: simplification is an oracle that
  preserves values, printing is not modelled except for the names that the code looks at.
* Native back ends, optimizers, estimators and other user callbacks: arguments of the model.
* networkx, numpy.random and random: oracles restricted by their documented contract.
* The eigen-solvers of numpy and scipy: a solver with its contract is an argument of the functions that call it (C104).
* Typing, deprecation warnings, logging, `__repr__`/`__str__` except operator text (C67).
* Dead code and small helpers: `_bravyi_kitaev_majorana_operator`, `openfermion/_compat.py`, `check_no_sympy`,
  `bohr_to_angstroms`, `random_unitary_matrix`, `module_importable`, the conversion from the former
  circuit class (`circuits/_compatibility.py`), and the pytest classes for backends and optimizers.

## 6. Trusted base

* the Coq kernel (8.16.1), including `vm_compute`, used for closed computations in examples and small tables;
* the axioms listed below, all from Coq's standard library (they come with its real numbers, with functional
  extensionality and with classical logic); no axiom is added here, and no library other than the standard
  library contributes one;
* the reading of the Python source: every definition of a model cites the file and lines it models and names its
  simplifications;
* the specifications (`XxxSpec.v`, and the definitions in Props files): small, and independent of the models' helpers.

The theorems are tested against wrong programs: `tools/mutate.py` rebuilds a scratch copy after each edit of a model
definition and records the theorems that fail; the log is `seeded/LOG.jsonl`.

### Assumptions of each theorem

Collected with `Print Assumptions` over all 1012 theorems; the command also stands beneath the theorems in the Props files.

* Closed under the global context: 784 theorems, namely all that are not listed below.
* `ClassicalDedekindReals.sig_forall_dec`: C15_declared_width_refuted, C22_outcome_labels, C22_samples, C22_no_samples, C22_zero_qubits_refuted, C58_fix_parameters, C58_factory, C58_factories_agree.
* `ClassicalDedekindReals.sig_forall_dec` + `FunctionalExtensionality.functional_extensionality_dep`: C10_unitary_shape, C19_reachable_valid, C19_constructor_exact, C19_failed_assignment_unchanged, C19_assignment_exact, C19_bind_exact, C19_slice_assignment_refuted, C21_flip_wavefunction, C22_basis_state_samples, C41_variances, C41_variance_bounds, C54_constant_term, C58_noise_creation, C58_noise, C58_same_seed, C58_deprecated_noise, C58_ground_state, C58_fixed_appended_refuted, C58_gradient, C58_gradient_raises, C58_gradient_quotient, C58_zero_step, C58_quadratic, C79_other_refuted, C84_short_ordering_refuted, C92_interpolation, C92_interpolation_range, C92_local_zero_value, C103_function_1, C103_function2, C103_function5, C103_function5_artifacts, C103_function5_short_refuted, C103_sum_of_squares, C104_real, C104_variational.
* `ClassicalDedekindReals.sig_not_dec` + `ClassicalDedekindReals.sig_forall_dec` + `FunctionalExtensionality.functional_extensionality_dep`: C03_bind_then_unitary, C03_custom_gate_bind_matrix_refuted, C05_dagger, C05_dagger_custom, C05_hermitian_flag_truthful, C05_controlled, C05_modifier_sequence, C05_custom_matrix_of_numbers, C07_unitary_is_sequential_application, C07_failures_agree, C07_concat_is_product, C07_empty_rejected, C08_builtin_unitary, C08_wrong_parameter_count, C08_modified_gate_unitary, C08_circuit_unitary, C08_norm_preserved, C09_round_trip, C09_circuitset, C09_schema, C09_modified_custom_refuted, C09_builtin_name_refuted, C09_second_parameter_refuted, C12_apply, C12_length_mismatch_rejected, C12_free_symbols_rejected, C12_moduli_preserved, C12_compose, C15_sound_rules_preserve_action, C15_u3_rotations, C15_u3_circuit, C15_controlled_u3_trivial_phase, C15_controlled_u3_refuted, C16_wavefunction_amplitudes, C16_first_column, C20_dicke_state, C20_bad_arguments, C34_mmd_value, C34_mmd_multi, C34_mmd, C34_mmd_needs_bits, C36_small_terms_lost_refuted, C37_context_selection, C37_expectation, C37_rejected, C37_accepted, C37_tasks, C41_rejected, C41_counts, C41_optimal, C44_add_error, C44_add_assoc, C44_add_assoc_exact_refuted, C45_accepts, C45_accepted_bound, C45_exact, C45_symmetric, C45_order_dependence_refuted, C45_large_difference_refuted, C45_compress, C45_compress_modulus_refuted, C45_compress_sympy_negative_refuted, C45_induced_norm, C49_hermitian_qubit, C49_hermitian_qubit_bound, C49_hermitian_fermion, C49_hermitian_fermion_bound, C54_term_evolution, C54_term_unitary, C54_not_one_term, C54_constant_phase_refuted, C55_repetitions, C55_trotter_product, C55_other_methods, C55_nothing_to_reduce, C55_derivative_counts, C55_derivative_sequences, C55_zero_coefficient, C55_derivative, C55_two_steps_refuted, C58_pipeline, C58_every_call, C58_gradient_attribute, C58_ansatz_based, C58_iterator_refuted, C63_paulis, C63_phases, C63_rotations, C63_u3, C63_two_qubits, C63_two_qubit_rotations, C63_names, C63_rotations_compose, C63_identities, C64_identity, C64_not_square, C64_unitary_accepted, C64_unitary, C64_equal_up_to_phase, C64_accepted_close, C64_overlap_zero, C64_compare_refuted, C86_circuits, C86_identity_refuted, C91_random, C91_no_qubits, C91_every_circuit, C91_one_qubit_refuted, C91_width_refuted, C91_unitary, C93_random_wavefunction, C93_wavefunction_seed, C93_seed_zero_refuted, C96_save_circuit, C96_failed_save, C96_concatenate, C96_concatenate_error, C96_concatenate_clash, C96_batch, C96_batch_missing, C96_ancilla, C96_evaluate_refuted, C96_build_ansatz, C96_retry_refuted, C98_count, C98_order, C98_accepts, C98_rejects_blind, C98_missing, C98_exception, C98_exact, C98_values_refuted, C98_sampling_refuted, C100_summed, C100_summed_rejected, C100_summed_file_refuted, C100_analysis, C100_analysis_bound, C100_analysis_rejected, C100_untouched, C101_run, C101_run_once, C101_run_simulated, C101_run_default_refuted, C101_set, C101_set_failed, C101_set_numpy_refuted, C101_set_default_refuted, C101_distribution, C101_distribution_refuted, C101_expectation_refuted, C101_expectation, C101_expectation_other, C101_expectation_constant, C101_tracked, C101_tracked_set, C109_amplitudes_one_qubit, C109_amplitudes_two_qubits, C109_expectations_one_qubit, C109_expectations_two_qubits, C109_expectations_one_qubit_angles, C109_expectations_two_qubits_angles, C109_covers, C109_covers_fixed.
* `ClassicalDedekindReals.sig_not_dec` + `ClassicalDedekindReals.sig_forall_dec` + `FunctionalExtensionality.functional_extensionality_dep` + `Classical_Prop.classic`: C14_name_clash_refuted, C34_nll, C34_nll_nonneg, C34_nll_minimal, C34_nll_epsilon, C34_jsd_symmetric, C34_jsd_of_equal_refuted, C58_gradient_error, C88_norm, C88_other_orders, C88_zero, C88_scale, C88_triangle, C88_compare, C88_matrix_size, C88_bound, C88_eigenvalues, C88_renormalize, C88_tiny_refuted, C88_trace_norm_refuted.
