{
 "C01": [
  "CircuitModel",
  "circuits as lists of operations with a width; list induction"
 ],
 "C02": [
  "CircuitModel",
  "the split loop as a fold over operations and predicates; invariant: concatenation is the input, neighbouring parts differ"
 ],
 "C03": [
  "CircuitModel, GateMatModel",
  "parameters as expression trees, substitution; structural induction on expressions and gates"
 ],
 "C04": [
  "CircuitModel",
  "gate trees with dagger and control; structural induction"
 ],
 "C05": [
  "GateMatModel, MatModel",
  "matrices as functions nat -> nat -> K; structural induction on gate trees, matrix algebra over a commutative ring with involution"
 ],
 "C06": [
  "LiftModel",
  "kron, permutation and matrix product as coded; specification by bit lists; sums over bit lists"
 ],
 "C07": [
  "GateMatModel",
  "product of lifted matrices against application to a state; induction on operations, associativity"
 ],
 "C08": [
  "GateMatModel",
  "closure of unitarity under the constructors; trigonometric identities over R for the built-in gates"
 ],
 "C09": [
  "SerdeModel",
  "dictionaries as an inductive JSON type, each branch of the (de)serialisers; induction on gates; refutation witnesses"
 ],
 "C10": [
  "SerdeModel, CircuitModel",
  "entrywise comparison of matrices; list induction; refutation of the zip comparison"
 ],
 "C11": [
  "CircuitModel",
  "generators as folds over ranges; list induction"
 ],
 "C12": [
  "GateMatModel",
  "phases as unit complex numbers; |exp(ix)z| = |z| over R"
 ],
 "C13": [
  "LayoutModel",
  "layer construction as list comprehensions over ranges; arithmetic on indices"
 ],
 "C14": [
  "SymModel",
  "sympy trees and native trees with evaluators over a field; structural induction"
 ],
 "C15": [
  "DecompModel",
  "rule application as a fuel-bounded flat map; list induction; U3 identity over C"
 ],
 "C16": [
  "BackendModel",
  "simulator loop over the parts of a split circuit with oracles for native back ends; induction on parts"
 ],
 "C17": [
  "BackendModel",
  "step functions on counters; induction over histories of calls"
 ],
 "C18": [
  "BackendModel",
  "tracker state machine with a file; induction over histories of calls"
 ],
 "C19": [
  "WfModel",
  "amplitudes as vectors, mutations as steps that validate; invariant over histories"
 ],
 "C20": [
  "WfModel",
  "Gosper iteration on N with fuel; bit lemmas, lexicographic order invariant"
 ],
 "C21": [
  "WfModel",
  "reindexing by reversed bits; bit-list involution"
 ],
 "C22": [
  "WfModel, DistModel",
  "labels produced by each function; equality of conventions for every index"
 ],
 "C23": [
  "UtilsModel",
  "bits of Z/nat; induction"
 ],
 "C24": [
  "UtilsModel",
  "enumeration of tuples; induction on the length"
 ],
 "C25": [
  "UtilsModel",
  "rounding on Q, correction loop; arithmetic invariants"
 ],
 "C26": [
  "UtilsModel",
  "dictionaries of real and imaginary parts; list induction"
 ],
 "C27": [
  "MeasModel",
  "counts as ordered dictionaries; induction on samples"
 ],
 "C28": [
  "MeasModel",
  "rounding with residual allocation, random choices as an argument; sums; refutation of the floor bound"
 ],
 "C29": [
  "MeasModel, EvModel",
  "parities of bits, means and covariances over Q / a field; induction on samples"
 ],
 "C30": [
  "MeasModel",
  "even/odd tallies; induction on samples"
 ],
 "C31": [
  "EvModel",
  "lists and block matrices; induction"
 ],
 "C32": [
  "DistModel",
  "association lists over R; sums"
 ],
 "C33": [
  "DistModel, UtilsModel",
  "text keys and dictionaries; induction"
 ],
 "C34": [
  "DistanceModel",
  "log-likelihood, Jensen-Shannon and MMD over R; sums, symmetry, refutations"
 ],
 "C35": [
  "DistModel",
  "samples as histories of an oracle that respects its weights; induction"
 ],
 "C36": [
  "EstModel",
  "the greedy grouping fold; invariants (qubit-wise commutation, permutation of terms)"
 ],
 "C37": [
  "EstModel",
  "per-qubit basis changes by RX/RY; identities of 2x2 matrices over C, tensor products"
 ],
 "C38": [
  "EstModel",
  "allocation formulas over R with rounding; sums and bounds"
 ],
 "C39": [
  "EstModel",
  "evaluation pipeline over oracles; list induction"
 ],
 "C40": [
  "EstModel, SymModel",
  "mapping of bindings; list induction, refutation"
 ],
 "C41": [
  "EstModel",
  "budget sums over R; inequalities"
 ],
 "C42": [
  "OpModel",
  "operators as ordered dictionaries of Pauli words; matrices as tensor products; induction on words and terms"
 ],
 "C43": [
  "OpModel",
  "Ising words; diagonal matrices; induction"
 ],
 "C44": [
  "OpModel",
  "all arithmetic dunders on dictionaries; fold invariants, coefficient sums"
 ],
 "C45": [
  "OpModel",
  "isclose and friends; induction; refutations"
 ],
 "C46": [
  "FermiModel",
  "normal ordering by fuel-bounded rewriting; semantics as operators on bit vectors; invariants, termination"
 ],
 "C47": [
  "FermiModel",
  "ladder operators as Pauli sums; matrix elements on bit vectors"
 ],
 "C48": [
  "FermiModel",
  "Fenwick tree sets by recursion on the binary structure; encoding is a bijection of bit vectors; matrix elements"
 ],
 "C49": [
  "FermiModel, OpModel",
  "conjugation of dictionaries; adjoint matrices"
 ],
 "C50": [
  "ReindexModel",
  "renaming of qubits; permutation matrices of wires"
 ],
 "C51": [
  "PauliExpModel",
  "loop over label tuples and trace; completeness of the Pauli basis"
 ],
 "C52": [
  "TensorModel",
  "PolynomialTensor as a dictionary into a heap of arrays; state monad, aliasing"
 ],
 "C53": [
  "ConvModel",
  "dictionary and representation conversions; induction; matrix elements"
 ],
 "C54": [
  "EvolModel",
  "basis changes, CNOT ladder and RZ; exponential as cos/sin of an involution; induction on the word"
 ],
 "C55": [
  "EvolModel",
  "lists of term circuits per step; induction on terms and steps; refutation"
 ],
 "C56": [
  "HistModel",
  "objects on a heap, recorders as state machines; induction over histories of calls"
 ],
 "C57": [
  "AugModel",
  "function transformers with state; composition, induction"
 ],
 "C58": [
  "CostModel",
  "cost functions over an oracle for estimation; finite differences"
 ],
 "C59": [
  "AnsatzModel",
  "cache state machine with invalidation; induction over histories"
 ],
 "C60": [
  "OptModel",
  "nested histories; induction"
 ],
 "C61": [
  "EncModel",
  "inductive JSON trees; encoder/decoder branch by branch; induction; refutations"
 ],
 "C62": [
  "GraphModel",
  "graphs as ordered adjacency lists, random generation over an oracle; induction"
 ],
 "C63": [
  "GateMatModel",
  "every factory of the gate library; specification by the textbook matrices"
 ],
 "C64": [
  "CmpModel",
  "loops over entries with tolerance over R; characterisation; refutation"
 ],
 "C65": [
  "UtilsModel, CircuitModel",
  "folds over text and lists; induction"
 ],
 "C66": [
  "SymModel",
  "sort keys and comparison of texts; sortedness, totality"
 ],
 "C67": [
  "OpTextModel",
  "parser and printer on lists of characters; grammar as specification; induction"
 ],
 "C68": [
  "ReindexModel",
  "loops over ladder words with frozen modes; matrix elements between product states"
 ],
 "C69": [
  "CommModel",
  "products and differences of dictionaries; matrix identities; predicates by cases"
 ],
 "C70": [
  "RevJWModel",
  "Pauli by Pauli expansion in ladder operators; matrix elements; uniqueness of normal form"
 ],
 "C71": [
  "HubbardModel",
  "loops over the grid; specification as sums over edges; induction"
 ],
 "C72": [
  "DiagModel",
  "filters of terms; diagonal of the matrix"
 ],
 "C73": [
  "JWInterModel",
  "case analysis loops over tensors; matrix elements, symmetries of the tensors"
 ],
 "C74": [
  "SparseModel",
  "loops over tensor factors; matrix of bit vectors"
 ],
 "C75": [
  "SparseModel",
  "occupation numbers, index sets; bit lists and sums"
 ],
 "C76": [
  "SectorOpModel",
  "enumeration of sector states and matrix elements by parity sums; induction on words"
 ],
 "C77": [
  "UCCModel",
  "enumeration of excitations; particle number, spin and anti-Hermiticity; permutations"
 ],
 "C78": [
  "MolModel",
  "spin-orbital tensors, active-space integrals; sums over spin orbitals, elements between product states"
 ],
 "C79": [
  "MolModel",
  "reduced tensors; algebra on the sector of fixed particle number"
 ],
 "C80": [
  "MolModel",
  "enumerations with complex/real symmetries; orbit representatives"
 ],
 "C81": [
  "RdmModel",
  "contraction of tensors; averages in a state"
 ],
 "C82": [
  "RdmModel",
  "tensors of product states and of a ground-state oracle; sums"
 ],
 "C83": [
  "RotModel",
  "einsum over rotated indices; Bogoliubov-type substitution of ladder operators; unitary case"
 ],
 "C84": [
  "RotModel",
  "renaming, projection and removal of modes; matrix elements"
 ],
 "C85": [
  "BKInterModel",
  "Seeley-Richard-Love table and the interaction loops; encoded states, independence of Pauli words"
 ],
 "C86": [
  "QopUtilModel",
  "labels, random histories, evaluation and circuits; induction, counting, matrix of wires"
 ],
 "C87": [
  "MolIntModel",
  "arrays of integrals, transposes and einsum, even indices, optional attributes; diagonal of the second-quantised sums, exchange of summation indices, restriction to active orbitals"
 ],
 "C88": [
  "NormModel",
  "complex coefficients over the reals, powers and roots with Python's failures; convexity and Minkowski's inequality by induction, orthogonality of Pauli words, unitarity of words"
 ],
 "C89": [
  "CompatModel",
  "functions as state transformers with three outcomes, arguments as trees; induction on the tree for the replaced arguments, the order of effects and the first failure"
 ],
 "C90": [
  "CreateModel",
  "dictionaries in a store, Python's binding of arguments, functools.partial, imports and calls as programs on a world; symbolic execution of create_object"
 ],
 "C91": [
  "RandCircModel",
  "the generator as a record of draws over an arbitrary state; induction on the number of gates; a scripted generator shows that every circuit can come up"
 ],
 "C92": [
  "OpStepModel",
  "the constant of a normal ordered product is the vacuum expectation (every other normal ordered term vanishes there); ladder terms as monomial matrices; C42, C46, C48, C53, C73"
 ],
 "C93": [
  "RandOpModel, RandWfModel",
  "the symmetries are invariants of the loop: each iteration overwrites a whole orbit of indices; invariants over the draws; C73, C49"
 ],
 "C94": [
  "BackendStepModel",
  "a frame rule for programs on the store of dictionaries (entries that may change, bound on fresh dictionaries); symbolic runs; C90"
 ],
 "C95": [
  "MolFileModel",
  "symbolic run of the save steps with an invariant (fields equal, every property shows the same); frame lemma for crash points; uniqueness of strictly sorted lists for names"
 ],
 "C96": [
  "CircStepModel",
  "runs of the steps on a file map; round trip from C09, sums from C01, ancillas from C11"
 ],
 "C97": [
  "OpFileModel",
  "round trips from C67 and the sum of C44; runs of save and load on a file map"
 ],
 "C98": [
  "ContractModel",
  "runs of the contracts for arbitrary estimators; the mean after RX from the gate matrices; nested optimizers from C60"
 ],
 "C99": [
  "ArtModel, GraphStepModel",
  "a generic lemma about writing and reading one file, with the round trips of dictionaries of C13, C26, C27, C31, C33, C53, C62 and C90; induction on JSON values; unique reading of Pauli strings"
 ],
 "C100": [
  "EvalStepModel, on RdmModel, SparseModel, QopUtilModel, EstModel, MeasModel and CostModel",
  "composition of C27, C36, C41, C75, C81, C82 and C86 through files; sums of covariances rewritten as the mean squared deviation of the energy, by induction on terms and shots; failures by the frame of the reading monad"
 ],
 "C101": [
  "RunStepModel, on BackendModel, SerdeModel, EstModel, MeasModel, DistModel and CostModel",
  "composition of C18, C26, C29, C32 and C39 through files and backend states; induction over the list of circuits"
 ],
 "C102": [
  "FuncModel: a memory of callables with attributes and signatures",
  "chains of decorators as a relation, shown equal to the search with a memory of visited objects (pigeonhole); induction on the age of pairs"
 ],
 "C103": [
  "ExFunModel, over the standard library's reals",
  "derivatives of polynomials; binary digits of C23"
 ],
 "C104": [
  "SpectrumModel over SparseModel; eigensolvers are arguments",
  "sorting lemmas; conjugation by the unitary encoding of C48 carries eigenvectors and diagonalisations over"
 ],
 "C105": [
  "EqTestModel: subjects with arbitrary comparison methods; Python's rules for == and !=",
  "checks shown equivalent to declarative predicates; induction on the sequence of groups, permutations"
 ],
 "C106": [
  "VersionModel: the regular expression as a deterministic reader",
  "induction on texts; decimal numerals as in the models of symbols and operator texts"
 ],
 "C107": [
  "MolConcModel: processes with the steps of save, over shared files, and a schedule",
  "an invariant of all processes and files, kept by every step of every process; refinement of C95's save by a process alone"
 ],
 "C108": [
  "TrackFileModel: the tracker's calls with the steps of writing the file",
  "case analysis of one call; induction over histories; agreement with C18's model"
 ],
 "C109": [
  "GenCasesModel: the script's matrices, rows and tables; the library side is the model of C06-C09",
  "equality of matrices by trigonometric identities; lifting gives the circuit's state; Pauli operators applied by the library's gates"
 ]
}