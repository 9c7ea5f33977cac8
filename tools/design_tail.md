
## 5. What is not modelled

* Floating point: rounding errors, overflow, NaN and the dtype of numpy arrays (integer arrays that truncate,
  `numpy.invert` of integers, 64-bit encodings).  Tolerances are kept where the code compares with them
  (`small`, `isclose`), as predicates or as real inequalities.
* The text layer of JSON and of files: `json`, `open` and `h5py` are a map from names to documents, in which a write
  can stop half-way and leave a torn file (C95-C101); concurrent writers are modelled for molecules only (C107).
* sympy beyond the expression trees of `SymModel`/`CircuitModel`: simplification is an oracle that
  preserves values, printing is not modelled except for the names that the code looks at.
* Native back ends, optimizers, estimators and other user callbacks: arguments of the model.
* networkx, numpy.random and random: oracles restricted by their documented contract.
* The eigen-solvers of numpy and scipy: a solver with its contract is an argument of the functions that call it (C104).
* Typing, deprecation warnings, logging, `__repr__`/`__str__` except operator text (C67).
* Dead code and small helpers: `_bravyi_kitaev_majorana_operator`, `openfermion/_compat.py`, `check_no_sympy`,
  `bohr_to_angstroms`, `random_unitary_matrix`, `module_importable`, the conversion from the former
  circuit class (`circuits/_compatibility.py`), and the pytest classes for backends and optimizers.

## 6. Trusted base

* the Coq kernel (8.16.1), including `vm_compute`, used for closed computations in examples and small tables;
* the axioms listed below, all from Coq's standard library (they come with its real numbers, with functional
  extensionality and with classical logic); no axiom is added here, and no library other than the standard
  library contributes one;
* the reading of the Python source: every definition of a model cites the file and lines it models and names its
  simplifications;
* the specifications (`XxxSpec.v`, and the definitions in Props files): small, and independent of the models' helpers.

The theorems are tested against wrong programs: `tools/mutate.py` rebuilds a scratch copy after each edit of a model
definition and records the theorems that fail; the log is `seeded/LOG.jsonl`.
