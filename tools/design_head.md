# Formal model of z-quantum-core in Coq 8.16

Source modelled: `/repo/src/python/zquantum/core` (paths below are relative to it).
Everything is under `rocq/theories` (logical name `Verif`).

## 1. Approach

* Python functions are modelled one by one as total Gallina functions.  Exceptions are
  values: `result A := Ok a | Err exn` (`Base.v`).  Python dictionaries are insertion ordered
  association lists with in-place update; sets are lists without duplicates whose
  iteration order is left to an argument wherever it can be observed.
* Loops are folds / structural recursion.  Where the code loops on a condition, the model has
  explicit fuel and returns a distinct error on exhaustion; theorems prove that the error is never
  returned.
* Numbers: integers are `Z`/`nat`/`N`.  Floating point numbers are replaced by exact numbers:
  canonical rationals `Qc` or Gaussian rationals where the model has to compute, the real numbers of the
  standard library (and complex numbers built from pairs of them) where trigonometry is needed,
  and an arbitrary commutative ring with involution where the statement is purely algebraic.
  Round-off is therefore not modelled.
* Randomness, user callbacks (predicates, cost functions, native back ends), the text layer of JSON and
  sympy simplification are arguments of the model functions (closed Section variables), so theorems
  quantify over them.
* Each area has a model file (`XxxModel.v`, no proofs), a proof file (`XxxProofs.v`) and a file with
  only the property theorems (`XxxProps.v`), with `Example`s showing that
  the hypotheses can be met, and with `Print Assumptions` of each theorem.
  Specifications independent of the model are in `XxxSpec.v` or at the head of the Props file.
* A property which is false of the code as written is stated as `..._refuted` with a concrete witness,
  next to the part which does hold.
