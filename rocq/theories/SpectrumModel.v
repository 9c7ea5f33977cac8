(** Model of eigenvalue computations: linalg/sparse_tools.py:326-387 and is_hermitian for sparse matrices (utils/operator_utils.py:106-112).
    The eigensolvers of numpy and scipy are arguments. *)
From Coq Require Import List Arith.
From Verif Require Import Base MatModel OpModel FermiModel TensorModel SparseModel.
Import ListNotations.
Open Scope list_scope.

Section Spectrum.
  Context {K : cring} (im half : K) (small is_zero : K -> bool).
  (** [negligible]: |x| < EQ_TOLERANCE.  [leb]: the order of numpy.sort (for complex numbers: by real part, then by imaginary part). *)
  Context (negligible : K -> bool) (leb : K -> K -> bool).
  (** numpy.linalg.eigvalsh and eigvals; scipy.sparse.linalg.eigsh with k=1 and which="SA": eigenvalues, and eigenvectors as the columns of a matrix *)
  Context (eigvalsh eigvals : mat K -> result (list K)) (eigsh : mat K -> option (vec K) -> result (list K * mat K)).

  (** operator_utils.py:106-112: the largest of the entries stored in the difference; entries that are not stored are 0.
      Simplification: a matrix that is not square is a ValueError in numpy; sparse matrices of operators are square. *)
  Definition sparse_is_hermitian (A : mat K) : bool :=
    forallb (fun i => forallb (fun j => let d := ksub (ent A i j) (kconj (ent A j i)) in is_zero d || negligible d) (seq 0 (nc A))) (seq 0 (nr A)).
  (** 376-387 *)
  Definition sparse_eigenspectrum (A : mat K) : result (list K) :=
    let! l := if sparse_is_hermitian A then eigvalsh A else eigvals A in Ok (sort_by leb l).
  (** 353-373 *)
  Definition eigenspectrum (o : operand) (n_qubits : option nat) : result (list K) :=
    let! A := get_sparse_operator im half small is_zero o n_qubits in sparse_eigenspectrum A.
  (** numpy.argsort *)
  Definition argsort (values : list K) : list nat := map snd (sort_by (fun a b : K * nat => leb (fst a) (fst b)) (combine values (seq 0 (length values)))).
  (** 326-350 *)
  Definition get_ground_state (A : mat K) (initial_guess : option (vec K)) : result (K * vec K) :=
    let! r := eigsh A initial_guess in
    let '(values, vectors) := r in
    match argsort values with
    | [] => Err IndexError
    | i :: _ => match nth_error values i with
                | Some eigenvalue => Ok (eigenvalue, Build_vec (nr vectors) (fun j => ent vectors j i))
                | None => Err IndexError
                end
    end.
End Spectrum.
