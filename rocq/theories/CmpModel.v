(** utils.py:109-164: tests for identity and unitarity, comparison up to a phase; exact real arithmetic. *)
From Coq Require Import Reals.
From Verif Require Import Base MatModel Cplx.
Local Open Scope R_scope.

(** [abs] of a complex number *)
Definition cmod (z : C) : R := sqrt (cabs2 z).
(** numpy's isclose(a, b, rtol=1e-5, atol): |a - b| <= atol + rtol |b| *)
Definition isclose (atol : R) (a b : C) : bool :=
  if Rle_dec (cmod (csub a b)) (atol + 1 / 100000 * cmod b) then true else false.
(** np.allclose on matrices of equal shape *)
Definition allclose (atol : R) (A B : mat CC) : bool :=
  forallb (fun i => forallb (fun j => isclose atol (ent A i j) (ent B i j)) (seq 0 (nc A))) (seq 0 (nr A)).
(** 1 / z, [z ** -1]: ZeroDivisionError for Python's zero *)
Definition is_zero (z : C) : bool := if Req_EM_T (cabs2 z) 0 then true else false.
Definition cinv (z : C) : C := (fst z / cabs2 z, - snd z / cabs2 z).
Definition power_minus_one (z : C) : result C := if is_zero z then Err ZeroDivisionError else Ok (cinv z).

(** 109-123; [raise Exception] is [GenericException] *)
Definition is_identity (u : mat CC) (tol : R) : result bool :=
  if negb (Nat.eqb (nr u) (nc u)) then Err GenericException else Ok (allclose tol u (eye (nr u))).
(** 126-141 *)
Definition is_unitary (u : mat CC) (tol : R) : result bool :=
  if negb (Nat.eqb (nr u) (nc u)) then Err GenericException else is_identity (mmul (adjoint u) u) tol.
(** 144-164; np.dot raises ValueError for different sizes, item((0, 0)) IndexError for empty matrices *)
Definition compare_unitary (u1 u2 : mat CC) (tol : R) : result bool :=
  let! t1 := is_unitary u1 tol in
  if negb t1 then Err GenericException
  else let! t2 := is_unitary u2 tol in
    if negb t2 then Err GenericException
    else
      let! test_matrix := matmul (adjoint u1) u2 in
      if Nat.eqb (nr test_matrix) 0 then Err IndexError
      else
        let! phase := power_minus_one (ent test_matrix 0%nat 0%nat) in
        is_identity (mscale (K := CC) phase test_matrix) tol.
