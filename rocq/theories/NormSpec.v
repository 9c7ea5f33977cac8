(** Specification for C88: sums, lengths of vectors, sizes of matrices. *)
From Coq Require Import Reals.
From Verif Require Import Base MatModel Cplx CmpModel OpModel OpSpec.
Local Open Scope R_scope.

Definition total {X} (f : X -> R) (l : list X) : R := fold_right Rplus 0 (map f l).
(** v is the norm of order p of the coefficients: (sum |c|^p)^(1/p) *)
Definition is_norm {A} (p : nat) (a : sop A CC) (v : R) : Prop := 0 <= v /\ v ^ p = total (fun tc => cmod (snd tc) ^ p) a.
(** sum of |entry|^2 of a vector and of a matrix; the latter is the trace of A^dagger A *)
Definition sum_squares (v : vec CC) : R := total (fun i => cabs2 (vent v i)) (seq 0 (vlen v)).
Definition vlength (v : vec CC) : R := sqrt (sum_squares v).
Definition frobenius2 (A : mat CC) : R := total (fun i => total (fun j => cabs2 (ent A i j)) (seq 0 (nc A))) (seq 0 (nr A)).
(** stored terms of a qubit operator are in canonical form *)
Definition canonical_op (a : qop CC) : Prop := forall t c, In (t, c) a -> canonical t.
(** t is the trace norm of A, the trace of the positive square root of A^dagger A *)
Definition trace_norm (A : mat CC) (t : R) : Prop := exists P, nr P = nr A /\ nc P = nc A /\ meq (mmul P P) (mmul (adjoint A) A) /\ meq (adjoint P) P /\
  (forall v, vlen v = nc A -> 0 <= fst (inner v (mvmul P v))) /\ bigsum (nr A) (fun i => ent P i i) = rc t.
