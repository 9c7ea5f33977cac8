(** Model of the norms of openfermion/ops/operators: induced_norm of symbolic_operator.py and renormalize of qubit_operator.py.
    Coefficients are complex numbers with exact arithmetic; [order] is an integer, as documented. *)
From Coq Require Import Reals ZArith.
From Verif Require Import Base MatModel Cplx CmpModel OpModel.
Local Open Scope R_scope.

Definition is_0 (x : R) : bool := if Req_EM_T x 0 then true else false.
(** x ** k for x >= 0 and an integer k: 0.0 has no negative powers *)
Definition float_pow (x : R) (k : Z) : result R := if ((k <? 0)%Z && is_0 x)%bool then Err ZeroDivisionError else Ok (powerRZ x k).
(** s ** (1.0 / k) for s >= 0 *)
Definition float_root (s : R) (k : Z) : result R :=
  if Z.eqb k 0 then Err ZeroDivisionError
  else if is_0 s then (if (k <? 0)%Z then Err ZeroDivisionError else Ok 0)
  else Ok (Rpower s (/ IZR k)).
(** symbolic_operator.py:693-709 *)
Definition induced_norm {A} (a : sop A CC) (order : Z) : result R :=
  let! norm := foldM (fun norm tc => let! x := float_pow (cmod (snd tc)) order in Ok (norm + x)) a 0 in
  float_root norm order.
(** symbolic_operator.py:568-572: self *= 1.0 / divisor for a real divisor *)
Definition real_quotient (divisor : C) : option C := if is_0 (fst divisor) then None else Some (rc (1 / fst divisor)).
(** qubit_operator.py:110-116; numpy.isclose(norm, 0.0) is abs(norm - 0.0) <= 1e-08 + 1e-05 * 0.0.  The operator after the call. *)
Definition renormalize (a : qop CC) : result (qop CC) :=
  let! norm := induced_norm a 2 in
  if Rle_bool' (Rabs (norm - 0)) (/ 100000000 + / 100000 * Rabs 0) then Err ZeroDivisionError
  else op_div (K := CC) real_quotient a (rc norm).
