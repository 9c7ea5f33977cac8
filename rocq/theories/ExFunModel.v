(** Model of history/example_functions.py: functions with gradients and functions that store artifacts. *)
From Coq Require Import String Ascii List ZArith NArith Bool Reals.
From Verif Require Import Base LiftModel.
Import ListNotations.
Open Scope list_scope.

(** ** Functions of several numbers; arrays of floats are lists of reals *)
Local Open Scope R_scope.
(** params[i] *)
Definition at_ (params : list R) (i : nat) : result R := match nth_error params i with Some x => Ok x | None => Err IndexError end.
(** example_functions.py:20-29 [sum_of_squares] *)
Definition sum_of_squares (params : list R) : R := fold_left (fun s x => s + x ^ 2) params 0.
(** 33-36 [function_1] *)
Definition function_1 (params : list R) : result R := let! x := at_ params 0 in let! y := at_ params 1 in Ok (x ^ 2 - x * y).
Definition function_1_gradient (params : list R) : result (list R) := let! x := at_ params 0 in let! y := at_ params 1 in Ok [2 * x - y; - x].
(** 39-73 [Function2] *)
Definition function2 (multiplier : R) (params : list R) : result R :=
  let! x := at_ params 0 in let! y := at_ params 1 in let! z := at_ params 2 in Ok (multiplier * (x - x * y + z ^ 2)).
Definition function2_gradient (multiplier : R) (params : list R) : result (list R) :=
  let! y := at_ params 1 in let! x := at_ params 0 in let! z := at_ params 2 in Ok (map (Rmult multiplier) [1 - y; - x; 2 * z]).
(** 107-150 [Function5]: the value and, if a store is given and the first number is positive, an artifact; the artifact is stored before the last number is looked at *)
Definition function5 (alpha : R) (params : list R) (store_given : bool) : list (string * R) * result R :=
  match at_ params 0 with
  | Err e => ([], Err e)
  | Ok x =>
      let value := let! y := at_ params 1 in let! z := at_ params 2 in Ok (alpha * x * y * z) in
      if (if Rlt_dec 0 x then true else false) && store_given
      then match at_ params 1 with Err e => ([], Err e) | Ok y => ([("something"%string, x + y)], value) end
      else ([], value)
  end.
Definition function5_gradient (alpha : R) (params : list R) : result (list R) :=
  let! y := at_ params 1 in let! z := at_ params 2 in let! x := at_ params 0 in Ok (map (Rmult alpha) [y * z; x * z; x * y]).
(** 153-155 [function_6]: the two halves of a FunctionWithGradientStoringArtifacts *)
Definition function_6 := function5 5.
Definition function_6_gradient := function5_gradient 5.
Local Close Scope R_scope.

(** ** Functions of an integer *)
(** Python's [bin] *)
Definition bin (n : Z) : string :=
  ((if (n <? 0)%Z then "-0b" else "0b") ++ string_of_list_ascii (map (fun b : bool => if b then "1" else "0")%char (bin_digits (Z.to_N (Z.abs n)))))%string.
(** a slice from position [k] on *)
Fixpoint from_position (k : nat) (s : string) : string := match k, s with S k', String _ s' => from_position k' s' | _, _ => s end.
(** 76-93 [function_3] and 96-104 [function_4], whose artifact is forced for even numbers: the artifacts (name, content, force) and the value *)
Definition function_3 (params : Z) (store_given : bool) : list (string * string * bool) * Z :=
  ((if store_given then [("bitstring"%string, from_position 2 (bin params), false)] else []), (2 * params)%Z).
Definition function_4 (params : Z) (store_given : bool) : list (string * string * bool) * Z :=
  ((if store_given then [("bitstring"%string, from_position 2 (bin params), (params mod 2 =? 0)%Z)] else []), (2 * params)%Z).
