(** Model of utils.py: binary conversions, bitstrings, rounding, array dictionaries, value estimates. *)
From Coq Require Import String Ascii NArith QArith Qround DecimalString.
From Verif Require Import Base MatModel LiftModel Json.
Local Open Scope list_scope.
Local Open Scope nat_scope.

(** utils.py:63-87 [dec2bin].  For a negative number Python's [bin] yields "-0b...", and the slice from position 2
    starts with the letter b, so [int] raises ValueError (lines 80-82).  Lines 83-85 are the padding. *)
Definition dec2bin (number : Z) (length_ : nat) : result (list Z) :=
  if (2 ^ Z.of_nat length_ <? number)%Z then Err SystemExit
  else if (number <? 0)%Z then Err ValueError
  else
    let bit_string := map (fun b : bool => if b then 1 else 0)%Z (bin_digits (Z.to_N number)) in
    if length bit_string <? length_ then Ok (repeat 0%Z (length_ - length bit_string) ++ bit_string)
    else Ok bit_string.

(** utils.py:101-106: the loop of [bin2dec], from the last digit to the first *)
Fixpoint bin2dec_loop (rx : list Z) (dec coeff : Z) : Z :=
  match rx with
  | [] => dec
  | x :: rx' => bin2dec_loop rx' (dec + coeff * x) (coeff * 2)
  end.
(** utils.py:90-106 [bin2dec] *)
Definition bin2dec (x : list Z) : Z := bin2dec_loop (rev x) 0 1.

(** [int(char)] for one ASCII character *)
Definition int_of_char (c : ascii) : result Z :=
  let n := N_of_ascii c in
  if ((48 <=? n) && (n <=? 57))%N then Ok (Z.of_N (n - 48)) else Err ValueError.
(** utils.py:205-222 [convert_bitstrings_to_tuples] (ASCII strings) *)
Definition convert_bitstrings_to_tuples (bitstrings : list string) : result (list (list Z)) :=
  mapM (fun s => mapM int_of_char (list_ascii_of_string s)) bitstrings.
(** [str(n)] *)
Definition str_of_int (n : Z) : string := NilZero.string_of_int (Z.to_int n).
(** utils.py:225-236 [convert_tuples_to_bitstrings] *)
Definition convert_tuples_to_bitstrings (tuples : list (list Z)) : list string :=
  map (fun t => String.concat EmptyString (map str_of_int t)) tuples.

(** utils.py:627-629: "{0:b}".format(i), then zeros are put in front while the string is too short;
    [fuel] bounds the loop *)
Fixpoint pad_loop (fuel num_qubits : nat) (bitstring : string) : result string :=
  match fuel with
  | O => Err OutOfFuel
  | S fuel' => if (String.length bitstring <? num_qubits) then pad_loop fuel' num_qubits (String "0" bitstring) else Ok bitstring
  end.
Definition format_b (i : nat) : string :=
  string_of_list_ascii (map (fun b : bool => if b then "1"%char else "0"%char) (bin_digits (N.of_nat i))).
(** utils.py:615-631 [get_ordered_list_of_bitstrings] *)
Definition get_ordered_list_of_bitstrings (num_qubits : nat) : result (list string) :=
  mapM (fun i => pad_loop (S num_qubits) num_qubits (format_b i)) (seq 0 (2 ^ num_qubits)).

(** ** scale_and_discretize *)
Fixpoint sum_Q (l : list Q) : Q := match l with [] => 0%Q | x :: l' => (x + sum_Q l')%Q end.
Fixpoint sum_Z (l : list Z) : Z := match l with [] => 0%Z | x :: l' => (x + sum_Z l')%Z end.
(** [result[i] += 1]; IndexError when out of range *)
Fixpoint incr_at (i : nat) (l : list Z) : result (list Z) :=
  match l, i with
  | [], _ => Err IndexError
  | x :: l', O => Ok ((x + 1)%Z :: l')
  | x :: l', S i' => let! r := incr_at i' l' in Ok (x :: r)
  end.
(** utils.py:576-606 [scale_and_discretize] on exact numbers and a list (not a one-shot iterator).
    [argsort] is numpy's argsort, whose order among equal remainders is unspecified.  [round] of an exact
    integer is that integer, so [int(round(...))] is a difference of integers; [range] of a negative number is empty. *)
Definition scale_and_discretize (argsort : list Q -> list nat) (values : list Q) (total : Z) : result (list Z) :=
  let value_sum := sum_Q values in
  if Qeq_bool value_sum 0 then Err ZeroDivisionError
  else
    let scale_factor := (QArith_base.inject_Z total / value_sum)%Q in
    let result0 := map (fun v => Qfloor (v * scale_factor)) values in
    let remainders := map (fun v => (v * scale_factor - QArith_base.inject_Z (Qfloor (v * scale_factor)))%Q) values in
    let indexes_sorted_by_remainder := rev (argsort remainders) in
    let! result1 := foldM (fun res index =>
                        match nth_error indexes_sorted_by_remainder index with
                        | Some i => incr_at i res
                        | None => Err IndexError
                        end) (seq 0 (Z.to_nat (total - sum_Z result0))) result0 in
    if negb (sum_Z result1 =? total)%Z then Err AssertionError else Ok result1.

(** ** Arrays and their dictionaries *)
Section Arrays.
  Context {K : cring} (isz : K -> bool).
  Local Notation J := (json K).

  (** numpy arrays: shape and entries in row-major order.  Integer and floating dtypes are not distinguished. *)
  Inductive ndata := RealData (l : list K) | CplxData (l : list (K * K)).
  Record ndarray := { a_shape : list nat; a_data : ndata }.

  Fixpoint prod_nat (l : list nat) : nat := match l with [] => 1 | x :: l' => x * prod_nat l' end.

  (** [n] consecutive pieces of length [k] *)
  Fixpoint pieces {A} (n k : nat) (l : list A) : list (list A) :=
    match n with O => [] | S n' => firstn k l :: pieces n' k (skipn k l) end.
  (** ndarray.tolist: nested lists, or a bare number when the array has rank 0 *)
  Fixpoint tolist (shape : list nat) (data : list K) : J :=
    match shape with
    | [] => match data with x :: _ => JNum x | [] => JNull end
    | n :: shape' => JArr (map (tolist shape') (pieces n (prod_nat shape') data))
    end.

  (** np.array of nested lists of numbers: the shape is read off the first elements; ragged input is a ValueError *)
  Fixpoint infer_shape (j : J) : list nat :=
    match j with
    | JArr [] => [0]
    | JArr (x :: l) => S (length l) :: infer_shape x
    | _ => []
    end.
  Fixpoint flatten (shape : list nat) (j : J) : result (list K) :=
    match shape with
    | [] => match j with JNum x => Ok [x] | _ => Err ValueError end
    | n :: shape' =>
        match j with
        | JArr l => if Nat.eqb (length l) n then rmap (@List.concat K) (mapM (flatten shape') l) else Err ValueError
        | _ => Err ValueError
        end
    end.
  Definition np_array (j : J) : result (list nat * list K) :=
    let sh := infer_shape j in let! d := flatten sh j in Ok (sh, d).

  (** complex arithmetic on pairs: [1j * y] and [x + z] *)
  Definition times_1j (y : K) : K * K := (0 * y - 1 * 0, 0 * 0 + 1 * y)%K.
  Definition plus_c (x : K) (z : K * K) : K * K := (x + fst z, 0 + snd z)%K.

  (** utils.py:43-60 [convert_array_to_dict] *)
  Definition convert_array_to_dict (a : ndarray) : jdict K :=
    match a_data a with
    | CplxData l =>
        [("real"%string, tolist (a_shape a) (map fst l)); ("imag"%string, tolist (a_shape a) (map snd l))]
    | RealData l => [("real"%string, tolist (a_shape a) l)]
    end.

  (** utils.py:25-40 [convert_dict_to_array].  numpy's broadcasting of different shapes is not modelled (ValueError). *)
  Definition convert_dict_to_array (d : jdict K) : result ndarray :=
    let! r := jitem "real" d in
    let! (sh, re) := np_array r in
    match jget "imag" d with
    | Some im =>
        if truthy isz im then
          let! (sh', im') := np_array im in
          if list_eqb Nat.eqb sh sh' then
            Ok {| a_shape := sh; a_data := CplxData (map (fun p => plus_c (fst p) (times_1j (snd p))) (combine re im')) |}
          else Err ValueError
        else Ok {| a_shape := sh; a_data := RealData re |}
    | None => Ok {| a_shape := sh; a_data := RealData re |}
    end.
End Arrays.
Arguments ndata K : clear implicits.
Arguments ndarray K : clear implicits.

(** ** ValueEstimate *)
Section VE.
  Context {K : Type} (keqb : K -> K -> bool).
  (** utils.py:252-257.  A precision may be a Python float or a numpy float (kept as a tag); NaN is not modelled. *)
  Inductive pynum := PyFloat (x : K) | NpFloat (x : K).
  Definition pyval (p : pynum) : K := match p with PyFloat x => x | NpFloat x => x end.
  Record value_estimate := { ve_value : K; ve_precision : option pynum }.
  (** utils.py:268-272 [__eq__] between two value estimates *)
  Definition ve_eqb (a b : value_estimate) : bool :=
    keqb (ve_value a) (ve_value b) && option_eqb (fun x y => keqb (pyval x) (pyval y)) (ve_precision a) (ve_precision b).
  (** utils.py:268-272 [__eq__] with a plain number *)
  Definition ve_eqb_float (a : value_estimate) (x : K) : bool :=
    keqb (ve_value a) x && match ve_precision a with None => true | Some _ => false end.
  (** utils.py:284-298 [to_dict] *)
  Definition ve_to_dict (v : value_estimate) : jdict K :=
    [("schema"%string, JStr "zapata-v1-value_estimate"); ("value"%string, JNum (ve_value v));
     ("precision"%string, match ve_precision v with None => JNull | Some p => JNum (pyval p) end)].
  (** utils.py:300-309 [from_dict]; [float(x)] of something that is not a number is a TypeError, a precision can be
      anything and is modelled for numbers and None only *)
  Definition ve_from_dict (d : jdict K) : result value_estimate :=
    let! value := jitem "value" d in
    match value with
    | JNum x =>
        match jget "precision" d with
        | None => Ok {| ve_value := x; ve_precision := None |}
        | Some JNull => Ok {| ve_value := x; ve_precision := None |}
        | Some (JNum p) => Ok {| ve_value := x; ve_precision := Some (PyFloat p) |}
        | Some _ => Err TypeError
        end
    | _ => Err TypeError
    end.
End VE.

(** utils.py:497-515 [create_symbols_map]; symbols are compared by name *)
Definition create_symbols_map {V} (symbols : list string) (params : list V) : result (list (string * V)) :=
  if negb (Nat.eqb (length symbols) (length params)) then Err ValueError
  else Ok (dict_of String.eqb (combine symbols params)).
