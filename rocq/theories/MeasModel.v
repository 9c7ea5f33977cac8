(** Model of measurement.py (except loading/saving wavefunctions and [sample_from_wavefunction], see WfModel.v). *)
From Coq Require Import String Ascii QArith Qround Qabs.
From Verif Require Import Base MatModel LiftModel Json UtilsModel DistModel.
Local Open Scope list_scope.
Local Open Scope nat_scope.

(** measurement.py:564-574: the object is its list of bitstrings *)
Definition measurements := list outcome.

(** 696-710 [add_counts]; [list * k] is empty for negative [k] *)
Definition add_counts (m : measurements) (counts : list (string * Z)) : result measurements :=
  foldM (fun ms kv => let! t := mapM int_of_char (list_ascii_of_string (fst kv)) in Ok (ms ++ repeat t (Z.to_nat (snd kv)))) counts m.
(** 576-586 [from_counts] *)
Definition from_counts (counts : list (string * Z)) : result measurements := add_counts [] counts.
(** 686-694 [get_counts] *)
Definition get_counts (m : measurements) : list (string * nat) := counter String.eqb (convert_tuples_to_bitstrings m).
(** 712-725 [get_distribution] *)
Definition get_distribution (m : measurements) : result dist :=
  mk_dist (map (fun kv => (KStr (fst kv), inject_Z (Z.of_nat (snd kv)) / inject_Z (Z.of_nat (length m)))%Q) (get_counts m)) true.

(** 669-684 [save] and 650-667 [load_from_file]: the JSON object *)
Definition measurements_to_json (m : measurements) : jdict Z :=
  [("schema"%string, JStr "zapata-v1-measurements");
   ("counts"%string, JObj (map (fun kv => (fst kv, JNum (Z.of_nat (snd kv)))) (get_counts m)));
   ("bitstrings"%string, JArr (map (fun t => JArr (map JNum t)) m))].
Definition load_measurements (data : jdict Z) : result measurements :=
  let! bs := jitem "bitstrings" data in
  match bs with
  | JArr l => mapM (fun b => match b with
                             | JArr t => mapM (fun x => match x with JNum z => Ok z | _ => Err TypeError end) t
                             | _ => Err TypeError end) l
  | _ => Err TypeError
  end.

(** Python's [round]: to the nearest integer, halves to the even one *)
Definition round_half_even (x : Q) : Z :=
  let f := Qfloor x in
  let r := (x - inject_Z f)%Q in
  if negb (Qle_bool (1 # 2) r) then f
  else if Qeq_bool r (1 # 2) then (if Z.even f then f else (f + 1)%Z)
  else (f + 1)%Z.
(** [x % 1] *)
Definition mod_one (x : Q) : Q := (x - inject_Z (Qfloor x))%Q.
(** list.remove: the first occurrence; ValueError when absent *)
Fixpoint list_remove (a : outcome) (l : list outcome) : result (list outcome) :=
  match l with
  | [] => Err ValueError
  | b :: l' => if outcome_eqb b a then Ok l' else let! r := list_remove a l' in Ok (b :: r)
  end.

Section Repr.
  Context (choice : nat -> list Q -> nat -> result (list nat)).
  (** measurement.py:545-559: the first sample of [correct_samples] (in order) that cannot be removed often enough *)
  Definition first_excess (correct_samples : list (outcome * nat)) (bitstring_counts : list (outcome * nat)) : option (outcome * nat) :=
    find (fun sn => cget outcome_eqb bitstring_counts (fst sn) <? snd sn) correct_samples.
  (** 542-561: the while loop of [_check_sample_elimination]; [k] numbers the calls of the random generator and
      [fuel] bounds the number of rounds *)
  Fixpoint elimination_loop (fuel k : nat) (bitstring_counts : list (outcome * nat)) (correct_samples : list (outcome * nat)) (leftover : dist)
      : result (list (outcome * nat)) :=
    match fuel with
    | O => Err OutOfFuel
    | S fuel' =>
        match first_excess correct_samples bitstring_counts with
        | None => Ok correct_samples
        | Some (sample, n) =>
            let cap := cget outcome_eqb bitstring_counts sample in
            let nresamples := n - cap in
            let correct_samples := dset outcome_eqb sample cap correct_samples in
            let! leftover' := mk_dist (of_tuples (dset outcome_eqb sample 0%Q leftover)) true in
            let! new_samples := sample_from_dist choice k leftover' nresamples in
            elimination_loop fuel' (S k) bitstring_counts (counter_add outcome_eqb correct_samples new_samples) leftover'
        end
    end.
  (** 515-561 [_check_sample_elimination] *)
  Definition check_sample_elimination (k : nat) (samples : list (outcome * nat)) (bitstring_samples : list outcome) (leftover : dist)
      : result (list (outcome * nat)) :=
    let! corrected := mk_dist (of_tuples leftover) true in
    elimination_loop (S (length leftover)) k (counter outcome_eqb bitstring_samples) samples corrected.

  (** 589-648 [get_measurements_representing_distribution] *)
  Definition representing (d : dist) (number_of_samples : Z) : result measurements :=
    let bitstring_samples :=
      flat_map (fun kv => repeat (fst kv) (Z.to_nat (round_half_even (snd kv * inject_Z number_of_samples)))) d in
    let len := Z.of_nat (length bitstring_samples) in
    if Z.eqb len number_of_samples then Ok bitstring_samples
    else
      let! leftover :=
        mk_dist (of_tuples (map (fun kv => (fst kv, (1 # 2) - Qabs ((1 # 2) - mod_one (snd kv * inject_Z number_of_samples)))%Q) d)) true in
      let! samples := sample_from_dist choice 0 leftover (Z.to_nat (Z.abs (number_of_samples - len))) in
      if (0 <? number_of_samples - len)%Z then
        Ok (bitstring_samples ++ flat_map (fun sn => repeat (fst sn) (snd sn)) samples)
      else
        let! samples := check_sample_elimination 1 samples bitstring_samples leftover in
        foldM (fun bs sn => foldM (fun bs a => list_remove a bs) (repeat (fst sn) (snd sn)) bs) samples bitstring_samples.
End Repr.

(** ** Parities and expectation values *)
(** 427-444 [check_parity] for a tuple of integers and non-negative positions *)
Fixpoint check_parity_from (result_ : bool) (bitstring : list Z) (marked : list nat) : result bool :=
  match marked with
  | [] => Ok result_
  | q :: marked' =>
      match nth_error bitstring q with
      | None => Err IndexError
      | Some b => check_parity_from (if Z.eqb b 1 then negb result_ else result_) bitstring marked'
      end
  end.
Definition check_parity := check_parity_from true.
(** 415-424 [convert_bitstring_to_int] for lists of bits; int("", 2) is a ValueError *)
Definition convert_bitstring_to_int (bitstring : list bool) : result Z :=
  match bitstring with [] => Err ValueError | _ => Ok (Z.of_nat (bval (rev bitstring))) end.

(** 447-471 [check_parity_of_vector]: [rows] are the bitstrings of a two-dimensional array, with [ncols] columns *)
Definition check_parity_of_vector (ncols : nat) (rows : list (list Z)) (marked : list nat) : result (list Z) :=
  match marked with
  | [] => Ok (map (fun _ => 1%Z) rows)
  | _ =>
      if forallb (fun q => q <? ncols) marked then
        Ok (map (fun r => ((sum_Z (map (fun q => nth q r 0%Z) marked) + 1) mod 2)%Z) rows)
      else Err IndexError
  end.
(** reshape(-1, n) *)
Fixpoint rows_of (fuel n : nat) (l : list Z) : list (list Z) :=
  match fuel with
  | O => []
  | S fuel' => match l with [] => [] | _ => firstn n l :: rows_of fuel' n (skipn n l) end
  end.
(** 474-479 [_convert_bitstrings_to_vector] for ASCII strings whose characters are not below "0" (no wrap-around of the
    unsigned subtraction).  Reshaping fails unless the total length is a multiple of a non-zero width. *)
Definition convert_bitstrings_to_vector (bitstrings : list string) : result (nat * list (list Z)) :=
  match bitstrings with
  | [] => Err IndexError
  | s :: _ =>
      let n_qubits := String.length s in
      let all_bits := map (fun c => (Z.of_N (N_of_ascii c) - 48)%Z) (flat_map list_ascii_of_string bitstrings) in
      if Nat.eqb n_qubits 0 then Err ValueError
      else if negb (Nat.eqb (length all_bits mod n_qubits) 0) then Err ValueError
      else Ok (n_qubits, rows_of (length all_bits) n_qubits all_bits)
  end.
(** 482-512 [get_expectation_value_from_frequencies] *)
Definition expectation_from_frequencies (marked : list nat) (freq : list (string * nat)) : result Q :=
  let! (n, rows) := convert_bitstrings_to_vector (map fst freq) in
  let! par := check_parity_of_vector n rows marked in
  let parity := map (fun p => p * 2 - 1)%Z par in
  let num_measurements := sum_nat (map snd freq) in
  Ok (sum_Q (map (fun cp => (inject_Z (Z.of_nat (fst cp)) * inject_Z (snd cp) / inject_Z (Z.of_nat num_measurements))%Q)
               (combine (map snd freq) parity))).

(** Ising operators: ordered dictionaries from tuples of (qubit, "Z") - the list of qubits - to coefficients.
    Coefficients are exact real numbers. *)
Definition ising := list (list nat * Q).
Definition symmetric_difference (a b : list nat) : list nat :=
  filter (fun q => negb (memb Nat.eqb q b)) a ++ filter (fun q => negb (memb Nat.eqb q a)) b.

Record expectation_values := { ev_values : list Q; ev_correlations : option (list (list (list Q)));
                               (** [None] in place of a matrix: the division by zero gives NaN or infinities *)
                               ev_covariances : option (list (option (list (list Q)))) }.
(** 766-783: entry (i, j) of the matrix of correlations; iteration order of sets is arbitrary ([setorder]) *)
Definition correlation (setorder : list nat -> list nat) (freq : list (string * nat)) (op : ising) (i j : nat) : result Q :=
  let at_ k := nth k op ([], 0%Q) in
  if Nat.eqb i j then Ok (snd (at_ i) * snd (at_ i))%Q
  else
    let hi := Nat.max i j in let lo := Nat.min i j in
    let marked := setorder (symmetric_difference (uniq Nat.eqb (fst (at_ hi))) (uniq Nat.eqb (fst (at_ lo)))) in
    let! e := expectation_from_frequencies marked freq in
    Ok (snd (at_ hi) * snd (at_ lo) * e)%Q.
(** 727-796 [Measurements.get_expectation_values] (the check of the operator's class is not modelled) *)
Definition get_expectation_values (setorder : list nat -> list nat) (m : measurements) (op : ising) (use_bessel_correction : bool)
    : result expectation_values :=
  let freq := get_counts m in
  let num_measurements := Z.of_nat (length m) in
  let! values := mapM (fun tc => let! e := expectation_from_frequencies (fst tc) freq in Ok (snd tc * e)%Q) op in
  let idx := seq 0 (length op) in
  let! corr := mapM (fun i => mapM (fun j => correlation setorder freq op i j) idx) idx in
  let denominator := (if use_bessel_correction then num_measurements - 1 else num_measurements)%Z in
  let cov := if Z.eqb denominator 0 then None
             else Some (map (fun i => map (fun j => ((nth j (nth i corr []) 0 - nth i values 0 * nth j values 0) / inject_Z denominator)%Q) idx) idx) in
  Ok {| ev_values := values; ev_correlations := Some [corr]; ev_covariances := Some [cov] |}.

(** 349-352: np.array of the distinct tuples; tuples of different lengths do not form a rectangular array *)
Definition vector_of (l : list outcome) : result (nat * list (list Z)) :=
  match l with
  | [] => Ok (0, [])
  | t :: _ => if forallb (fun r => Nat.eqb (length r) (length t)) l then Ok (length t, l) else Err ValueError
  end.
Definition dot (a : list Z) (b : list nat) : Z := sum_Z (map (fun p => fst p * Z.of_nat (snd p))%Z (combine a b)).
Record parities := { par_values : list (Z * Z); par_correlations : option (list (list (list (Z * Z)))) }.
(** 328-388 [get_parities_from_measurements]; without measurements a term that is not constant indexes an array of rank one *)
Definition get_parities_from_measurements (m : measurements) (op : ising) : result parities :=
  let freq := counter outcome_eqb m in
  let counts := map snd freq in
  let! (n, rows) := vector_of (map fst freq) in
  let! values := mapM (fun tc => let! p := check_parity_of_vector n rows (fst tc) in
                                 Ok (dot p counts, dot (map (fun x => 1 - x)%Z p) counts)) op in
  let! corr := mapM (fun t1 => mapM (fun t2 =>
                  let! p1 := check_parity_of_vector n rows (fst t1) in
                  let! p2 := check_parity_of_vector n rows (fst t2) in
                  let equal_parities := map (fun ab => Z.abs (fst ab - snd ab)) (combine p1 p2) in
                  Ok (dot (map (fun x => 1 - x)%Z equal_parities) counts, dot equal_parities counts)) op) op in
  Ok {| par_values := values; par_correlations := Some [corr] |}.
