(** Model of distribution/_measurement_outcome_distribution.py and of sampling from a distribution (utils.py). *)
From Coq Require Import String Ascii QArith Qround Qminmax Qabs DecimalString.
From Verif Require Import Base MatModel LiftModel Json UtilsModel.
Local Open Scope list_scope.
Local Open Scope nat_scope.

(** Outcomes are tuples of integers. *)
Definition outcome := list Z.
Definition outcome_eqb : outcome -> outcome -> bool := list_eqb Z.eqb.
Definition dist := list (outcome * Q).

(** Keys a caller may pass: strings, tuples (of integers or of something else), or other objects. *)
Inductive elem := EInt (z : Z) | EOther (tag : nat).
Definition elem_eqb (a b : elem) : bool :=
  match a, b with EInt x, EInt y => Z.eqb x y | EOther m, EOther n => Nat.eqb m n | _, _ => false end.
Inductive key := KStr (s : string) | KTuple (t : list elem) | KOther.

(** [int(s)] for a string: optional minus sign and decimal digits.  Surrounding blanks, a plus sign and underscores,
    which Python also accepts, are rejected here. *)
Definition int_of_string (s : string) : result Z :=
  match NilZero.int_of_string s with Some d => Ok (Z.of_int d) | None => Err ValueError end.
(** [s.split(",")] *)
Fixpoint split_comma (s : string) : list string :=
  match s with
  | EmptyString => [EmptyString]
  | String c s' =>
      if Ascii.eqb c "," then EmptyString :: split_comma s'
      else match split_comma s' with [] => [String c EmptyString] | w :: ws => String c w :: ws end
  end.
(** [c in s] *)
Fixpoint has_comma (s : string) : bool :=
  match s with EmptyString => false | String c s' => Ascii.eqb c "," || has_comma s' end.

(** _measurement_outcome_distribution.py:94-104: one key *)
Definition preprocess_key (k : key) : result (list elem) :=
  match k with
  | KStr s =>
      let! zs := if has_comma s then mapM int_of_string (split_comma s) else mapM int_of_char (list_ascii_of_string s) in
      Ok (map EInt zs)
  | KTuple t => Ok t
  | KOther => Err RuntimeError
  end.
(** 85-106 [preprocess_distibution_dict]: a later key that denotes the same tuple overwrites the value *)
Definition preprocess (input : list (key * Q)) : result (list (list elem * Q)) :=
  foldM (fun d kv => let! k := preprocess_key (fst kv) in Ok (dset (list_eqb elem_eqb) k (snd kv) d)) input [].

(** 109-118 [_is_non_negative] *)
Definition is_non_negative {A} (d : list (A * Q)) : bool := forallb (fun kv => Qle_bool 0 (snd kv)) d.
(** 121-131 [_is_key_length_fixed] (called on non-empty dictionaries only) *)
Definition is_key_length_fixed {A V} (d : list (list A * V)) : bool :=
  match d with [] => true | (k0, _) :: _ => forallb (fun kv => Nat.eqb (length (fst kv)) (length k0)) d end.
(** 134-148 [_are_keys_non_negative_integer_tuples] *)
Definition are_keys_non_negative_integer_tuples {V} (d : list (list elem * V)) : bool :=
  forallb (fun kv => forallb (fun e => match e with EInt z => (0 <=? z)%Z | EOther _ => false end) (fst kv)) d.
(** 151-172 *)
Definition is_measurement_outcome_distribution (d : list (list elem * Q)) : bool :=
  negb (match d with [] => true | _ => false end) && is_non_negative d && is_key_length_fixed d
  && are_keys_non_negative_integer_tuples d.

Definition mass {A} (d : list (A * Q)) : Q := sum_Q (map snd d).
(** math.isclose(x, 1) with its default relative tolerance 1e-9 *)
Definition isclose_one (x : Q) : bool := Qle_bool (Qabs (x - 1)) ((1 # 1000000000) * Qmax (Qabs x) 1).
(** 175-188 [is_normalized] *)
Definition is_normalized {A} (d : list (A * Q)) : bool := isclose_one (mass d).
(** sys.float_info.min = 2^-1022 *)
Definition float_min : Q := 1 # (2 ^ 1022).
(** 191-221 [normalize_measurement_outcome_distribution] *)
Definition normalize_dist {A} (d : list (A * Q)) : result (list (A * Q)) :=
  let norm := mass d in
  if Qeq_bool norm 0 then Err ValueError
  else if negb (Qle_bool norm 0) && negb (Qle_bool float_min norm) then Err ValueError
  else if Qeq_bool norm 1 then Ok d
  else Ok (map (fun kv => (fst kv, snd kv * (1 / norm))%Q) d).

Definition elem_int (e : elem) : Z := match e with EInt z => z | EOther _ => 0%Z end.
(** 33-66 [MeasurementOutcomeDistribution.__init__]: the resulting [distribution_dict].  The check guarantees that all
    entries of the keys are integers, so the keys are written as integer lists from there on. *)
Definition mk_dist (input : list (key * Q)) (normalize : bool) : result dist :=
  let! pre := preprocess input in
  if is_measurement_outcome_distribution pre then
    let d := map (fun kv => (map elem_int (fst kv), snd kv)) pre in
    if is_normalized d then Ok d
    else if normalize then normalize_dist d else Ok d
  else Err RuntimeError.
(** a dictionary of integer tuples as constructor argument *)
Definition of_tuples (d : dist) : list (key * Q) := map (fun kv => (KTuple (map EInt (fst kv)), snd kv)) d.

(** 72-82 [get_number_of_subsystems] *)
Definition get_number_of_subsystems (d : dist) : result nat :=
  match d with [] => Err IndexError | (k, _) :: _ => Ok (length k) end.

(** 224-228 [change_tuple_dict_keys_to_comma_separated_integers] on a dictionary of tuples *)
Definition join_comma (k : outcome) : string := String.concat "," (map str_of_int k).
Definition comma_keys (d : dist) : list (string * Q) := dict_of String.eqb (map (fun kv => (join_comma (fst kv), snd kv)) d).

(** 231-253 [save_measurement_outcome_distribution]: the JSON object written *)
Definition dist_json (d : dist) : json Q := JObj (map (fun kv => (fst kv, JNum (snd kv))) (comma_keys d)).
Definition save_dist (d : dist) : jdict Q :=
  [("measurement_outcome_distribution"%string, dist_json d);
   ("schema"%string, JStr "zapata-v1-measurement-outcome-probability-distribution")].
(** a JSON object as constructor argument; anything but an object of numbers has no numeric [items()] *)
Definition dist_input (j : json Q) : result (list (key * Q)) :=
  match j with
  | JObj l => mapM (fun kv => match snd kv with JNum q => Ok (KStr (fst kv), q) | _ => Err TypeError end) l
  | _ => Err AttributeError
  end.
Definition dist_of_json (j : json Q) : result dist := let! i := dist_input j in mk_dist i true.
(** 283-304 [load_measurement_outcome_distribution]; the constructor itself never raises KeyError *)
Definition load_dist (data : jdict Q) : result dist :=
  match jget "bitstring_distribution" data with
  | Some j => dist_of_json j
  | None => let! j := jitem "measurement_outcome_distribution" data in dist_of_json j
  end.
(** 256-280 and 307-338: sets of distributions *)
Definition save_dists (ds : list dist) : jdict Q :=
  [("schema"%string, JStr "zapata-v1-measurement-outcome-probability-distribution-set");
   ("measurement_outcome_distribution"%string, JArr (map dist_json ds))].
Definition load_dists (data : jdict Q) : result (list dist) :=
  let! j := jitem "measurement_outcome_distribution" data in
  match j with
  | JArr l =>
      mapM (fun i => match jget "bitstring_distribution" data with
                     | Some (JArr l') => match nth_error l' i with Some j' => dist_of_json j' | None => Err IndexError end
                     | Some _ => Err TypeError
                     | None => match nth_error l i with Some j' => dist_of_json j' | None => Err IndexError end
                     end) (seq 0 (length l))
  | _ => Err TypeError
  end.

(** itertools.product([0, 1], repeat=n) *)
Fixpoint product01 (n : nat) : list outcome :=
  match n with O => [[]] | S n' => map (cons 0%Z) (product01 n') ++ map (cons 1%Z) (product01 n') end.
(** 341-361 [create_bitstring_distribution_from_probability_distribution]; np.log2 of an empty array's length is -inf,
    whose conversion to int is an OverflowError *)
Definition dist_of_probabilities (probs : list Q) : result dist :=
  match probs with
  | [] => Err OverflowError
  | _ =>
      let keys := product01 (Nat.log2 (length probs)) in
      mk_dist (of_tuples (dict_of outcome_eqb (combine keys probs))) true
  end.

(** 364-417 [evaluate_distribution_distance] for two distributions; [f] is the distance function *)
Definition evaluate_distribution_distance {A} (f : dist -> dist -> result A) (target measured : dist) : result A :=
  let! n1 := get_number_of_subsystems target in
  let! n2 := get_number_of_subsystems measured in
  if negb (Nat.eqb n1 n2) then Err RuntimeError
  else if negb (Bool.eqb (is_normalized target) (is_normalized measured)) then Err RuntimeError
  else f target measured.

(** ** Sampling *)
(** collections.Counter(l): counts in order of first occurrence *)
Definition count_one {A} (eqb : A -> A -> bool) (d : list (A * nat)) (a : A) : list (A * nat) :=
  dset eqb a (match dget eqb a d with Some n => S n | None => 1 end) d.
Definition counter {A} (eqb : A -> A -> bool) (l : list A) : list (A * nat) := fold_left (count_one eqb) l [].
(** Counter lookup: 0 for missing keys *)
Definition cget {A} (eqb : A -> A -> bool) (d : list (A * nat)) (a : A) : nat := match dget eqb a d with Some n => n | None => 0 end.
(** Counter.__add__: keys of the first, then new keys of the second; only positive counts are kept *)
Definition counter_add {A} (eqb : A -> A -> bool) (d e : list (A * nat)) : list (A * nat) :=
  filter (fun kv => 0 <? snd kv) (map (fun kv => (fst kv, snd kv + cget eqb e (fst kv))) d)
  ++ filter (fun kv => (0 <? snd kv) && negb (dmem eqb (fst kv) d)) e.

Section Sampling.
  (** [choice k p n] is the result of the [k]-th call of np.random.choice on positions: [n] positions drawn with
      probabilities [p], or an exception. *)
  Context (choice : nat -> list Q -> nat -> result (list nat)).
  (** utils.py:167-202 [sample_from_probability_distribution] for a dictionary *)
  Definition sample_from_dist (k : nat) (d : dist) (n_samples : nat) : result (list (outcome * nat)) :=
    let! idx := choice k (map snd d) n_samples in
    let! keys := mapM (fun i => match nth_error d i with Some kv => Ok (fst kv) | None => Err IndexError end) idx in
    Ok (counter outcome_eqb keys).
End Sampling.
