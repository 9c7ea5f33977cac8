(** Model of wavefunction.py. *)
From Coq Require Import String Reals.
From Verif Require Import Base MatModel LiftModel CircuitModel CircuitSpec Cplx.
Open Scope list_scope.
Local Open Scope R_scope.

(** Amplitudes are sympy expressions over complex numbers; a number is an expression without symbols. *)
Definition amp := expr C.

(** [bin(x).count("1")] *)
Fixpoint count_ones (l : list bool) : nat :=
  match l with [] => 0 | b :: l' => (if b then 1 else 0) + count_ones l' end.

(** [l[i] = a] for an index within bounds *)
Fixpoint set_nth {A} (i : nat) (a : A) (l : list A) : list A :=
  match l, i with
  | [], _ => []
  | _ :: l', O => a :: l'
  | x :: l', S i' => x :: set_nth i' a l'
  end.

(** Python index into a sequence of length [n] (negative indices count from the end). *)
Definition py_index (n : nat) (i : Z) : option nat :=
  if ((0 <=? i) && (i <? Z.of_nat n))%Z then Some (Z.to_nat i)
  else if ((- Z.of_nat n <=? i) && (i <? 0))%Z then Some (Z.to_nat (i + Z.of_nat n))
  else None.

(** How the vector is stored: numpy array of complex numbers or sympy Matrix.  (A numpy array made from a sympy column
    has shape (N, 1) instead of (N,); shapes are not modelled.) *)
Inductive representation := RNumpy | RSympy.
Record wavefunction := { w_repr : representation; w_amps : list amp }.

(** np.isclose(x, 1.0): |x - 1| <= atol + rtol * 1 with the default tolerances *)
Definition isclose_tol : R := 1 / 100000000 + 1 / 100000 * 1.
Definition isclose1 (x : R) : bool := if Rle_dec (Rabs (x - 1)) isclose_tol then true else false.

Section Wf.
  Context (Orc : sympy_oracle C) (F : string -> list C -> C).   (* F: values of the sympy functions *)

  Definition amp_value (e : amp) : C := eval {| i_num := fun c : C => c; i_fun := F |} (fun _ => c0) e.
  (** wavefunction.py:13-18 [_is_number] *)
  Definition is_number (e : amp) : bool := match expr_syms e with [] => true | _ => false end.
  Definition wf_free_symbols (l : list amp) : list sym := flat_map expr_syms l.

  Fixpoint sum_R (l : list R) : R := match l with [] => 0 | x :: l' => x + sum_R l' end.
  (** np.sum(np.abs(arr) ** 2) *)
  Definition prob_sum (l : list amp) : R := sum_R (map (fun e => cabs2 (amp_value e)) l).

  (** wavefunction.py:80-101 [_check_normalization] *)
  Definition check_normalization (r : representation) (arr : list amp) : result unit :=
    let full := match r with RNumpy => true | RSympy => match wf_free_symbols arr with [] => true | _ => false end end in
    if full then
      if isclose1 (prob_sum arr) then Ok tt else Err ValueError
    else
      if Rlt_dec 1 (prob_sum (filter is_number arr)) then Err ValueError else Ok tt.

  (** wavefunction.py:52-63 [__init__]; the conversion to a complex array fails exactly on symbols. *)
  Definition mk_wf (arr : list amp) : result wavefunction :=
    if negb (Nat.eqb (count_ones (bin_digits (N.of_nat (length arr)))) 1) then Err ValueError
    else
      let r := if forallb is_number arr then RNumpy else RSympy in
      let! _ := check_normalization r arr in
      Ok {| w_repr := r; w_amps := arr |}.

  (** wavefunction.py:112-121 [__setitem__] with an integer index; the first component is the object afterwards.
      Storing a symbolic value in a complex numpy array is a TypeError. *)
  Definition wf_setitem (w : wavefunction) (idx : Z) (val : amp) : wavefunction * result unit :=
    match py_index (length (w_amps w)) idx with
    | None => (w, Err IndexError)
    | Some i =>
        let old_val := nth i (w_amps w) (ESym EmptyString) in
        if match w_repr w with RNumpy => negb (is_number val) | RSympy => false end then (w, Err TypeError)
        else
          let w1 := {| w_repr := w_repr w; w_amps := set_nth i val (w_amps w) |} in
          match check_normalization (w_repr w1) (w_amps w1) with
          | Ok _ => (w1, Ok tt)
          | Err ValueError => ({| w_repr := w_repr w1; w_amps := set_nth i old_val (w_amps w1) |}, Err ValueError)
          | Err e => (w1, Err e)
          end
    end.

  (** Writing consecutive positions of an array: [arr[start:start+len(vals)] = vals]. *)
  Fixpoint write_from (start : nat) (vals l : list amp) : list amp :=
    match vals with [] => l | v :: vals' => write_from (S start) vals' (set_nth start v l) end.
  (** wavefunction.py:112-121 [__setitem__] with a slice [start : start+length vals] within bounds, for the numpy
      representation.  Indexing a numpy array with a slice gives a view: [old_val] is not a copy but refers to the
      positions of the array itself, so when it is written back it is read from the array as it is at that moment. *)
  Definition wf_setslice (w : wavefunction) (start : nat) (vals : list amp) : wavefunction * result unit :=
    if negb (forallb is_number vals) then (w, Err TypeError)
    else
      let old_view_of (arr : list amp) := firstn (length vals) (skipn start arr) in
      let arr1 := write_from start vals (w_amps w) in
      match check_normalization RNumpy arr1 with
      | Ok _ => ({| w_repr := RNumpy; w_amps := arr1 |}, Ok tt)
      | Err e => ({| w_repr := RNumpy; w_amps := write_from start (old_view_of arr1) arr1 |}, Err e)
      end.

  (** wavefunction.py:185-194 [bind] *)
  Definition wf_bind (w : wavefunction) (m : symbols_map C) : result wavefunction :=
    match wf_free_symbols (w_amps w) with
    | [] => Ok w
    | _ =>
        match w_repr w with
        | RNumpy => Err AssertionError
        | RSympy => mk_wf (map (subs Orc m) (w_amps w))     (* ValueError is re-raised as ValueError *)
        end
    end.

  (** wavefunction.py:133-147 [zero_state] for an integer *)
  Definition zero_state (n_qubits : Z) : result wavefunction :=
    if (n_qubits <=? 0)%Z then Err ValueError
    else mk_wf (set_nth 0 (ENum c1) (repeat (ENum c0) (2 ^ Z.to_nat n_qubits))).

  (** wavefunction.py:30-34 [_get_next_number_with_same_hamming_weight] *)
  Definition next_number (val : Z) : Z :=
    let t := (Z.lor val (val - 1) + 1)%Z in
    Z.lor t (Z.shiftr (Z.land t (- t) / Z.land val (- val)) 1 - 1).
  (** wavefunction.py:37-39 [_most_significant_set_bit]: len(bin(val)) - 2 *)
  Definition most_significant_set_bit (val : Z) : Z := Z.of_nat (length (bin_digits (Z.to_N val))).

  (** The loop wavefunction.py:170-177; [fuel] bounds the number of iterations. *)
  Fixpoint dicke_loop (fuel : nat) (n_qubits current : Z) (indices : list Z) : result (list Z) :=
    match fuel with
    | O => Err OutOfFuel
    | S fuel' =>
        let current' := next_number current in
        if negb (most_significant_set_bit current' <=? n_qubits)%Z then Ok indices
        else dicke_loop fuel' n_qubits current' (indices ++ [current'])
    end.

  (** wavefunction.py:149-183 [dicke_state] for integers; [counter] is the length of [indices]. *)
  Definition dicke_state (n_qubits hamming_weight : Z) : result wavefunction :=
    let! initial := zero_state n_qubits in
    if (hamming_weight <? 0)%Z then Err ValueError
    else if (n_qubits <? hamming_weight)%Z then Err ValueError
    else if (hamming_weight =? 0)%Z then Ok initial
    else
      let current := Z.of_nat (bval (repeat true (Z.to_nat hamming_weight))) in
      let! indices := dicke_loop (S (2 ^ Z.to_nat n_qubits)) n_qubits current [current] in
      let amplitude := rc (1 / sqrt (INR (length indices))) in
      mk_wf (fold_left (fun l i => set_nth (Z.to_nat i) (ENum amplitude) l) indices
               (repeat (ENum c0) (2 ^ Z.to_nat n_qubits))).
End Wf.

(** wavefunction.py:222-223 [_flip_bits] *)
Definition flip_bits (n num_bits : nat) : nat := bval (rev (zfill num_bits (bin_digits (N.of_nat n)))).
(** wavefunction.py:213-219 [flip_amplitudes]; int.bit_length() is the number of binary digits (0 for 0) *)
Definition bit_length (n : nat) : nat := match n with O => O | _ => length (bin_digits (N.of_nat n)) end.
Definition flip_amplitudes {A} (amplitudes : list A) : result (list A) :=
  let number_of_states := length amplitudes in
  let ordering := map (fun n => flip_bits n (bit_length number_of_states - 1)) (seq 0 number_of_states) in
  mapM (fun i => match nth_error amplitudes i with Some a => Ok a | None => Err IndexError end) ordering.
(** wavefunction.py:209-210 [flip_wavefunction] *)
Definition flip_wavefunction (F : string -> list C -> C) (w : wavefunction) : result wavefunction :=
  let! l := flip_amplitudes (w_amps w) in mk_wf F l.

(** wavefunction.py:72-74 [n_qubits], 196-206 [get_probabilities], [get_outcome_probs] *)
Definition wf_n_qubits (w : wavefunction) : nat := Nat.log2 (length (w_amps w)).
Definition get_probabilities (F : string -> list C -> C) (w : wavefunction) : list R :=
  map (fun e => cabs2 (amp_value F e)) (w_amps w).
Definition outcome_label (n i : nat) : list bool := rev (zfill n (bin_digits (N.of_nat i))).
Definition get_outcome_probs (F : string -> list C -> C) (w : wavefunction) : list (list bool * R) :=
  dict_of (list_eqb Bool.eqb)
    (combine (map (outcome_label (wf_n_qubits w)) (seq 0 (length (w_amps w)))) (get_probabilities F w)).

(** measurement.py:182-206 [sample_from_wavefunction].  [choice p n] stands for numpy's
    [rng.choice(a, size=n, p=p)] on positions: it returns the chosen positions, or raises (ValueError if the
    probabilities do not sum to one within numpy's own tolerance).  Bits are [true]/[false]. *)
Definition sample_from_wavefunction (F : string -> list C -> C) (choice : list R -> nat -> result (list nat))
    (w : wavefunction) (n_samples : Z) : result (list (list bool)) :=
  if (n_samples <? 1)%Z then Err ValueError
  else
    let items := get_outcome_probs F w in
    let! positions := choice (map snd items) (Z.to_nat n_samples) in
    let! labels := mapM (fun i => match nth_error (map fst items) i with Some l => Ok l | None => Err IndexError end) positions in
    Ok (map (@rev bool) labels).
