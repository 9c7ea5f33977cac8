(** Model of openfermion/zapata_utils/_utils.py:29-157: the expansion of a matrix in the Pauli basis. *)
From Coq Require Import ZArith.
From Verif Require Import Base MatModel OpModel UtilsModel.
Local Open Scope list_scope.
Local Open Scope nat_scope.

Section PauliExp.
  Context {K : cring} (im half : K) (small : K -> bool).
  Open Scope K_scope.

  (** 51-54: [(nrows & (nrows - 1)) == 0 and nrows > 0] *)
  Definition is_power_of_two (m : nat) : bool := Nat.eqb (Nat.land m (m - 1)) O && Nat.ltb O m.
  (** [operator[j][k]] on a list of rows *)
  Definition matrix_item (operator : list (list K)) (j k : nat) : result K :=
    match nth_error operator j with
    | Some row => match nth_error row k with Some e => Ok e | None => Err IndexError end
    | None => Err IndexError
    end.
  (** 59-70 [decode] *)
  Definition decode (n : nat) (bit_string : list Z) : result (list Z) :=
    if negb (Nat.eqb (length bit_string) (2 * n)) then Err GenericException
    else Ok (map (fun i => bin2dec (firstn 2 (skipn (2 * i) bit_string))) (seq 0 n)).
  (** 82: [int(not x)] *)
  Definition int_not (x : Z) : Z := if Z.eqb x 0 then 1%Z else 0%Z.
  (** 76-83 [f]: the digits where the label is 1 or 2 are flipped; label and digits have the same length *)
  Definition flip_digits (label j_str : list Z) : list Z :=
    map (fun ld : Z * Z => if Z.eqb (fst ld) 1 || Z.eqb (fst ld) 2 then int_not (snd ld) else snd ld) (combine label j_str).
  Definition row_of_column (n : nat) (label : list Z) (j : nat) : result nat :=
    let! j_str := dec2bin (Z.of_nat j) n in Ok (Z.to_nat (bin2dec (flip_digits label j_str))).
  (** 85-98 [nz] *)
  Definition nz_step (val_nz : K) (ld : Z * Z) : K :=
    let v1 := if Z.eqb (fst ld) 2 then
                let v0 := if Z.eqb (snd ld) 0 then val_nz * im else val_nz in
                if Z.eqb (snd ld) 1 then v0 * - im else v0
              else val_nz in
    if Z.eqb (fst ld) 3 then if Z.eqb (snd ld) 1 then v1 * - (1) else v1 else v1.
  Definition nonzero_value (n : nat) (label : list Z) (j : nat) : result K :=
    let! j_str := dec2bin (Z.of_nat j) n in Ok (fold_left nz_step (combine label j_str) 1).
  (** 106: division by 2**n *)
  Fixpoint halve (n : nat) (x : K) : K := match n with O => x | S m => halve m (x * half) end.
  (** 72-106 [trace_product] *)
  Definition trace_product (n : nat) (operator : list (list K)) (label : list Z) : result K :=
    let! tr := foldM (fun tr j =>
      let! fj := row_of_column n label j in
      let! e := matrix_item operator j fj in
      let! v := nonzero_value n label j in
      Ok (tr + e * v)) (seq O (2 ^ n)) 0 in
    Ok (halve n tr).

  (** 145-154: the factors named in the string built from a label, written without the string *)
  Fixpoint label_term (ind : nat) (label : list Z) : term pauli :=
    match label with
    | [] => []
    | elem :: label' =>
        let rest := label_term (S ind) label' in
        if Z.eqb elem 1 then (ind, Px) :: rest
        else if Z.eqb elem 2 then (ind, Py) :: rest
        else if Z.eqb elem 3 then (ind, Pz) :: rest
        else rest
    end.
  (** 120-157 [get_qubitop_from_coeffs_and_labels]; lists of the same length are passed as one list of pairs *)
  Definition get_qubitop_from_coeffs_and_labels (cls : list (K * list Z)) : qop K :=
    fold_left (fun output (cl : K * list Z) =>
      op_add pauli_eqb small output (op_scale (mk_op (qubit_simplify im) (label_term O (snd cl)) 1) (fst cl))) cls [].

  (** 29-117 [get_qubitop_from_matrix]; [int(np.log2(nrows))] is exact on powers of two *)
  Definition get_qubitop_from_matrix (operator : list (list K)) : result (qop K) :=
    let nrows := length operator in
    match operator with
    | [] => Err IndexError
    | row0 :: _ =>
        let ncols := length row0 in
        if negb (Nat.eqb nrows ncols) then Err GenericException
        else if negb (is_power_of_two nrows) then Err GenericException
        else if negb (is_power_of_two ncols) then Err GenericException
        else
          let n := Nat.log2 nrows in
          let! cls := mapM (fun i =>
            let! current_string := dec2bin (Z.of_nat i) (2 * n) in
            let! current_label := decode n current_string in
            let! c := trace_product n operator current_label in
            Ok (c, current_label)) (seq O (4 ^ n)) in
          Ok (get_qubitop_from_coeffs_and_labels cls)
    end.
End PauliExp.
