(** Model of conversions of operators: dictionaries of openfermion/zapata_utils/_io.py and
    polynomial tensors of openfermion/transforms and openfermion/zapata_utils/_utils.py. *)
From Coq Require Import String ZArith.
From Verif Require Import Base MatModel Json OpModel FermiModel TensorModel.
From Verif Require UtilsModel.
Local Open Scope list_scope.
Local Open Scope nat_scope.

(** ** Dictionaries of qubit and Ising operators *)
(** Numbers of type [R] as JSON holds them; integers are kept apart because an index has to be one. *)
Inductive jnum (R : Type) := JInt (z : Z) | JReal (x : R).
Arguments JInt {R} z. Arguments JReal {R} x.

(** How coefficients of type [K] are seen by Python: [is_complex] is isinstance(c, complex), [re] and [im] are c.real and c.imag, [zero_r] is the truth value
    of a float, [of_real] and [times_1j] give the numbers x and 1j * y. *)
Record pynum (K : cring) (R : Type) := {
  is_complex : K -> bool; re : K -> R; imag : K -> R; zero_r : R -> bool; of_real : R -> K; times_1j : R -> K }.
Arguments is_complex {K R} p c. Arguments re {K R} p c. Arguments imag {K R} p c. Arguments zero_r {K R} p x. Arguments of_real {K R} p x. Arguments times_1j {K R} p y.

Section Dicts.
  Context {K : cring} {R : Type} (py : pynum K R) {A : Type} (aeqb : A -> A -> bool) (simplify : term A -> K -> K * term A) (small : K -> bool)
          (action_name : A -> string) (action_of : string -> option A).
  Notation J := (json (jnum R)).
  (** _io.py:97-122 [convert_qubitop_to_dict] and 229-242 [convert_isingop_to_dict], which replaces the schema *)
  Definition coefficient_to_json (c : K) : J :=
    if is_complex py c then JObj [("real"%string, JNum (JReal (re py c))); ("imag"%string, JNum (JReal (imag py c)))]
    else JObj [("real"%string, JNum (JReal (re py c)))].
  Definition factor_to_json (f : factor A) : J := JObj [("qubit"%string, JNum (JInt (Z.of_nat (fst f)))); ("op"%string, JStr (action_name (snd f)))].
  Definition term_to_json (tc : term A * K) : J :=
    JObj [("pauli_ops"%string, JArr (map factor_to_json (fst tc))); ("coefficient"%string, coefficient_to_json (snd tc))].
  Definition operator_to_dict (schema : string) (a : sop A K) : jdict (jnum R) := [("schema"%string, JStr schema); ("terms"%string, JArr (map term_to_json a))].

  Definition as_dict (j : J) : result (jdict (jnum R)) := match j with JObj d => Ok d | _ => Err TypeError end.
  Definition as_list (j : J) : result (list J) := match j with JArr l => Ok l | _ => Err TypeError end.
  (** symbolic_operator.py:198-213 [_validate_factor] on the pair (qubit, op) read from JSON; a boolean, which counts as an int, is not considered *)
  Definition factor_of_json (j : J) : result (factor A) :=
    let! d := as_dict j in let! q := jitem "qubit" d in let! o := jitem "op" d in
    match o with
    | JStr s => match action_of s with
                | None => Err ValueError
                | Some a => match q with JNum (JInt z) => if (z <? 0)%Z then Err ValueError else Ok (Z.to_nat z, a) | _ => Err ValueError end
                end
    | _ => Err ValueError
    end.
  (** _io.py:132-135: the coefficient; absent or zero imaginary parts are not added *)
  Definition coefficient_of_json (j : J) : result K :=
    let! d := as_dict j in let! r := jitem "real" d in
    match r with
    | JNum (JReal x) =>
        match jget "imag" d with
        | Some (JNum (JReal y)) => if zero_r py y then Ok (of_real py x) else Ok (kadd (of_real py x) (times_1j py y))
        | None => Ok (of_real py x)
        | _ => Err TypeError
        end
    | _ => Err TypeError
    end.
  Definition term_of_json (j : J) : result (term A * K) :=
    let! d := as_dict j in let! ops := jitem "pauli_ops" d in let! l := as_list ops in
    let! c := jitem "coefficient" d in let! c' := coefficient_of_json c in
    let! t := mapM factor_of_json l in Ok (t, c').
  (** _io.py:125-138 [convert_dict_to_operator]; factors are validated by the constructor, after the coefficient is read *)
  Definition dict_to_operator (d : jdict (jnum R)) : result (sop A K) :=
    let! ts := jitem "terms" d in let! l := as_list ts in
    foldM (fun acc j => let! tc := term_of_json j in Ok (op_add aeqb small acc (mk_op simplify (fst tc) (snd tc)))) l [].
End Dicts.

(** The names of Pauli operators; _io.py writes and reads the action of a factor. *)
Definition pauli_name (p : pauli) : string := match p with Px => "X" | Py => "Y" | Pz => "Z" | Pid => "I" end.
Definition pauli_of_name (s : string) : option pauli :=
  if String.eqb s "X" then Some Px else if String.eqb s "Y" then Some Py else if String.eqb s "Z" then Some Pz else None.
Definition z_name (_ : zact) : string := "Z".
Definition z_of_name (s : string) : option zact := if String.eqb s "Z" then Some ZZ else None.

(** ** Dictionaries of interaction operators *)
Section InteractionDicts.
  Context {K : cring} (isz : K -> bool).
  Import UtilsModel.
  (** a constant is a real or a complex number *)
  Record interaction := { i_constant : K + K * K; i_one : ndarray K; i_two : ndarray K }.
  (** _io.py:20-33 [convert_interaction_op_to_dict]; np.array(constant) has rank 0 *)
  Definition scalar_array (c : K + K * K) : ndarray K :=
    match c with inl x => {| a_shape := []; a_data := RealData [x] |} | inr z => {| a_shape := []; a_data := CplxData [z] |} end.
  Definition interaction_to_dict (schema : string) (o : interaction) : jdict K :=
    [("schema"%string, JStr schema); ("constant"%string, JObj (convert_array_to_dict (scalar_array (i_constant o))));
     ("one_body_tensor"%string, JObj (convert_array_to_dict (i_one o))); ("two_body_tensor"%string, JObj (convert_array_to_dict (i_two o)))].
  Definition array_field (name : string) (d : jdict K) : result (ndarray K) :=
    let! j := jitem name d in match j with JObj d' => convert_dict_to_array isz d' | _ => Err TypeError end.
  (** _io.py:36-51 [convert_dict_to_interaction_op]; tolist of an array of rank 0 is its element.  Constants of higher rank are not modelled (TypeError). *)
  Definition dict_to_interaction (d : jdict K) : result interaction :=
    let! c := array_field "constant" d in
    let! c' := match a_shape c, a_data c with [], RealData [x] => Ok (inl x) | [], CplxData [z] => Ok (inr z) | _, _ => Err TypeError end in
    let! o := array_field "one_body_tensor" d in
    let! t := array_field "two_body_tensor" d in
    Ok {| i_constant := c'; i_one := o; i_two := t |}.
End InteractionDicts.

(** ** Polynomial tensors and fermion operators *)
Section Tensors.
  Context {K : cring} (small isz : K -> bool).
  (** opconversions/conversions.py:40-61 [get_fermion_operator] of a tensor *)
  Definition get_fermion_operator (h : heap K) (a : ptensor K) : result (fop K) :=
    foldM (fun o args => let! c := getitem h a args in Ok (fermion_add small o (fermion_op args c))) (iterate isz h a) [].
  (** tensor[indices] = value *)
  Definition assign (x : TensorModel.ndarray K) (i : list nat) (v : K) : TensorModel.ndarray K :=
    {| shape0 := shape0 x; data := fun j => if list_eqb Nat.eqb j i then v else data x j |}.
  Definition zeros_array (n : nat) : TensorModel.ndarray K := {| shape0 := n; data := fun _ => k0 |}.
  (** repconversions/conversions.py:33-109 [get_interaction_operator].  [n_qubits] is the optional argument.  The loop over terms keeps the constant and the two arrays. *)
  Definition gio_step (st : K * (TensorModel.ndarray K * TensorModel.ndarray K)) (tc : term bool * K) : result (K * (TensorModel.ndarray K * TensorModel.ndarray K)) :=
    let '(constant, (one_body, two_body)) := st in
    let '(t, coefficient) := tc in
    if small coefficient then Ok st
    else match length t with
         | O => Ok (coefficient, (one_body, two_body))
         | 2 => if list_eqb Bool.eqb (map snd t) [true; false] then Ok (constant, (assign one_body (map fst t) coefficient, two_body)) else Err GenericException
         | 4 => if list_eqb Bool.eqb (map snd t) [true; true; false; false] then Ok (constant, (one_body, assign two_body (map fst t) coefficient)) else Err GenericException
         | _ => Err GenericException
         end.
  Definition n_qubits_argument (a : fop K) (n : option nat) : result nat :=
    let n' := match n with None => fermion_count_qubits a | Some m => m end in
    if n' <? fermion_count_qubits a then Err ValueError else Ok n'.
  Definition get_interaction_operator (h : heap K) (a : fop K) (n : option nat) : result (heap K * ptensor K) :=
    let! n' := n_qubits_argument a n in
    let! st := foldM gio_step (normal_ordered small a) (k0, (zeros_array n', zeros_array n')) in
    let '(constant, (one_body, two_body)) := st in
    let h' := h ++ [one_body; two_body] in
    let! p := polynomial_tensor h' [([], Num constant); ([true; false], Arr (length h)); ([true; true; false; false], Arr (S (length h)))] in
    Ok (h', p).
  (** zapata_utils/_utils.py:482-524 [get_polynomial_tensor]; the arrays are new, and live in the heap from the moment they are made *)
  Definition gpt_step (n : nat) (st : heap K * list (key * entry K)) (tc : term bool * K) : heap K * list (key * entry K) :=
    let '(h, d) := st in
    match fst tc with
    | [] => (h, dset key_eqb [] (Num (snd tc)) d)
    | _ :: _ =>
        let k := map snd (fst tc) in
        let '(h1, d1) := match dget key_eqb k d with Some _ => (h, d) | None => (h ++ [zeros_array n], dset key_eqb k (Arr (length h)) d) end in
        match dget key_eqb k d1 with
        | Some (Arr r) => (write h1 r (assign (read h1 r) (map fst (fst tc)) (snd tc)), d1)
        | _ => (h1, d1)
        end
    end.
  Definition get_polynomial_tensor (h : heap K) (a : fop K) (n : option nat) : result (heap K * ptensor K) :=
    let! n' := n_qubits_argument a n in
    let '(h', d) := fold_left (gpt_step n') (normal_ordered small a) (h, []) in
    let! p := polynomial_tensor h' d in Ok (h', p).
End Tensors.
