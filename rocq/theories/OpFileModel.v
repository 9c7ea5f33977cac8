(** Model of get_file_path, load_operator and save_operator: openfermion/utils/operator_utils.py:191-321. *)
From Coq Require Import String Ascii ZArith.
From Verif Require Import Base MatModel OpModel CostModel UtilsModel OpTextModel.
Open Scope list_scope.
Local Open Scope nat_scope.

(** 191-216; None or an empty name; OperatorUtilsError is a plain exception.  [default_directory] is DATA_DIRECTORY *)
Definition get_file_path (default_directory : string) (file_name data_directory : option string) : result string :=
  match file_name with
  | None | Some EmptyString => Err GenericException
  | Some n =>
      let n := if String.eqb (substring (String.length n - 5) 5 n) ".data" then n else (n ++ ".data")%string in
      Ok (match data_directory with None => default_directory | Some d => d end ++ "/" ++ n)%string
  end.

(** data.split(":\n") *)
Fixpoint split_header (s : text) : list text :=
  match s with
  | [] => [[]]
  | c :: r =>
      let rest := match split_header r with h :: t => (c :: h) :: t | [] => [[c]] end in
      if Ascii.eqb c ":" then match r with n :: r' => if Ascii.eqb n "010" then [] :: split_header r' else rest | [] => rest end else rest
  end.

Section OpFile.
  (** [symbolic]: the coefficient is a sympy expression; the others are numbers and complex() does not change them *)
  Context {K : cring} (im : K) (small symbolic : K -> bool) (float_of complex_of : text -> option K) (show : K -> text) (default_directory : string).

  (** What the functions tell apart: the last two are InteractionOperator and InteractionRDM, and all other objects. *)
  Inductive operator := Fermi (a : fop K) | Qubit (a : qop K) | Interaction | OtherObject.
  (** A file: text, or what marshal.dump writes for a type and a dict from terms to numbers.  A file just opened for writing is empty. *)
  Inductive content := Bytes (s : text) | Packed (operator_type : text) (terms : list (list atom * K)).
  Definition files := list (string * content).

  (** the actions as they stand in the tuples of terms *)
  Definition fermi_atom (d : bool) : atom := AInt (if d then 1 else 0).
  Definition pauli_atom (p : pauli) : atom := AText (match p with Px => ["X"] | Py => ["Y"] | Pz => ["Z"] | Pid => ["I"] end)%char.
  Definition term_atoms {A} (enc : A -> atom) (t : term A) : list atom := map (fun f => ASeq [AInt (Z.of_nat (fst f)); enc (snd f)]) t.
  (** the order of the actions in sorted(): 0 < 1, "X" < "Y" < "Z" *)
  Definition fermi_le (a b : bool) : bool := implb a b.
  Definition pauli_le (a b : pauli) : bool :=
    match a, b with Pid, _ | Px, (Px | Py | Pz) | Py, (Py | Pz) | Pz, Pz => true | _, _ => false end.

  Definition fermi_name : text := text_of "FermionOperator".
  Definition qubit_name : text := text_of "QubitOperator".

  (** 254-261: operator += Class(term, coefficient) for all terms *)
  Definition add_terms {A} (aeqb : A -> A -> bool) simplify (cls : op_class A) (terms : list (list atom * K)) : result (sop A K) :=
    foldM (fun o tc => let! b := construct aeqb simplify cls float_of complex_of (TermSeq (fst tc)) (snd tc) in Ok (op_add aeqb small o b)) terms zero_op.

  (** 237-247; bytes of marshal are no text: UnicodeDecodeError is a ValueError *)
  Definition load_plain (c : content) : result operator :=
    match c with
    | Packed _ _ => Err ValueError
    | Bytes s =>
        match split_header s with
        | [operator_type; operator_terms] =>
            if text_eqb operator_type fermi_name then
              rmap Fermi (construct Bool.eqb fermion_simplify fermion_class float_of complex_of (TermText operator_terms) k1)
            else if text_eqb operator_type qubit_name then
              rmap Qubit (construct pauli_eqb (qubit_simplify im) qubit_class float_of complex_of (TermText operator_terms) k1)
            else Err TypeError
        | _ => Err ValueError
        end
    end.
  (** 248-263.  Of text, marshal reads the first character: F is False, which has no items; an empty file is an EOFError (a plain exception);
      simplified: any other text is bad marshal data, a ValueError *)
  Definition load_packed (c : content) : result operator :=
    match c with
    | Bytes [] => Err GenericException
    | Bytes (c :: _) => if Ascii.eqb c "F" then Err TypeError else Err ValueError
    | Packed operator_type terms =>
        if text_eqb operator_type fermi_name then rmap Fermi (add_terms Bool.eqb fermion_simplify fermion_class terms)
        else if text_eqb operator_type qubit_name then rmap Qubit (add_terms pauli_eqb (qubit_simplify im) qubit_class terms)
        else Err TypeError
    end.
  (** 219-265 *)
  Definition load_operator (file_name data_directory : option string) (plain_text : bool) : M files operator := fun fs =>
    (fs, let! file_path := get_file_path default_directory file_name data_directory in
         match dget String.eqb file_path fs with
         | None => Err FileNotFoundError
         | Some c => if plain_text then load_plain c else load_packed c
         end).

  (** 298-311: the type and the coefficients *)
  Definition check_operator (o : operator) : result unit :=
    match o with
    | Fermi a => if existsb (fun tc => symbolic (snd tc)) a then Err TypeError else Ok tt
    | Qubit a => if existsb (fun tc => symbolic (snd tc)) a then Err TypeError else Ok tt
    | Interaction => Err NotImplementedError
    | OtherObject => Err TypeError
    end.
  (** 315 and 317-321: what is written *)
  Definition plain_content (o : operator) : result content :=
    match o with
    | Fermi a => let! s := to_text Bool.eqb small fermion_class show fermi_le a in Ok (Bytes (fermi_name ++ text_of ":" ++ ["010"%char] ++ s))
    | Qubit a => let! s := to_text pauli_eqb small qubit_class show pauli_le a in Ok (Bytes (qubit_name ++ text_of ":" ++ ["010"%char] ++ s))
    | _ => Err TypeError
    end.
  Definition packed_content (o : operator) : result content :=
    match o with
    | Fermi a => Ok (Packed fermi_name (map (fun tc => (term_atoms fermi_atom (fst tc), snd tc)) a))
    | Qubit a => Ok (Packed qubit_name (map (fun tc => (term_atoms pauli_atom (fst tc), snd tc)) a))
    | _ => Err TypeError
    end.
  (** 293-311: the checks, and the file that is going to be written *)
  Definition checked_path (fs : files) (o : operator) (file_name data_directory : option string) (allow_overwrite : bool) : result string :=
    let! file_path := get_file_path default_directory file_name data_directory in
    if (match dget String.eqb file_path fs with Some _ => true | None => false end) && negb allow_overwrite then Err GenericException
    else let! _ := check_operator o in Ok file_path.
  (** 268-321; simplified: data directories exist.  [crash] is for a process that ends just after the file is opened *)
  Definition save_operator (crash : bool) (o : operator) (file_name data_directory : option string) (allow_overwrite plain_text : bool) : M files unit := fun fs =>
    match checked_path fs o file_name data_directory allow_overwrite with
    | Err e => (fs, Err e)
    | Ok file_path =>
        let fs := dset String.eqb file_path (Bytes []) fs in
        if crash then (fs, Err SystemExit)
        else match (if plain_text then plain_content o else packed_content o) with
             | Ok c => (dset String.eqb file_path c fs, Ok tt)
             | Err e => (fs, Err e)
             end
    end.
End OpFile.
