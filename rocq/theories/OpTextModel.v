(** Model of the constructor and the text form of operators: openfermion/ops/operators/symbolic_operator.py:124-305 and 336-353, with
    the tables of qubit_operator.py:91-99, ising_operator.py:38-51, fermion_operator.py:65-78. Text is a list of ASCII characters. *)
From Coq Require Import String Ascii ZArith.
From Verif Require Import Base MatModel OpModel SymModel UtilsModel DistModel.
Open Scope list_scope.
Local Open Scope nat_scope.

Definition text := list ascii.
Definition text_of (s : string) : text := list_ascii_of_string s.
Definition text_eqb : text -> text -> bool := list_eqb Ascii.eqb.
(** str.isspace, and the class \s of the module re *)
Definition is_space (c : ascii) : bool :=
  let n := N_of_ascii c in (((9 <=? n) && (n <=? 13)) || ((28 <=? n) && (n <=? 32)))%N.
(** str.split() *)
Fixpoint words (s cur : text) : list text :=
  match s with
  | [] => match cur with [] => [] | _ => [cur] end
  | c :: s' => if is_space c then match cur with [] => words s' [] | _ => cur :: words s' [] end else words s' (cur ++ [c])
  end.
(** str.strip() *)
Fixpoint lstrip (s : text) : text := match s with [] => [] | c :: s' => if is_space c then lstrip s' else s end.
Definition strip (s : text) : text := rev (lstrip (rev (lstrip s))).
(** the longest prefix of digits, and the rest *)
Fixpoint span_digits (s : text) : text * text :=
  match s with
  | [] => ([], [])
  | c :: s' => if is_digit c then let (d, r) := span_digits s' in (c :: d, r) else ([], s)
  end.
(** what is before and after the first occurrence of a character *)
Fixpoint until (x : ascii) (s : text) : option (text * text) :=
  match s with
  | [] => None
  | c :: s' => if Ascii.eqb c x then Some ([], s') else match until x s' with Some (a, r) => Some (c :: a, r) | None => None end
  end.
(** 168-169: re.findall of the lazy pattern "anything [ anything ]"; [fuel] bounds the number of matches by the length of the text *)
Fixpoint find_terms (fuel : nat) (s : text) : list (text * text) :=
  match fuel with
  | O => []
  | S f => match until "[" s with
           | None => []
           | Some (a, r) => match until "]" r with None => [] | Some (b, r') => (a, b) :: find_terms f r' end
           end
  end.

(** Python values in the sequences that describe terms: integers, strings, lists or tuples, and other objects (without a length) *)
Inductive atom := AInt (z : Z) | AText (s : text) | ASeq (l : list atom) | AObj.
(** The argument term: None, a string, a list or tuple, or something else. *)
Inductive argument := NoTerm | TermText (s : text) | TermSeq (l : list atom) | OtherTerm.

(** What a class of operators defines: the actions in order, their strings, where the action stands, and the value of an action in Python *)
Record op_class (A : Type) := { actions : list A; action_strings : list text; action_before_index : bool; action_of : atom -> option A }.
Arguments actions {A} _. Arguments action_strings {A} _. Arguments action_before_index {A} _. Arguments action_of {A} _ _.
Definition qubit_class : op_class pauli :=
  {| actions := [Px; Py; Pz]; action_strings := [["X"]; ["Y"]; ["Z"]]%char; action_before_index := true;
     action_of := fun x => match x with AText s => dget text_eqb s [(["X"], Px); (["Y"], Py); (["Z"], Pz)]%char | _ => None end |}.
Definition ising_class : op_class zact :=
  {| actions := [ZZ]; action_strings := [["Z"]]%char; action_before_index := true;
     action_of := fun x => match x with AText s => dget text_eqb s [(["Z"], ZZ)]%char | _ => None end |}.
Definition fermion_class : op_class bool :=
  {| actions := [true; false]; action_strings := [["^"]; []]%char; action_before_index := false;
     action_of := fun x => match x with AInt z => if Z.eqb z 1 then Some true else if Z.eqb z 0 then Some false else None | _ => None end |}.

Section OpText.
  Context {K : cring} {A : Type} (aeqb : A -> A -> bool) (simplify : term A -> K -> K * term A) (small : K -> bool) (cls : op_class A).
  (** float(s), complex(s) and "{}".format(c); None stands for ValueError *)
  Context (float_of complex_of : text -> option K) (show : K -> text).
  Notation op := (sop A K).

  (** 288-293 *)
  Definition action_named (s : text) : result A :=
    match dget text_eqb s (combine (action_strings cls) (actions cls)) with Some a => Ok a | None => Err ValueError end.
  (** 254-296: one factor, a word of the text *)
  Definition parse_factor (factor : text) : result (nat * A) :=
    if action_before_index cls then
      let (d, r) := span_digits (rev factor) in
      match d with
      | [] => Err ValueError
      | _ =>
          match r with
          | c :: _ => if Ascii.eqb c "-" then Err ValueError else let! a := action_named (rev r) in Ok (N.to_nat (int_of_digits (rev d)), a)
          | [] => let! a := action_named [] in Ok (N.to_nat (int_of_digits (rev d)), a)
          end
      end
    else
      match factor with
      | [] => Err IndexError
      | c :: _ =>
          if Ascii.eqb c "-" then Err ValueError
          else if negb (is_digit c) then Err ValueError
          else let (d, r) := span_digits factor in let! a := action_named r in Ok (N.to_nat (int_of_digits d), a)
      end.
  (** 245-305 *)
  Definition parse_string (s : text) : result (term A) := mapM parse_factor (words s []).
  (** 171-190; [float_of] and [complex_of] see text without white space *)
  Definition parse_coefficient (s : text) : result K :=
    let s := filter (fun c => negb (is_space c)) s in
    let s := match s with c :: r => if Ascii.eqb c "+" then strip r else s | [] => s end in
    match s with
    | [] => Ok k1
    | c :: r =>
        if text_eqb s ["-"%char] then Ok (kopp k1)
        else match (if memb Ascii.eqb "j"%char s then
                      if Ascii.eqb c "-" then option_map kopp (complex_of r) else complex_of s
                    else float_of s) with
             | Some x => Ok x
             | None => Err ValueError
             end
    end.
  (** 158-196 *)
  Definition long_string_init (s : text) (coefficient : K) : result op :=
    foldM (fun d (m : text * text) =>
      let! c := parse_coefficient (fst m) in
      let! t := parse_string (snd m) in
      let (c', t') := simplify t (kmul c coefficient) in
      Ok (accumulate_term aeqb t' c' d)) (find_terms (length s) s) [].

  (** 198-216; unpacking a string of two characters gives its characters; len() of a number or another object is a TypeError *)
  Definition factor_parts (x : atom) : result (list atom) :=
    match x with ASeq l => Ok l | AText s => Ok (map (fun c => AText [c]) s) | AInt _ | AObj => Err TypeError end.
  Definition validate_factor (x : atom) : result (nat * A) :=
    let! l := factor_parts x in
    match l with
    | [index; action] =>
        match action_of cls action with
        | None => Err ValueError
        | Some a => match index with AInt z => if (z <? 0)%Z then Err ValueError else Ok (Z.to_nat z, a) | _ => Err ValueError end
        end
    | _ => Err ValueError
    end.
  (** 224-243 *)
  Definition parse_sequence (l : list atom) : result (term A) :=
    match l with
    | [] => Ok []
    | AInt _ :: _ => let! f := validate_factor (ASeq l) in Ok [f]
    | _ => mapM validate_factor l
    end.
  (** 124-156, for coefficients of an allowed type *)
  Definition construct (x : argument) (coefficient : K) : result op :=
    match x with
    | NoTerm => Ok []
    | TermText s =>
        if memb Ascii.eqb "["%char s then long_string_init s coefficient
        else let! t := parse_string s in Ok (mk_op simplify t coefficient)
    | TermSeq l => let! t := parse_sequence l in Ok (mk_op simplify t coefficient)
    | OtherTerm => Err ValueError
    end.

  (** ** 336-353 [__str__] *)
  Definition digits_of_index (n : nat) : text := text_of (str_of_int (Z.of_nat n)).
  (** 346; actions.index raises ValueError for an unknown action *)
  Definition action_text (a : A) : result text :=
    match dget aeqb a (combine (actions cls) (action_strings cls)) with Some s => Ok s | None => Err ValueError end.
  Definition factor_text (f : factor A) : result text :=
    let! s := action_text (snd f) in Ok (if action_before_index cls then s ++ digits_of_index (fst f) else digits_of_index (fst f) ++ s).
  Definition line (tc : term A * K) : result text :=
    let! fs := mapM factor_text (fst tc) in
    Ok (strip (show (snd tc) ++ text_of " [" ++ concat (map (fun w => w ++ [" "%char]) fs)) ++ ["]"; " "; "+"; "010"]%char).
  (** sorted() of the items: terms are different tuples of (index, action), so coefficients are never compared; [aleb] is <= for actions *)
  Context (aleb : A -> A -> bool).
  Fixpoint term_leb (t u : term A) : bool :=
    match t, u with
    | [], _ => true
    | _ :: _, [] => false
    | f :: t', g :: u' =>
        if factor_eqb aeqb f g then term_leb t' u'
        else if Nat.eqb (fst f) (fst g) then aleb (snd f) (snd g) else fst f <? fst g
    end.
  Definition to_text (a : op) : result text :=
    match a with
    | [] => Ok ["0"%char]
    | _ =>
        let! ls := mapM line (filter (fun tc => negb (small (snd tc))) (sort_by (fun x y => term_leb (fst x) (fst y)) a)) in
        let s := concat ls in Ok (firstn (length s - 3) s)
    end.
End OpText.
