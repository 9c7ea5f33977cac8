(** Model of circuits/symbolic: translation of sympy expressions to expression trees (sympy_expressions.py), evaluation of trees in a
    dialect (expressions.py, translations.py) and symbol orderings (_sorting.py). *)
From Coq Require Import String Ascii ZArith QArith.
From Verif Require Import Base.
Open Scope list_scope.
Local Open Scope string_scope.

(** ** Sympy expressions, as far as the translation looks at them.  Floats are the rational numbers they denote.  [SOther] stands for any
    object without a registered translation (sympy.pi, sympy.E, relations, ...).  Arguments are in sympy's own order. *)
Inductive sx :=
| SNative (q : Q) | SSym (name : string) | SInt (z : Z) | SFloat (q : Q) | SRational (q : Q) | SImagUnit
| SAdd (args : list sx) | SMul (args : list sx) | SPow (base exponent : sx) | SFun (name : string) (args : list sx) | SOther (tag : nat).

(** expressions.py:11-27; native numbers are exact rationals or the imaginary unit *)
Inductive number := NQ (q : Q) | NI.
Inductive tree := TNum (n : number) | TSym (name : string) | TCall (name : string) (args : list tree).

(** [e == q] for a sympy object and a Python number *)
Definition num_is (q : Q) (e : sx) : bool :=
  match e with SNative r | SFloat r | SRational r => Qeq_bool r q | SInt z => Qeq_bool (inject_Z z) q | _ => false end.
(** sympy_expressions.py:27-30 *)
Definition is_multiplication_by_reciprocal (args : list sx) : bool :=
  match args with [_; SPow _ e] => num_is (-1) e | _ => false end.
(** 33-36; a product without factors does not occur in sympy ([args[0]] would fail) *)
Definition is_addition_of_negation (args : list sx) : bool :=
  match args with [_; SMul (f :: _)] => num_is (-1) f | _ => false end.

(** 39-127.  [negate] is sympy's own product with -1 (79-80), [to_float] is float() of a sympy Float or Rational.  Python recursion
    is bounded by fuel, because the negated operand is a new expression. *)
Section FromSympy.
  Variable negate : sx -> sx.
  Variable to_float : Q -> Q.
  Fixpoint expression_from_sympy (fuel : nat) (e : sx) {struct fuel} : result tree :=
    match fuel with
    | O => Err OutOfFuel
    | S n =>
        match e with
        | SNative q => Ok (TNum (NQ q))
        | SSym s => Ok (TSym s)
        | SInt z => Ok (TNum (NQ (inject_Z z)))
        | SFloat q | SRational q => Ok (TNum (NQ (to_float q)))
        | SImagUnit => Ok (TNum NI)
        | SAdd args =>
            match args with
            | [a; b] =>
                if is_addition_of_negation args then
                  let! x := expression_from_sympy n a in
                  let! y := expression_from_sympy n (negate b) in
                  Ok (TCall "sub" [x; y])
                else rmap (TCall "add") (mapM (expression_from_sympy n) args)
            | _ => rmap (TCall "add") (mapM (expression_from_sympy n) args)
            end
        | SMul args =>
            match args with
            | [a; SPow b _] =>
                if is_multiplication_by_reciprocal args then
                  let! x := expression_from_sympy n a in
                  let! y := expression_from_sympy n b in
                  Ok (TCall "div" [x; y])
                else rmap (TCall "mul") (mapM (expression_from_sympy n) args)
            | _ => rmap (TCall "mul") (mapM (expression_from_sympy n) args)
            end
        | SPow b ex =>
            if num_is (-1) ex then
              let! y := expression_from_sympy n b in Ok (TCall "div" [TNum (NQ 1); y])
            else if num_is (1 # 2) ex then
              let! y := expression_from_sympy n b in Ok (TCall "sqrt" [y])
            else rmap (TCall "pow") (mapM (expression_from_sympy n) [b; ex])
        | SFun f args => rmap (TCall f) (mapM (expression_from_sympy n) args)
        | SOther _ => Err NotImplementedError
        end
    end.
End FromSympy.

(** ** Dialects: expressions.py:30-40 *)
Record dialect (V : Type) := {
  symbol_factory : string -> V;
  number_factory : number -> V;
  known_functions : list (string * (list V -> result V)) }.
Arguments symbol_factory {V}. Arguments number_factory {V}. Arguments known_functions {V}.
(** expressions.py:43-47; functools.reduce of nothing is a TypeError *)
Definition reduction {V} (op : V -> V -> V) (args : list V) : result V :=
  match args with [] => Err TypeError | a :: l => Ok (fold_left op l a) end.
(** a Python function called with the wrong number of arguments is a TypeError *)
Definition unary {V} (f : V -> V) (args : list V) : result V := match args with [a] => Ok (f a) | _ => Err TypeError end.
Definition binary {V} (f : V -> V -> V) (args : list V) : result V := match args with [a; b] => Ok (f a b) | _ => Err TypeError end.
(** tuple(f(x) for x in l) *)
Definition map_result {A B} (f : A -> result B) : list A -> result (list B) :=
  fix go l := match l with [] => Ok [] | a :: l' => let! v := f a in let! vs := go l' in Ok (v :: vs) end.
(** translations.py:12-40 *)
Fixpoint translate_expression {V} (d : dialect V) (t : tree) : result V :=
  match t with
  | TNum n => Ok (number_factory d n)
  | TSym s => Ok (symbol_factory d s)
  | TCall f args =>
      match dget String.eqb f (known_functions d) with
      | None => Err ValueError
      | Some g => let! vs := map_result (translate_expression d) args in g vs
      end
  end.
(** sympy_expressions.py:133-148: the table of functions of the sympy dialect, over any arithmetic *)
Definition arithmetic_functions {V} (add mul div sub pow : V -> V -> V) (cos sin exp sqrt tan : V -> V)
  : list (string * (list V -> result V)) :=
  [("add", reduction add); ("mul", reduction mul); ("div", binary div); ("sub", binary sub); ("pow", binary pow);
   ("cos", unary cos); ("sin", unary sin); ("exp", unary exp); ("sqrt", unary sqrt); ("tan", unary tan)].

(** ** Symbol orderings: _sorting.py *)
Inductive key_part := KText (s : string) | KInt (n : N).
(** [\d] and [isdigit], ASCII digits only *)
Definition is_digit (c : ascii) : bool := ((48 <=? N_of_ascii c) && (N_of_ascii c <=? 57))%N.
Definition digit_value (c : ascii) : N := (N_of_ascii c - 48)%N.
Definition int_of_digits (l : list ascii) : N := fold_left (fun acc c => 10 * acc + digit_value c)%N l 0%N.
(** [re.split(r"(\d+)", s)] with digit groups made integers (8-9, 30-33): [digits] tells which kind of group is being read, [cur] is the group so far *)
Fixpoint natural_groups (s : list ascii) (digits : bool) (cur : list ascii) : list key_part :=
  match s with
  | [] => if digits then [KInt (int_of_digits cur); KText ""] else [KText (string_of_list_ascii cur)]
  | c :: s' =>
      if is_digit c then
        if digits then natural_groups s' true (cur ++ [c])
        else KText (string_of_list_ascii cur) :: natural_groups s' true [c]
      else
        if digits then KInt (int_of_digits cur) :: natural_groups s' false [c]
        else natural_groups s' false (cur ++ [c])
  end.
(** 12-33 *)
Definition natural_key (name : string) : list key_part := natural_groups (list_ascii_of_string name) false [].
(** 36-47 *)
Definition natural_key_revlex (name : string) : list key_part := rev (natural_key name).
(** Python's list comparison [k < k']: the first differing elements decide; str against int is a TypeError *)
Definition part_eqb (a b : key_part) : bool :=
  match a, b with KText s, KText t => String.eqb s t | KInt m, KInt n => N.eqb m n | _, _ => false end.
Fixpoint key_lt (k k' : list key_part) : result bool :=
  match k, k' with
  | _, [] => Ok false
  | [], _ :: _ => Ok true
  | a :: l, b :: l' =>
      if part_eqb a b then key_lt l l'
      else match a, b with
           | KText s, KText t => Ok (String.ltb s t)
           | KInt m, KInt n => Ok (N.ltb m n)
           | _, _ => Err TypeError
           end
  end.
(** [name.split("_")] *)
Fixpoint split_underscore (s : list ascii) : list (list ascii) :=
  match s with
  | [] => [[]]
  | c :: s' =>
      if Ascii.eqb c "_" then [] :: split_underscore s'
      else match split_underscore s' with [] => [[c]] | w :: ws => (c :: w) :: ws end
  end.
(** [int(text)], digits only *)
Definition parse_index (l : list ascii) : result N :=
  match l with [] => Err ValueError | _ => if forallb is_digit l then Ok (int_of_digits l) else Err ValueError end.
(** 50-68 [natural_key_fixed_names_order]; a name listed twice has the weight of its last position *)
Definition symbol_weights (names_order : list string) : list (string * nat) :=
  fold_left (fun d kv => dset String.eqb (fst kv) (snd kv) d) (combine names_order (seq 0 (length names_order))) [].
Definition natural_key_fixed_names_order (names_order : list string) (name : string) : result (N * nat) :=
  match split_underscore (list_ascii_of_string name) with
  | [n; ix] =>
      let! i := parse_index ix in
      match dget String.eqb (string_of_list_ascii n) (symbol_weights names_order) with
      | Some w => Ok (i, w)
      | None => Err KeyError
      end
  | _ => Err ValueError
  end.
(** comparison of two such keys *)
Definition pair_lt (a b : N * nat) : bool := (N.ltb (fst a) (fst b) || (N.eqb (fst a) (fst b) && Nat.ltb (snd a) (snd b)))%bool.
