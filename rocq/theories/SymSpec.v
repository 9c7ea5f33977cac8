(** What the symbolic translation should do. *)
From Coq Require Import String Ascii ZArith QArith.
From Verif Require Import Base SymModel.
Open Scope list_scope.
Local Open Scope string_scope.

(** ** Arithmetic: what sympy's operations denote.  Division, subtraction and square root are tied to products, sums and powers. *)
Record arith := {
  V :> Type;
  vadd : V -> V -> V; vmul : V -> V -> V; vpow : V -> V -> V; vsub : V -> V -> V; vdiv : V -> V -> V; vsqrt : V -> V;
  vnum : Q -> V; vi : V; vfun : string -> list V -> V;
  vadd_assoc : forall a b c, vadd a (vadd b c) = vadd (vadd a b) c;
  vadd_0 : forall a, vadd a (vnum 0) = a;
  vmul_assoc : forall a b c, vmul a (vmul b c) = vmul (vmul a b) c;
  vmul_1 : forall a, vmul a (vnum 1) = a;
  vmul_1l : forall a, vmul (vnum 1) a = a;
  vnum_eq : forall p q, (p == q)%Q -> vnum p = vnum q;
  vsub_def : forall a b, vsub a b = vadd a (vmul (vnum (-1)) b);
  vdiv_def : forall a b, vdiv a b = vmul a (vpow b (vnum (-1)));
  vsqrt_def : forall a, vsqrt a = vpow a (vnum (1 # 2)) }.

Section Value.
  Context (A : arith) (env : string -> A).
  (** The value of a sympy expression: numbers, symbols from the environment, sums, products, powers and functions. *)
  Fixpoint value (e : sx) : A :=
    match e with
    | SNative q | SFloat q | SRational q => vnum A q
    | SInt z => vnum A (inject_Z z)
    | SSym s => env s
    | SImagUnit => vi A
    | SAdd args => fold_right (vadd A) (vnum A 0) (map value args)
    | SMul args => fold_right (vmul A) (vnum A 1) (map value args)
    | SPow b ex => vpow A (value b) (value ex)
    | SFun f args => vfun A f (map value args)
    | SOther n => vnum A 0
    end.
  (** The arithmetic dialect: the table of the sympy dialect with these operations *)
  Definition arithmetic_dialect : dialect A :=
    {| symbol_factory := env;
       number_factory := fun n => match n with NQ q => vnum A q | NI => vi A end;
       known_functions := arithmetic_functions (vadd A) (vmul A) (vdiv A) (vsub A) (vpow A)
         (fun x => vfun A "cos" [x]) (fun x => vfun A "sin" [x]) (fun x => vfun A "exp" [x]) (vsqrt A) (fun x => vfun A "tan" [x]) |}.
End Value.

(** names of the arithmetic operations *)
Definition operation_names : list string := ["add"; "mul"; "div"; "sub"; "pow"; "sqrt"].
Definition elementary_functions : list string := ["cos"; "sin"; "exp"; "tan"].

Section Shape.
  Variable to_float : Q -> Q.
  Fixpoint all {A} (P : A -> Prop) (l : list A) : Prop := match l with [] => True | a :: l' => P a /\ all P l' end.
  (** Numbers survive the conversion to float, and no function of the expression is called like an arithmetic operation. *)
  Fixpoint plain (e : sx) : Prop :=
    match e with
    | SFloat q | SRational q => (to_float q == q)%Q
    | SAdd args | SMul args => (fix go l := match l with [] => True | a :: l' => plain a /\ go l' end) args
    | SPow b ex => plain b /\ plain ex
    | SFun f args => ~ In f operation_names /\ (fix go l := match l with [] => True | a :: l' => plain a /\ go l' end) args
    | _ => True
    end.
  (** In addition, every part has a translation. *)
  Fixpoint supported (e : sx) : Prop :=
    match e with
    | SFloat q | SRational q => (to_float q == q)%Q
    | SAdd args | SMul args => args <> [] /\ (fix go l := match l with [] => True | a :: l' => supported a /\ go l' end) args
    | SPow b ex => supported b /\ supported ex
    | SFun f args => In f elementary_functions /\ exists a, args = [a] /\ (fix go l := match l with [] => True | a :: l' => supported a /\ go l' end) args
    | SOther _ => False
    | _ => True
    end.
End Shape.
Fixpoint size (e : sx) : nat :=
  match e with
  | SAdd args | SMul args | SFun _ args => S (fold_right (fun a n => size a + n) 0 args)
  | SPow b ex => S (size b + size ex)
  | _ => 1
  end%nat.
(** sympy's product with -1 of a product that begins with -1 *)
Record negation_of_products (A : arith) (env : string -> A) (to_float : Q -> Q) (negate : sx -> sx) : Prop := {
  negate_value : forall f l, num_is (-1) f = true -> vmul A (vnum A (-1)) (value A env (negate (SMul (f :: l)))) = value A env (SMul (f :: l));
  negate_plain : forall f l, num_is (-1) f = true -> plain to_float (SMul (f :: l)) -> plain to_float (negate (SMul (f :: l)));
  negate_supported : forall f l, num_is (-1) f = true -> supported to_float (SMul (f :: l)) -> supported to_float (negate (SMul (f :: l)));
  negate_size : forall f l, num_is (-1) f = true -> (size (negate (SMul (f :: l))) <= size (SMul (f :: l)))%nat }.

(** ** Names: a stem without digits followed by a decimal numeral *)
Definition no_digits (s : string) : Prop := forall c, In c (list_ascii_of_string s) -> is_digit c = false.
Definition numeral (s : string) : Prop := s <> "" /\ forall c, In c (list_ascii_of_string s) -> is_digit c = true.
Fixpoint decimal_value (l : list ascii) : N :=
  match l with [] => 0 | c :: l' => (N_of_ascii c - N_of_ascii "0") * 10 ^ N.of_nat (length l') + decimal_value l' end%N.
Definition numeral_value (s : string) : N := decimal_value (list_ascii_of_string s).
