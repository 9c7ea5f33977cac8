(** What operator texts mean (C67). *)
From Coq Require Import String Ascii ZArith.
From Verif Require Import Base MatModel OpModel SymModel SymSpec OpSpec OpTextModel UtilsModel DistModel.
Open Scope list_scope.
Local Open Scope nat_scope.

Definition spaces (s : text) : Prop := forall c, In c s -> is_space c = true.
Definition no_spaces (s : text) : Prop := forall c, In c s -> is_space c = false.
(** The words of a text: what stands between white space. *)
Inductive separated : text -> list text -> Prop :=
| sep_none s : spaces s -> separated s []
| sep_word s w r ws : spaces s -> w <> [] -> no_spaces w -> match r with [] => True | c :: _ => is_space c = true end ->
    separated r ws -> separated (s ++ w ++ r) (w :: ws).

(** The string of an action: at the same position in the two tables of the class. *)
Definition action_written {A} (cls : op_class A) (a : A) (s : text) : Prop :=
  exists i, nth_error (actions cls) i = Some a /\ nth_error (action_strings cls) i = Some s.
(** A word that names a factor: the string of the action and a decimal numeral (leading zeros allowed), in the order of the class. *)
Definition factor_word {A} (cls : op_class A) (w : text) (f : factor A) : Prop :=
  exists s d, action_written cls (snd f) s /\ d <> [] /\ (forall c, In c d -> is_digit c = true) /\ decimal_value d = N.of_nat (fst f) /\
    w = if action_before_index cls then s ++ d else d ++ s.
Definition term_written {A} (cls : op_class A) (s : text) (t : term A) : Prop := exists ws, separated s ws /\ Forall2 (factor_word cls) ws t.
(** What is needed of a class: different actions, different strings, no digits, spaces or other special characters in them. *)
Definition plain_char (c : ascii) : Prop := is_digit c = false /\ is_space c = false /\ c <> "-"%char /\ c <> "["%char /\ c <> "]"%char.
Definition good_class {A} (cls : op_class A) : Prop :=
  NoDup (actions cls) /\ NoDup (action_strings cls) /\ length (actions cls) = length (action_strings cls) /\
  forall s c, In s (action_strings cls) -> In c s -> plain_char c.

Section Numbers.
  Context {K : cring} (float_of complex_of : text -> option K).
  (** A text without white space that is a number: a float, or, if it contains j, a complex number; a leading minus sign of the latter is applied separately. *)
  Inductive number_written : text -> K -> Prop :=
  | nw_real s x : s <> [] -> s <> ["-"%char] -> ~ In "j"%char s -> float_of s = Some x -> number_written s x
  | nw_complex s x : In "j"%char s -> hd "+"%char s <> "-"%char -> complex_of s = Some x -> number_written s x
  | nw_negative s x : In "j"%char s -> complex_of s = Some x -> number_written ("-"%char :: s) (kopp x).
  (** The coefficient in front of a bracket: white space and one leading plus sign do not count; nothing is 1, a lone minus sign is -1. *)
  Definition signless (s : text) (v : text) : Prop :=
    let u := filter (fun c => negb (is_space c)) s in u = "+"%char :: v \/ (u = v /\ hd " "%char v <> "+"%char).
  Inductive coefficient_written : text -> K -> Prop :=
  | cw_one s : signless s [] -> coefficient_written s k1
  | cw_minus s : signless s ["-"%char] -> coefficient_written s (kopp k1)
  | cw_number s v x : signless s v -> number_written v x -> coefficient_written s x.
  (** A coefficient is printed exactly: without white space or brackets, and so that it reads as the same number. *)
  Definition printed_exactly (show : K -> text) (c : K) : Prop :=
    no_spaces (show c) /\ ~ In "["%char (show c) /\ hd " "%char (show c) <> "+"%char /\ number_written (show c) c.
End Numbers.

(** Text of a sum: pieces of a coefficient and a bracketed term. *)
Definition pieces_text (l : list (text * text)) : text := concat (map (fun p => fst p ++ ["["%char] ++ snd p ++ ["]"%char]) l).
(** Terms that the class keeps as they are. *)
Definition simplified {K : cring} {A} (simplify : term A -> K -> K * term A) (t : term A) : Prop := forall c, simplify t c = (c, t).

(** A sequence that describes a term: nothing, one factor, or a sequence of factors. *)
Definition factor_pair {A} (cls : op_class A) (x : atom) (f : factor A) : Prop := exists y, x = ASeq [AInt (Z.of_nat (fst f)); y] /\ action_of cls y = Some (snd f).
Definition sequence_of {A} (cls : op_class A) (l : list atom) (t : term A) : Prop :=
  (exists f, factor_pair cls (ASeq l) f /\ t = [f]) \/ Forall2 (factor_pair cls) l t.
(** The sum of the coefficients that belong to a term. *)
Definition total {K : cring} {A} (aeqb : A -> A -> bool) (l : list (K * term A)) (t : term A) : K :=
  fold_right (fun ct s => if term_eqb aeqb (snd ct) t then kadd (fst ct) s else s) k0 l.

(** ** Printing *)
Fixpoint joined (sep : text) (l : list text) : text :=
  match l with [] => [] | w :: r => match r with [] => w | _ => w ++ sep ++ joined sep r end end.
(** A factor: the string of the action and the decimal form of the index (without leading zeros), in the order of the class. *)
Definition factor_printed {A} (cls : op_class A) (w : text) (f : factor A) : Prop :=
  exists s, action_written cls (snd f) s /\ let d := text_of (str_of_int (Z.of_nat (fst f))) in w = if action_before_index cls then s ++ d else d ++ s.
(** A line: the coefficient, a space, and in brackets the factors separated by spaces. *)
Definition line_printed {K : cring} {A} (cls : op_class A) (show : K -> text) (w : text) (tc : term A * K) : Prop :=
  exists ws, Forall2 (factor_printed cls) ws (fst tc) /\ w = show (snd tc) ++ text_of " [" ++ joined [" "%char] ws ++ ["]"%char].
(** The order of tuples of pairs (index, action). *)
Definition factor_before {A} (alt : A -> A -> Prop) (f g : factor A) : Prop := fst f < fst g \/ (fst f = fst g /\ alt (snd f) (snd g)).
Inductive term_before {A} (alt : A -> A -> Prop) : term A -> term A -> Prop :=
| tb_prefix f t : term_before alt [] (f :: t)
| tb_first f g t u : factor_before alt f g -> term_before alt (f :: t) (g :: u)
| tb_rest f t u : term_before alt t u -> term_before alt (f :: t) (f :: u).
