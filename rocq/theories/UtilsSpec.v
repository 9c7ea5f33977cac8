(** Specifications for utils.py, independent of the model. *)
From Coq Require Import String Ascii QArith Qround Sorting.Permutation.
From Verif Require Import Base MatModel.
Local Open Scope list_scope.
Local Open Scope nat_scope.

(** the number written in binary by the digits [l], most significant first (Horner) *)
Definition number_of (l : list Z) : Z := fold_left (fun acc b => 2 * acc + b)%Z l 0%Z.
Definition binary (l : list Z) : Prop := forall b, In b l -> (b = 0 \/ b = 1)%Z.

(** bitstrings *)
Definition is_bitstring (s : string) : Prop := forall c, In c (list_ascii_of_string s) -> c = "0"%char \/ c = "1"%char.
Definition bits_of_string (s : string) : list bool := map (fun c => if Ascii.eqb c "1"%char then true else false) (list_ascii_of_string s).

(** what an argsort may return: the positions, ordered by value; ties in any order *)
Definition sorts_positions (argsort : list Q -> list nat) : Prop :=
  forall l, Permutation (argsort l) (seq 0 (length l)) /\
    forall i j, (i < j < length l)%nat -> (nth (nth i (argsort l) 0%nat) l 0 <= nth (nth j (argsort l) 0%nat) l 0)%Q.

(** exact proportional share of the [i]-th value *)
Definition total_of (l : list Q) : Q := fold_right Qplus 0%Q l.
Definition share (values : list Q) (total : Z) (i : nat) : Q := (nth i values 0 / total_of values * QArith_base.inject_Z total)%Q.
