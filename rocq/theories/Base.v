(** Common ground of the model: exceptions as values and Python dictionaries. *)
From Coq Require Export List Arith ZArith Lia Bool.
Export ListNotations.

(** Exceptions the modelled code can raise (only the class is kept, messages are not modelled). *)
Inductive exn : Type :=
| ValueError | TypeError | KeyError | IndexError | AssertionError | AttributeError
| NotImplementedError | RuntimeError | ZeroDivisionError | StopIteration | OverflowError | FileNotFoundError
| GenericException | SystemExit | OutOfFuel.

Inductive result (A : Type) : Type :=
| Ok (a : A)
| Err (e : exn).
Arguments Ok {A} a.
Arguments Err {A} e.

Definition rbind {A B : Type} (r : result A) (f : A -> result B) : result B :=
  match r with Ok a => f a | Err e => Err e end.
Definition rmap {A B : Type} (f : A -> B) (r : result A) : result B :=
  match r with Ok a => Ok (f a) | Err e => Err e end.
Notation "'let!' x ':=' r 'in' k" := (rbind r (fun x => k))
  (at level 200, x pattern, r at level 100, k at level 200, right associativity).

(** Run a fallible function over a list, stopping at the first exception. *)
Fixpoint mapM {A B : Type} (f : A -> result B) (l : list A) : result (list B) :=
  match l with
  | [] => Ok []
  | a :: l' => let! b := f a in let! bs := mapM f l' in Ok (b :: bs)
  end.

(** Left fold with early exit on exceptions: a Python [for] loop updating a state. *)
Fixpoint foldM {A S : Type} (f : S -> A -> result S) (l : list A) (s : S) : result S :=
  match l with
  | [] => Ok s
  | a :: l' => let! s' := f s a in foldM f l' s'
  end.

(** Python dictionaries: insertion ordered association lists. *)
Section Dict.
  Context {K V : Type} (keqb : K -> K -> bool).

  (** [d.get(k)] *)
  Fixpoint dget (k : K) (d : list (K * V)) : option V :=
    match d with
    | [] => None
    | (k', v) :: d' => if keqb k k' then Some v else dget k d'
    end.

  (** [d[k] = v]: in-place update of an existing key, append otherwise. *)
  Fixpoint dset (k : K) (v : V) (d : list (K * V)) : list (K * V) :=
    match d with
    | [] => [(k, v)]
    | (k', v') :: d' => if keqb k k' then (k', v) :: d' else (k', v') :: dset k v d'
    end.

  (** [del d[k]] *)
  Fixpoint ddel (k : K) (d : list (K * V)) : list (K * V) :=
    match d with
    | [] => []
    | (k', v') :: d' => if keqb k k' then d' else (k', v') :: ddel k d'
    end.

  Definition dkeys (d : list (K * V)) : list K := map fst d.
  Definition dvals (d : list (K * V)) : list V := map snd d.
  Definition dmem (k : K) (d : list (K * V)) : bool :=
    match dget k d with Some _ => true | None => false end.

  (** [dict(pairs)]: later pairs overwrite the value of earlier ones. *)
  Definition dict_of (l : list (K * V)) : list (K * V) :=
    fold_left (fun d kv => dset (fst kv) (snd kv) d) l [].
End Dict.

(** [list(dict.fromkeys(l))]: first occurrences, in order. *)
Section Uniq.
  Context {A : Type} (eqb : A -> A -> bool).
  Definition memb (a : A) (l : list A) : bool := existsb (eqb a) l.
  (** loop with a [seen] set *)
  Fixpoint uniq_from (seen : list A) (l : list A) : list A :=
    match l with
    | [] => []
    | a :: l' => if memb a seen then uniq_from seen l' else a :: uniq_from (a :: seen) l'
    end.
  Definition uniq (l : list A) : list A := uniq_from [] l.
End Uniq.

Definition eqb_spec_of {A} (eqb : A -> A -> bool) : Prop := forall a b, eqb a b = true <-> a = b.

Fixpoint list_eqb {A} (eqb : A -> A -> bool) (l1 l2 : list A) : bool :=
  match l1, l2 with
  | [], [] => true
  | a :: l1', b :: l2' => eqb a b && list_eqb eqb l1' l2'
  | _, _ => false
  end.

Definition pair_eqb {A B} (ea : A -> A -> bool) (eb : B -> B -> bool) (x y : A * B) : bool :=
  ea (fst x) (fst y) && eb (snd x) (snd y).

Definition option_eqb {A} (ea : A -> A -> bool) (x y : option A) : bool :=
  match x, y with
  | None, None => true
  | Some a, Some b => ea a b
  | _, _ => false
  end.

Fixpoint sum_nat (l : list nat) : nat :=
  match l with [] => 0 | x :: l' => x + sum_nat l' end.

Fixpoint max_nat (l : list nat) : nat :=
  match l with [] => 0 | x :: l' => Nat.max x (max_nat l') end.

(** [sorted(l)] for the order [leb] (stable insertion sort). *)
Section Sort.
  Context {A : Type} (leb : A -> A -> bool).
  Fixpoint insert_by (a : A) (l : list A) : list A :=
    match l with
    | [] => [a]
    | b :: l' => if leb a b then a :: l else b :: insert_by a l'
    end.
  Fixpoint sort_by (l : list A) : list A :=
    match l with [] => [] | a :: l' => insert_by a (sort_by l') end.
End Sort.
