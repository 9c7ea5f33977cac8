(** Values of Python's [json] module: what [json.loads] returns and [json.dumps] accepts.
    The text layer itself (json.loads(json.dumps(x)) == x for these values, including the shortest
    representation of floats) is trusted.  [K] is the type of numbers. *)
From Coq Require Import String.
From Verif Require Import Base BaseFacts.

Inductive json (K : Type) : Type :=
| JNull
| JBool (b : bool)
| JNum (x : K)
| JStr (s : string)
| JArr (l : list (json K))
| JObj (d : list (string * json K)).
Arguments JNull {K}. Arguments JBool {K} b. Arguments JNum {K} x. Arguments JStr {K} s.
Arguments JArr {K} l. Arguments JObj {K} d.

(** Python dictionaries with string keys *)
Definition jdict (K : Type) := list (string * json K).
Definition jget {K} (k : string) (d : jdict K) : option (json K) := dget String.eqb k d.
(** [d[k]] *)
Definition jitem {K} (k : string) (d : jdict K) : result (json K) :=
  match jget k d with Some v => Ok v | None => Err KeyError end.
Definition jset {K} (k : string) (v : json K) (d : jdict K) : jdict K := dset String.eqb k v d.

(** Python's truth value of such an object; [isz] tells which numbers are zero. *)
Definition truthy {K} (isz : K -> bool) (j : json K) : bool :=
  match j with
  | JNull => false
  | JBool b => b
  | JNum x => negb (isz x)
  | JStr s => negb (String.eqb s EmptyString)
  | JArr l => match l with [] => false | _ => true end
  | JObj d => match d with [] => false | _ => true end
  end.
