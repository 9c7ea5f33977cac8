(** Model of EqualsTester: openfermion/testing/testing_utils.py:163-275.
    Every object has both comparison methods (Python 3), so the two tests with hasattr hold; a comparison method answers True, False or NotImplemented, or raises.
    Not modelled: comparison methods that answer something else, or that change objects. *)
From Coq Require Import List ZArith.
From Verif Require Import Base CostModel.
Import ListNotations.
Open Scope list_scope.

Inductive answer := Yes | No | NotImplemented.
Definition answer_eqb (a b : answer) : bool := match a, b with Yes, Yes | No, No | NotImplemented, NotImplemented => true | _, _ => false end.
(** An object that a comparison can meet: the instance of _ClassUnknownToSubjects that a tester holds, or a subject of the test. *)
Inductive object {O : Type} := Unknown | Subject (o : O).
Arguments object : clear implicits.

(** The classes of the subjects: their methods __eq__ and __ne__, identity, whether the class of the second object is a proper subclass of the class of the first, and hash (None if they are not hashable). *)
Record world (O : Type) := {
  eq_method : O -> object O -> result answer;
  ne_method : O -> object O -> result answer;
  identical : O -> O -> bool;
  subclass : object O -> object O -> bool;
  hash : O -> result (option Z)
}.
Arguments eq_method {O}. Arguments ne_method {O}. Arguments identical {O}. Arguments subclass {O}. Arguments hash {O}.

Section Tester.
  Context {O : Type} (w : world O).
  (** 262-269: the methods of _ClassUnknownToSubjects *)
  Definition call_eq (v1 v2 : object O) : result answer := match v1 with Subject o => eq_method w o v2 | Unknown => Ok (match v2 with Unknown => Yes | Subject _ => No end) end.
  Definition call_ne (v1 v2 : object O) : result answer := match v1 with Subject o => ne_method w o v2 | Unknown => Ok (match v2 with Unknown => No | Subject _ => Yes end) end.
  Definition is_same (v1 v2 : object O) : bool := match v1, v2 with Unknown, Unknown => true | Subject a, Subject b => identical w a b | _, _ => false end.
  (** Python's rules for == and !=: the method of the first object, or of the second one if its class is a proper subclass; then the other method; then identity. Not in the repository. *)
  Definition compare (method : object O -> object O -> result answer) (default : bool) (v1 v2 : object O) : result bool :=
    let '(m1, m2) := if subclass w v1 v2 then (method v2 v1, method v1 v2) else (method v1 v2, method v2 v1) in
    let! a := m1 in
    match a with Yes => Ok true | No => Ok false | NotImplemented => let! b := m2 in match b with Yes => Ok true | No => Ok false | NotImplemented => Ok default end end.
  Definition py_eq (v1 v2 : object O) : result bool := compare call_eq (is_same v1 v2) v1 v2.
  Definition py_ne (v1 v2 : object O) : result bool := compare call_ne (negb (is_same v1 v2)) v1 v2.
  (** unittest's assertTrue and assertIn *)
  Definition assert_true (b : bool) : result unit := if b then Ok tt else Err AssertionError.
  Definition assert_in (x : answer * answer) (l : list (answer * answer)) : result unit := assert_true (existsb (fun y => answer_eqb (fst x) (fst y) && answer_eqb (snd x) (snd y)) l).
  (** for v1, v2 in itertools.product(...) *)
  Fixpoint for_each {A} (f : A -> result unit) (l : list A) : result unit := match l with [] => Ok tt | x :: l' => let! _ := f x in for_each f l' end.
  (** 187-206 *)
  Definition check_equal (p : object O * object O) : result unit :=
    let '(v1, v2) := p in
    let! b := py_eq v1 v2 in let! _ := assert_true b in
    let! b := py_ne v1 v2 in let! _ := assert_true (negb b) in
    let! e := call_eq v1 v2 in let! n := call_ne v1 v2 in
    assert_in (e, n) [(Yes, No); (NotImplemented, No); (NotImplemented, NotImplemented)].
  (** 209-230 *)
  Definition check_different (p : object O * object O) : result unit :=
    let '(v1, v2) := p in
    let! b := py_eq v1 v2 in let! _ := assert_true (negb b) in
    let! b := py_ne v1 v2 in let! _ := assert_true b in
    let! e := call_eq v1 v2 in let! n := call_ne v1 v2 in
    assert_in (e, n) [(No, Yes); (NotImplemented, Yes); (NotImplemented, NotImplemented)].
  (** 233-236 *)
  Fixpoint hashes (items : list O) : result (list (option Z)) := match items with [] => Ok [] | v :: l => let! h := hash w v in let! hs := hashes l in Ok (h :: hs) end.
  Definition opt_eqb (a b : option Z) : bool := match a, b with Some x, Some y => Z.eqb x y | None, None => true | _, _ => false end.
  (** 237: len(set(hashes)) > 1 *)
  Definition more_than_one (hs : list (option Z)) : bool := match hs with [] => false | h :: l => negb (forallb (opt_eqb h) l) end.

  (** 166-168 *)
  Definition new_groups : list (list (object O)) := [[Unknown]].
  (** 170-252: the groups of the tester are its state *)
  Definition add_equality_group (items : list O) : M (list (list (object O))) unit := fun groups =>
    let group := map Subject items in
    match (let! _ := for_each check_equal (list_prod group group) in
           let! _ := for_each (fun other => for_each check_different (list_prod group other)) groups in
           let! hs := hashes items in
           if more_than_one hs then Err AssertionError else Ok tt) with
    | Ok _ => (groups ++ [group], Ok tt)
    | Err e => (groups, Err e)
    end.
  (** A test: groups added one after the other *)
  Fixpoint add_groups (gs : list (list O)) : M (list (list (object O))) unit :=
    match gs with [] => retM tt | g :: gs' => do! _ := add_equality_group g in add_groups gs' end.
  (** 254-256: [factory] can depend on a state of its own *)
  Definition make_equality_pair {S} (factory : M S O) : M (S * list (list (object O))) unit := fun '(s, groups) =>
    match factory s with
    | (s1, Err e) => ((s1, groups), Err e)
    | (s1, Ok a) => match factory s1 with
                    | (s2, Err e) => ((s2, groups), Err e)
                    | (s2, Ok b) => let '(groups', r) := add_equality_group [a; b] groups in ((s2, groups'), r)
                    end
    end.
End Tester.
