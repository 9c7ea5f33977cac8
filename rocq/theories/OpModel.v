(** Model of openfermion/ops/operators: symbolic_operator.py, qubit_operator.py, ising_operator.py, fermion_operator.py.
    Coefficients are exact elements of a ring; [small] is [_issmall] (69-85).  Terms are tuples of (index, action) with a non-negative
    index and a valid action, so the validation of factors (198-243) is not modelled here. *)
From Coq Require Import Reals.
From Verif Require Import Base MatModel Cplx CmpModel.
Open Scope list_scope.
Local Open Scope nat_scope.

Definition factor (A : Type) : Type := (nat * A)%type.
Definition term (A : Type) : Type := list (factor A).
(** the dictionary [terms], in insertion order *)
Definition sop (A : Type) (K : cring) : Type := list (term A * K).

Definition factor_eqb {A} (aeqb : A -> A -> bool) (f g : factor A) : bool := Nat.eqb (fst f) (fst g) && aeqb (snd f) (snd g).
Definition term_eqb {A} (aeqb : A -> A -> bool) : term A -> term A -> bool := list_eqb (factor_eqb aeqb).

Section Symbolic.
  Context {K : cring} {A : Type} (aeqb : A -> A -> bool) (simplify : term A -> K -> K * term A) (small : K -> bool).
  Notation op := (sop A K).
  Notation teqb := (term_eqb aeqb).

  (** symbolic_operator.py:124-156 with a tuple of factors; [None] gives the zero operator *)
  Definition mk_op (t : term A) (c : K) : op := let '(c', t') := simplify t c in [(t', c')].
  Definition zero_op : op := [].
  (** 316-334 *)
  Definition identity_op : op := mk_op [] k1.
  (** 307-314 *)
  Definition constant (a : op) : K := match dget teqb [] a with Some c => c | None => k0 end.
  Definition set_constant (v : K) (a : op) : op := dset teqb [] v a.
  (** 369-373 *)
  Definition op_scale (a : op) (c : K) : op := map (fun tc => (fst tc, kmul (snd tc) c)) a.
  (** 390-394: result_terms[new_term] += new_coefficient, or a new entry *)
  Definition accumulate_term (t : term A) (c : K) (d : op) : op :=
    match dget teqb t d with Some c0 => dset teqb t (kadd c0 c) d | None => dset teqb t c d end.
  (** 375-396 *)
  Definition op_mul (a b : op) : op :=
    fold_left (fun d lt => fold_left (fun d rt =>
        let '(c, t) := simplify (fst lt ++ fst rt) (kmul (snd lt) (snd rt)) in accumulate_term t c d) b d) a [].
  (** 442-444, 489-491: one term of an in-place addition or subtraction *)
  Definition merge_term (f : K -> K -> K) (d : op) (tc : term A * K) : op :=
    let v := f (match dget teqb (fst tc) d with Some c => c | None => k0 end) (snd tc) in
    let d' := dset teqb (fst tc) v d in
    if small v then ddel teqb (fst tc) d' else d'.
  (** 427-450, 452-462 *)
  Definition op_add (a b : op) : op := fold_left (merge_term kadd) b a.
  (** 474-496, 498-508 *)
  Definition op_sub (a b : op) : op := fold_left (merge_term ksub) b a.
  (** scalars: 445-446, 492-493; no pruning *)
  Definition add_scalar (a : op) (c : K) : op := set_constant (kadd (constant a) c) a.
  Definition sub_scalar (a : op) (c : K) : op := set_constant (ksub (constant a) c) a.
  (** 510-518: scalar or operator minus self *)
  Definition op_neg (a : op) : op := op_scale a (kopp k1).
  Definition op_rsub (a b : op) : op := op_add (op_neg a) b.
  Definition rsub_scalar (a : op) (c : K) : op := add_scalar (op_neg a) c.
  (** 543-572: division multiplies by 1.0 / divisor; [inv] is that quotient, None for a zero divisor *)
  Definition op_div (inv : K -> option K) (a : op) (c : K) : result op :=
    match inv c with Some r => Ok (op_scale a r) | None => Err ZeroDivisionError end.
  (** 585-612 *)
  Definition op_pow (a : op) (exponent : Z) : result op :=
    if (exponent <? 0)%Z then Err ValueError
    else Ok (Nat.iter (Z.to_nat exponent) (fun e => op_mul e a) identity_op).
  (** 738-745 *)
  Definition get_operators (a : op) : list op := map (fun tc => mk_op (fst tc) (snd tc)) a.
  (** 730-736 *)
  Definition accumulate (ops : list op) : op := fold_left op_add ops zero_op.
  (** 747-767: groups take consecutive operators from the generator; group i takes len(range(i, n, num_groups)) of them *)
  Definition range_len (i n step : nat) : nat := if i <? n then (n - i + step - 1) / step else 0.
  Fixpoint take_groups (sizes : list nat) (ops : list op) : list op :=
    match sizes with [] => [] | s :: sizes' => accumulate (firstn s ops) :: take_groups sizes' (skipn s ops) end.
  Definition get_operator_groups (a : op) (num_groups : Z) : list op :=
    let g := Nat.min (if (num_groups <? 1)%Z then 1 else Z.to_nat num_groups) (length a) in
    take_groups (map (fun i => range_len i (length a) g) (seq 0 g)) (get_operators a).
  (** 711-728: max of nothing (all coefficients small) is a ValueError *)
  Definition many_body_order (a : op) : result nat :=
    match a with
    | [] => Ok 0
    | _ => match map (fun tc => length (fst tc)) (filter (fun tc => negb (small (snd tc))) a) with
           | [] => Err ValueError
           | n :: l => Ok (fold_left Nat.max l n)
           end
    end.

  (** ** Objects and in-place updates: a heap from references to operators *)
  Definition heap := list (nat * op).
  Definition fresh (h : heap) : nat := S (max_nat (map fst h)).
  Definition deref (h : heap) (r : nat) : result op := match dget Nat.eqb r h with Some o => Ok o | None => Err KeyError end.
  (** [x += y], [x -= y].  When both are the same object and an entry is removed, the iteration over the dictionary fails. *)
  Definition inplace (f : K -> K -> K) (h : heap) (r1 r2 : nat) : result heap :=
    let! a := deref h r1 in
    let! b := deref h r2 in
    if Nat.eqb r1 r2 then
      if existsb (fun tc => small (f (snd tc) (snd tc))) a then Err RuntimeError
      else Ok (dset Nat.eqb r1 (fold_left (merge_term f) b a) h)
    else Ok (dset Nat.eqb r1 (fold_left (merge_term f) b a) h).
  (** [x + y], [x - y]: a deep copy of the left operand is updated; the reference of the result is returned *)
  Definition binary_op (f : K -> K -> K) (h : heap) (r1 r2 : nat) : result (heap * nat) :=
    let! a := deref h r1 in
    let r := fresh h in
    let! h' := inplace f (dset Nat.eqb r a h) r r2 in
    Ok (h', r).
End Symbolic.

(** ** Qubit operators *)
Inductive pauli := Pid | Px | Py | Pz.
Definition pauli_eqb (a b : pauli) : bool :=
  match a, b with Pid, Pid | Px, Px | Py, Py | Pz, Pz => true | _, _ => false end.
Section Qubit.
  Context {K : cring} (im : K).
  (** qubit_operator.py:21-38 *)
  Definition pauli_product (a b : pauli) : K * pauli :=
    match a, b with
    | Pid, Pid => (k1, Pid) | Pid, Px => (k1, Px) | Px, Pid => (k1, Px) | Pid, Py => (k1, Py) | Py, Pid => (k1, Py) | Pid, Pz => (k1, Pz) | Pz, Pid => (k1, Pz)
    | Px, Px => (k1, Pid) | Py, Py => (k1, Pid) | Pz, Pz => (k1, Pid)
    | Px, Py => (im, Pz) | Px, Pz => (kopp im, Py) | Py, Px => (kopp im, Pz) | Py, Pz => (im, Px) | Pz, Px => (im, Py) | Pz, Py => (kopp im, Px)
    end.
  Definition index_leb {A} (f g : factor A) : bool := Nat.leb (fst f) (fst g).
  (** 125-147: the loop; [lf] is the factor being built *)
  Fixpoint merge_factors (lf : factor pauli) (l : term pauli) (c : K) : K * term pauli :=
    match l with
    | [] => (c, if pauli_eqb (snd lf) Pid then [] else [lf])
    | rf :: l' =>
        if Nat.eqb (fst lf) (fst rf) then
          let '(d, a) := pauli_product (snd lf) (snd rf) in merge_factors (fst lf, a) l' (kmul c d)
        else
          let '(c', t) := merge_factors rf l' c in (c', if pauli_eqb (snd lf) Pid then t else lf :: t)
    end.
  (** 118-149 *)
  Definition qubit_simplify (t : term pauli) (c : K) : K * term pauli :=
    match sort_by index_leb t with [] => (c, []) | f :: l => merge_factors f l c end.
End Qubit.
Definition qop (K : cring) := sop pauli K.

(** ** Ising operators: the action is always Z *)
Inductive zact := ZZ.
Definition zact_eqb (a b : zact) : bool := true.
(** ising_operator.py:58-64 *)
Definition power_of (i : nat) (t : term zact) : nat := length (filter (fun f => Nat.eqb (fst f) i) t).
Definition ising_simplify {K : cring} (t : term zact) (c : K) : K * term zact :=
  (c, map (fun i => (i, ZZ)) (sort_by Nat.leb (filter (fun i => Nat.odd (power_of i t)) (uniq Nat.eqb (map fst t))))).
Definition isop (K : cring) := sop zact K.

(** ** Fermion operators: action true is a creation operator *)
(** symbolic_operator.py:218-222 with different_indices_commute = False *)
Definition fermion_simplify {K : cring} (t : term bool) (c : K) : K * term bool := (c, t).
Definition fop (K : cring) := sop bool K.
(** fermion_operator.py:85-104; the two loops visit the pairs (j-1, j) for i >= j >= 1, i.e. every adjacent pair *)
Definition bad_pair (lf rf : factor bool) : bool :=
  (snd rf && negb (snd lf)) || (Bool.eqb (snd rf) (snd lf) && (fst lf <=? fst rf)).
Definition adjacent_bad (t : term bool) (j : nat) : bool :=
  match nth_error t (j - 1), nth_error t j with Some l, Some r => bad_pair l r | _, _ => false end.
Definition term_not_normal (t : term bool) : bool :=
  existsb (fun i => existsb (adjacent_bad t) (rev (seq 1 i))) (seq 1 (length t - 1)).
Definition is_normal_ordered {K : cring} (a : fop K) : bool := negb (existsb (fun tc => term_not_normal (fst tc)) a).
(** 106-132 *)
Definition sign_of (n : nat) : Z := if Nat.even n then 1%Z else (-1)%Z.
Definition is_two_body_number_conserving {K : cring} (a : fop K) (check_spin_symmetry : bool) : bool :=
  forallb (fun tc =>
    let t := fst tc in
    let particles := fold_left (fun s (f : factor bool) => s + sign_of (if snd f then 1 else 0))%Z t 0%Z in
    let spin := fold_left (fun s (f : factor bool) => s + sign_of (fst f + (if snd f then 1 else 0)))%Z t 0%Z in
    (Nat.eqb (length t) 0 || Nat.eqb (length t) 2 || Nat.eqb (length t) 4)
    && Z.eqb particles 0 && (Z.eqb spin 0 || negb check_spin_symmetry)) a.

(** ** Comparison and compression of operators with numeric (complex) coefficients *)
Section Numeric.
  Context {A : Type} (aeqb : A -> A -> bool).
  Notation op := (sop A CC).
  Notation teqb := (term_eqb aeqb).
  Definition Rlt_bool (x y : R) : bool := if Rlt_dec x y then true else false.
  Definition Rle_bool' (x y : R) : bool := if Rle_dec x y then true else false.
  Definition is_small (tol : R) (v : CC) : bool := Rlt_bool (cmod v) tol.
  (** 642-649: the tolerance is multiplied along the loop.  Result: the final tolerance, or None when a difference is too large *)
  Fixpoint close_common (a b : op) (common : list (term A)) (tol : R) : option R :=
    match common with
    | [] => Some tol
    | t :: l =>
        match dget teqb t a, dget teqb t b with
        | Some x, Some y =>
            let tol' := (tol * Rmax 1 (Rmax (cmod x) (cmod y)))%R in
            if is_small tol' (csub x y) then close_common a b l tol' else None
        | _, _ => close_common a b l tol
        end
    end.
  (** 629-658; [order] is the iteration order of Python sets *)
  Definition isclose (order : list (term A) -> list (term A)) (a b : op) (tol : R) : bool :=
    let common := order (filter (fun t => memb teqb t (dkeys b)) (dkeys a)) in
    let single := order (filter (fun t => negb (memb teqb t (dkeys b))) (dkeys a) ++ filter (fun t => negb (memb teqb t (dkeys a))) (dkeys b)) in
    match close_common a b common tol with
    | None => false
    | Some tol' => forallb (fun t => match dget teqb t a with
                                     | Some x => is_small tol' x
                                     | None => match dget teqb t b with Some y => is_small tol' y | None => true end
                                     end) single
    end.
  (** 660-691; a coefficient is a Python number or a sympy number, which the code treats without absolute values *)
  Definition compress_number (tol : R) (c : C) : option C :=
    let c1 := if Rle_bool' (Rabs (snd c)) tol then (fst c, 0%R) else c in
    let c2 := if Rle_bool' (Rabs (fst c1)) tol then (0%R, snd c1) else c1 in
    if Rlt_bool tol (cmod c2) then Some c2 else None.
  Definition compress_sympy (tol : R) (c : C) : option C :=
    let c1 := if Rle_bool' (snd c) tol then (fst c, 0%R) else c in
    let c2 := if Rle_bool' (fst c1) tol then (0%R, snd c1) else c1 in
    if Rle_bool' (cmod c2) tol then None else Some c2.
  Definition compress (is_sympy : term A -> bool) (tol : R) (a : op) : op :=
    flat_map (fun tc => match (if is_sympy (fst tc) then compress_sympy else compress_number) tol (snd tc) with
                        | Some c => [(fst tc, c)] | None => [] end) a.
  (** 693-709 with order 1 and 2 *)
  Definition induced_norm1 (a : op) : R := fold_left (fun n tc => n + cmod (snd tc))%R a 0%R.
  Definition induced_norm2 (a : op) : R := sqrt (fold_left (fun n tc => n + cmod (snd tc) ^ 2)%R a 0%R).
End Numeric.
