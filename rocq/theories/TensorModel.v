(** Model of openfermion/ops/representations/polynomial_tensor.py: the class PolynomialTensor and its arithmetic.
    numpy arrays are mutable and shared by reference, so they live in a heap: an array is an address, and the heap is a list of arrays.
    An array of n dimensions is its first dimension and a function from index lists to numbers; all its dimensions are taken to be equal and its dtype complex,
    so casting errors of in-place operations are not modelled.  Dictionaries themselves are values: two objects built from the same dict object are not modelled. *)
From Coq Require Import ZArith.
From Verif Require Import Base MatModel.
Local Open Scope list_scope.
Local Open Scope nat_scope.

Section Tensor.
  Context {K : cring}.
  Open Scope K_scope.
  Record ndarray := { shape0 : nat; data : list nat -> K }.
  Definition heap := list ndarray.
  (** Keys are tuples of 0 and 1; 1 stands for a creation operator. *)
  Definition key := list bool.
  Definition key_eqb : key -> key -> bool := list_eqb Bool.eqb.
  (** A value of the dictionary: a Python number, or a reference to an array. *)
  Inductive entry := Num (c : K) | Arr (address : nat).
  Record ptensor := { n_qubits : nat; n_body_tensors : list (key * entry) }.

  Definition read (h : heap) (r : nat) : ndarray := nth r h {| shape0 := O; data := fun _ => 0 |}.
  Definition alloc (h : heap) (x : ndarray) : entry * heap := (Arr (length h), h ++ [x]).
  Fixpoint write (h : heap) (r : nat) (x : ndarray) : heap :=
    match h, r with [], _ => [] | _ :: h', O => x :: h' | y :: h', S r' => y :: write h' r' x end.
  (** The element of an entry at an index. *)
  Definition element (h : heap) (e : entry) (i : list nat) : K := match e with Num c => c | Arr r => data (read h r) i end.

  (** polynomial_tensor.py:126-144 [__init__]; [next] on an exhausted iterator raises StopIteration, a number has no shape *)
  Definition polynomial_tensor (h : heap) (d : list (key * entry)) : result ptensor :=
    let first d := match d with
                   | [] => Err StopIteration
                   | (_, Arr r) :: _ => Ok {| n_qubits := shape0 (read h r); n_body_tensors := [] |}
                   | (_, Num _) :: _ => Err AttributeError
                   end in
    let! p := match d with ([], _) :: d' => first d' | _ => first d end in
    Ok {| n_qubits := n_qubits p; n_body_tensors := d |}.
  Definition with_tensors (a : ptensor) (d : list (key * entry)) : ptensor := {| n_qubits := n_qubits a; n_body_tensors := d |}.

  (** numpy.add, numpy.subtract, numpy.multiply: of two numbers a number, otherwise a new array *)
  Definition ufunc2 (f : K -> K -> K) (h : heap) (e1 e2 : entry) : entry * heap :=
    match e1, e2 with
    | Num c, Num d => (Num (f c d), h)
    | Arr r, Num d => alloc h {| shape0 := shape0 (read h r); data := fun i => f (data (read h r) i) d |}
    | Num c, Arr s => alloc h {| shape0 := shape0 (read h s); data := fun i => f c (data (read h s) i) |}
    | Arr r, Arr s => alloc h {| shape0 := shape0 (read h r); data := fun i => f (data (read h r) i) (data (read h s) i) |}
    end.
  (** a function applied to a number or, elementwise, to an array *)
  Definition ufunc1 (f : K -> K) (h : heap) (e : entry) : entry * heap :=
    match e with
    | Num c => (Num (f c), h)
    | Arr r => alloc h {| shape0 := shape0 (read h r); data := fun i => f (data (read h r) i) |}
    end.

  (** 234-240, 276-282: the loop over the keys of the other operand; a key that is absent gets the other operand's own array *)
  Definition merge_key (f : K -> K -> K) (st : heap * list (key * entry)) (kv : key * entry) : heap * list (key * entry) :=
    let '(h, d) := st in
    match dget key_eqb (fst kv) d with
    | Some e => let '(e', h') := ufunc2 f h e (snd kv) in (h', dset key_eqb (fst kv) e' d)
    | None => (h, dset key_eqb (fst kv) (snd kv) d)
    end.
  Definition merge (f : K -> K -> K) (h : heap) (a b : ptensor) : result (heap * ptensor) :=
    if negb (Nat.eqb (n_qubits a) (n_qubits b)) then Err TypeError
    else let '(h', d) := fold_left (merge_key f) (n_body_tensors b) (h, n_body_tensors a) in Ok (h', with_tensors a d).
  (** 222-242 [__iadd__] and 264-284 [__isub__] with a tensor *)
  Definition iadd : heap -> ptensor -> ptensor -> result (heap * ptensor) := merge kadd.
  Definition isub : heap -> ptensor -> ptensor -> result (heap * ptensor) := merge ksub.
  (** 146-154 [constant] *)
  Definition constant (a : ptensor) : result K :=
    match dget key_eqb [] (n_body_tensors a) with Some (Num c) => Ok c | Some (Arr _) => Err TypeError | None => Ok 0 end.
  Definition set_constant (a : ptensor) (c : K) : ptensor := with_tensors a (dset key_eqb [] (Num c) (n_body_tensors a)).
  (** 224-226, 266-268: with a number *)
  Definition iadd_number (a : ptensor) (c : K) : result ptensor := let! c0 := constant a in Ok (set_constant a (c0 + c)).
  Definition isub_number (a : ptensor) (c : K) : result ptensor := let! c0 := constant a in Ok (set_constant a (c0 - c)).

  (** copy.deepcopy: every array is copied (two keys holding the same array would share the copy; here each gets its own) *)
  Definition map_entries (g : heap -> entry -> entry * heap) (h : heap) (d : list (key * entry)) : heap * list (key * entry) :=
    fold_left (fun (st : heap * list (key * entry)) (kv : key * entry) =>
      let '(h, d) := st in let '(e, h') := g h (snd kv) in (h', d ++ [(fst kv, e)])) d (h, []).
  Definition deepcopy (h : heap) (a : ptensor) : heap * ptensor :=
    let '(h', d) := map_entries (fun h e => match e with Num c => (Num c, h) | Arr r => alloc h (read h r) end) h (n_body_tensors a) in (h', with_tensors a d).
  (** 244-247 [__add__], 286-289 [__sub__] *)
  Definition add (h : heap) (a b : ptensor) : result (heap * ptensor) := let '(h', a') := deepcopy h a in iadd h' a' b.
  Definition sub (h : heap) (a b : ptensor) : result (heap * ptensor) := let '(h', a') := deepcopy h a in isub h' a' b.
  Definition add_number (h : heap) (a : ptensor) (c : K) : result (heap * ptensor) :=
    let '(h', a') := deepcopy h a in let! a'' := iadd_number a' c in Ok (h', a'').
  Definition sub_number (h : heap) (a : ptensor) (c : K) : result (heap * ptensor) :=
    let '(h', a') := deepcopy h a in let! a'' := isub_number a' c in Ok (h', a'').

  (** 252-262 [with_function_applied_elementwise], [__neg__], [__mod__]: [f] is the function *)
  Definition with_function_applied_elementwise (f : K -> K) (h : heap) (a : ptensor) : result (heap * ptensor) :=
    let '(h', d) := map_entries (ufunc1 f) h (n_body_tensors a) in let! p := polynomial_tensor h' d in Ok (h', p).
  Definition neg : heap -> ptensor -> result (heap * ptensor) := with_function_applied_elementwise kopp.

  (** 294-297 [__imul__] with a number, 328-335 [__itruediv__]: numbers are replaced, arrays are changed in place; [f] multiplies or divides by the number *)
  Definition scale_key (f : K -> K) (st : heap * list (key * entry)) (kv : key * entry) : heap * list (key * entry) :=
    let '(h, d) := st in
    match snd kv with
    | Num c => (h, dset key_eqb (fst kv) (Num (f c)) d)
    | Arr r => (write h r {| shape0 := shape0 (read h r); data := fun i => f (data (read h r) i) |}, d)
    end.
  Definition inplace (f : K -> K) (h : heap) (a : ptensor) : heap * ptensor :=
    let '(h', d) := fold_left (scale_key f) (n_body_tensors a) (h, n_body_tensors a) in (h', with_tensors a d).
  Definition imul_number (h : heap) (a : ptensor) (m : K) : heap * ptensor := inplace (fun x => x * m) h a.
  (** 318-326 [__mul__], [__rmul__] *)
  Definition mul_number (h : heap) (a : ptensor) (m : K) : heap * ptensor := let '(h', a') := deepcopy h a in imul_number h' a' m.
  (** 291-292 [__rsub__]: -1 * self + number *)
  Definition rsub_number (h : heap) (a : ptensor) (c : K) : result (heap * ptensor) :=
    let '(h', a') := mul_number h a (- (1)) in add_number h' a' c.
  (** 299-316 [__imul__] with a tensor *)
  Definition times_key (b : ptensor) (st : heap * list (key * entry)) (kv : key * entry) : heap * list (key * entry) :=
    let '(h, d) := st in
    match dget key_eqb (fst kv) (n_body_tensors b) with
    | Some e2 => let '(e', h') := ufunc2 kmul h (snd kv) e2 in (h', dset key_eqb (fst kv) e' d)
    | None =>
        match fst kv with
        | [] => (h, dset key_eqb [] (Num 0) d)
        | _ :: _ => let '(e', h') := ufunc1 (fun _ => 0) h (snd kv) in (h', dset key_eqb (fst kv) e' d)
        end
    end.
  Definition imul (h : heap) (a b : ptensor) : result (heap * ptensor) :=
    if negb (Nat.eqb (n_qubits a) (n_qubits b)) then Err TypeError
    else let '(h', d) := fold_left (times_key b) (n_body_tensors a) (h, n_body_tensors a) in Ok (h', with_tensors a d).
  Definition mul (h : heap) (a b : ptensor) : result (heap * ptensor) := let '(h', a') := deepcopy h a in imul h' a' b.

  (** itertools.product(range(n), repeat=m) *)
  Fixpoint indices (n m : nat) : list (list nat) :=
    match m with O => [[]] | S m' => flat_map (fun i => map (cons i) (indices n m')) (seq O n) end.
  (** 197-217 [__eq__]: the largest absolute difference is below the tolerance exactly when all are; [tiny] tells which differences are
      (the tolerance being positive); the largest element of an empty array raises ValueError *)
  Definition all_tiny (tiny : K -> bool) (n : nat) (k : key) (f : list nat -> K) : bool := forallb (fun i => tiny (f i)) (indices n (length k)).
  Definition eqb_tensor (tiny : K -> bool) (h : heap) (a b : ptensor) : result bool :=
    if negb (Nat.eqb (n_qubits a) (n_qubits b)) then Ok false
    else
      let keys := uniq key_eqb (dkeys (n_body_tensors a) ++ dkeys (n_body_tensors b)) in
      let! l := mapM (fun k =>
        if Nat.eqb (length (indices (n_qubits a) (length k))) O then Err ValueError
        else Ok (all_tiny tiny (n_qubits a) k (fun i =>
          match dget key_eqb k (n_body_tensors a), dget key_eqb k (n_body_tensors b) with
          | Some x, Some y => element h x i - element h y i
          | Some x, None => element h x i
          | None, Some y => element h y i
          | None, None => 0
          end))) keys in
      Ok (forallb (fun b => b) l).

  (** 342-362 [__iter__]: keys sorted by length and then by value; the constant always, other elements when not zero *)
  Definition key_int (k : key) : Z := fold_left (fun acc (b : bool) => (10 * acc + if b then 1 else 0)%Z) k 0%Z.
  Definition key_leb (k l : key) : bool :=
    if Nat.eqb (length k) (length l) then Z.leb (key_int k) (key_int l) else Nat.ltb (length k) (length l).
  Definition iterate (isz : K -> bool) (h : heap) (a : ptensor) : list (list (nat * bool)) :=
    flat_map (fun kv : key * entry =>
      match fst kv with
      | [] => [[]]
      | _ :: _ => map (fun i => combine i (fst kv)) (filter (fun i => negb (isz (element h (snd kv) i))) (indices (n_qubits a) (length (fst kv))))
      end) (sort_by (fun kv lv => key_leb (fst kv) (fst lv)) (n_body_tensors a)).
  (** 168-182 [__getitem__] *)
  Definition getitem (h : heap) (a : ptensor) (args : list (nat * bool)) : result K :=
    match dget key_eqb (map snd args) (n_body_tensors a) with
    | None => Err KeyError
    | Some e => Ok (element h e (map fst args))
    end.
End Tensor.
Arguments ndarray K : clear implicits.
Arguments heap K : clear implicits.
Arguments entry K : clear implicits.
Arguments ptensor K : clear implicits.
