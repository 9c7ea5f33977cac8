(** Model of openfermion/testing/testing_utils.py (lines 26-158), openfermion/testing/random.py and core/testing/_initialize.py: random matrices and operators.
    The generators are functions of their state: what numpy.random and random draw, for every seed and algorithm. *)
From Coq Require Import ZArith.
From Verif Require Import Base MatModel OpModel TensorModel ConvModel MolModel CostModel.
Open Scope list_scope.
Local Open Scope nat_scope.

Section RandomTensors.
  Context {K : cring} {G : Type}.
  Open Scope K_scope.
  Local Notation arr := (TensorModel.ndarray K).
  (** numpy.random.seed, numpy.random.randn() and the imaginary unit *)
  Context (seeded : Z -> G) (randn : G -> G * K) (im : K).
  (** [if seed is not None: numpy.random.seed(seed)] *)
  Definition reseed (seed : option Z) (g : G) : G := match seed with Some s => seeded s | None => g end.
  (** numpy.random.randn(n, n): the elements are drawn in row-major order *)
  Definition randn_matrix (n : nat) (g : G) : G * arr :=
    fold_left (fun st i => let (g, x) := randn (fst st) in (g, assign (snd st) i x)) (indices n 2) (g, zeros_array n).
  (** testing_utils.py:31-34, 43-46 *)
  Definition rand_mat (n : nat) (real : bool) (g : G) : G * arr :=
    let (g, a) := randn_matrix n g in
    if real then (g, a) else let (g, b) := randn_matrix n g in (g, {| shape0 := n; data := fun i => data a i + im * data b i |}).
  (** [a.T] of a square matrix *)
  Definition transposed (i : list nat) : list nat := match i with [p; q] => [q; p] | _ => i end.
  (** testing_utils.py:26-36 [random_antisymmetric_matrix] *)
  Definition random_antisymmetric_matrix (n : nat) (real : bool) (seed : option Z) (g : G) : G * arr :=
    let (g, a) := rand_mat n real (reseed seed g) in (g, {| shape0 := n; data := fun i => data a i - data a (transposed i) |}).
  (** testing_utils.py:39-49 [random_hermitian_matrix] *)
  Definition random_hermitian_matrix (n : nat) (real : bool) (seed : option Z) (g : G) : G * arr :=
    let (g, a) := rand_mat n real (reseed seed g) in (g, {| shape0 := n; data := fun i => data a i + kconj (data a (transposed i)) |}).

  (** len(set(indices)) *)
  Definition distinct (i : list nat) : nat := length (uniq Nat.eqb i).
  (** testing_utils.py:112-128: the body of the loop over p, q, r, s *)
  Definition two_body_draw (real : bool) (st : G * arr) (i : list nat) : G * arr :=
    match i with
    | [p; q; r; s] =>
        let (g, x) := randn (fst st) in
        let (g, coeff) := if (negb real && Nat.leb 3 (distinct [p; q; r; s]))%bool then let (g, y) := randn g in (g, x + im * y) else (g, x) in
        let t := assign (snd st) [p; q; r; s] coeff in
        let t := assign t [q; p; s; r] coeff in
        let t := assign t [s; r; q; p] (kconj coeff) in
        let t := assign t [r; s; p; q] (kconj coeff) in
        if real
        then let t := assign t [r; q; p; s] coeff in
             let t := assign t [p; s; r; q] coeff in
             let t := assign t [s; p; q; r] coeff in
             let t := assign t [q; r; s; p] coeff in (g, t)
        else (g, t)
    | _ => st
    end.
  (** numpy.kron(one_body_coefficients, numpy.eye(2)) *)
  Definition kron_eye2 (a : arr) : arr :=
    {| shape0 := (2 * shape0 a)%nat;
       data := fun i => match i with [p; q] => data a [Nat.div2 p; Nat.div2 q] * (if Nat.eqb (p mod 2) (q mod 2) then 1 else 0) | _ => 0 end |}.
  (** testing_utils.py:142-153: the body of the loop of the expansion to spin orbitals *)
  Definition expand_step (two : arr) (new : arr) (i : list nat) : arr :=
    match i with
    | [p; q; r; s] =>
        let coefficient := data two [p; q; r; s] in
        let t := assign new [2 * p; 2 * q + 1; 2 * r + 1; 2 * s]%nat coefficient in
        let t := assign t [2 * p + 1; 2 * q; 2 * r; 2 * s + 1]%nat coefficient in
        let t := assign t [2 * p; 2 * q; 2 * r; 2 * s]%nat coefficient in
        assign t [2 * p + 1; 2 * q + 1; 2 * r + 1; 2 * s + 1]%nat coefficient
    | _ => new
    end.
  (** testing_utils.py:83-160 [random_interaction_operator] *)
  Definition random_interaction_operator (n_orbitals : nat) (expand_spin real : bool) (seed : option Z) (g : G) (h : heap K) : G * result (heap K * ptensor K) :=
    let (g, constant) := randn (reseed seed g) in
    let (g, one) := random_hermitian_matrix n_orbitals real None g in
    let (g, two) := fold_left (two_body_draw real) (indices n_orbitals 4) (g, zeros_array n_orbitals) in
    let '(one, two) := if expand_spin
      then (kron_eye2 one, fold_left (expand_step two) (indices n_orbitals 4) (zeros_array (2 * n_orbitals)))
      else (one, two) in
    (g, interaction_operator h constant one two).

  (** random.py:47-49, 51-53: the elements of an array with the wrong number of different indices are set to zero *)
  Definition clear_step (order : nat) (x : arr) (i : list nat) : arr := if negb (Nat.eqb (distinct i) order) then assign x i 0 else x.
  Definition clear (order rank : nat) (key : key) (h : heap K) (a : ptensor K) : result (heap K) :=
    match dget key_eqb key (n_body_tensors a) with
    | Some (Arr r) => Ok (write h r (fold_left (clear_step order) (indices order rank) (read h r)))
    | Some (Num _) => Err TypeError
    | None => Err KeyError
    end.
  (** random.py:24-55 [random_interaction_operator_term] *)
  Definition random_interaction_operator_term (order : nat) (real : bool) (seed : option Z) (g : G) (h : heap K) : G * result (heap K * ptensor K) :=
    if Nat.ltb 4 order then (g, interaction_operator h 0 (zeros_array order) (zeros_array order)) else
    let (g, op) := random_interaction_operator order false real seed g h in
    (g, let! (h, operator) := op in
        let operator := TensorModel.set_constant operator 0 in
        let! h := clear order 2 [true; false] h operator in
        let! h := clear order 4 [true; true; false; false] h operator in
        Ok (h, operator)).
End RandomTensors.

(** What numpy.random.RandomState and random draw: a number below n (of an empty range: ValueError and IndexError), a normally distributed number *)
Record draws (G : Type) (K : cring) := { below : nat -> G -> G * nat; normal : G -> G * K }.
Arguments below {G K}. Arguments normal {G K}.
Section RandomQubitOperators.
  Context {K : cring} {G : Type} (im : K) (small : K -> bool) (rng : draws G K).
  Definition pick (e : exn) (n : nat) : M G nat := fun g => match n with 0 => (g, Err e) | S _ => let (g', i) := below rng n g in (g', Ok i) end.
  Definition randn1 : M G K := fun g => let (g', x) := normal rng g in (g', Ok x).
  Fixpoint timesM {A} (k : nat) (f : A -> M G A) (a : A) : M G A := match k with 0 => retM a | S k' => do! a' := f a in timesM k' f a' end.
  Definition pauli_of (k : nat) : pauli := match k with 0 => Px | 1 => Py | _ => Pz end.
  Definition simplify (t : term pauli) (c : K) := qubit_simplify im t c.
  Definition plus (a b : qop K) : qop K := op_add pauli_eqb small a b.
  (** testing_utils.py:63-80 [random_qubit_operator], from the new generator of the seed; [randint(1, m + 1)] is a number below m, plus one, and of m < 1 a ValueError *)
  Definition random_qubit_operator (n_qubits max_num_terms max_many_body_order : Z) : M G (qop K) :=
    do! k := pick ValueError (Z.to_nat max_num_terms) in
    timesM (S k) (fun op =>
      do! many_body_order := pick ValueError (Z.to_nat (max_many_body_order + 1)) in
      do! term := timesM many_body_order (fun term =>
        do! index := pick ValueError (Z.to_nat n_qubits) in
        do! action := pick ValueError 3 in
        retM (term ++ [(index, pauli_of action)])) [] in
      do! coefficient := randn1 in
      retM (plus op (mk_op simplify term coefficient))) [].

  (** _initialize.py:53-57, 103-107: draw until the number is not among those drawn; [fuel] bounds the number of attempts *)
  Fixpoint fresh_qubit (fuel nqubits : nat) (qubits : list nat) : M G nat :=
    match fuel with
    | 0 => fun g => (g, Err OutOfFuel)
    | S fuel' => do! q := pick IndexError nqubits in if memb Nat.eqb q qubits then fresh_qubit fuel' nqubits qubits else retM q
    end.
  (** _initialize.py:42-64, 92-113: the text of the term, as its factors (C67: the text "X0 Y3 " denotes the factors X on qubit 0 and Y on qubit 3) *)
  Definition random_term {A} (fuel nqubits : nat) (draw_action : M G A) : M G (term A) :=
    do! num_paulis := pick IndexError (S nqubits) in
    timesM num_paulis (fun full_term =>
      do! q := fresh_qubit fuel nqubits (map fst full_term) in
      do! a := draw_action in
      retM (full_term ++ [(q, a)])) [].
  (** _initialize.py:11-67 [create_random_qubitop] *)
  Definition create_random_qubitop (fuel nqubits : nat) (nterms : Z) : M G (qop K) :=
    timesM (Z.to_nat nterms) (fun op =>
      do! full_term := random_term fuel nqubits (do! k := pick IndexError 3 in retM (pauli_of k)) in
      retM (plus op (mk_op simplify full_term k1))) [].
  (** _initialize.py:70-118 [create_random_isingop] *)
  Definition create_random_isingop (fuel nqubits : nat) (nterms : Z) : M G (isop K) :=
    timesM (Z.to_nat nterms) (fun op =>
      do! full_term := random_term fuel nqubits (retM ZZ) in
      retM (op_add zact_eqb small op (mk_op ising_simplify full_term k1))) [].
End RandomQubitOperators.
