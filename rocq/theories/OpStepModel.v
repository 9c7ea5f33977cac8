(** Model of the workflow steps that make operators: steps/operators.py and steps/transforms.py.  A step that ends by saving an operator is modelled by the operator
    it saves, and the loading of an operator given by a file name by the operator in the file (what is read back from a file is the subject of C51 and C52). *)
From Coq Require Import NArith String Reals.
From Verif Require Import Base MatModel OpModel FermiModel TensorModel ConvModel JWInterModel Cplx.
Open Scope list_scope.
Local Open Scope nat_scope.

Section Steps.
  Context {K : cring} (im half : K) (small is_zero : K -> bool).
  Open Scope K_scope.
  Notation qadd := (op_add pauli_eqb small).
  (** a coefficient times QubitOperator(text); the text is given as the parsed term *)
  Definition times_pauli (c : K) (t : term pauli) : qop K := op_scale (mk_op (qubit_simplify im) t 1) c.

  (** operators.py:41-46 [get_local_zero_state_operator]; [quotient n] is 1 / n *)
  Definition get_local_zero_state_operator (quotient : nat -> K) (n : nat) : isop K :=
    fold_left (fun o q => op_sub zact_eqb small o (mk_op ising_simplify [(q, ZZ)] (quotient n))) (seq 0 n) (mk_op ising_simplify [] 1).

  (** operators.py:142-150: an operator's entry between two states, as the constant of a normal ordered product; terms[()] is a KeyError when there is none *)
  Definition matrix_element (f : fop K) (bra ket : term bool) : result K :=
    match dget (term_eqb Bool.eqb) [] (normal_ordered small (fermion_mul (fermion_mul (fermion_op bra 1) f) (fermion_op ket 1))) with
    | Some c => Ok c | None => Err KeyError end.
  (** numpy.trace of a 2 x 2 array *)
  Definition trace_of (m : mat K) : K := ent m 0%nat 0%nat + ent m 1%nat 1%nat.
  (** operators.py:125-170 [get_one_qubit_hydrogen_hamiltonian] *)
  Definition get_one_qubit_hydrogen_hamiltonian (h : heap K) (a : ptensor K) : result (qop K) :=
    let! f := get_fermion_operator small is_zero h a in
    let! h00 := matrix_element f [(0%nat, false); (1%nat, false)] [(1%nat, true); (0%nat, true)] in
    let! h11 := matrix_element f [(2%nat, false); (3%nat, false)] [(3%nat, true); (2%nat, true)] in
    let! h10 := matrix_element f [(2%nat, false); (3%nat, false)] [(1%nat, true); (0%nat, true)] in
    let h01 := kconj h10 in
    let m := of_rows [[h00; h01]; [h10; h11]] in
    let r_id := half * trace_of m in
    let r_x := half * trace_of (mmul m (of_rows [[0; 1]; [1; 0]])) in
    let r_y := half * trace_of (mmul m (of_rows [[0; - im]; [im; 0]])) in
    let r_z := half * trace_of (mmul m (of_rows [[1; 0]; [0; - (1)]])) in
    Ok (qadd (qadd (qadd (times_pauli r_id []) (times_pauli r_x [(0%nat, Px)])) (times_pauli r_y [(0%nat, Py)])) (times_pauli r_z [(0%nat, Pz)])).

  (** operators.py:187-197 [create_one_qubit_operator] *)
  Definition create_one_qubit_operator (x y z constant : K) : qop K :=
    qadd (qadd (qadd (times_pauli x [(0%nat, Px)]) (times_pauli y [(0%nat, Py)])) (times_pauli z [(0%nat, Pz)])) (times_pauli constant []).

  (** transforms.py:18-49 [transform_interaction_operator] on an interaction operator; [order] is the order in which sets are iterated; the timing is not modelled *)
  Definition transform_interaction_operator (order : list N -> list N) (transformation : string) (h : heap K) (a : ptensor K) : result (qop K) :=
    if String.eqb transformation "Jordan-Wigner" then jordan_wigner_interaction_op im half small is_zero h a None
    else if String.eqb transformation "Bravyi-Kitaev" then let! f := get_fermion_operator small is_zero h a in bravyi_kitaev im half small order f None
    else Err RuntimeError.
End Steps.

(** operators.py:82-110 [interpolate_qubit_operators] with a real epsilon; complex coefficients are pairs of reals *)
Definition interpolate_qubit_operators (small : CC -> bool) (reference target : result (qop CC)) (epsilon : R) : result (qop CC) :=
  let! reference := reference in
  let! target := target in
  if Rlt_dec 1 epsilon then Err ValueError else if Rlt_dec epsilon 0 then Err ValueError
  else Ok (op_add pauli_eqb small (op_scale target (rc epsilon)) (op_scale reference (rc (1 - epsilon)))).
