(** Model of the diagonal part of an operator: openfermion/zapata_utils/_utils.py, get_diagonal_component and get_fermion_number_operator. *)
From Coq Require Import ZArith.
From Verif Require Import Base MatModel OpModel FermiModel TensorModel ConvModel RevJWModel.
Open Scope list_scope.
Local Open Scope nat_scope.

(** _utils.py:400-410: how often each index occurs with a creation and with an annihilation operator *)
Definition bump (index : nat) (counts : list (nat * nat)) : list (nat * nat) :=
  match dget Nat.eqb index counts with None => dset Nat.eqb index 1 counts | Some c => dset Nat.eqb index (c + 1) counts end.
Definition count_index (counts : list (nat * nat) * list (nat * nat)) (ki : bool * nat) : list (nat * nat) * list (nat * nat) :=
  let '(creation_counts, annihilation_counts) := counts in
  if fst ki then (bump (snd ki) creation_counts, annihilation_counts) else (creation_counts, bump (snd ki) annihilation_counts).
(** 412-422 *)
Definition same_count (counts : list (nat * nat)) (entry : nat * nat) : bool :=
  match dget Nat.eqb (fst entry) counts with Some c => Nat.eqb (snd entry) c | None => false end.
Definition term_is_diagonal (k : key) (i : list nat) : bool :=
  let '(creation_counts, annihilation_counts) := fold_left count_index (combine k i) ([], []) in
  if forallb (same_count annihilation_counts) creation_counts then forallb (same_count creation_counts) annihilation_counts else false.

Section Diag.
  Context {K : cring} (small : K -> bool).
  Open Scope K_scope.
  Notation arr := (TensorModel.ndarray K).

  (** 390-431: the two new arrays of a key, remainder first *)
  Definition split_element (h : heap K) (k : key) (e : entry K) (st : arr * arr) (i : list nat) : arr * arr :=
    let '(remainder, diagonal) := st in
    if term_is_diagonal k i then (remainder, assign diagonal i (element h e i)) else (assign remainder i (element h e i), diagonal).
  Definition split_key (n_modes : nat) (st : heap K * (list (key * entry K) * list (key * entry K))) (kv : key * entry K) : heap K * (list (key * entry K) * list (key * entry K)) :=
    let '(h, (remainder_tensors, diagonal_tensors)) := st in
    match fst kv with
    | [] => st
    | _ :: _ =>
        let '(r, d) := fold_left (split_element h (fst kv) (snd kv)) (indices n_modes (length (fst kv))) (zeros_array n_modes, zeros_array n_modes) in
        (h ++ [r; d], (dset key_eqb (fst kv) (Arr (length h)) remainder_tensors, dset key_eqb (fst kv) (Arr (S (length h))) diagonal_tensors))
    end.
  (** 374-433 [_get_diagonal_component_polynomial_tensor].  Simplification: a key other than () holds an array. *)
  Definition diagonal_polynomial (h : heap K) (a : ptensor K) : result (heap K * (ptensor K * ptensor K)) :=
    let! c := constant a in
    let '(h', (remainder_tensors, diagonal_tensors)) := fold_left (split_key (n_qubits a)) (n_body_tensors a) (h, ([], [([], Num c)])) in
    let! d := polynomial_tensor h' diagonal_tensors in
    let! r := polynomial_tensor h' remainder_tensors in
    Ok (h', (d, r)).

  (** 436-479 [_get_diagonal_component_interaction_operator].  The arrays of the two results are new; they are written before anyone else holds them. *)
  Definition array_at (h : heap K) (a : ptensor K) (k : key) : result arr :=
    match dget key_eqb k (n_body_tensors a) with Some (Arr r) => Ok (read h r) | Some (Num _) => Err AttributeError | None => Err KeyError end.
  (** 460-471 *)
  Definition two_body_step (x : arr) (st : arr * arr) (pq : nat * nat) : arr * arr :=
    let '(p, q) := pq in
    let '(diagonal, remainder) := st in
    let diagonal := assign diagonal [p; q; p; q] (data x [p; q; p; q]) in
    let diagonal := assign diagonal [p; q; q; p] (data x [p; q; q; p]) in
    let remainder := assign remainder [p; q; p; q] 0 in
    let remainder := assign remainder [p; q; q; p] 0 in
    (diagonal, remainder).
  (** 473-475 *)
  Definition one_body_step (x : arr) (st : arr * arr) (p : nat) : arr * arr :=
    let '(diagonal, remainder) := st in
    (assign diagonal [p; p] (data x [p; p]), assign remainder [p; p] 0).
  Definition diagonal_interaction (h : heap K) (a : ptensor K) : result (heap K * (ptensor K * ptensor K)) :=
    let! one := array_at h a [true; false] in
    let! two := array_at h a [true; true; false; false] in
    let! c := constant a in
    let n := shape0 two in
    let '(d2, r2) := fold_left (two_body_step two) (flat_map (fun p => map (pair p) (seq 0 n)) (seq 0 n)) (zeros_array n, two) in
    let '(d1, r1) := fold_left (one_body_step one) (seq 0 n) (zeros_array (shape0 one), one) in
    let h' := h ++ [d1; d2; r1; r2] in
    let tensors (c : K) (first : nat) := [([], Num c); ([true; false], Arr first); ([true; true; false; false], Arr (S first))] in
    let! d := polynomial_tensor h' (tensors c (length h)) in
    let! r := polynomial_tensor h' (tensors 0 (length h + 2)%nat) in
    Ok (h', (d, r)).

  (** 362-371: by the class of the argument *)
  Inductive tensor_class := InteractionClass | TensorClass | OtherClass.
  Definition get_diagonal_component (class : tensor_class) (h : heap K) (a : ptensor K) : result (heap K * (ptensor K * ptensor K)) :=
    match class with
    | InteractionClass => diagonal_interaction h a
    | TensorClass => diagonal_polynomial h a
    | OtherClass => Err TypeError
    end.

  (** 343-359; [n_particles] is the number that was given, if any *)
  Definition get_fermion_number_operator (h : heap K) (n : nat) (n_particles : option K) : result (heap K * ptensor K) :=
    let! operator := number_operator small n None 1 (-1) in
    let operator := match n_particles with Some m => fermion_add small operator (fermion_op [] (- (1) * m)) | None => operator end in
    get_interaction_operator small h operator None.
End Diag.
