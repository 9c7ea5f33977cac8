(** Model of circuits/_unitary_tools.py (numpy instance; the sympy instance runs the same code). *)
From Verif Require Import Base MatModel.

(** binary digits of a number without leading zeros, [bin(i)[2:]] *)
Fixpoint pos_digits (p : positive) (acc : list bool) : list bool :=
  match p with
  | xH => true :: acc
  | xO p' => pos_digits p' (false :: acc)
  | xI p' => pos_digits p' (true :: acc)
  end.
Definition bin_digits (i : N) : list bool :=
  match i with N0 => [false] | Npos p => pos_digits p [] end.
(** [str.zfill] *)
Definition zfill (n : nat) (l : list bool) : list bool := repeat false (n - length l) ++ l.

(** _unitary_tools.py:11-22 [_permute]; IndexError on an index out of range *)
Definition permute {A} (vector : list A) (permutation : list nat) : result (list A) :=
  mapM (fun i => match nth_error vector i with Some a => Ok a | None => Err IndexError end) permutation.

(** _unitary_tools.py:25-27 [_basis_bitstring] *)
Definition basis_bitstring (i num_qubits : nat) : list bool := zfill num_qubits (bin_digits (N.of_nat i)).

Section Lift.
  Context {K : cring}.

  (** _unitary_tools.py:36-39 [_bitstring_to_numpy_dense_vector]; reduce of an empty sequence is a TypeError *)
  Definition basis_vec (b : bool) : vec K := of_list (if b then [k0; k1] else [k1; k0]).
  Definition bitstring_to_dense_vector (state : list bool) : result (vec K) :=
    match state with
    | [] => Err TypeError
    | b :: rest => Ok (fold_left (fun v b => vkron v (basis_vec b)) rest (basis_vec b))
    end.

  (** _unitary_tools.py:42-68 [_permutation_matrix] *)
  Definition permutation_matrix (order : list nat) : result (mat K) :=
    let n := length order in
    if negb (list_eqb Nat.eqb (sort_by Nat.leb order) (seq 0 n)) then Err ValueError
    else
      foldM (fun m i =>
        let! out := permute (basis_bitstring i n) order in
        let! v := bitstring_to_dense_vector out in
        Ok (set_column m i v)) (seq 0 (2 ^ n)) (zeros (2 ^ n) (2 ^ n)).

  (** _unitary_tools.py:71-76 [_permutation_making_qubits_adjacent] *)
  Definition permutation_making_qubits_adjacent (qs : list nat) (n : nat) : list nat :=
    qs ++ filter (fun i => negb (memb Nat.eqb i qs)) (seq 0 n).

  Fixpoint min_nat (x : nat) (l : list nat) : nat :=
    match l with [] => x | y :: l' => min_nat (Nat.min x y) l' end.

  (** _unitary_tools.py:79-132 [_lift_matrix].  [2 ** e] for a negative [e] is a float, which [np.eye] rejects
      with TypeError. *)
  Definition eye_pow2 (e : Z) : result (mat K) :=
    if (e <? 0)%Z then Err TypeError else Ok (eye (2 ^ Z.to_nat e)).
  Definition lift_matrix (matrix : mat K) (qs : list nat) (num_qubits : nat) : result (mat K) :=
    match qs with
    | [] => Err ValueError                                       (* min(()) *)
    | q :: qs' =>
        let smallest := min_nat q qs' in
        let largest := max_nat qs in
        let shifted := map (fun i => i - smallest) qs in
        let inner_permutation := permutation_making_qubits_adjacent shifted (largest - smallest + 1) in
        let! perm := permutation_matrix inner_permutation in
        let! e := eye_pow2 (Z.of_nat largest - Z.of_nat smallest - Z.of_nat (length qs) + 1) in
        let inner_gate := kron matrix e in
        let! m1 := matmul (transpose perm) inner_gate in
        let! inner := matmul m1 perm in
        let! e1 := eye_pow2 (Z.of_nat smallest) in
        let! e2 := eye_pow2 (Z.of_nat num_qubits - Z.of_nat largest - 1) in
        Ok (kron (kron e1 inner) e2)
    end.
End Lift.
