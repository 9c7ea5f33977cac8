(** Model of helpers for qubit operators, /repo/src/python/zquantum/core/openfermion/zapata_utils/_utils.py:120-266, 298-326 and 527-556. *)
From Coq Require Import String Ascii ZArith Reals.
From Verif Require Import Base MatModel Cplx OpModel OpTextModel ReindexModel SparseModel CircuitModel WfModel.
Open Scope list_scope.
Local Open Scope nat_scope.

(** 144-154: the text of one vector of labels *)
Definition label_text (label : list Z) : text :=
  flat_map (fun ie : nat * Z => let (ind, elem) := ie in
    let pauli_symbol := [] in
    let pauli_symbol := if Z.eqb elem 1 then "X"%char :: digits_of_index ind ++ [" "%char] else pauli_symbol in
    let pauli_symbol := if Z.eqb elem 2 then "Y"%char :: digits_of_index ind ++ [" "%char] else pauli_symbol in
    if Z.eqb elem 3 then "Z"%char :: digits_of_index ind ++ [" "%char] else pauli_symbol) (combine (seq 0 (length label)) label).

(** What the module random returns: the j-th call of uniform, the sample of the t-th round, and the k-th call of randint in the t-th round *)
Record random_source (K : Type) := { uniform : nat -> K; sample : nat -> list nat; randint : nat -> nat -> Z }.
Arguments uniform {K} _ _. Arguments sample {K} _ _. Arguments randint {K} _ _ _.

Section QopUtil.
  Context {K : cring} (im half : K) (small is_zero : K -> bool) (float_of complex_of : text -> option K) (re : K -> K).
  Open Scope K_scope.

  (** 120-158 [get_qubitop_from_coeffs_and_labels] *)
  Definition get_qubitop_from_coeffs_and_labels (coeffs : list K) (labels : list (list Z)) : result (qop K) :=
    foldM (fun (output : qop K) (il : nat * list Z) =>
      match nth_error coeffs (fst il) with
      | None => Err IndexError
      | Some c =>
          let! o := construct pauli_eqb (qubit_simplify im) qubit_class float_of complex_of (TermText (label_text (snd il))) 1 in
          Ok (op_add pauli_eqb small output (op_scale o c))
      end) (combine (seq 0 (length labels)) labels) [].

  (** 193-197: one random label; the sampled indices are within the label *)
  Definition random_label (r : random_source K) (nqubits t : nat) : list Z :=
    fold_left (fun label (ki : nat * nat) => set_nth (snd ki) (randint r t (fst ki)) label)
      (combine (seq 0 (length (sample r t))) (sort_by Nat.leb (sample r t))) (repeat 0%Z nqubits).
  (** 191-203: the loop.  label_set holds the texts of the labels found so far; a list of integers is determined by its text.
      [None]: the loop is still running after [fuel] rounds. *)
  Fixpoint draw_labels (r : random_source K) (nqubits nterms fuel t : nat) (labels : list (list Z)) : option (list (list Z)) :=
    if Nat.leb nterms (length labels) then Some labels
    else match fuel with
         | O => None
         | S fuel' => let label := random_label r nqubits t in
             draw_labels r nqubits nterms fuel' (S t) (if memb (list_eqb Z.eqb) label labels then labels else labels ++ [label])
         end.
  (** 161-204 [generate_random_qubitop]; random.sample raises ValueError when there are not enough qubits *)
  Definition generate_random_qubitop (r : random_source K) (fuel nqubits nterms nlocality : nat) (max_coeff : K) (fixed_coeff : bool) : option (result (qop K)) :=
    let coeffs := if fixed_coeff then repeat max_coeff nterms else map (uniform r) (seq 0 nterms) in
    if (Nat.ltb 0 nterms && Nat.ltb nqubits nlocality)%bool then Some (Err ValueError)
    else match draw_labels r nqubits nterms fuel 0 [] with
         | None => None
         | Some labels => Some (get_qubitop_from_coeffs_and_labels coeffs labels)
         end.

  (** 222-230; [re] is numpy.real *)
  Definition evaluate_terms (a : qop K) (values : list K) (s : K * nat) : result (K * nat) :=
    foldM (fun (s : K * nat) (tc : term pauli * K) => let '(total, term_index) := s in
      match nth_error values term_index with
      | None => Err IndexError
      | Some v => Ok (total + re (snd tc * v), S term_index)
      end) a s.
  (** 207-233 *)
  Definition evaluate_qubit_operator (a : qop K) (values : list K) : result K :=
    let! s := evaluate_terms a values (0, 0%nat) in Ok (fst s).
  (** 236-265 *)
  Definition evaluate_qubit_operator_list (l : list (qop K)) (values : list K) : result K :=
    let! s := foldM (fun s a => evaluate_terms a values s) l (0, 0%nat) in Ok (fst s).

  (** int.bit_length *)
  Definition bit_length (n : nat) : nat := match n with O => 0 | _ => S (Nat.log2 n) end.
  (** 298-326 [get_expectation_value] *)
  Definition get_expectation_value (a : qop K) (amplitudes : vec K) (reverse_operator : bool) : result K :=
    let n := (bit_length (vlen amplitudes) - 1)%nat in
    let! a := if reverse_operator then reverse_qubit_order im small a (Some n) else Ok a in
    let! A := get_sparse_operator im half small is_zero (OQubit a) (Some n) in
    expectation false A (SVector amplitudes).
End QopUtil.

Section Circuits.
  Context {Num : Type} {K : cring}.
  (** 537: term_gate_map; no key "I" *)
  Definition term_gate_map (p : pauli) : result (gate Num) :=
    match p with
    | Px => Ok (MFG "X"%string (FBuiltin "x_matrix"%string) [] 1 true)
    | Py => Ok (MFG "Y"%string (FBuiltin "y_matrix"%string) [] 1 true)
    | Pz => Ok (MFG "Z"%string (FBuiltin "z_matrix"%string) [] 1 true)
    | Pid => Err KeyError
    end.
  (** 527-556 [create_circuits_from_qubit_operator] *)
  Definition create_circuits_from_qubit_operator (a : qop K) : result (list (circuit Num)) :=
    mapM (fun tc : term pauli * K =>
      let! c := mk_circuit [] None in
      foldM (fun c (f : factor pauli) => let! g := term_gate_map (snd f) in circuit_add c (AddOp (GateOp g [fst f]))) (fst tc) c) a.
End Circuits.
