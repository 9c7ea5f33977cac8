(** Model of the reindexing helpers reverse_qubit_order (zapata_utils/_utils.py), prune_unused_indices and freeze_orbitals
    (transforms/repconversions/operator_tapering.py), and of is_hermitian (utils/operator_utils.py). *)
From Coq Require Import Reals.
From Verif Require Import Base MatModel Cplx OpModel FermiModel.
Open Scope list_scope.
Local Open Scope nat_scope.

Section Reindex.
  Context {K : cring}.
  (** _utils.py:268-297 *)
  Definition reverse_qubit_order (im : K) (small : K -> bool) (a : qop K) (n_qubits : option nat) : result (qop K) :=
    let n := match n_qubits with None => sorted_count_qubits a | Some n => n end in
    if n <? sorted_count_qubits a then Err ValueError
    else Ok (fold_left (fun reversed_op (tc : term pauli * K) =>
        let new_term := map (fun f : factor pauli => (n - 1 - fst f, snd f)) (fst tc) in
        op_add pauli_eqb small reversed_op (mk_op (qubit_simplify im) new_term (snd tc))) a []).

  (** operator_tapering.py:91-120, for any class of operators.  index_map has a key for every index, so its KeyError cannot occur; the model looks
      an index up with default 0. *)
  Definition used_indices {A} (a : sop A K) : list nat :=
    fold_left (fun indices (tc : term A * K) =>
      fold_left (fun indices (f : factor A) => if memb Nat.eqb (fst f) indices then indices else indices ++ [fst f]) (fst tc) indices) a [].
  Definition prune_unused_indices {A} (aeqb : A -> A -> bool) (a : sop A K) : sop A K :=
    let indices := sort_by Nat.leb (used_indices a) in
    let index_map := dict_of Nat.eqb (combine indices (seq 0 (length indices))) in
    fold_left (fun o (tc : term A * K) =>
        let new_term := map (fun f : factor A => (match dget Nat.eqb (fst f) index_map with Some i => i | None => 0 end, snd f)) (fst tc) in
        dset (term_eqb aeqb) new_term (snd tc) o) a [].

  (** operator_tapering.py:45-72: one term, for the orbital [fst item] with occupation [snd item].  The state of the loop over the reversed term is
      (position, new_term, new_coef, current_occupancy, n_ops, n_swaps).  [same] is Python's [is] between integers: CPython caches the integers up to
      256, larger equal integers may be different objects.  n_swaps is an integer that may become negative; Python's % 2 is Z.odd. *)
  Definition freeze_state : Type := nat * fterm * K * bool * nat * Z.
  Definition freeze_step (same : nat -> nat -> bool) (item : nat * bool) (st : freeze_state) (op : factor bool) : freeze_state :=
    let '(i, new_term, new_coef, occupancy, n_ops, n_swaps) := st in
    if same (fst op) (fst item) then
      let n_ops := S n_ops in
      let n_swaps := (n_swaps + (Z.of_nat i - Z.of_nat n_ops))%Z in
      (S i, new_term, if Bool.eqb occupancy (snd op) then k0 else new_coef, negb occupancy, n_ops, n_swaps)
    else (S i, op :: new_term, new_coef, occupancy, n_ops, n_swaps).
  (** [nonzero] is the truth value of a coefficient *)
  Definition freeze_one (same : nat -> nat -> bool) (small nonzero : K -> bool) (a : fop K) (item : nat * bool) : fop K :=
    fold_left (fun tmp (tc : fterm * K) =>
        let '(_, new_term, new_coef, occupancy, _, n_swaps) := fold_left (freeze_step same item) (rev (fst tc)) (0, [], snd tc, snd item, 0, 0%Z) in
        let new_coef := if Z.odd n_swaps then kmul new_coef (kopp k1) else new_coef in
        if nonzero new_coef && Bool.eqb occupancy (snd item) then fermion_add small tmp (fermion_op new_term new_coef) else tmp) a [].
  (** 22-88; the argument prune is not used by the code *)
  Definition freeze_orbitals (same : nat -> nat -> bool) (small nonzero : K -> bool) (a : fop K) (occupied : list nat) (unoccupied : option (list nat)) : fop K :=
    let frozen := map (fun i => (i, true)) occupied ++ match unoccupied with Some l => map (fun i => (i, false)) l | None => [] end in
    let new_operator := fold_left (freeze_one same small nonzero) frozen a in
    let new_operator := map (fun tc : fterm * K => (fst tc,
      fold_left (fun c index => fold_left (fun c (op : factor bool) => if index <? fst op then kmul c (kopp k1) else c) (fst tc) c) occupied (snd tc))) new_operator in
    prune_unused_indices Bool.eqb new_operator.
End Reindex.

(** operator_utils.py:100-110; [order] is the iteration order of sets in the comparison, [tol] EQ_TOLERANCE *)
Definition qubit_is_hermitian (order : list (term pauli) -> list (term pauli)) (tol : R) (a : qop CC) : bool :=
  isclose pauli_eqb order a (qubit_conjugated a) tol.
Definition fermion_is_hermitian (small : CC -> bool) (order : list (term bool) -> list (term bool)) (tol : R) (a : fop CC) : bool :=
  isclose Bool.eqb order (normal_ordered small a) (normal_ordered small (fermion_conjugated a)) tol.
