(** Model of basis changes and selections of modes: general_basis_change, rotate_basis and projected_n_body_tensors of openfermion/ops/representations/polynomial_tensor.py,
    zero and projected of openfermion/ops/representations/interaction_operator.py, reorder_fermionic_modes of hamiltonian.py and remove_inactive_orbitals of
    openfermion/zapata_utils/_utils.py.  Arrays are the ones of TensorModel.v: all dimensions are equal, no dtype; indices are natural numbers. *)
From Coq Require Import ZArith.
From Verif Require Import Base MatModel OpModel FermiModel ReindexModel TensorModel ConvModel DiagModel MolModel.
Open Scope list_scope.
Local Open Scope nat_scope.

Section Rot.
  Context {K : cring}.
  Open Scope K_scope.
  Notation arr := (TensorModel.ndarray K).

  (** polynomial_tensor.py:59-61: a rotation of orbitals is a rotation of both spins *)
  Definition enlarged (n : nat) (R : mat K) : mat K := if Nat.eqb n (2 * nr R) then kron R (eye 2) else R.
  (** 86: the factor of one index, R.conj() for creation operators *)
  Definition rotation_factor (R : mat K) (d : bool) (a A : nat) : K := if d then kconj (ent R a A) else ent R a A.
  (** The product of the factors in the sum that numpy.einsum forms. *)
  Fixpoint rotation_factors (R : mat K) (k : key) (old new : list nat) : K :=
    match k, old, new with d :: k', a :: old', A :: new' => rotation_factor R d a A * rotation_factors R k' old' new' | _, _, _ => 1 end.
  (** 32-94 [general_basis_change]; numpy.einsum raises ValueError if dimensions differ (it would stretch dimensions that are 1, which is not modelled), and the dimensions of the result
      are the second dimension of the matrix *)
  Definition general_basis_change (x : arr) (R : mat K) (k : key) : result arr :=
    let R := enlarged (shape0 x) R in
    if (26 <? length k)%nat then Err ValueError
    else if Nat.eqb (shape0 x) (nr R)
    then Ok {| shape0 := nc R; data := fun new => fold_left (fun s old => s + data x old * rotation_factors R k old new) (indices (shape0 x) (length k)) 0 |}
    else Err ValueError.
  (** 371-386 [rotate_basis]: each array is replaced by a new one, in the order of the dictionary; if an exception is raised the arrays before are replaced already.  A number has no shape. *)
  Fixpoint rotate_entries (h : heap K) (R : mat K) (l : list (key * entry K)) : heap K * list (key * entry K) * result unit :=
    match l with
    | [] => (h, [], Ok tt)
    | (k, e) :: l' =>
        match k, e with
        | [], _ => let '(h', d, r) := rotate_entries h R l' in (h', (k, e) :: d, r)
        | _, Num _ => (h, l, Err AttributeError)
        | _, Arr r =>
            match general_basis_change (read h r) R k with
            | Err ex => (h, l, Err ex)
            | Ok x => let '(h', d, r) := rotate_entries (h ++ [x]) R l' in (h', (k, Arr (length h)) :: d, r)
            end
        end
    end.
  Definition rotate_basis (h : heap K) (a : ptensor K) (R : mat K) : heap K * ptensor K * result unit :=
    let '(h', d, r) := rotate_entries h R (n_body_tensors a) in (h', with_tensors a d, r).

  (** An argument of projected_n_body_tensors: a number (not negative), or modes *)
  Inductive selection := Count (m : nat) | Modes (s : list nat).
  (** 402-409: the predicate and the range of the indices.  set(selection) forgets repetitions; the order in which a set is iterated does not matter to the result. *)
  Definition selected (sel : selection) (exact : bool) (i : list nat) : bool :=
    match sel with
    | Count m => if exact then Nat.eqb (length (uniq Nat.eqb i)) m else (length (uniq Nat.eqb i) <=? m)%nat
    | Modes s => forallb (fun p => memb Nat.eqb p s) i && (if exact then forallb (fun p => memb Nat.eqb p i) s else true)
    end.
  Definition product (dims : list nat) (m : nat) : list (list nat) := Nat.iter m (fun l => flat_map (fun p => map (cons p) l) dims) [[]].
  Definition selection_dims (n : nat) (sel : selection) : list nat := match sel with Count _ => seq 0 n | Modes s => uniq Nat.eqb s end.
  Definition truthy (sel : selection) : bool := match sel with Count m => negb (Nat.eqb m 0) | Modes s => match s with [] => false | _ => true end end.
  (** 416-421: one array; reading an element that does not exist raises IndexError *)
  Definition projected_array (n : nat) (sel : selection) (exact : bool) (k : key) (x : arr) : result arr :=
    foldM (fun y i => if selected sel exact i then let! c := aget x i in Ok (assign y i c) else Ok y) (product (selection_dims n sel) (length k)) (zeros_array (shape0 x)).
  (** 391-422 [projected_n_body_tensors].  A number in the place of an array would raise; the tensors of an InteractionOperator are arrays. *)
  Definition projected_n_body_tensors (h : heap K) (a : ptensor K) (sel : selection) (exact : bool) : result (heap K * list (key * entry K)) :=
    foldM (fun (st : heap K * list (key * entry K)) (kv : key * entry K) =>
      let '(h, d) := st in
      match fst kv, snd kv with
      | [], e => Ok (h, d ++ [([], if exact && truthy sel then Num 0 else e)])
      | k, Arr r => let! x := projected_array (n_qubits a) sel exact k (read h r) in Ok (h ++ [x], d ++ [(k, Arr (length h))])
      | _, Num _ => Err TypeError
      end) (n_body_tensors a) (h, []).
  (** interaction_operator.py:137-141 [projected] *)
  Definition projected (h : heap K) (a : ptensor K) (sel : selection) (exact : bool) : result (heap K * ptensor K) :=
    let! hd := projected_n_body_tensors h a sel exact in
    let! l := mapM (fun k => match dget key_eqb k (snd hd) with Some e => Ok (k, e) | None => Err KeyError end) [[]; [true; false]; [true; true; false; false]] in
    let! p := polynomial_tensor (fst hd) l in
    Ok (fst hd, p).
  (** 129-135 [zero] *)
  Definition zero_operator (h : heap K) (n : nat) : result (heap K * ptensor K) :=
    let h' := h ++ [zeros_array n; zeros_array n] in
    let! p := polynomial_tensor h' [([], Num 0); ([true; false], Arr (length h)); ([true; true; false; false], Arr (S (length h)))] in
    Ok (h', p).

  (** hamiltonian.py:321-329: x[ordering, ...][:, ordering, ...] for all dimensions; an index that is too large raises IndexError *)
  Definition reordered_array (x : arr) (ordering : list nat) : result arr :=
    if forallb (fun p => (p <? shape0 x)%nat) ordering
    then Ok {| shape0 := length ordering; data := fun i => data x (map (fun p => nth p ordering 0%nat) i) |} else Err IndexError.
  (** 305-334 [reorder_fermionic_modes] *)
  Definition reorder_fermionic_modes (h : heap K) (a : ptensor K) (ordering : list nat) : result (heap K * ptensor K) :=
    let! one := array_at h a [true; false] in
    let! one := reordered_array one ordering in
    let! two := array_at h a [true; true; false; false] in
    let! two := reordered_array two ordering in
    let! c := constant a in
    let h' := h ++ [one; two] in
    let! p := polynomial_tensor h' [([], Num c); ([true; false], Arr (length h)); ([true; true; false; false], Arr (S (length h)))] in
    Ok (h', p).

  (** zapata_utils/_utils.py:610-653 [remove_inactive_orbitals]; [same], [small] and [nonzero] as in ReindexModel.v, [isz] as in ConvModel.v *)
  Definition remove_inactive_orbitals (same : nat -> nat -> bool) (small isz nonzero : K -> bool) (h : heap K) (a : ptensor K) (n_active : option nat) (n_core : nat) : result (heap K * ptensor K) :=
    let! fermion_op := get_fermion_operator small isz h a in
    let occupied := seq 0 (2 * n_core) in
    let! unoccupied := match n_active with
                       | Some m => let! one := array_at h a [true; false] in
                                   Ok (seq (2 * n_core + 2 * m) (shape0 one - (2 * n_core + 2 * m)))
                       | None => Ok []
                       end in
    get_interaction_operator small h (freeze_orbitals same small nonzero fermion_op occupied (Some unoccupied)) None.
End Rot.
