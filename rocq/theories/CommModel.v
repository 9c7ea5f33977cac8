(** Model of openfermion/utils/commutators.py. *)
From Verif Require Import Base MatModel OpModel FermiModel.
Open Scope list_scope.
Local Open Scope nat_scope.

Section Comm.
  Context {K : cring} (im : K) (small : K -> bool).
  (** the operands modelled: the three classes of operators and two-dimensional numpy arrays (not boson operators and scipy matrices) *)
  Inductive operand : Type := OQubit (a : qop K) | OIsing (a : isop K) | OFermion (a : fop K) | OArray (m : mat K).
  (** numpy.dot of two-dimensional arrays *)
  Definition np_dot (a b : mat K) : result (mat K) := if Nat.eqb (nc a) (nr b) then Ok (mmul a b) else Err ValueError.
  (** result -= x and result += x: the second array is broadcast to the shape of the first *)
  Definition np_update (f : K -> K -> K) (a b : mat K) : result (mat K) :=
    if (Nat.eqb (nr b) (nr a) || Nat.eqb (nr b) 1) && (Nat.eqb (nc b) (nc a) || Nat.eqb (nc b) 1)
    then Ok (Build_mat (nr a) (nc a) (fun i j => f (ent a i j) (ent b (if Nat.eqb (nr b) 1 then 0 else i) (if Nat.eqb (nc b) 1 then 0 else j))))
    else Err ValueError.
  (** commutators.py:24-44 and 47-67: [-=] or [+=] of the two products *)
  Definition bracket (f : K -> K -> K) (minus : bool) (x y : operand) : result operand :=
    match x, y with
    | OQubit a, OQubit b => let mul := op_mul pauli_eqb (qubit_simplify im) in
        Ok (OQubit (if minus then commutator mul (op_sub pauli_eqb small) a b else anticommutator mul (op_add pauli_eqb small) a b))
    | OIsing a, OIsing b => let mul := op_mul zact_eqb ising_simplify in
        Ok (OIsing (if minus then commutator mul (op_sub zact_eqb small) a b else anticommutator mul (op_add zact_eqb small) a b))
    | OFermion a, OFermion b =>
        Ok (OFermion (if minus then commutator fermion_mul (fermion_sub small) a b else anticommutator fermion_mul (fermion_add small) a b))
    | OArray a, OArray b => let! ab := np_dot a b in let! ba := np_dot b a in let! r := np_update f ab ba in Ok (OArray r)
    | _, _ => Err TypeError
    end.
  Definition commutator_of (x y : operand) : result operand := bracket ksub true x y.
  Definition anticommutator_of (x y : operand) : result operand := bracket kadd false x y.

  (** 70-123, for fermion operators; the sets of indices are duplicate-free lists, in any order.  [set(None)] is a TypeError. *)
  Definition the_only {A} (l : list A) : result A := match l with [x] => Ok x | _ => Err ValueError end.
  Definition first_coefficient (a : fop K) : result K := match a with (_, c) :: _ => Ok c | [] => Err IndexError end.
  Definition double_commutator (op1 op2 op3 : fop K) (indices2 indices3 : option (list nat)) (hopping2 hopping3 : bool) : result (fop K) :=
    let comm := commutator fermion_mul (fermion_sub small) in
    if hopping2 && hopping3 then
      match indices2, indices3 with
      | Some l2, Some l3 =>
          let set2 := uniq Nat.eqb l2 in let set3 := uniq Nat.eqb l3 in
          match the_only (filter (fun i => memb Nat.eqb i set3) set2) with
          | Err ValueError => Ok []
          | Err e => Err e
          | Ok intersection =>
              let! index2 := the_only (filter (fun i => negb (Nat.eqb i intersection)) set2) in
              let! index3 := the_only (filter (fun i => negb (Nat.eqb i intersection)) set3) in
              let! coeff2 := first_coefficient op2 in let! coeff3 := first_coefficient op3 in
              let commutator23 := fermion_add small (fermion_op [(index2, true); (index3, false)] (kmul coeff2 coeff3))
                                                    (fermion_op [(index3, true); (index2, false)] (kmul (kopp coeff2) coeff3)) in
              Ok (normal_ordered small (comm op1 commutator23))
          end
      | _, _ => Err TypeError
      end
    else let commutator23 := normal_ordered small (comm op2 op3) in Ok (normal_ordered small (comm op1 commutator23)).
End Comm.
Arguments operand : clear implicits.
