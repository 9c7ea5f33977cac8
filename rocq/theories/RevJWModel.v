(** Model of the reverse Jordan-Wigner transform (openfermion/transforms/opconversions/reverse_jordan_wigner.py) and of number_operator
    (openfermion/hamiltonians/special_operators.py). *)
From Coq Require Import ZArith.
From Verif Require Import Base MatModel OpModel FermiModel.
Open Scope list_scope.
Local Open Scope nat_scope.

Section RJW.
  Context {K : cring} (im : K) (small : K -> bool).
  Open Scope K_scope.
  Notation qmul := (op_mul pauli_eqb (qubit_simplify im)).
  Notation qmk := (mk_op (qubit_simplify im)).
  Notation fmk := (fermion_op (K := K)).

  (** special_operators.py:20-53.  parity = 1 (bosonic) raises as well as every other value but -1. *)
  Definition number_operator (n_modes : nat) (mode : option nat) (coefficient : K) (parity : Z) : result (fop K) :=
    if negb (Z.eqb parity (-1)) then Err ValueError
    else
      let one (m : nat) : fop K := fmk [(m, true); (m, false)] coefficient in
      match mode with
      | None => Ok (fold_left (fun operator m => fermion_add small operator (one m)) (seq 0 n_modes) [])
      | Some m => Ok (one m)
      end.

  (** reverse_jordan_wigner.py:60-88: the image of the Pauli operator being looked at, and the working term afterwards.
      Every action but Z and Y is treated like X. *)
  Definition transform_pauli (n_qubits : nat) (p : factor pauli) (working : qop K) : result (fop K * qop K) :=
    match snd p with
    | Pz =>
        let! number := number_operator n_qubits (Some (fst p)) (- (1 + 1)) (-1) in
        Ok (fermion_add small (fmk [] 1) number, working)
    | a =>
        let raising := fmk [(fst p, true)] 1 in
        let lowering := fmk [(fst p, false)] 1 in
        let raising := if pauli_eqb a Py then op_scale raising im else raising in
        let lowering := if pauli_eqb a Py then op_scale lowering (- im) else lowering in
        let transformed := fermion_add small raising lowering in
        let working := fold_left (fun w j => qmul (qmk [(j, Pz)] 1) w) (rev (seq 0 (fst p))) working in
        match working with
        | [] => Err IndexError
        | (t, c) :: rest => Ok (op_scale transformed c, (t, 1) :: rest)
        end
    end.
  (** 90-98: the last factor of the working term on a qubit before that of [p]; an empty working term leaves [p] in place *)
  Definition next_pauli (p : factor pauli) (working : qop K) : result (option (factor pauli)) :=
    match working with
    | [(t, _)] => match rev t with [] => Ok (Some p) | l => Ok (find (fun f => Nat.ltb (fst f) (fst p)) l) end
    | _ => Err AssertionError
    end.
  (** 59-101, the while loop; the qubit looked at decreases, so its index plus one iterations suffice *)
  Fixpoint transform_loop (fuel : nat) (n_qubits : nat) (p : option (factor pauli)) (working : qop K) (transformed_term : fop K) : result (fop K) :=
    match p with
    | None => Ok transformed_term
    | Some p =>
        match fuel with
        | O => Err OutOfFuel
        | S fuel' =>
            let! tw := transform_pauli n_qubits p working in
            let! p' := next_pauli p (snd tw) in
            transform_loop fuel' n_qubits p' (snd tw) (fermion_mul transformed_term (fst tw))
        end
    end.
  (** 54-101 *)
  Definition transform_term (n_qubits : nat) (t : term pauli) : result (fop K) :=
    match rev t with
    | [] => Ok (fmk [] 1)
    | p :: _ => transform_loop (S (fst p)) n_qubits (Some p) (qmk t 1) (fmk [] 1)
    end.
  (** 22-106 for a QubitOperator (the check of the type is not modelled); the loop over the dictionary *)
  Definition reverse_jordan_wigner (a : qop K) (n_qubits : option nat) : result (fop K) :=
    let n := match n_qubits with None => sorted_count_qubits a | Some n => n end in
    if Nat.ltb n (sorted_count_qubits a) then Err ValueError
    else foldM (fun o (tc : term pauli * K) => let! f := transform_term n (fst tc) in Ok (fermion_add small o (op_scale f (snd tc)))) a [].
End RJW.
