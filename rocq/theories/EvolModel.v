(** Model of evolution.py: circuits that evolve a state under a qubit operator. *)
From Coq Require Import String ZArith Reals.
From Verif Require Import Base MatModel Cplx CircuitModel DecompModel OpModel EstModel.
Local Open Scope list_scope.
Local Open Scope nat_scope.

(** Python or sympy arithmetic on a time, which is a number or an expression:
    2 * time * coefficient, time / integer, and time + shift. *)
Record time_ops (Num : Type) := {
  twice_times : param Num -> C -> param Num; divided_by : param Num -> Z -> param Num; plus_number : param Num -> C -> param Num }.
Arguments twice_times {Num} t p c. Arguments divided_by {Num} t p z. Arguments plus_number {Num} t p c.

Section Evolution.
  Context {Num : Type} (angle : R -> Num) (T : time_ops Num).
  (** circuits/_builtin_gates.py:38, 59 *)
  Definition gate_H : gate Num := MFG "H"%string (FBuiltin "h_matrix"%string) [] 1 true.
  Definition gate_CNOT : gate Num := MFG "CNOT"%string (FBuiltin "cnot_matrix"%string) [] 2 true.
  (** evolution.py:80-85 *)
  Definition base_change (f : factor pauli) : list (operation Num) :=
    match snd f with
    | Px => [GateOp gate_H [fst f]]
    | Py => [GateOp (gate_RX (PNum (angle (PI / 2)%R))) [fst f]]
    | _ => []
    end.
  Definition base_reversal (f : factor pauli) : list (operation Num) :=
    match snd f with
    | Px => [GateOp gate_H [fst f]]
    | Py => [GateOp (gate_RX (PNum (angle (- PI / 2)%R))) [fst f]]
    | _ => []
    end.
  (** evolution.py:86-89: the last factor gives the central gate, the others a CNOT with the next factor's qubit *)
  Fixpoint cnot_gates (t : term pauli) : list (operation Num) :=
    match t with
    | f :: ((g :: _) as t') => GateOp gate_CNOT [fst f; fst g] :: cnot_gates t'
    | _ => []
    end.
  Fixpoint central_gate (p : param Num) (t : term pauli) : list (operation Num) :=
    match t with
    | [] => []
    | [f] => [GateOp (gate_RZ p) [fst f]]
    | _ :: t' => central_gate p t'
    end.
  (** evolution.py:50-106 [time_evolution_for_term]; the gates are appended one after the other to an empty circuit *)
  Definition time_evolution_for_term (op : qop CC) (time : param Num) : result (circuit Num) :=
    match op with
    | [(t, coefficient)] =>
        let! c := mk_circuit [] None in
        match t with
        | [] => Ok c
        | _ :: _ =>
            foldM (fun c o => circuit_add c (AddOp o))
              (flat_map base_change t ++ cnot_gates t ++ central_gate (twice_times T time coefficient) t ++ rev (cnot_gates t) ++ flat_map base_reversal t) c
        end
    | _ => Err ValueError
    end.

  (** evolution.py:40-47: functools.reduce(operator.add, circuits) over circuits that are made one after the other *)
  Definition reduce_add (cs : list (result (circuit Num))) : result (circuit Num) :=
    match cs with
    | [] => Err TypeError
    | c :: cs' => let! c0 := c in foldM (fun acc c => let! c' := c in circuit_add acc (AddCircuit c')) cs' c0
    end.
  (** range(trotter_order), evolution.py:44, 169, 212, for a possibly negative number *)
  Definition range_Z (n : Z) : list nat := seq 0 (Z.to_nat n).
  (** evolution.py:17-47 [time_evolution] *)
  Definition time_evolution (hamiltonian : qop CC) (time : param Num) (method : string) (trotter_order : Z) : result (circuit Num) :=
    if negb (String.eqb method "Trotter") then Err ValueError
    else
      let terms := get_operators (qubit_simplify (K := CC) ci) hamiltonian in
      reduce_add (flat_map (fun _ => map (fun term => time_evolution_for_term term (divided_by T time trotter_order)) terms) (range_Z trotter_order)).

  (** evolution.py:184-214 [_generate_circuit_sequence] *)
  Definition generate_circuit_sequence (repeated_circuit different_circuit : circuit Num) (length position : nat) : result (circuit Num) :=
    if length <=? position then Err ValueError
    else mk_circuit (flat_map (fun i => c_ops (if Nat.eqb i position then different_circuit else repeated_circuit)) (seq 0 length)) None.

  (** evolution.py:140, 145-149: complex quotients c / n and x / c; None stands for ZeroDivisionError *)
  Definition c_div_Z (c : C) (n : Z) : option C := if Z.eqb n 0 then None else Some (fst c / IZR n, snd c / IZR n)%R.
  Definition r_div_c (x : R) (c : C) : option C :=
    if Req_EM_T (cabs2 c) 0 then None else Some (x * fst c / cabs2 c, - (x * snd c / cabs2 c))%R.
  (** evolution.py:138-149, list(term.terms.values())[0]: the coefficient of an operator with a single term *)
  Definition first_coefficient (op : qop CC) : option C := match op with (_, c) :: _ => Some c | [] => None end.
  (** evolution.py:137-159: one circuit for the i-th term and a sign, with its factor *)
  Definition derivative_circuit (terms : list (qop CC)) (time : param Num) (trotter_order : Z) (i : nat) (term_1 : qop CC) (factor : R) : result (C * circuit Num) :=
    match first_coefficient term_1 with
    | None => Err IndexError
    | Some c =>
        match c_div_Z c trotter_order with
        | None => Err ZeroDivisionError
        | Some r =>
            match r_div_c PI (cmul (rc 4) r) with
            | None => Err ZeroDivisionError
            | Some x =>
                let shift := cmul (rc factor) x in
                let! empty := mk_circuit [] None in
                let! output := foldM (fun out (jt : nat * qop CC) =>
                    let! e := time_evolution_for_term (snd jt) (if Nat.eqb i (fst jt) then divided_by T (plus_number T time shift) trotter_order else divided_by T time trotter_order) in
                    circuit_add out (AddCircuit e)) (combine (seq 0 (length terms)) terms) empty in
                Ok (cmul r (rc factor), output)
            end
        end
    end.
  (** evolution.py:109-181 [time_evolution_derivatives]; a division by zero of Python floats or complex numbers is an error *)
  Definition time_evolution_derivatives (hamiltonian : qop CC) (time : param Num) (method : string) (trotter_order : Z) : result (list (circuit Num) * list C) :=
    if negb (String.eqb method "Trotter") then Err ValueError
    else
      let terms := get_operators (qubit_simplify (K := CC) ci) hamiltonian in
      let! ds := mapM (fun p : (nat * qop CC) * R => derivative_circuit terms time trotter_order (fst (fst p)) (snd (fst p)) (snd p))
                   (flat_map (fun it => [(it, 1%R); (it, (-1)%R)]) (combine (seq 0 (length terms)) terms)) in
      if (1 <? trotter_order)%Z then
        let! repeated_circuit := time_evolution hamiltonian time "Trotter" 1 in
        let! os := mapM (fun p : nat * (C * circuit Num) =>
            let! c := generate_circuit_sequence repeated_circuit (snd (snd p)) (Z.to_nat trotter_order) (fst p) in Ok (c, fst (snd p)))
          (flat_map (fun position => map (fun d => (position, d)) ds) (range_Z trotter_order)) in
        Ok (map fst os, map snd os)
      else Ok (map snd ds, map fst ds).
End Evolution.
