(** Matrices of gates, and the action of operations and circuits on state vectors.
    Arithmetic is exact: floats and sympy expressions are complex numbers. *)
From Coq Require Import String Reals.
From Verif Require Import Base MatModel LiftModel CircuitModel CircuitSpec Cplx.
Open Scope list_scope.
Local Open Scope R_scope.

(** exp(1j * t) *)
Definition rows := list (list C).
Definition M (r : rows) : mat CC := of_rows (K := CC) r.
(** 1j * x and -1j * x for real x *)
Definition ji (x : R) : C := (0, x).

(** circuits/_matrices.py:11-51, gates without parameters *)
Definition x_matrix : mat CC := M [[c0; c1]; [c1; c0]].
Definition y_matrix : mat CC := M [[c0; ji (-1)]; [ji 1; c0]].
Definition z_matrix : mat CC := M [[c1; c0]; [c0; rc (-1)]].
Definition h_matrix : mat CC :=
  M [[rc (1 / sqrt 2); rc (1 / sqrt 2)]; [rc (1 / sqrt 2); rc (-1 / sqrt 2)]].
Definition i_matrix : mat CC := M [[c1; c0]; [c0; c1]].
Definition s_matrix : mat CC := M [[c1; c0]; [c0; ji 1]].
Definition t_matrix : mat CC := M [[c1; c0]; [c0; cis (PI / 4)]].

(** _matrices.py:57-118, one parameter *)
Definition rx_matrix (a : R) : mat CC :=
  M [[rc (cos (a / 2)); ji (- sin (a / 2))]; [ji (- sin (a / 2)); rc (cos (a / 2))]].
Definition ry_matrix (a : R) : mat CC :=
  M [[rc (cos (a / 2)); rc (-1 * sin (a / 2))]; [rc (sin (a / 2)); rc (cos (a / 2))]].
Definition rz_matrix (a : R) : mat CC := M [[cis (-1 * a / 2); c0]; [c0; cis (a / 2)]].
Definition rh_matrix (a : R) : mat CC :=
  let phase_factor := cadd (rc (cos (a / 2))) (ji (sin (a / 2))) in
  mscale (K := CC) phase_factor
    (M [[csub (rc (cos (a / 2))) (ji (1 / sqrt 2 * sin (a / 2))); ji (-1 / sqrt 2 * sin (a / 2))];
        [ji (-1 / sqrt 2 * sin (a / 2)); cadd (rc (cos (a / 2))) (ji (1 / sqrt 2 * sin (a / 2)))]]).
Definition phase_matrix (a : R) : mat CC := M [[c1; c0]; [c0; cis a]].

(** _matrices.py:121-130; division by exp(-0.5j x) is multiplication by exp(0.5j x); [sympy.simplify] keeps the value *)
Definition u3_matrix (theta phi lambda : R) : mat CC :=
  mscale (K := CC) (cis (0.5 * (phi + lambda)))
    (mmul (mmul (rz_matrix phi) (ry_matrix theta)) (rz_matrix lambda)).

(** _matrices.py:136-163 *)
Definition cnot_matrix : mat CC :=
  M [[c1; c0; c0; c0]; [c0; c1; c0; c0]; [c0; c0; c0; c1]; [c0; c0; c1; c0]].
Definition cz_matrix : mat CC :=
  M [[c1; c0; c0; c0]; [c0; c1; c0; c0]; [c0; c0; c1; c0]; [c0; c0; c0; rc (-1)]].
Definition swap_matrix : mat CC :=
  M [[c1; c0; c0; c0]; [c0; c0; c1; c0]; [c0; c1; c0; c0]; [c0; c0; c0; c1]].
Definition iswap_matrix : mat CC :=
  M [[c1; c0; c0; c0]; [c0; c0; ji 1; c0]; [c0; ji 1; c0; c0]; [c0; c0; c0; c1]].

(** _matrices.py:169-221 *)
Definition cphase_matrix (a : R) : mat CC :=
  M [[c1; c0; c0; c0]; [c0; c1; c0; c0]; [c0; c0; c1; c0]; [c0; c0; c0; cis a]].
Definition xx_matrix (a : R) : mat CC :=
  M [[rc (cos (a / 2)); c0; c0; ji (- sin (a / 2))];
     [c0; rc (cos (a / 2)); ji (- sin (a / 2)); c0];
     [c0; ji (- sin (a / 2)); rc (cos (a / 2)); c0];
     [ji (- sin (a / 2)); c0; c0; rc (cos (a / 2))]].
Definition yy_matrix (a : R) : mat CC :=
  M [[rc (cos (a / 2)); c0; c0; ji (sin (a / 2))];
     [c0; rc (cos (a / 2)); ji (- sin (a / 2)); c0];
     [c0; ji (- sin (a / 2)); rc (cos (a / 2)); c0];
     [ji (sin (a / 2)); c0; c0; rc (cos (a / 2))]].
Definition zz_matrix (a : R) : mat CC :=
  let m := csub (rc (cos (a / 2))) (ji (sin (a / 2))) in
  let p := cadd (rc (cos (a / 2))) (ji (sin (a / 2))) in
  M [[m; c0; c0; c0]; [c0; p; c0; c0]; [c0; c0; p; c0]; [c0; c0; c0; m]].
Definition xy_matrix (a : R) : mat CC :=
  M [[c1; c0; c0; c0];
     [c0; rc (cos (a / 2)); ji (sin (a / 2)); c0];
     [c0; ji (sin (a / 2)); rc (cos (a / 2)); c0];
     [c0; c0; c0; c1]].

(** Calling a matrix function with the wrong number of arguments is a TypeError. *)
Definition args0 (m : mat CC) (l : list R) : result (mat CC) := match l with [] => Ok m | _ => Err TypeError end.
Definition args1 (f : R -> mat CC) (l : list R) : result (mat CC) := match l with [a] => Ok (f a) | _ => Err TypeError end.
Definition args3 (f : R -> R -> R -> mat CC) (l : list R) : result (mat CC) :=
  match l with [a; b; c] => Ok (f a b c) | _ => Err TypeError end.

(** The built-in gates, _builtin_gates.py:35-71: gate name, matrix function name, number of qubits, hermitian flag,
    number of parameters, matrix function. *)
Record builtin := { b_name : string; b_fun : string; b_nq : Z; b_herm : bool; b_arity : nat; b_call : list R -> result (mat CC) }.
Local Open Scope string_scope.
Definition builtins : list builtin := [
  Build_builtin "X" "x_matrix" 1 true 0 (args0 x_matrix);
  Build_builtin "Y" "y_matrix" 1 true 0 (args0 y_matrix);
  Build_builtin "Z" "z_matrix" 1 true 0 (args0 z_matrix);
  Build_builtin "H" "h_matrix" 1 true 0 (args0 h_matrix);
  Build_builtin "I" "i_matrix" 1 true 0 (args0 i_matrix);
  Build_builtin "S" "s_matrix" 1 false 0 (args0 s_matrix);
  Build_builtin "T" "t_matrix" 1 false 0 (args0 t_matrix);
  Build_builtin "RX" "rx_matrix" 1 false 1 (args1 rx_matrix);
  Build_builtin "RY" "ry_matrix" 1 false 1 (args1 ry_matrix);
  Build_builtin "RZ" "rz_matrix" 1 false 1 (args1 rz_matrix);
  Build_builtin "RH" "rh_matrix" 1 false 1 (args1 rh_matrix);
  Build_builtin "PHASE" "phase_matrix" 1 false 1 (args1 phase_matrix);
  Build_builtin "U3" "u3_matrix" 1 false 3 (args3 u3_matrix);
  Build_builtin "CNOT" "cnot_matrix" 2 true 0 (args0 cnot_matrix);
  Build_builtin "CZ" "cz_matrix" 2 true 0 (args0 cz_matrix);
  Build_builtin "SWAP" "swap_matrix" 2 true 0 (args0 swap_matrix);
  Build_builtin "ISWAP" "iswap_matrix" 2 false 0 (args0 iswap_matrix);
  Build_builtin "CPHASE" "cphase_matrix" 2 false 1 (args1 cphase_matrix);
  Build_builtin "XX" "xx_matrix" 2 false 1 (args1 xx_matrix);
  Build_builtin "YY" "yy_matrix" 2 false 1 (args1 yy_matrix);
  Build_builtin "ZZ" "zz_matrix" 2 false 1 (args1 zz_matrix);
  Build_builtin "XY" "xy_matrix" 2 false 1 (args1 xy_matrix)].

Definition find_builtin_fun (fname : string) : option builtin := find (fun b => String.eqb (b_fun b) fname) builtins.
Close Scope string_scope.

Section GateMat.
  Context {Num : Type} (O : sympy_oracle Num).
  (** Values of numbers and functions: real ones for gate parameters, complex ones for custom matrices. *)
  Context (IR : interp (Num := Num) R) (IC : interp (Num := Num) C).
  (** Values of free symbols; [gate.matrix] itself is a matrix of expressions in these symbols. *)
  Context (rho : sym -> R).

  (** The gate a user gets for the name of a built-in gate and parameters, _builtin_gates.py:14-21, 35-71 *)
  Definition builtin_gate (b : builtin) (ps : list (param Num)) : gate Num :=
    MFG (b_name b) (FBuiltin (b_fun b)) ps (b_nq b) (b_herm b).

  (** [dict(zip(...))]: a later pair with an equal key overrides the value *)
  Definition dict_of_pairs (l : list (sym * param Num)) : symbols_map Num :=
    fold_left (fun d kv => dset String.eqb (fst kv) (snd kv) d) l [].

  (** [CustomGateMatrixFactory.__call__] _gates.py:358-361: sympy substitution into every entry, then its value *)
  Definition custom_matrix (d : custom_def Num) (ps : list (param Num)) : mat CC :=
    M (map (map (fun e => eval IC (fun s => rc (rho s)) (subs O (dict_of_pairs (combine (cd_ordering d) ps)) e))) (cd_matrix d)).

  (** [matrix] properties: _gates.py:187-193, 268-272, 307-309.  A name that is no matrix function cannot occur
      (factories are function objects); it gives AttributeError here. *)
  Definition pow2Z (n : Z) : nat := (2 ^ Z.to_nat n)%nat.
  Fixpoint gate_matrix (g : gate Num) : result (mat CC) :=
    match g with
    | MFG _ (FBuiltin f) ps _ _ =>
        match find_builtin_fun f with
        | Some b => b_call b (map (eval_param IR rho) ps)
        | None => Err AttributeError
        end
    | MFG _ (FCustom d) ps _ _ => Ok (custom_matrix d ps)
    | Controlled w k =>
        let! m := gate_matrix w in
        Ok (diag2 (eye (pow2Z (num_qubits w + k) - pow2Z (num_qubits w))) m)
    | Dagger w => let! m := gate_matrix w in Ok (adjoint m)
    end.

  (** [GateOperation.lifted_matrix] _gates.py:123-128; MultiPhaseOperation has no such method. *)
  Definition lifted_matrix (o : operation Num) (n : Z) : result (mat CC) :=
    match o with
    | GateOp g qs => let! m := gate_matrix g in lift_matrix m qs (Z.to_nat n)
    | MultiPhase _ => Err AttributeError
    end.

  (** [reduce(operator.matmul, ms)]: TypeError on an empty list *)
  Definition reduce_matmul (ms : list (mat CC)) : result (mat CC) :=
    match ms with
    | [] => Err TypeError
    | m :: rest => foldM (fun acc m' => matmul acc m') rest m
    end.

  (** [Circuit.to_unitary] _circuit.py:118-129 *)
  Definition to_unitary (c : circuit Num) : result (mat CC) :=
    let! ms := mapM (fun o => lifted_matrix o (c_nq c)) (rev (c_ops c)) in reduce_matmul ms.

  (** [GateOperation.apply] _gates.py:130-138 and [MultiPhaseOperation.apply] _wavefunction_operations.py:58-72.
      An empty vector has log2 = -inf, 2**-inf = 0 = len, and int(-inf) is an OverflowError. *)
  Definition op_apply (o : operation Num) (v : vec CC) : result (vec CC) :=
    match o with
    | GateOp _ _ =>
        if Nat.eqb (vlen v) 0 then Err OverflowError
        else
          let n := Nat.log2 (vlen v) in
          if negb (Nat.eqb (2 ^ n) (vlen v)) then Err ValueError
          else let! m := lifted_matrix o (Z.of_nat n) in matvec m v
    | MultiPhase ps =>
        if negb (Nat.eqb (vlen v) (length ps)) then Err ValueError
        else if existsb (fun p => negb (match param_syms p with [] => true | _ => false end)) ps then Err RuntimeError
        else Ok (Build_vec (K := CC) (vlen v)
          (fun k => cmul (vent v k) (cis (eval_param IR rho (nth k ps (PExpr (ESym EmptyString)))))))
    end.

  (** The operations applied one after the other. *)
  Definition apply_ops (ops : list (operation Num)) (v : vec CC) : result (vec CC) :=
    foldM (fun v o => op_apply o v) ops v.
End GateMat.
