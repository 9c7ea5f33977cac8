(** Model of testing/generate_cases_for_backend_tests.py: the script that computes the expected values of the backend
    test suite with gate matrices of its own.  Arithmetic is exact, [sympy.simplify] keeps the value, [subs("theta", a)]
    is application to the angle; the printed text is not modelled, a printed row is a tuple. *)
From Coq Require Import String Reals.
From Verif Require Import Base MatModel Cplx GateMatModel.
Open Scope list_scope.
Local Open Scope R_scope.

(** a complex number divided by a real one *)
Definition divr (z : C) (x : R) : C := (fst z / x, snd z / x).

(** generate_cases_for_backend_tests.py:18-31, matrices without angle *)
Definition gI : mat CC := M [[c1; c0]; [c0; c1]].
Definition gH : mat CC := M [[rc (1 / sqrt 2); rc (1 / sqrt 2)]; [rc (1 / sqrt 2); rc (-1 / sqrt 2)]].
Definition gX : mat CC := M [[c0; c1]; [c1; c0]].
Definition gY : mat CC := M [[c0; copp ci]; [ci; c0]].
Definition gZ : mat CC := M [[c1; c0]; [c0; rc (-1)]].
Definition gS : mat CC := M [[c1; c0]; [c0; ci]].
Definition gT : mat CC := M [[c1; c0]; [c0; divr (cadd c1 ci) (sqrt 2)]].
Definition gCNOT : mat CC := M [[c1; c0; c0; c0]; [c0; c1; c0; c0]; [c0; c0; c0; c1]; [c0; c0; c1; c0]].
Definition gCZ : mat CC := M [[c1; c0; c0; c0]; [c0; c1; c0; c0]; [c0; c0; c1; c0]; [c0; c0; c0; rc (-1)]].
Definition gSWAP : mat CC := M [[c1; c0; c0; c0]; [c0; c0; c1; c0]; [c0; c1; c0; c0]; [c0; c0; c0; c1]].
Definition gISWAP : mat CC := M [[c1; c0; c0; c0]; [c0; c0; ci; c0]; [c0; ci; c0; c0]; [c0; c0; c0; c1]].

(** lines 217-299, matrices with the angle theta *)
Definition mi (x : R) : C := cmul (copp ci) (rc x).   (* -1j * x *)
Definition pl (x : R) : C := cmul ci (rc x).          (* 1j * x *)
Definition gRX (t : R) : mat CC :=
  M [[rc (cos (t / 2)); mi (sin (t / 2))]; [mi (sin (t / 2)); rc (cos (t / 2))]].
Definition gRY (t : R) : mat CC :=
  M [[rc (cos (t / 2)); rc (- sin (t / 2))]; [rc (sin (t / 2)); rc (cos (t / 2))]].
Definition gRZ (t : R) : mat CC :=
  M [[csub (rc (cos (t / 2))) (pl (sin (t / 2))); c0]; [c0; cadd (rc (cos (t / 2))) (pl (sin (t / 2)))]].
Definition gPHASE (t : R) : mat CC := M [[c1; c0]; [c0; cadd (rc (cos t)) (pl (sin t))]].
Definition gRH (t : R) : mat CC :=
  let f := cis (t / 2) in
  let o := cmul (divr (cmul f (copp ci)) (sqrt 2)) (rc (sin (t / 2))) in
  let d := cmul (divr ci (sqrt 2)) (rc (sin (t / 2))) in
  M [[cmul f (csub (rc (cos (t / 2))) d); o]; [o; cmul f (cadd (rc (cos (t / 2))) d)]].
Definition gCPHASE (t : R) : mat CC :=
  M [[c1; c0; c0; c0]; [c0; c1; c0; c0]; [c0; c0; c1; c0]; [c0; c0; c0; cadd (rc (cos t)) (pl (sin t))]].
Definition gXX (t : R) : mat CC :=
  let c := rc (cos (t / 2)) in let m := mi (sin (t / 2)) in
  M [[c; c0; c0; m]; [c0; c; m; c0]; [c0; m; c; c0]; [m; c0; c0; c]].
Definition gYY (t : R) : mat CC :=
  let c := rc (cos (t / 2)) in let m := mi (sin (t / 2)) in let p := pl (sin (t / 2)) in
  M [[c; c0; c0; p]; [c0; c; m; c0]; [c0; m; c; c0]; [p; c0; c0; c]].
Definition gZZ (t : R) : mat CC :=
  let m := csub (rc (cos (t / 2))) (pl (sin (t / 2))) in let p := cadd (rc (cos (t / 2))) (pl (sin (t / 2))) in
  M [[m; c0; c0; c0]; [c0; p; c0; c0]; [c0; c0; p; c0]; [c0; c0; c0; m]].
Definition gXY (t : R) : mat CC :=
  let c := rc (cos (t / 2)) in let p := pl (sin (t / 2)) in
  M [[c1; c0; c0; c0]; [c0; c; p; c0]; [c0; p; c; c0]; [c0; c0; c0; c1]].

Local Open Scope string_scope.
(** lines 33-61: initial states and operators; TensorProduct is the Kronecker product *)
Definition single_qubit_initial_states : list (mat CC * string) := [(gI, "I"); (gH, "H")].
Definition single_qubit_operators : list (mat CC) := [gI; gX; gY; gZ].
Definition two_qubit_initial_states : list (mat CC * (string * string)) :=
  [(kron gI gI, ("I", "I")); (kron gI gH, ("I", "H")); (kron gH gI, ("H", "I")); (kron gH gH, ("H", "H"))].
Definition two_qubit_operators : list (mat CC * string) :=
  [(kron gI gI, "[]"); (kron gX gX, "[X0 X1]"); (kron gY gY, "[Y0 Y1]"); (kron gZ gZ, "[Z0 Z1]");
   (kron gI gX, "[X1]"); (kron gZ gI, "[Z0]")].

(** sympy.Matrix([[1], [0]]) and sympy.Matrix([[1], [0], [0], [0]]) *)
Definition ket1 : mat CC := M [[c1]; [c0]].
Definition ket2 : mat CC := M [[c1]; [c0]; [c0]; [c0]].
(** the entries of a column *)
Definition column (m : mat CC) : list C := map (fun i => ent m i 0%nat) (seq 0 (nr m)).

(** lines 64-80 and 123-141: (initial gate(s), gate, angle, amplitudes) *)
Definition generate_cases_1_qubit_wavefunction (matrix : R -> mat CC) (name : string) (angles : list R)
    : list (string * string * R * list C) :=
  flat_map (fun i => map (fun a => (snd i, name, a, column (mmul (mmul (matrix a) (fst i)) ket1))) angles)
    single_qubit_initial_states.
Definition generate_cases_2_qubits_wavefunction (matrix : R -> mat CC) (name : string) (angles : list R)
    : list ((string * string) * string * R * list C) :=
  flat_map (fun i => map (fun a => (snd i, name, a, column (mmul (mmul (matrix a) (fst i)) ket2))) angles)
    two_qubit_initial_states.

(** [mul(circuit_bra, mul(operator, circuit_ket))[0]] *)
Definition expectation_value (op ket : mat CC) : C := ent (mmul (adjoint ket) (mmul op ket)) 0%nat 0%nat.

(** lines 83-99 (no angle) and 102-121 *)
Definition generate_cases_1_qubit_exp_vals (matrix : mat CC) (name : string) : list (string * string * list C) :=
  map (fun i => (snd i, name,
    map (fun op => expectation_value op (mmul (mmul matrix (fst i)) ket1)) single_qubit_operators)) single_qubit_initial_states.
Definition generate_cases_1_qubit_exp_vals_with_angles (matrix : R -> mat CC) (name : string) (angles : list R)
    : list (string * string * R * list C) :=
  flat_map (fun i => map (fun a => (snd i, name, a,
    map (fun op => expectation_value op (mmul (mmul (matrix a) (fst i)) ket1)) single_qubit_operators)) angles)
    single_qubit_initial_states.
(** lines 144-173 (no angle) and 176-213 *)
Definition generate_cases_2_qubits_exp_vals (matrix : mat CC) (name : string)
    : list ((string * string) * string * list string * list C) :=
  map (fun i => (snd i, name, map snd two_qubit_operators,
    map (fun op => expectation_value (fst op) (mmul (mmul matrix (fst i)) ket2)) two_qubit_operators)) two_qubit_initial_states.
Definition generate_cases_2_qubits_exp_vals_with_angles (matrix : R -> mat CC) (name : string) (angles : list R)
    : list ((string * string) * string * R * list string * list C) :=
  flat_map (fun i => map (fun a => (snd i, name, a, map snd two_qubit_operators,
    map (fun op => expectation_value (fst op) (mmul (mmul (matrix a) (fst i)) ket2)) two_qubit_operators)) angles)
    two_qubit_initial_states.

(** lines 216-355 [main]; the script's own list of angles is a parameter here *)
Definition one_qubit_gates_with_angle : list ((R -> mat CC) * string) :=
  [(gRX, "RX"); (gRY, "RY"); (gRZ, "RZ"); (gPHASE, "PHASE"); (gRH, "RH")].
Definition two_qubit_gates_with_angle : list ((R -> mat CC) * string) :=
  [(gCPHASE, "CPHASE"); (gXX, "XX"); (gYY, "YY"); (gZZ, "ZZ"); (gXY, "XY")].
Definition one_qubit_gates : list (mat CC * string) :=
  [(gX, "X"); (gY, "Y"); (gZ, "Z"); (gH, "H"); (gS, "S"); (gT, "T")].
Definition two_qubit_gates : list (mat CC * string) :=
  [(gCNOT, "CNOT"); (gSWAP, "SWAP"); (gISWAP, "ISWAP"); (gCZ, "CZ")].
Definition wavefunction_rows_1 (angles : list R) := flat_map (fun g => generate_cases_1_qubit_wavefunction (fst g) (snd g) angles) one_qubit_gates_with_angle.
Definition wavefunction_rows_2 (angles : list R) := flat_map (fun g => generate_cases_2_qubits_wavefunction (fst g) (snd g) angles) two_qubit_gates_with_angle.
Definition exp_val_rows_1 := flat_map (fun g => generate_cases_1_qubit_exp_vals (fst g) (snd g)) one_qubit_gates.
Definition exp_val_rows_2 := flat_map (fun g => generate_cases_2_qubits_exp_vals (fst g) (snd g)) two_qubit_gates.
Definition exp_val_rows_1_angles (angles : list R) := flat_map (fun g => generate_cases_1_qubit_exp_vals_with_angles (fst g) (snd g) angles) one_qubit_gates_with_angle.
Definition exp_val_rows_2_angles (angles : list R) := flat_map (fun g => generate_cases_2_qubits_exp_vals_with_angles (fst g) (snd g) angles) two_qubit_gates_with_angle.
