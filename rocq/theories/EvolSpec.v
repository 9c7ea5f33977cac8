(** Specification vocabulary for evolution.py: exponentials of matrices and derivatives of complex functions. *)
From Coq Require Import Reals.
From Verif Require Import Base MatModel Cplx CircuitModel CircuitSpec OpModel OpSpec GateMatModel EvolModel.
Local Open Scope R_scope.

(** The complex series with terms f 0, f 1, ... converges to l. *)
Definition c_infinite_sum (f : nat -> C) (l : C) : Prop :=
  infinite_sum (fun k => fst (f k)) (fst l) /\ infinite_sum (fun k => snd (f k)) (snd l).
(** E is the exponential of the N x N matrix A: every entry of E is the sum of the entries of A^k / k!. *)
Definition is_exp (N : nat) (A E : mat CC) : Prop :=
  nr E = N /\ nc E = N /\
  forall i j, (i < N)%nat -> (j < N)%nat -> c_infinite_sum (fun k => cmul (rc (/ INR (fact k))) (ent (mpow A k) i j)) (ent E i j).
(** The function f has derivative d at x. *)
Definition has_derivative (f : R -> C) (x : R) (d : C) : Prop :=
  derivable_pt_lim (fun y => fst (f y)) x (fst d) /\ derivable_pt_lim (fun y => snd (f y)) x (snd d).
(** Expectation value of the observable A in the state v. *)
Definition expectation_of (A : mat CC) (v : vec CC) : C := inner v (mvmul A v).

(** Arithmetic on times means arithmetic of their values (for coefficients and shifts without imaginary part). *)
Definition time_ops_sound {Num} (IR : interp (Num := Num) R) (rho : sym -> R) (T : time_ops Num) : Prop :=
  (forall p c, snd c = 0 -> eval_param IR rho (twice_times T p c) = 2 * eval_param IR rho p * fst c) /\
  (forall p z, z <> 0%Z -> eval_param IR rho (divided_by T p z) = eval_param IR rho p / IZR z) /\
  (forall p c, snd c = 0 -> eval_param IR rho (plus_number T p c) = eval_param IR rho p + fst c).

(** One more than the largest listed qubit, 0 for none. *)
Definition span (qs : list nat) : Z := fold_right (fun q w => Z.max (Z.of_nat q + 1) w) 0%Z qs.
(** The circuit that evolution.py builds for one term: changes of basis, CNOT ladder, rotation of the last qubit, and back. *)
Definition term_circuit {Num} (angle : R -> Num) (T : time_ops Num) (time : param Num) (tc : term pauli * C) : circuit Num :=
  match fst tc with
  | [] => Build_circuit [] 0
  | t => Build_circuit (flat_map (base_change angle) t ++ cnot_gates t ++ central_gate (twice_times T time (snd tc)) t ++ rev (cnot_gates t) ++ flat_map (base_reversal angle) t)
           (span (map fst t))
  end.
(** Circuits one after the other. *)
Definition concatenated {Num} (cs : list (circuit Num)) : circuit Num := Build_circuit (flat_map c_ops cs) (fold_right Z.max 0%Z (map c_nq cs)).
(** Product of N x N matrices, the first of the list being applied first. *)
Fixpoint in_order (N : nat) (ms : list (mat CC)) : mat CC := match ms with [] => eye (K := CC) N | m :: ms' => mmul (in_order N ms') m end.
(** E is the exponential of -i x c P for the term c P, a constant term counting as 1. *)
Definition term_exponential (n : nat) (x : R) (tc : term pauli * C) (E : mat CC) : Prop :=
  match fst tc with
  | [] => E = eye (K := CC) (2 ^ n)
  | t => is_exp (2 ^ n) (mscale (K := CC) (0, - (x * fst (snd tc))) (term_matrix (K := CC) ci n t)) E
  end.
(** An operator with canonical terms and real coefficients on n qubits. *)
Definition real_operator (n : nat) (h : qop CC) : Prop :=
  forall t c, In (t, c) h -> canonical t /\ snd c = 0 /\ forall f, In f t -> (fst f < n)%nat.
(** Running the operations on the state v and measuring the observable A has expectation value x. *)
Definition outcome {Num} (O : sympy_oracle Num) (IR : interp (Num := Num) R) (IC : interp (Num := Num) C) (rho : sym -> R) (ops : list (operation Num)) (v : vec CC) (A : mat CC) (x : C) : Prop :=
  exists w, apply_ops O IR IC rho ops v = Ok w /\ x = expectation_of A w.
(** Sum of the products of factors and values. *)
Definition weighted_sum (fs gs : list C) : C := fold_right cadd c0 (map (fun p => cmul (fst p) (snd p)) (combine fs gs)).
