(** What the built-in gates are supposed to do, independently of the matrices written in the code: amplitudes
    [f out in] = <out|U|in> over bits, and for two qubits over pairs (first qubit, second qubit). *)
From Coq Require Import String Reals.
From Verif Require Import Base MatModel Cplx GateMatModel.
Local Open Scope R_scope.

Definition amps1 := bool -> bool -> C.
Definition amps2 := bool * bool -> bool * bool -> C.

(** row or column number of a one- and of a two-qubit basis state; the first qubit is the most significant *)
Definition ix1 (b : bool) : nat := if b then 1%nat else 0%nat.
Definition ix2 (b : bool * bool) : nat := (2 * ix1 (fst b) + ix1 (snd b))%nat.

Definition is_matrix1 (m : mat CC) (f : amps1) : Prop :=
  nr m = 2%nat /\ nc m = 2%nat /\ forall r c, ent m (ix1 r) (ix1 c) = f r c.
Definition is_matrix2 (m : mat CC) (f : amps2) : Prop :=
  nr m = 4%nat /\ nc m = 4%nat /\ forall r c, ent m (ix2 r) (ix2 c) = f r c.

(** The gate called [name] has [n] qubits and, with parameters [ps], the amplitudes [f]. *)
Definition gate1_is (name : string) (ps : list R) (f : amps1) : Prop :=
  exists b m, In b builtins /\ b_name b = name /\ b_nq b = 1%Z /\ b_arity b = length ps /\ b_call b ps = Ok m /\ is_matrix1 m f.
Definition gate2_is (name : string) (ps : list R) (f : amps2) : Prop :=
  exists b m, In b builtins /\ b_name b = name /\ b_nq b = 2%Z /\ b_arity b = length ps /\ b_call b ps = Ok m /\ is_matrix2 m f.

(** ** Textbook operators *)
Definition expi (t : R) : C := (cos t, sin t).
Definition if1 (b : bool) (z : C) : C := if b then z else c0.
Definition same (r c : bool) : bool := Bool.eqb r c.
(** identity, bit flip, phase flip, and Y = i X Z: Y|0> = i|1>, Y|1> = -i|0> *)
Definition aI : amps1 := fun r c => if1 (same r c) c1.
Definition aX : amps1 := fun r c => if1 (same r (negb c)) c1.
Definition aZ : amps1 := fun r c => if1 (same r c) (if c then rc (-1) else c1).
Definition aY : amps1 := fun r c => if1 (same r (negb c)) (if c then (0, -1) else (0, 1)).
(** |b> to (|0> + (-1)^b |1>) / sqrt 2 *)
Definition aH : amps1 := fun r c => rc ((if r && c then -1 else 1) / sqrt 2).
(** |1> gets the phase exp(i t) *)
Definition aPhase (t : R) : amps1 := fun r c => if1 (same r c) (if c then expi t else c1).
(** exp(-i t/2 P) for an involution P: cos(t/2) - i sin(t/2) P *)
Definition rot1 (t : R) (P : amps1) : amps1 :=
  fun r c => cadd (cmul (rc (cos (t / 2))) (aI r c)) (cmul (0, - sin (t / 2)) (P r c)).
Definition tens (P Q : amps1) : amps2 := fun r c => cmul (P (fst r) (fst c)) (Q (snd r) (snd c)).
Definition rot2 (t : R) (P : amps2) : amps2 :=
  fun r c => cadd (cmul (rc (cos (t / 2))) (tens aI aI r c)) (cmul (0, - sin (t / 2)) (P r c)).
(** first qubit controls, second is the target *)
Definition controlled (P : amps1) : amps2 :=
  fun r c => if1 (same (fst r) (fst c)) (if fst c then P (snd r) (snd c) else aI (snd r) (snd c)).
(** exchanging the qubits, with a factor [z] when they differ *)
Definition exchange (z : C) : amps2 :=
  fun r c => if1 (same (fst r) (snd c) && same (snd r) (fst c)) (if same (fst c) (snd c) then c1 else z).
(** rotation in the span of |01> and |10>: cos(t/2) and i sin(t/2) there, identity on |00> and |11> *)
Definition aXY (t : R) : amps2 := fun r c =>
  if same (fst c) (snd c) then tens aI aI r c
  else cadd (cmul (rc (cos (t / 2))) (tens aI aI r c)) (cmul (0, sin (t / 2)) (exchange c1 r c)).
(** the standard U3: cos(th/2), -e^(i lam) sin(th/2); e^(i phi) sin(th/2), e^(i(phi+lam)) cos(th/2) *)
Definition aU3 (theta phi lam : R) : amps1 := fun r c =>
  match r, c with
  | false, false => rc (cos (theta / 2))
  | false, true => cmul (copp (expi lam)) (rc (sin (theta / 2)))
  | true, false => cmul (expi phi) (rc (sin (theta / 2)))
  | true, true => cmul (expi (phi + lam)) (rc (cos (theta / 2)))
  end.
Definition scale1 (z : C) (P : amps1) : amps1 := fun r c => cmul z (P r c).
