(** What estimators do. *)
From Coq Require Import String ZArith Reals.
From Verif Require Import Base MatModel Cplx LiftModel CircuitModel GateMatModel OpModel OpSpec EstModel CostModel ContractModel.
Open Scope list_scope.

Section Spec.
  Context {Num V S : Type}.
  Notation tk := (task (isop CC) (circuit Num)).
  (** The values of each task (of those in [P]) depend on the task only, and are in the order of the tasks. *)
  Definition taskwise (P : tk -> Prop) (e : estimator (Num := Num) (V := V) (S := S)) (f : tk -> V) : Prop :=
    forall tasks s, (forall t, In t tasks -> P t) -> exists s', e tasks s = (s', Ok (map f tasks)).
  (** The tasks that the contracts use. *)
  Definition contract_task (angle : R -> Num) (t : tk) : Prop := In t (_estimation_tasks angle ++ coefficient_tasks angle ++ constant_tasks).
  (** The values do not depend on the coefficients; on a constant term. *)
  Definition blind_to_coefficients (f : tk -> V) : Prop := forall t t', t_circ t = t_circ t' -> t_shots t = t_shots t' -> map fst (t_op t) = map fst (t_op t') -> f t = f t'.
  Definition blind_to_constants (f : tk -> V) : Prop := forall t t', t_circ t = t_circ t' -> t_shots t = t_shots t' ->
    (forall u c, u <> [] -> In (u, c) (t_op t) <-> In (u, c) (t_op t')) -> f t = f t'.
  (** The state before a circuit, and the values that quantum mechanics gives: for each term, the coefficient times the mean of the term over the outcomes. *)
  Definition all_zeros (n : nat) : MatModel.vec CC := Build_vec (K := CC) (2 ^ n) (fun i => if Nat.eqb i 0 then c1 else c0).
  Definition quantum_values (run : list (operation Num) -> MatModel.vec CC -> result (MatModel.vec CC)) (c : circuit Num) (o : isop CC) : result (list C) :=
    let n := Z.to_nat (c_nq c) in
    let! w := run (c_ops c) (all_zeros n) in
    Ok (map (fun tc => cmul (snd tc) (bigsum (K := CC) (2 ^ n) (fun b => cmul (cmul (cconj (vent w b)) (vent w b)) (zterm_value (K := CC) (fun q => nth q (bits n b) false) (fst tc))))) o).
End Spec.
