(** Vocabulary for the properties of gate matrices and circuit unitaries (C05, C07, C08, C12). *)
From Coq Require Import String Reals.
From Verif Require Import Base MatModel CircuitModel CircuitSpec Cplx GateMatModel.
Open Scope list_scope.

Section Spec.
  Context {Num : Type} (O : sympy_oracle Num).

  (** The gate under the modifiers. *)
  Fixpoint base_gate (g : gate Num) : gate Num :=
    match g with MFG _ _ _ _ _ => g | Controlled w _ => base_gate w | Dagger w => base_gate w end.

  (** A built-in gate called with its number of parameters. *)
  Definition is_builtin (g : gate Num) : Prop :=
    exists b ps, In b builtins /\ length ps = b_arity b /\ g = builtin_gate b ps.

  (** Gates a user can build from the built-in ones by modifiers, binding and parameter replacement. *)
  Definition builtin_based (g : gate Num) : Prop := api_gate O g /\ is_builtin (base_gate g).

  (** Gate operation on distinct qubits, as many as the gate needs, inside an n-qubit register. *)
  Definition well_placed (n : Z) (o : operation Num) : Prop :=
    match o with
    | GateOp g qs => builtin_based g /\ NoDup qs /\ Z.of_nat (length qs) = num_qubits g /\ (forall q, In q qs -> (Z.of_nat q < n)%Z)
    | MultiPhase _ => False
    end.
End Spec.

(** A controlled matrix: acts as [A] when all k control bits (the leading ones) are 1 and as the identity otherwise. *)
Definition controlled_version {K : cring} (k w : nat) (A B : mat K) : Prop :=
  nr B = (2 ^ (k + w))%nat /\ nc B = (2 ^ (k + w))%nat /\
  forall ctl ctl' x x', length ctl = k -> length ctl' = k -> length x = w -> length x' = w ->
    ent B (bval (ctl ++ x)) (bval (ctl' ++ x')) =
      if forallb (fun b => b) ctl && forallb (fun b => b) ctl' then ent A (bval x) (bval x')
      else delta (list_eqb Bool.eqb (ctl ++ x) (ctl' ++ x')).
