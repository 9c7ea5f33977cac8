(** What it means for a circuit to survive being written and read. *)
From Coq Require Import String ZArith.
From Verif Require Import Base Json CircuitModel GateMatModel SerdeModel.
Open Scope list_scope.

Section Spec.
  Context {Num : Type} (T : text_oracle Num).

  (** two numbers or expressions that the library considers equal, in both directions *)
  Definition like (a b : param Num) : Prop := elem_eq T a b = true /\ elem_eq T b a = true.
  Definition same_def (d d' : custom_def Num) : Prop :=
    cd_name d = cd_name d' /\ cd_ordering d = cd_ordering d' /\
    Forall2 (Forall2 (fun e e' => like (PExpr e) (PExpr e'))) (cd_matrix d) (cd_matrix d').
  Inductive same_factory : factory Num -> factory Num -> Prop :=
  | same_builtin f : same_factory (FBuiltin f) (FBuiltin f)
  | same_custom d d' : same_def d d' -> same_factory (FCustom d) (FCustom d').
  (** same gate, same modifiers in the same order, like parameters *)
  Inductive same_gate : gate Num -> gate Num -> Prop :=
  | same_basic n f f' ps ps' q h : same_factory f f' -> Forall2 like ps ps' -> same_gate (MFG n f ps q h) (MFG n f' ps' q h)
  | same_controlled g g' k : same_gate g g' -> same_gate (Controlled g k) (Controlled g' k)
  | same_dagger g g' : same_gate g g' -> same_gate (Dagger g) (Dagger g').
  Inductive same_op : operation Num -> operation Num -> Prop :=
  | same_gateop g g' qs : same_gate g g' -> same_op (GateOp g qs) (GateOp g' qs).
  Definition same_circuit (c c' : circuit Num) : Prop := c_nq c = c_nq c' /\ Forall2 same_op (c_ops c) (c_ops c').

  (** the gate under all modifiers *)
  Fixpoint core (g : gate Num) : gate Num := match g with MFG _ _ _ _ _ => g | Controlled w _ => core w | Dagger w => core w end.
  Fixpoint controls_ok (g : gate Num) : Prop := match g with MFG _ _ _ _ _ => True | Controlled w k => (1 <= k)%Z /\ controls_ok w | Dagger w => controls_ok w end.

  (** writing and reading a parameter, with the given symbol names at hand, gives it back *)
  Definition survives (names : list string) (p : param Num) : Prop := like p (PExpr (deser T (ser T p) names)).

  (** a built-in gate with the number of parameters it takes; each parameter survives given the gate's symbols *)
  Definition good_builtin (g : gate Num) : Prop :=
    exists b ps, In b builtins /\ g = MFG (b_name b) (FBuiltin (b_fun b)) ps (b_nq b) (b_herm b) /\ length ps = b_arity b /\
      Forall (survives (get_free_symbols ps)) ps.
  (** names that mean something else to the reader *)
  Definition reserved (name : string) : Prop := In name (map b_name builtins) \/ In name other_globals.
  (** a custom definition whose entries are equal to themselves and survive *)
  Definition good_def (d : custom_def Num) : Prop :=
    ~ reserved (cd_name d) /\
    (exists n, length (cd_matrix d) = 2 ^ n /\ forall r, In r (cd_matrix d) -> length r = 2 ^ n) /\
    (forall r e, In r (cd_matrix d) -> In e r -> like (PExpr e) (PExpr e) /\ survives (cd_ordering d) (PExpr e)).
  (** a gate made from it: the first parameter is read knowing the definition's symbol names, the others are not *)
  Definition good_custom (d : custom_def Num) (g : gate Num) : Prop :=
    exists ps, g = MFG (cd_name d) (FCustom d) ps (Z.of_nat (Nat.log2 (length (cd_matrix d)))) false /\ good_def d /\
      (forall p ps', ps = p :: ps' -> survives (cd_ordering d) p /\ Forall (survives []) ps').

  (** the custom gate definition used directly by an operation, outside any modifier *)
  Definition uses_directly (o : operation Num) (d : custom_def Num) : Prop :=
    exists n ps q h qs, o = GateOp (MFG n (FCustom d) ps q h) qs.
  Definition uses (o : operation Num) (d : custom_def Num) : Prop :=
    exists g qs n ps q h, o = GateOp g qs /\ core g = MFG n (FCustom d) ps q h.

  (** Circuits that can be written and read: every operation applies a modified built-in or custom gate; every custom
      definition is used directly somewhere; definitions with the same name are the same. *)
  Definition writable (ops : list (operation Num)) : Prop :=
    (forall o, In o ops -> exists g qs, o = GateOp g qs /\ controls_ok g /\ (good_builtin (core g) \/ exists d, good_custom d (core g))) /\
    (forall o d, In o ops -> uses o d -> exists o', In o' ops /\ uses_directly o' d) /\
    (forall o1 o2 d1 d2, In o1 ops -> In o2 ops -> uses o1 d1 -> uses o2 d2 -> cd_name d1 = cd_name d2 -> d1 = d2).
End Spec.
