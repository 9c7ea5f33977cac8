(** What a decomposition has to preserve (C15). *)
From Coq Require Import String Reals.
From Verif Require Import Base MatModel CircuitModel CircuitSpec Cplx GateMatModel DecompModel.
Open Scope list_scope.

(** One rewriting pass with one rule over a list of operations: matching operations are replaced in place by the
    rule's production, all others stay. *)
Inductive rewritten {Op} (r : rule Op) : list Op -> list Op -> Prop :=
| rw_nil : rewritten r [] []
| rw_match o new ops out : r_predicate r o = Ok true -> r_production r o = Ok new -> rewritten r ops out ->
    rewritten r (o :: ops) (new ++ out)
| rw_keep o ops out : r_predicate r o = Ok false -> rewritten r ops out -> rewritten r (o :: ops) (o :: out).

(** All rules, one pass after the other. *)
Inductive rewritten_by {Op} : list (rule Op) -> list Op -> list Op -> Prop :=
| rwb_nil ops : rewritten_by [] ops ops
| rwb_cons r rs ops mid out : rewritten r ops mid -> rewritten_by rs mid out -> rewritten_by (r :: rs) ops out.

(** [v] is exp(i t) times [u]. *)
Definition phase_of (t : R) (u v : vec CC) : Prop :=
  vlen v = vlen u /\ forall i, i < vlen u -> vent v i = cmul (cis t) (vent u i).

Section Sem.
  Context {Num : Type} (O : sympy_oracle Num) (IR : interp (Num := Num) R) (IC : interp (Num := Num) C) (rho : sym -> R).
  (** Whenever the operations [a] can be applied to an n-qubit state, so can [b], and the results differ by the global
      phase exp(i t), which does not depend on the state. *)
  Definition same_action (n : nat) (t : R) (a b : list (operation Num)) : Prop :=
    forall v w, vlen v = 2 ^ n -> apply_ops O IR IC rho a v = Ok w ->
    exists w', apply_ops O IR IC rho b v = Ok w' /\ phase_of t w w'.
End Sem.
