(** Vocabulary for the properties of backends, simulators and trackers (C16-C18). *)
From Coq Require Import String.
From Verif Require Import Base MatModel CircuitModel BackendModel.
Open Scope list_scope.

Section Spec.
  Context {Num State : Type}.
  (** A correct native back end: on circuits made of natively supported operations it applies them in order. *)
  Definition native_correct (apply_op : operation Num -> State -> result State) (supported : operation Num -> bool)
      (native : circuit Num -> State -> result State) : Prop :=
    forall c st, Forall (fun o => supported o = true) (c_ops c) -> native c st = foldM (fun v o => apply_op o v) (c_ops c) st.

  (** Number of maximal runs of natively supported operations: positions whose operation is supported and whose
      predecessor (if any) is not. *)
  Fixpoint native_runs (supported : operation Num -> bool) (previous : bool) (ops : list (operation Num)) : nat :=
    match ops with
    | [] => 0
    | o :: ops' => (if supported o && negb previous then 1 else 0) + native_runs supported (supported o) ops'
    end.
End Spec.

(** The counters tell what was handed to the hardware: all circuits, and all jobs. *)
Definition counters_exact {Circ} (s : backend_state Circ) : Prop :=
  n_circuits (b_cnt s) = length (concat (b_log s)) /\ n_jobs (b_cnt s) = length (b_log s).
