(** Specification for C101: circuits in files, and what a run of several circuits on a backend is. *)
From Coq Require Import String ZArith QArith.
From Verif Require Import Base Json MatModel CircuitModel SerdeModel OpModel RunStepModel.
From Verif Require DistSpec DistModel BackendModel.
Open Scope list_scope.
Local Open Scope nat_scope.

Definition holds {K : cring} (d : disk (K := K)) (name : string) (x : artifact (K := K)) : Prop := dget String.eqb name d = Some x.
(** Only the named file differs. *)
Definition only_file {K : cring} (name : string) (d d' : disk (K := K)) : Prop := forall other, other <> name -> dget String.eqb other d' = dget String.eqb other d.
(** A file from which a circuit, or a list of circuits, is read. *)
Definition has_circuit {Num} (T : text_oracle Num) {K : cring} (d : disk (K := K)) (name : string) (c : circuit Num) : Prop := exists j, holds d name (Circuits j) /\ circuit_from_dict T j = Ok c.
Definition has_circuits {Num} (T : text_oracle Num) {K : cring} (d : disk (K := K)) (name : string) (cs : list (circuit Num)) : Prop := exists j, holds d name (Circuits j) /\ circuitset_from_dict T j = Ok cs.
(** A circuit given as a dictionary or by the name of a file. *)
Definition means_circuit {Num} (T : text_oracle Num) {K : cring} (d : disk (K := K)) (x : string + js) (c : circuit Num) : Prop :=
  match x with inl name => has_circuit T d name c | inr j => circuit_from_dict T j = Ok c end.
(** All bits are Python integers. *)
Definition plain_ints (m : shots) : Prop := forall o b, In o m -> In b o -> exists z, b = PyInt z.
