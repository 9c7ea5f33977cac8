(** What is said about processes that save molecules at the same time (C107). *)
From Coq Require Import String ZArith.
From Verif Require Import Base CostModel MolFileModel MolFileSpec MolConcModel.
Open Scope list_scope.

Section Spec.
  Context {V : Type}.
  Implicit Types (jobs : list (string * molecule V)) (m : molecule V) (fs : files V).
  Definition hdf5 (name : string) : string := (name ++ ".hdf5")%string.
  (** uuid4 gives new names: the temporary names differ, are no name of a file of the molecules, and no such file exists *)
  Definition new_names jobs fs : Prop :=
    NoDup (map fst jobs) /\ (forall t m t' m', In (t, m) jobs -> In (t', m') jobs -> t <> filename m') /\ (forall t m, In (t, m) jobs -> dget String.eqb (hdf5 t) fs = None) /\ NoDup (dkeys fs).
  (** general_calculations is a dictionary, as in every molecule that is made from its geometry *)
  Definition savable jobs : Prop := forall t m, In (t, m) jobs -> exists d, general_calculations m = Calculations d /\ NoDup (dkeys d).
  (** nothing of the molecule is left to be loaded on demand *)
  Definition in_memory m : Prop := forall k, In k on_demand -> dget String.eqb k (loaded m) <> None.
  (** the file of [m] holds [m]: whoever loads it gets that molecule, and it shows the properties that [m] has in memory *)
  Definition holds m fs : Prop :=
    (forall m0, filename m0 = filename m -> exists m2, load m0 fs = Ok m2 /\ same_molecule m2 m /\
       (forall d, general_calculations m = Calculations d -> d <> [] -> general_calculations m2 = Calculations d)) /\
    (forall k v, In k on_demand -> dget String.eqb k (loaded m) = Some v -> shows (blank (filename m)) fs k = Some v).
  (** where a value may come from: the memory of one of the processes, or a file that was there before *)
  Definition known jobs fs0 (k : string) (v : V) : Prop :=
    (exists t m, In (t, m) jobs /\ dget String.eqb k (loaded m) = Some v) \/ (exists n f, dget String.eqb n fs0 = Some f /\ dget String.eqb k f = Some (HVal v)).
  (** a process has returned from save *)
  Definition returned (p : process (V := V)) : Prop := pending p = [] /\ failure p = None.
  Definition processes (jobs : list (string * molecule V)) fs schedule : list process := fst (run schedule (launch jobs fs)).
  Definition files_after (jobs : list (string * molecule V)) fs schedule : files V := snd (run schedule (launch jobs fs)).
End Spec.
