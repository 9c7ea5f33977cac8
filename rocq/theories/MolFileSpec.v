(** What a user sees of a molecule and of its file (C95). *)
From Coq Require Import String ZArith Permutation.
From Verif Require Import Base CostModel MolFileModel.
Open Scope list_scope.

Section Spec.
  Context {V : Type}.
  (** the properties that are loaded on demand, and the energies *)
  Definition on_demand : list string := ["canonical_orbitals"; "overlap_integrals"; "one_body_integrals"; "two_body_integrals"; "cisd_one_rdm"; "cisd_two_rdm"; "fci_one_rdm"; "fci_two_rdm";
    "ccsd_single_amps"; "ccsd_double_amps"]%string.
  Definition energy_names : list string := ["hf_energy"; "orbital_energies"; "mp2_energy"; "cisd_energy"; "fci_energy"; "ccsd_energy"]%string.
  (** the file of a molecule *)
  Definition its_file (m : molecule V) (fs : files V) : option (list (string * h5 V)) := dget String.eqb (filename m ++ ".hdf5")%string fs.
  (** what the property [k] shows: the value in memory, or else the one in the file *)
  Definition shows (m : molecule V) (fs : files V) (k : string) : option V :=
    match dget String.eqb k (loaded m) with
    | Some v => Some v
    | None => match its_file m fs with Some f => match dget String.eqb k f with Some (HVal v) => Some v | _ => None end | None => None end
    end.
  Definition atom_names (m : molecule V) : list string := match atoms m with Strings l | Bytes l => l end.
  (** two molecules agree in everything but memory, the type of the list of atoms and the general calculations *)
  Definition same_molecule (a b : molecule V) : Prop :=
    geo a = geo b /\ basis a = basis b /\ multiplicity a = multiplicity b /\ charge a = charge b /\ description a = description b /\ name a = name b /\ filename a = filename b /\
    n_atoms a = n_atoms b /\ atom_names a = atom_names b /\ protons a = protons b /\ n_electrons a = n_electrons b /\ n_orbitals a = n_orbitals b /\ n_qubits a = n_qubits b /\
    nuclear_repulsion a = nuclear_repulsion b /\ forall k, In k energy_names -> dget String.eqb k (energies a) = dget String.eqb k (energies b).
  (** Python lists every element of a set once, in some order. *)
  Definition set_iteration (set_order : list string -> list string) : Prop := forall l, NoDup (set_order l) /\ forall a, In a (set_order l) <-> In a l.
End Spec.
