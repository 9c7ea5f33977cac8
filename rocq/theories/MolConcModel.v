(** Model of several processes that save molecules at the same time: openfermion/chem/molecular_data.py, MolecularData.save (727-917) run by each of them over one file system.
    Every process has its own object; a schedule says which process takes its next step.  A process that is never scheduled again has crashed.
    A step is one operation on the files (opening the temporary file, one data set, removing the old file, moving the new one).  A property loaded on demand takes two steps:
    the first check against None, and the call of create_dataset, before which the argument `compression` checks the property again.
    Simplification: opening and reading a file for one property (get_from_file) is one step, and so is shutil.move: the working directory and the data directory are on one file system,
    so that it renames. *)
From Coq Require Import String ZArith.
From Verif Require Import Base CostModel MolFileModel.
Open Scope list_scope.

Section MolConc.
  Context {V : Type}.
  (** the object and the value that the expression `self.p if self.p is not None else False` has picked *)
  Definition local : Type := molecule V * option V.
  Definition action : Type := M (local * files V) unit.
  Definition lift (step : M (molecule V * files V) unit) : action := fun s =>
    let '((m, r), fs) := s in let '((m', fs'), o) := step (m, fs) in (((m', r), fs'), o).
  (** molecular_data.py:788-800 and the like: data=(self.p if self.p is not None else False) *)
  Definition pick (key : string) : action := fun s =>
    let '((m, r), fs) := s in
    match get_property key (m, fs) with
    | ((m', fs'), Ok v) => (((m', v), fs'), Ok tt)
    | ((m', fs'), Err e) => (((m', r), fs'), Err e)
    end.
  (** compression=("gzip" if self.p is not None else None), and create_dataset: h5py refuses to compress the scalar False *)
  Definition create (tmp key : string) : action := fun s =>
    let '((m, r), fs) := s in
    match get_property key (m, fs) with
    | ((m', fs'), Ok w) =>
        match r, w with
        | None, Some _ => (((m', r), fs'), Err TypeError)
        | _, _ => lift (put_dataset tmp key (of_option r)) ((m', r), fs')
        end
    | ((m', fs'), Err e) => (((m', r), fs'), Err e)
    end.
  (** molecular_data.py:729-917, in order *)
  Definition save_actions (tmp : string) : list action :=
    let both k := [pick k; create tmp k] in
    let plain l := map lift l in
    plain [ open_temporary tmp;
      field tmp "geometry/atoms" (fun m => match geo m with Placed l => HTexts (map fst l) | Described s => HText s end);
      field tmp "geometry/positions" (fun m => match geo m with Placed l => HRows (map snd l) | Described _ => HFalse end);
      field tmp "basis" (fun m => HText (basis m)); field tmp "multiplicity" (fun m => HInt (multiplicity m)); field tmp "charge" (fun m => HInt (charge m));
      field tmp "description" (fun m => HText (description m)); field tmp "name" (fun m => HText (name m)); field tmp "n_atoms" (fun m => HInt (n_atoms m));
      field tmp "atoms" (fun m => HTexts match atoms m with Strings l | Bytes l => l end);
      field tmp "protons" (fun m => match protons m with Some l => HInts l | None => HInt 0 end); field tmp "n_electrons" (fun m => HInt (n_electrons m));
      field tmp "n_orbitals" (fun m => of_int (n_orbitals m)); field tmp "n_qubits" (fun m => of_int (n_qubits m)); field tmp "nuclear_repulsion" (fun m => of_option (nuclear_repulsion m));
      energy tmp "hf_energy" ]%string
    ++ both "canonical_orbitals"%string ++ both "overlap_integrals"%string ++ plain [energy tmp "orbital_energies"%string]
    ++ both "one_body_integrals"%string ++ both "two_body_integrals"%string ++ plain [energy tmp "mp2_energy"; energy tmp "cisd_energy"]%string
    ++ both "cisd_one_rdm"%string ++ both "cisd_two_rdm"%string ++ plain [energy tmp "fci_energy"%string] ++ both "fci_one_rdm"%string ++ both "fci_two_rdm"%string
    ++ plain [energy tmp "ccsd_energy"%string] ++ both "ccsd_single_amps"%string ++ both "ccsd_double_amps"%string
    ++ plain [general_keys tmp; general_values tmp; remove_old; move_temporary tmp].

  (** a process that saves: its object, the picked value, the steps that are left and the exception that has ended it *)
  Record process := { object : molecule V; picked : option V; pending : list action; failure : option exn }.
  Definition start (job : string * molecule V) : process := {| object := snd job; picked := None; pending := save_actions (fst job); failure := None |}.
  Definition advance (p : process) (fs : files V) : process * files V :=
    match failure p, pending p with
    | None, step :: rest =>
        match step ((object p, picked p), fs) with
        | (((m, r), fs'), Ok tt) => ({| object := m; picked := r; pending := rest; failure := None |}, fs')
        | (((m, r), fs'), Err e) => ({| object := m; picked := r; pending := rest; failure := Some e |}, fs')
        end
    | _, _ => (p, fs)
    end.
  Fixpoint replace_nth {A} (i : nat) (x : A) (l : list A) : list A :=
    match l, i with [], _ => [] | _ :: l', 0 => x :: l' | y :: l', Datatypes.S i' => y :: replace_nth i' x l' end.
  Definition tick (i : nat) (s : list process * files V) : list process * files V :=
    match nth_error (fst s) i with
    | Some p => let (p', fs') := advance p (snd s) in (replace_nth i p' (fst s), fs')
    | None => s
    end.
  (** the processes and the files after a schedule *)
  Definition run (schedule : list nat) (s : list process * files V) : list process * files V := fold_left (fun s i => tick i s) schedule s.
  Definition launch (jobs : list (string * molecule V)) (fs : files V) : list process * files V := (map start jobs, fs).
End MolConc.
