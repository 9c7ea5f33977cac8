(** Model of shutil.move in openfermion/chem/molecular_data.py:917 when the working directory, where save writes the temporary file, and the data directory are on different
    file systems: then it copies the file and removes the original.  Simplification: a copy that has begun but not ended has no data sets (h5py refuses a truncated file). *)
From Coq Require Import String ZArith.
From Verif Require Import Base CostModel MolFileModel.
Open Scope list_scope.

Section MolCopy.
  Context {V : Type}.
  Notation S := (molecule V * files V)%type.
  Definition begin_copy (tmp : string) : M S unit := fun s =>
    let (m, fs) := s in
    match dget String.eqb (path tmp) fs with Some f => ((m, dset String.eqb (path (filename m)) [] fs), Ok tt) | None => (s, Err FileNotFoundError) end.
  Definition end_copy (tmp : string) : M S unit := fun s =>
    let (m, fs) := s in
    match dget String.eqb (path tmp) fs with Some f => ((m, dset String.eqb (path (filename m)) f fs), Ok tt) | None => (s, Err FileNotFoundError) end.
  Definition unlink (tmp : string) : M S unit := fun s => let (m, fs) := s in ((m, ddel String.eqb (path tmp) fs), Ok tt).
  (** molecular_data.py:729-917 with a move that copies *)
  Definition copying_steps (tmp : string) : list (M S unit) := write_steps tmp ++ [remove_old; begin_copy tmp; end_copy tmp; unlink tmp].
  Definition save_copying (tmp : string) : M S unit := in_sequence (copying_steps tmp).
End MolCopy.
