(** Model of the files of molecules: openfermion/chem/molecular_data.py (name_molecule, geometry_from_file, MolecularData.__init__, its properties loaded on demand,
    save, load, get_from_file, get_molecular_rdm).
    A file system maps names to HDF5 files, and those map the names of data sets to data.  Arrays and numbers are arbitrary values that a file gives back as they were
    stored; text is given back as stored (no zero bytes).  Simplifications: int and float of stored numbers are the numbers; a property loaded on demand holds a value
    that is no boolean array; files that hold other types of data than [save] writes are not considered. *)
From Coq Require Import String ZArith DecimalString.
From Verif Require Import Base CostModel.
Open Scope list_scope.

(** molecular_data.py:62-172 *)
Definition periodic_table : list string := ["?"; "H"; "He"; "Li"; "Be"; "B"; "C"; "N"; "O"; "F"; "Ne"; "Na"; "Mg"; "Al"; "Si"; "P"; "S"; "Cl"; "Ar"; "K"; "Ca"; "Sc"; "Ti"; "V"; "Cr"; "Mn"; "Fe"; "Co"; "Ni"; "Cu"; "Zn"; "Ga"; "Ge"; "As"; "Se"; "Br"; "Kr"; "Rb"; "Sr"; "Y"; "Zr"; "Nb"; "Mo"; "Tc"; "Ru"; "Rh"; "Pd"; "Ag"; "Cd"; "In"; "Sn"; "Sb"; "Te"; "I"; "Xe"; "Cs"; "Ba"; "La"; "Ce"; "Pr"; "Nd"; "Pm"; "Sm"; "Eu"; "Gd"; "Tb"; "Dy"; "Ho"; "Er"; "Tm"; "Yb"; "Lu"; "Hf"; "Ta"; "W"; "Re"; "Os"; "Ir"; "Pt"; "Au"; "Hg"; "Tl"; "Pb"; "Bi"; "Po"; "At"; "Rn"; "Fr"; "Ra"; "Ac"; "Th"; "Pa"; "U"; "Np"; "Pu"; "Am"; "Cm"; "Bk"; "Cf"; "Es"; "Fm"; "Md"; "No"; "Lr"]%string.
Fixpoint index_of (k : string) (l : list string) : option nat := match l with [] => None | x :: l' => if String.eqb k x then Some 0 else option_map S (index_of k l') end.
(** periodic_hash_table[atom]; the symbols are different *)
Definition atomic_number (atom : string) : result Z := match index_of atom periodic_table with Some n => Ok (Z.of_nat n) | None => Err KeyError end.
(** str of an int *)
Definition show_int (z : Z) : string := NilZero.string_of_int (Z.to_int z).

Section MolFile.
  Context {V : Type}.
  Inductive geometry := Described (s : string) | Placed (l : list (string * list V)).
  (** what an HDF5 data set holds; [HFalse] is the boolean False *)
  Inductive h5 := HFalse | HText (s : string) | HTexts (l : list string) | HInt (z : Z) | HInts (l : list Z) | HVal (v : V) | HVals (l : list V) | HRows (l : list (list V)).
  Definition file := list (string * h5).
  Definition files := list (string * file).
  (** general_calculations: not an attribute, None, or a dictionary *)
  Inductive general := Unset | PyNone | Calculations (d : list (string * V)).
  (** atoms: strings, or the array of bytes that is loaded *)
  Inductive atom_list := Strings (l : list string) | Bytes (l : list string).
  Record molecule := { geo : geometry; basis : string; multiplicity : Z; charge : Z; description : string; name : string; filename : string; n_atoms : Z;
    atoms : atom_list; protons : option (list Z); n_electrons : Z; n_orbitals : option Z; n_qubits : option Z; nuclear_repulsion : option V;
    energies : list (string * V);      (* hf_energy, orbital_energies, mp2_energy, cisd_energy, fci_energy, ccsd_energy: those that are not None *)
    loaded : list (string * V);        (* the private attributes of the properties loaded on demand: those that are not None *)
    general_calculations : general }.
  Definition with_loaded (m : molecule) (l : list (string * V)) : molecule :=
    {| geo := geo m; basis := basis m; multiplicity := multiplicity m; charge := charge m; description := description m; name := name m; filename := filename m; n_atoms := n_atoms m;
       atoms := atoms m; protons := protons m; n_electrons := n_electrons m; n_orbitals := n_orbitals m; n_qubits := n_qubits m; nuclear_repulsion := nuclear_repulsion m;
       energies := energies m; loaded := l; general_calculations := general_calculations m |}.
  Definition with_filename (m : molecule) (f : string) : molecule :=
    {| geo := geo m; basis := basis m; multiplicity := multiplicity m; charge := charge m; description := description m; name := name m; filename := f; n_atoms := n_atoms m;
       atoms := atoms m; protons := protons m; n_electrons := n_electrons m; n_orbitals := n_orbitals m; n_qubits := n_qubits m; nuclear_repulsion := nuclear_repulsion m;
       energies := energies m; loaded := loaded m; general_calculations := general_calculations m |}.

  (** molecular_data.py:233-299.  [set_order] is the order in which Python iterates over the set of these atoms; MoleculeNameError is GenericException.
      A multiplicity that equals an int counts as that int. *)
  Definition multiplicity_name (multiplicity : Z) : option string :=
    if Z.ltb multiplicity 1 then None
    else nth_error ["singlet"; "doublet"; "triplet"; "quartet"; "quintet"; "sextet"; "septet"; "octet"; "nonet"; "dectet"; "undectet"; "duodectet"]%string (Z.to_nat (multiplicity - 1)).
  Definition atoms_name (set_order : list string -> list string) (l : list string) : result string :=
    let info := map (fun a => (a, count_occ string_dec l a)) (set_order l) in
    let! keyed := mapM (fun i : string * nat => let! n := atomic_number (fst i) in Ok (n, i)) info in
    let show (i : Z * (string * nat)) := (fst (snd i) ++ show_int (Z.of_nat (snd (snd i))))%string in
    match sort_by (fun a b => Z.leb (fst a) (fst b)) keyed with
    | [] => Err IndexError
    | i :: rest => Ok (fold_left (fun s j => (s ++ "-" ++ show j)%string) rest (show i))
    end.
  Definition name_molecule (set_order : list string -> list string) (g : geometry) (basis : string) (multiplicity charge : Z) (description : string) : result string :=
    let! name := match g with Described s => Ok s | Placed l => atoms_name set_order (map fst l) end in
    let name := (name ++ "_" ++ basis)%string in
    match multiplicity_name multiplicity with
    | None => Err GenericException
    | Some mn =>
        let name := (name ++ "_" ++ mn)%string in
        let name := if Z.ltb 0 charge then (name ++ "_" ++ show_int charge ++ "+")%string else if Z.ltb charge 0 then (name ++ "_" ++ show_int charge ++ "-")%string else name in
        Ok (if String.eqb description "" then name else (name ++ "_" ++ description)%string)
    end.

  (** molecular_data.py:302-325; a line is the list of its words, [to_float] is float *)
  Definition geometry_from_file (to_float : string -> result V) (lines : list (list string)) : result (list (string * list V)) :=
    foldM (fun geometry data => match data with
                                | [atom; x; y; z] => let! x := to_float x in let! y := to_float y in let! z := to_float z in Ok (geometry ++ [(atom, [x; y; z])])
                                | _ => Ok geometry
                                end) lines [].

  Definition path (name : string) : string := (name ++ ".hdf5")%string.
  Definition S : Type := molecule * files.
  (** molecular_data.py:992-1010 *)
  Definition get_from_file (m : molecule) (fs : files) (property_name : string) : option h5 :=
    match dget String.eqb (path (filename m)) fs with Some f => dget String.eqb property_name f | None => None end.
  (** molecular_data.py:599-606 and the other getters *)
  Definition get_property (k : string) : M S (option V) := fun s =>
    let (m, fs) := s in
    match dget String.eqb k (loaded m) with
    | Some v => (s, Ok (Some v))
    | None => match get_from_file m fs k with
              | Some (HVal v) => ((with_loaded m (dset String.eqb k v (loaded m)), fs), Ok (Some v))
              | _ => (s, Ok None)
              end
    end.
  (** molecular_data.py:608-610 and the other setters *)
  Definition set_property (k : string) (v : option V) : M S unit := fun s =>
    let (m, fs) := s in
    ((with_loaded m match v with Some x => dset String.eqb k x (loaded m) | None => ddel String.eqb k (loaded m) end, fs), Ok tt).

  (** f.create_dataset(key, data) in the temporary file *)
  Definition put_dataset (tmp key : string) (data : h5) : M S unit := fun s =>
    let (m, fs) := s in ((m, dset String.eqb (path tmp) (match dget String.eqb (path tmp) fs with Some f => f | None => [] end ++ [(key, data)]) fs), Ok tt).
  Definition of_option (v : option V) : h5 := match v with Some x => HVal x | None => HFalse end.
  Definition of_int (v : option Z) : h5 := match v with Some x => HInt x | None => HFalse end.
  Definition field (tmp key : string) (f : molecule -> h5) : M S unit := fun s => put_dataset tmp key (f (fst s)) s.
  Definition energy (tmp key : string) : M S unit := field tmp key (fun m => of_option (dget String.eqb key (energies m))).
  (** the property is read up to three times; after the first the result is the same *)
  Definition property (tmp key : string) : M S unit := do! v := get_property key in put_dataset tmp key (of_option v).
  Definition calculations (m : molecule) : result (list (string * V)) := match general_calculations m with Calculations d => Ok d | _ => Err AttributeError end.
  Definition general_keys (tmp : string) : M S unit := fun s =>
    match calculations (fst s) with
    | Ok [] => put_dataset tmp "general_calculations_keys" HFalse s
    | Ok d => put_dataset tmp "general_calculations_keys" (HTexts (dkeys d)) s
    | Err e => (s, Err e)
    end.
  Definition general_values (tmp : string) : M S unit := fun s =>
    match calculations (fst s) with
    | Ok [] => put_dataset tmp "general_calculations_values" HFalse s
    | Ok d => put_dataset tmp "general_calculations_values" (HVals (map snd d)) s
    | Err e => (s, Err e)
    end.
  Definition open_temporary (tmp : string) : M S unit := fun s => let (m, fs) := s in ((m, dset String.eqb (path tmp) [] fs), Ok tt).
  Definition remove_old : M S unit := fun s => let (m, fs) := s in ((m, ddel String.eqb (path (filename m)) fs), Ok tt).
  Definition move_temporary (tmp : string) : M S unit := fun s =>
    let (m, fs) := s in
    match dget String.eqb (path tmp) fs with
    | Some f => ((m, dset String.eqb (path (filename m)) f (ddel String.eqb (path tmp) fs)), Ok tt)
    | None => (s, Err FileNotFoundError)
    end.
  (** molecular_data.py:729-917: the steps in order; [tmp] is the new name *)
  Definition write_steps (tmp : string) : list (M S unit) :=
    [ open_temporary tmp;
      field tmp "geometry/atoms" (fun m => match geo m with Placed l => HTexts (map fst l) | Described s => HText s end);
      field tmp "geometry/positions" (fun m => match geo m with Placed l => HRows (map snd l) | Described _ => HFalse end);
      field tmp "basis" (fun m => HText (basis m)); field tmp "multiplicity" (fun m => HInt (multiplicity m)); field tmp "charge" (fun m => HInt (charge m));
      field tmp "description" (fun m => HText (description m)); field tmp "name" (fun m => HText (name m)); field tmp "n_atoms" (fun m => HInt (n_atoms m));
      field tmp "atoms" (fun m => HTexts match atoms m with Strings l | Bytes l => l end);
      field tmp "protons" (fun m => match protons m with Some l => HInts l | None => HInt 0 end); field tmp "n_electrons" (fun m => HInt (n_electrons m));
      field tmp "n_orbitals" (fun m => of_int (n_orbitals m)); field tmp "n_qubits" (fun m => of_int (n_qubits m)); field tmp "nuclear_repulsion" (fun m => of_option (nuclear_repulsion m));
      energy tmp "hf_energy"; property tmp "canonical_orbitals"; property tmp "overlap_integrals"; energy tmp "orbital_energies";
      property tmp "one_body_integrals"; property tmp "two_body_integrals"; energy tmp "mp2_energy"; energy tmp "cisd_energy"; property tmp "cisd_one_rdm"; property tmp "cisd_two_rdm";
      energy tmp "fci_energy"; property tmp "fci_one_rdm"; property tmp "fci_two_rdm"; energy tmp "ccsd_energy"; property tmp "ccsd_single_amps"; property tmp "ccsd_double_amps";
      general_keys tmp; general_values tmp ]%string.
  Definition save_steps (tmp : string) : list (M S unit) := write_steps tmp ++ [remove_old; move_temporary tmp].
  Fixpoint in_sequence (l : list (M S unit)) : M S unit := match l with [] => retM tt | m :: l' => do! _ := m in in_sequence l' end.
  Definition save (tmp : string) : M S unit := in_sequence (save_steps tmp).

  Definition item (key : string) (f : file) : result h5 := match dget String.eqb key f with Some d => Ok d | None => Err KeyError end.
  Definition text_item (key : string) (f : file) : result string := let! d := item key f in match d with HText s => Ok s | _ => Err TypeError end.
  Definition int_item (key : string) (f : file) : result Z := let! d := item key f in match d with HInt z => Ok z | _ => Err TypeError end.
  Definition int_or_none (key : string) (f : file) : result (option Z) := let! d := item key f in match d with HInt z => Ok (Some z) | HFalse => Ok None | _ => Err TypeError end.
  Definition value_or_none (key : string) (f : file) : result (option V) := let! d := item key f in match d with HVal v => Ok (Some v) | HFalse => Ok None | _ => Err TypeError end.
  Fixpoint zip {A B} (a : list A) (b : list B) : list (A * B) := match a, b with x :: a', y :: b' => (x, y) :: zip a' b' | _, _ => [] end.
  (** molecular_data.py:919-990; [m] is the object before, of which the properties loaded on demand, the name of the file and perhaps the general calculations stay *)
  Definition load (m : molecule) (fs : files) : result molecule :=
    match dget String.eqb (path (filename m)) fs with
    | None => Err FileNotFoundError
    | Some f =>
        let! a := item "geometry/atoms" f in
        let! g := match a with
                  | HTexts l => let! p := item "geometry/positions" f in match p with HRows rows => Ok (Placed (zip l rows)) | _ => Err TypeError end
                  | HText s => Ok (Described s)
                  | _ => Err TypeError
                  end in
        let! basis := text_item "basis" f in
        let! multiplicity := int_item "multiplicity" f in
        let! charge := int_item "charge" f in
        let! description := text_item "description" f in
        let! name := text_item "name" f in
        let! n_atoms := int_item "n_atoms" f in
        let! at_ := item "atoms" f in
        let! atoms := match at_ with HTexts l => Ok (Bytes l) | _ => Err TypeError end in
        let! pr := item "protons" f in
        let! protons := match pr with HInts l => Ok (Some l) | HInt _ => Ok None | _ => Err TypeError end in
        let! n_electrons := int_item "n_electrons" f in
        let! n_orbitals := int_or_none "n_orbitals" f in
        let! n_qubits := int_or_none "n_qubits" f in
        let! nuclear_repulsion := value_or_none "nuclear_repulsion" f in
        let! energies := foldM (fun d key => let! v := value_or_none key f in Ok match v with Some x => d ++ [(key, x)] | None => d end)
                               ["hf_energy"; "orbital_energies"; "mp2_energy"; "cisd_energy"; "fci_energy"; "ccsd_energy"]%string [] in
        let! general := match dget String.eqb "general_calculations_keys"%string f, dget String.eqb "general_calculations_values"%string f with
                        | Some (HTexts ks), Some (HVals vs) => Ok (Calculations (fold_left (fun d kv => dset String.eqb (fst kv) (snd kv) d) (zip ks vs) []))
                        | Some HFalse, Some _ => Ok (general_calculations m)
                        | Some _, Some _ => Err TypeError
                        | _, _ => Ok PyNone
                        end in
        Ok {| geo := g; basis := basis; multiplicity := multiplicity; charge := charge; description := description; name := name; filename := filename m; n_atoms := n_atoms;
              atoms := atoms; protons := protons; n_electrons := n_electrons; n_orbitals := n_orbitals; n_qubits := n_qubits; nuclear_repulsion := nuclear_repulsion;
              energies := energies; loaded := loaded m; general_calculations := general |}
    end.

  (** filename[-5:] == ".hdf5" and filename[: len(filename) - 5] *)
  Definition strip_hdf5 (s : string) : string :=
    let n := String.length s in
    if String.eqb (substring (n - 5) (n - (n - 5)) s) ".hdf5" then substring 0 (n - 5) s else s.
  (** an object without attributes but the file's name; the other fields stand for nothing: load sets them *)
  Definition blank (filename : string) : molecule :=
    {| geo := Described ""; basis := ""; multiplicity := 0; charge := 0; description := ""; name := ""; filename := filename; n_atoms := 0; atoms := Strings []; protons := None;
       n_electrons := 0; n_orbitals := None; n_qubits := None; nuclear_repulsion := None; energies := []; loaded := []; general_calculations := Unset |}.
  (** molecular_data.py:457-566; [data_directory] is the argument or the default *)
  Definition molecular_data (set_order : list string -> list string) (g : option geometry) (basis : option string) (multiplicity : option Z) (charge : Z)
      (description filename data_directory : string) (fs : files) : result molecule :=
    match g, basis, multiplicity with
    | Some g, Some basis, Some multiplicity =>
        let! name := name_molecule set_order g basis multiplicity charge description in
        let filename := if String.eqb filename "" then (data_directory ++ "/" ++ name)%string else strip_hdf5 filename in
        let! ap := match g with
                   | Placed l =>
                       let! keyed := mapM (fun row : string * list V => let! n := atomic_number (fst row) in Ok (n, fst row)) l in
                       let sorted := sort_by (fun a b => Z.leb (fst a) (fst b)) keyed in
                       Ok (Z.of_nat (length l), map snd sorted, Some (map fst sorted), (fold_right Z.add 0 (map fst sorted) - charge)%Z)
                   | Described _ => Ok (0%Z, [], None, 0%Z)
                   end in
        let '(n_atoms, atoms, protons, n_electrons) := ap in
        Ok {| geo := g; basis := basis; multiplicity := multiplicity; charge := charge; description := description; name := name; filename := filename; n_atoms := n_atoms;
              atoms := Strings atoms; protons := protons; n_electrons := n_electrons; n_orbitals := None; n_qubits := None; nuclear_repulsion := None;
              energies := []; loaded := []; general_calculations := Calculations [] |}
    | _, _, _ => if String.eqb filename "" then Err ValueError else load (blank (strip_hdf5 filename)) fs
    end.

  (** molecular_data.py:1123-1163.  [truncate] sets the small elements of an array to 0, in place: the object keeps the array.  MissingCalculationError is
      GenericException; None does not support item assignment, numpy.absolute(None) is a TypeError. *)
  Definition get_molecular_rdm (truncate : V -> V) (use_fci : bool) : M S (V * V) := fun s =>
    match dget String.eqb (if use_fci then "fci_energy" else "cisd_energy")%string (energies (fst s)) with
    | None => (s, Err GenericException)
    | Some _ =>
        (do! one := get_property (if use_fci then "fci_one_rdm" else "cisd_one_rdm") in
         do! two := get_property (if use_fci then "fci_two_rdm" else "cisd_two_rdm") in
         match one with
         | None => liftM (Err TypeError)
         | Some o =>
             do! _ := set_property (if use_fci then "fci_one_rdm" else "cisd_one_rdm") (Some (truncate o)) in
             match two with
             | None => liftM (Err TypeError)
             | Some t => do! _ := set_property (if use_fci then "fci_two_rdm" else "cisd_two_rdm") (Some (truncate t)) in retM (truncate o, truncate t)
             end
         end)%string s
    end.
End MolFile.
Arguments geometry : clear implicits. Arguments h5 : clear implicits. Arguments molecule : clear implicits. Arguments files : clear implicits. Arguments general : clear implicits.
