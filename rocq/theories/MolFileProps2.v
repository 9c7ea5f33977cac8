(** C95, continued: opening saved molecules, crashes while saving, and what goes wrong. *)
From Coq Require Import String ZArith Lia Permutation.
From Verif Require Import Base BaseFacts CostModel MolFileModel MolFileSpec MolFileProofs MolFileProps.
Open Scope list_scope.

Section Props.
  Context {V : Type}.
  Implicit Types (m : molecule V) (fs : files V).

  Lemma saved_file m fs tmp d : ready m fs tmp d -> its_file m (snd (fst (save tmp (m, fs)))) = Some (the_file m fs d).
  Proof. intros R. destruct (save_run m fs tmp d R) as (m' & l & E & _). rewrite E. cbn [fst snd]. apply (dget_dset_same _ str_ok). Qed.
  Lemma reopen_file m fs fs' d so g b mu c de F dir : its_file m fs' = Some (the_file m fs d) -> NoDup (dkeys d) -> (g = None \/ b = None \/ mu = None) -> F <> ""%string -> strip_hdf5 F = filename m ->
    exists m2, molecular_data so g b mu c de F dir fs' = Ok m2 /\ same_molecule m2 m /\
      (forall k, In k on_demand -> shows m2 fs' k = shows m fs k) /\
      atoms m2 = Bytes (atom_names m) /\ general_calculations m2 = match d with [] => Unset | _ => Calculations d end.
  Proof.
    intros R ND A NF SF. pose proof R as E. unfold its_file in E.
    assert (M : molecular_data so g b mu c de F dir fs' = load (blank (filename m)) fs').
    { unfold molecular_data. apply String.eqb_neq in NF. rewrite NF, SF. destruct g as [g|], b as [b|], mu as [mu|]; try reflexivity. exfalso. destruct A as [A|[A|A]]; discriminate. }
    destruct (load_the_file m fs d (blank (filename m)) fs' ND eq_refl E) as (m2 & L & S2 & At & Lo & Ge). exists m2. rewrite M.
    split; [exact L|]. split; [exact S2|]. split; [|split; [exact At|exact Ge]]. intros k Hk. unfold shows at 1. rewrite Lo. cbn [loaded blank dget]. unfold its_file.
    destruct S2 as (_ & _ & _ & _ & _ & _ & Fi & _). rewrite Fi, E, (file_shows m fs d k Hk). destruct (shows m fs k); reflexivity.
  Qed.
  Lemma load_file m fs fs' d m0 : its_file m fs' = Some (the_file m fs d) -> NoDup (dkeys d) -> filename m0 = filename m ->
    exists m2, load m0 fs' = Ok m2 /\ same_molecule m2 m /\
      (forall k, In k on_demand -> shows m2 fs' k = match dget String.eqb k (loaded m0) with Some v => Some v | None => shows m fs k end) /\
      general_calculations m2 = match d with [] => general_calculations m0 | _ => Calculations d end.
  Proof.
    intros R ND Ef. pose proof R as E. unfold its_file in E.
    destruct (load_the_file m fs d m0 fs' ND Ef E) as (m2 & L & S2 & At & Lo & Ge). exists m2. split; [exact L|]. split; [exact S2|]. split; [|exact Ge].
    intros k Hk. unfold shows at 1. rewrite Lo. unfold its_file. destruct S2 as (_ & _ & _ & _ & _ & _ & Fi & _). rewrite Fi, E, (file_shows m fs d k Hk).
    destruct (dget String.eqb k (loaded m0)); [reflexivity|]. destruct (shows m fs k); reflexivity.
  Qed.

  (** Opening the file of a saved molecule, whatever the other arguments are if one of the three is missing, gives that molecule with all of its properties;
      the general calculations too if there are any. *)
  Theorem C95_reopen m fs tmp d so g b mu c de F dir : ready m fs tmp d -> NoDup (dkeys d) -> (g = None \/ b = None \/ mu = None) -> F <> ""%string -> strip_hdf5 F = filename m ->
    exists m2, molecular_data so g b mu c de F dir (snd (fst (save tmp (m, fs)))) = Ok m2 /\ same_molecule m2 m /\
      (forall k, In k on_demand -> shows m2 (snd (fst (save tmp (m, fs)))) k = shows m fs k) /\
      atoms m2 = Bytes (atom_names m) /\ general_calculations m2 = match d with [] => Unset | _ => Calculations d end.
  Proof. intros R. exact (reopen_file m fs _ d so g b mu c de F dir (saved_file m fs tmp d R)). Qed.
  (** Loading into an object that exists gives the saved molecule but keeps what that object had in memory. *)
  Theorem C95_load_keeps m fs tmp d m0 : ready m fs tmp d -> NoDup (dkeys d) -> filename m0 = filename m ->
    exists m2, load m0 (snd (fst (save tmp (m, fs)))) = Ok m2 /\ same_molecule m2 m /\
      (forall k, In k on_demand -> shows m2 (snd (fst (save tmp (m, fs)))) k = match dget String.eqb k (loaded m0) with Some v => Some v | None => shows m fs k end) /\
      general_calculations m2 = match d with [] => general_calculations m0 | _ => Calculations d end.
  Proof. intros R. exact (load_file m fs _ d m0 (saved_file m fs tmp d R)). Qed.
  (** ** Crashes *)
  (** the file system when the process dies after [k] steps *)
  Definition crash_after (k : nat) (tmp : string) m fs : files V := snd (fst (in_sequence (firstn k (save_steps tmp)) (m, fs))).
  Lemma load_none m fs : its_file m fs = None -> load m fs = Err FileNotFoundError.
  Proof. unfold its_file, load, path. intros ->. reflexivity. Qed.
  Lemma steps_count tmp : length (@write_steps V tmp) = 33.
  Proof. reflexivity. Qed.
  (** Whatever the molecule and whether saving succeeds or not: until the old file is removed, every file but the temporary one is as before. *)
  Theorem C95_crash_before k tmp m fs n : k <= length (@write_steps V tmp) -> n <> (tmp ++ ".hdf5")%string -> dget String.eqb n (crash_after k tmp m fs) = dget String.eqb n fs.
  Proof.
    intros Hk Hn. unfold crash_after, save_steps. rewrite firstn_app. replace (k - length (write_steps tmp)) with 0 by lia. cbn [firstn]. rewrite app_nil_r.
    rewrite (keeps_sequence (path tmp)); [reflexivity| |exact Hn]. apply Forall_forall. intros step H. pose proof (keeps_steps (V := V) tmp) as K. rewrite Forall_forall in K. apply K.
    rewrite <- (firstn_skipn k (write_steps tmp)). apply in_or_app. now left.
  Qed.
  (** Right after the removal the molecule has no file under its name; the complete new one is under the temporary name. *)
  Theorem C95_crash_between tmp m fs d : ready m fs tmp d -> let after := crash_after (1 + length (@write_steps V tmp)) tmp m fs in
    its_file m after = None /\ load m after = Err FileNotFoundError /\ dget String.eqb (tmp ++ ".hdf5")%string after = its_file m (snd (fst (save tmp (m, fs)))) /\
    (forall n, n <> (tmp ++ ".hdf5")%string -> n <> (filename m ++ ".hdf5")%string -> dget String.eqb n after = dget String.eqb n fs).
  Proof.
    intros R after. pose proof (saved_file m fs tmp d R) as SF. destruct (save_run m fs tmp d R) as (m' & l & _ & _ & _ & _ & E). destruct R as (N & F & ND & G). pose proof (path_other m tmp N) as PO.
    assert (A : after = ddel String.eqb (path (filename m)) (dset String.eqb (path tmp) (the_file m fs d) fs)).
    { unfold after, crash_after, save_steps. change (firstn (1 + length (write_steps tmp)) (write_steps tmp ++ [remove_old; move_temporary tmp])) with (@write_steps V tmp ++ [remove_old]). rewrite E. reflexivity. }
    clearbody after. subst after. assert (X : dget String.eqb (path (filename m)) (ddel String.eqb (path (filename m)) (dset String.eqb (path tmp) (the_file m fs d) fs)) = None)
      by (apply (dget_ddel_same _ str_ok); now apply dset_NoDup_s).
    split; [exact X|]. split; [apply load_none; exact X|]. fold (path tmp). split.
    - rewrite SF, (dget_ddel_other _ str_ok), (dget_dset_same _ str_ok) by congruence. reflexivity.
    - intros n H1 H2. rewrite (dget_ddel_other _ str_ok), (dget_dset_other _ str_ok) by (unfold path in *; congruence). reflexivity.
  Qed.
  Theorem C95_crash_after k tmp m fs : 2 + length (@write_steps V tmp) <= k -> crash_after k tmp m fs = snd (fst (save tmp (m, fs))).
  Proof. intros H. unfold crash_after, save. rewrite firstn_all2; [reflexivity|]. unfold save_steps. rewrite app_length. cbn [length]. lia. Qed.

  (** ** What goes wrong *)
  (** A molecule without general calculations that is opened again cannot be saved: the attribute is missing.  Its file stays; the temporary one is left behind. *)
  Theorem C95_unsaveable m fs tmp : tmp <> filename m -> general_calculations m = Unset \/ general_calculations m = PyNone ->
    snd (save tmp (m, fs)) = Err AttributeError /\ (exists f, dget String.eqb (tmp ++ ".hdf5")%string (snd (fst (save tmp (m, fs)))) = Some f) /\
    forall n, n <> (tmp ++ ".hdf5")%string -> dget String.eqb n (snd (fst (save tmp (m, fs)))) = dget String.eqb n fs.
  Proof.
    intros N G. assert (C : calculations m = Err AttributeError) by (unfold calculations; destruct G as [-> | ->]; reflexivity).
    destruct (write_fails m fs tmp N C) as (s & f & E & Es). unfold save, save_steps. rewrite (seq_err _ _ _ _ _ E). cbn [fst snd]. rewrite Es. split; [reflexivity|]. split.
    - exists f. apply (dget_dset_same _ str_ok).
    - intros n Hn. apply (dget_dset_other _ str_ok). exact (not_eq_sym Hn) || exact Hn.
  Qed.
  Theorem C95_save_twice_refuted m fs tmp tmp' so F dir : ready m fs tmp [] -> F <> ""%string -> strip_hdf5 F = filename m -> tmp' <> filename m ->
    exists m2, molecular_data so None None None 0 "" F dir (snd (fst (save tmp (m, fs)))) = Ok m2 /\ snd (save tmp' (m2, snd (fst (save tmp (m, fs))))) = Err AttributeError.
  Proof.
    intros R NF SF N'. destruct (C95_reopen m fs tmp [] so None None None 0 "" F dir R (NoDup_nil _) (or_introl eq_refl) NF SF) as (m2 & E & S2 & _ & _ & G).
    exists m2. split; [exact E|]. apply C95_unsaveable; [|left; exact G]. destruct S2 as (_ & _ & _ & _ & _ & _ & -> & _). exact N'.
  Qed.
  (** Giving an opened molecule another file name loses what was not read yet. *)
  Theorem C95_rename m fs k new : dget String.eqb (new ++ ".hdf5")%string fs = None -> shows (with_filename m new) fs k = dget String.eqb k (loaded m).
  Proof. intros H. unfold shows, its_file. cbn [loaded with_filename filename]. rewrite H. destruct (dget String.eqb k (loaded m)); reflexivity. Qed.

  (** ** Reduced density matrices *)
  (** They need the energy and both matrices; the small elements become 0 in the object too. *)
  Theorem C95_rdm (truncate : V -> V) (fci : bool) m fs o t e :
    dget String.eqb (if fci then "fci_energy" else "cisd_energy")%string (energies m) = Some e ->
    shows m fs (if fci then "fci_one_rdm" else "cisd_one_rdm")%string = Some o -> shows m fs (if fci then "fci_two_rdm" else "cisd_two_rdm")%string = Some t ->
    exists m', get_molecular_rdm truncate fci (m, fs) = ((m', fs), Ok (truncate o, truncate t)) /\
      shows m' fs (if fci then "fci_one_rdm" else "cisd_one_rdm")%string = Some (truncate o) /\ shows m' fs (if fci then "fci_two_rdm" else "cisd_two_rdm")%string = Some (truncate t) /\
      forall k, k <> (if fci then "fci_one_rdm" else "cisd_one_rdm")%string -> k <> (if fci then "fci_two_rdm" else "cisd_two_rdm")%string -> shows m' fs k = shows m fs k.
  Proof.
    intros He Ho Ht. unfold get_molecular_rdm. cbn [fst]. rewrite He. set (k1 := (if fci then "fci_one_rdm" else "cisd_one_rdm")%string) in *. set (k2 := (if fci then "fci_two_rdm" else "cisd_two_rdm")%string) in *.
    assert (K : k1 <> k2) by (destruct fci; discriminate). clearbody k1 k2.
    destruct (C95_get m fs k1) as (m1 & E1 & _ & Q1 & _). destruct (C95_get m1 fs k2) as (m2 & E2 & _ & Q2 & _).
    destruct (C95_set m2 fs k1 (truncate o)) as (m3 & E3 & _ & Q3 & O3). destruct (C95_set m3 fs k2 (truncate t)) as (m4 & E4 & _ & Q4 & O4).
    exists m4. unfold bindM at 1. rewrite E1, Ho. cbn beta iota. unfold bindM at 1. rewrite E2, Q1, Ht. cbn beta iota. unfold bindM at 1. rewrite E3. cbn beta iota. unfold bindM. rewrite E4. unfold retM.
    split; [reflexivity|]. split; [rewrite O4 by exact K; apply Q3|]. split; [apply Q4|]. intros k N1 N2. rewrite O4, O3, Q2, Q1 by assumption. reflexivity.
  Qed.
  Theorem C95_rdm_missing (truncate : V -> V) (fci : bool) m fs :
    (dget String.eqb (if fci then "fci_energy" else "cisd_energy")%string (energies m) = None -> get_molecular_rdm truncate fci (m, fs) = ((m, fs), Err GenericException)) /\
    (forall e, dget String.eqb (if fci then "fci_energy" else "cisd_energy")%string (energies m) = Some e ->
       shows m fs (if fci then "fci_one_rdm" else "cisd_one_rdm")%string = None \/ shows m fs (if fci then "fci_two_rdm" else "cisd_two_rdm")%string = None ->
       snd (get_molecular_rdm truncate fci (m, fs)) = Err TypeError).
  Proof.
    unfold get_molecular_rdm. cbn [fst]. split; [intros ->; reflexivity|]. intros e -> H.
    set (k1 := (if fci then "fci_one_rdm" else "cisd_one_rdm")%string) in *. set (k2 := (if fci then "fci_two_rdm" else "cisd_two_rdm")%string) in *. clearbody k1 k2.
    destruct (C95_get m fs k1) as (m1 & E1 & _ & Q1 & _). destruct (C95_get m1 fs k2) as (m2 & E2 & _ & _).
    unfold bindM at 1. rewrite E1. cbn beta iota. unfold bindM at 1. rewrite E2, Q1. cbn beta iota. destruct (shows m fs k1) as [o|]; [|reflexivity]. destruct H as [H|H]; [discriminate|]. rewrite H.
    unfold bindM. destruct (C95_set m2 fs k1 (truncate o)) as (m3 & E3 & _). rewrite E3. reflexivity.
  Qed.
End Props.
