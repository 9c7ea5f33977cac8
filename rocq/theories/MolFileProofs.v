(** Saving a molecule step by step. *)
From Coq Require Import String ZArith Lia Permutation.
From Verif Require Import Base BaseFacts CostModel MolFileModel MolFileSpec.
Open Scope list_scope.

Lemma str_ok : forall a b, String.eqb a b = true <-> a = b.
Proof. intros. apply String.eqb_eq. Qed.
Lemma append_inj a b c : (a ++ c = b ++ c)%string -> a = b.
Proof.
  assert (L : forall x y, String.length (x ++ y)%string = String.length x + String.length y) by (induction x as [|? x IHx]; intros; cbn; [reflexivity|now rewrite IHx]).
  revert b. induction a as [|x a IH]; intros [|y b] H; cbn in H; [reflexivity| | |].
  - apply (f_equal String.length) in H. cbn in H. rewrite L in H. lia.
  - apply (f_equal String.length) in H. cbn in H. rewrite L in H. lia.
  - injection H as -> H. f_equal. now apply IH.
Qed.

Section Steps.
  Context {V : Type}.
  Notation S := (molecule V * files V)%type.
  Lemma dset_twice {B} k (v v' : B) d : dset String.eqb k v (dset String.eqb k v' d) = dset String.eqb k v d.
  Proof. induction d as [|[k0 v0] d IH]; cbn; [now rewrite String.eqb_refl|]. destruct (String.eqb k k0) eqn:E; cbn; rewrite ?String.eqb_refl, ?E; [reflexivity|]. now rewrite IH. Qed.
  Lemma seq_app (a b : list (M S unit)) s : in_sequence (a ++ b) s = (do! _ := in_sequence a in in_sequence b) s.
  Proof. revert s. induction a as [|m a IH]; intros s; [reflexivity|]. cbn [app in_sequence]. unfold bindM. destruct (m s) as [s1 [[]|e]]; [|reflexivity]. rewrite IH. reflexivity. Qed.

  Lemma seq_ok (a b : list (M S unit)) s s1 : in_sequence a s = (s1, Ok tt) -> in_sequence (a ++ b) s = in_sequence b s1.
  Proof. intros H. rewrite seq_app. unfold bindM. rewrite H. reflexivity. Qed.
  Lemma seq_err (a b : list (M S unit)) s s1 e : in_sequence a s = (s1, Err e) -> in_sequence (a ++ b) s = (s1, Err e).
  Proof. intros H. rewrite seq_app. unfold bindM. rewrite H. reflexivity. Qed.

  (** Writing the temporary file leaves the others alone. *)
  Definition keeps (T : string) (step : M S unit) : Prop := forall s n, n <> T -> dget String.eqb n (snd (fst (step s))) = dget String.eqb n (snd s).
  Lemma keeps_put tmp key data : keeps (path tmp) (put_dataset tmp key data).
  Proof. intros [m fs] n N. cbn. apply (dget_dset_other _ str_ok). exact (not_eq_sym N) || exact N. Qed.
  Lemma keeps_get k (s : S) : snd (fst (get_property k s)) = snd s.
  Proof. destruct s as [m fs]. unfold get_property. destruct (dget _ _ _); [reflexivity|]. destruct (get_from_file m fs k) as [[]|]; reflexivity. Qed.
  Lemma keeps_steps tmp : Forall (keeps (path tmp)) (write_steps tmp).
  Proof.
    assert (F : forall key f, keeps (path tmp) (field tmp key f)) by (intros key f s; apply keeps_put).
    assert (P : forall key, keeps (path tmp) (property tmp key)).
    { intros key s n N. unfold property, bindM. destruct (get_property key s) as [s1 [v|e]] eqn:E; pose proof (keeps_get key s) as G; rewrite E in G; cbn [fst snd] in *; [|now rewrite G].
      rewrite keeps_put by exact N. now rewrite G. }
    unfold write_steps. apply Forall_forall. intros step H. repeat (destruct H as [<-|H]; [first [apply F | apply P | idtac]|]); [..|destruct H].
    - intros [m fs] n N. cbn. apply (dget_dset_other _ str_ok). congruence.
    - intros s n N. unfold general_keys. destruct (calculations (fst s)) as [[|x d]|e]; [now apply keeps_put..|reflexivity].
    - intros s n N. unfold general_values. destruct (calculations (fst s)) as [[|x d]|e]; [now apply keeps_put..|reflexivity].
  Qed.
  Lemma keeps_sequence T l : Forall (keeps T) l -> keeps T (in_sequence l).
  Proof.
    induction 1 as [|step l H HF IH]; intros s n N; [reflexivity|]. cbn [in_sequence]. unfold bindM. specialize (H s n N). destruct (step s) as [s1 [[]|e]]; cbn [fst snd] in *; [|exact H].
    rewrite IH by exact N. exact H.
  Qed.

  Context (m : molecule V) (fs : files V) (tmp : string).
  Hypothesis Hname : tmp <> filename m.
  Lemma path_other : path (filename m) <> path tmp.
  Proof. intros H. apply append_inj in H. congruence. Qed.
  (** the object while it is saved: it may have loaded properties *)
  Definition saving (m1 : molecule V) : Prop := exists l, m1 = with_loaded m l /\ forall k, shows m1 fs k = shows m fs k.
  Lemma saving_refl : saving m.
  Proof. exists (loaded m). split; [destruct m; reflexivity|reflexivity]. Qed.
  Definition writes (step : M S unit) (entry : string * h5 V) : Prop :=
    forall m1 f, saving m1 -> exists m2, step (m1, dset String.eqb (path tmp) f fs) = ((m2, dset String.eqb (path tmp) (f ++ [entry]) fs), Ok tt) /\ saving m2.
  Lemma writes_put key data (m1 : molecule V) f : put_dataset tmp key data (m1, dset String.eqb (path tmp) f fs) = ((m1, dset String.eqb (path tmp) (f ++ [(key, data)]) fs), Ok tt).
  Proof. cbn. rewrite (dget_dset_same _ str_ok), dset_twice. reflexivity. Qed.
  Lemma writes_field key (g : molecule V -> h5 V) : (forall l, g (with_loaded m l) = g m) -> writes (field tmp key g) (key, g m).
  Proof. intros H m1 f (l & -> & Q). exists (with_loaded m l). split; [|now exists l]. unfold field. cbn [fst]. rewrite writes_put, H. reflexivity. Qed.
  Definition energy_of (key : string) : option V := dget String.eqb key (energies m).
  Lemma writes_energy key : writes (energy tmp key) (key, of_option (energy_of key)).
  Proof. apply (writes_field key (fun m => of_option (dget String.eqb key (energies m)))). reflexivity. Qed.
  Lemma writes_property key : writes (property tmp key) (key, of_option (shows m fs key)).
  Proof.
    intros m1 f (l & -> & Q). pose proof path_other as PO. unfold property, bindM, get_property. cbn [loaded with_loaded].
    assert (G : get_from_file (with_loaded m l) (dset String.eqb (path tmp) f fs) key = match its_file m fs with Some f => dget String.eqb key f | None => None end).
    { unfold get_from_file, its_file. cbn [filename with_loaded]. rewrite (dget_dset_other _ str_ok) by congruence. reflexivity. }
    pose proof (Q key) as Qk. unfold shows at 1 in Qk. cbn [loaded with_loaded] in Qk.
    destruct (dget String.eqb key l) as [v|] eqn:E.
    - exists (with_loaded m l). rewrite writes_put, <- Qk. split; [reflexivity|]. exists l. split; [reflexivity|exact Q].
    - rewrite G. change (its_file (with_loaded m l) fs) with (its_file m fs) in Qk. destruct (its_file m fs) as [f0|] eqn:Ef; [destruct (dget String.eqb key f0) as [[]|] eqn:E0|];
        try (exists (with_loaded m l); rewrite writes_put, <- Qk; split; [reflexivity|exists l; split; [reflexivity|exact Q]]).
      exists (with_loaded m (dset String.eqb key v l)). split; [change (with_loaded (with_loaded m l) (dset String.eqb key v l)) with (with_loaded m (dset String.eqb key v l)); rewrite writes_put, <- Qk; reflexivity|].
      eexists. split; [reflexivity|]. intros k. rewrite <- (Q k). unfold shows. cbn [loaded with_loaded]. change (its_file (with_loaded m (dset String.eqb key v l)) fs) with (its_file m fs).
      change (its_file (with_loaded m l) fs) with (its_file m fs). rewrite Ef. destruct (String.eqb k key) eqn:Ek.
      + apply String.eqb_eq in Ek as ->. rewrite (dget_dset_same _ str_ok), E, E0. reflexivity.
      + rewrite (dget_dset_other _ str_ok) by (intros H; rewrite H, String.eqb_refl in Ek; discriminate). reflexivity.
  Qed.

  (** the entries of the new file *)
  Definition the_file (d : list (string * V)) : list (string * h5 V) :=
    [ ("geometry/atoms", match geo m with Placed l => HTexts (map fst l) | Described s => HText s end);
      ("geometry/positions", match geo m with Placed l => HRows (map snd l) | Described _ => HFalse end);
      ("basis", HText (basis m)); ("multiplicity", HInt (multiplicity m)); ("charge", HInt (charge m)); ("description", HText (description m)); ("name", HText (name m));
      ("n_atoms", HInt (n_atoms m)); ("atoms", HTexts (atom_names m)); ("protons", match protons m with Some l => HInts l | None => HInt 0 end); ("n_electrons", HInt (n_electrons m));
      ("n_orbitals", of_int (n_orbitals m)); ("n_qubits", of_int (n_qubits m)); ("nuclear_repulsion", of_option (nuclear_repulsion m));
      ("hf_energy", of_option (energy_of "hf_energy")); ("canonical_orbitals", of_option (shows m fs "canonical_orbitals")); ("overlap_integrals", of_option (shows m fs "overlap_integrals"));
      ("orbital_energies", of_option (energy_of "orbital_energies")); ("one_body_integrals", of_option (shows m fs "one_body_integrals"));
      ("two_body_integrals", of_option (shows m fs "two_body_integrals")); ("mp2_energy", of_option (energy_of "mp2_energy"));
      ("cisd_energy", of_option (energy_of "cisd_energy")); ("cisd_one_rdm", of_option (shows m fs "cisd_one_rdm")); ("cisd_two_rdm", of_option (shows m fs "cisd_two_rdm"));
      ("fci_energy", of_option (energy_of "fci_energy")); ("fci_one_rdm", of_option (shows m fs "fci_one_rdm")); ("fci_two_rdm", of_option (shows m fs "fci_two_rdm"));
      ("ccsd_energy", of_option (energy_of "ccsd_energy")); ("ccsd_single_amps", of_option (shows m fs "ccsd_single_amps")); ("ccsd_double_amps", of_option (shows m fs "ccsd_double_amps"));
      ("general_calculations_keys", match d with [] => HFalse | _ => HTexts (dkeys d) end); ("general_calculations_values", match d with [] => HFalse | _ => HVals (map snd d) end) ]%string.
  Lemma writes_sequence steps entries : Forall2 writes steps entries -> forall m1 f, saving m1 ->
    exists m2, in_sequence steps (m1, dset String.eqb (path tmp) f fs) = ((m2, dset String.eqb (path tmp) (f ++ entries) fs), Ok tt) /\ saving m2.
  Proof.
    induction 1 as [|step entry steps entries H HF IH]; intros m1 f Hm.
    - exists m1. rewrite app_nil_r. split; [reflexivity|exact Hm].
    - destruct (H m1 f Hm) as (m2 & E & Hm2). destruct (IH m2 (f ++ [entry]) Hm2) as (m3 & E3 & Hm3). exists m3. split; [|exact Hm3]. cbn [in_sequence]. unfold bindM. rewrite E. cbn beta iota. rewrite <- app_assoc in E3. exact E3.
  Qed.
  Lemma writes_all d : general_calculations m = Calculations d -> Forall2 writes (skipn 1 (write_steps tmp)) (the_file d).
  Proof.
    intros G. unfold write_steps, the_file. cbn [skipn].
    repeat (apply Forall2_cons; [first [apply writes_energy | apply writes_property | idtac]|]); try apply Forall2_nil.
    all: try match goal with |- writes (field tmp ?k ?g) _ => exact (writes_field k g (fun l => eq_refl)) end.
    - intros m1 f (l & -> & Q). exists (with_loaded m l). split; [|now exists l]. unfold general_keys, calculations. cbn [fst general_calculations with_loaded]. rewrite G. destruct d as [|x d]; apply writes_put.
    - intros m1 f (l & -> & Q). exists (with_loaded m l). split; [|now exists l]. unfold general_values, calculations. cbn [fst general_calculations with_loaded]. rewrite G. destruct d as [|x d]; apply writes_put.
  Qed.
  Lemma write_cons : write_steps tmp = open_temporary tmp :: skipn 1 (@write_steps V tmp).
  Proof. reflexivity. Qed.
  Lemma open_first (l : list (M S unit)) r : in_sequence l (m, dset String.eqb (path tmp) [] fs) = r -> in_sequence (open_temporary tmp :: l) (m, fs) = r.
  Proof. intros H. cbn [in_sequence]. unfold bindM. exact H. Qed.
  Lemma writes_before : Forall2 writes (firstn 30 (skipn 1 (write_steps tmp))) (firstn 30 (the_file [])).
  Proof.
    unfold write_steps, the_file. cbn [skipn firstn].
    repeat (apply Forall2_cons; [first [apply writes_energy | apply writes_property | idtac]|]); try apply Forall2_nil.
    all: match goal with |- writes (field tmp ?k ?g) _ => exact (writes_field k g (fun l => eq_refl)) end.
  Qed.
  Lemma write_split : skipn 1 (@write_steps V tmp) = firstn 30 (skipn 1 (write_steps tmp)) ++ [general_keys tmp; general_values tmp].
  Proof. reflexivity. Qed.
  Lemma write_fails : calculations m = Err AttributeError -> exists s f, in_sequence (write_steps tmp) (m, fs) = (s, Err AttributeError) /\ snd s = dset String.eqb (path tmp) f fs.
  Proof.
    intros G. rewrite write_cons, write_split. pose proof writes_before as W. revert W. generalize (firstn 30 (skipn 1 (@write_steps V tmp))) (firstn 30 (the_file [])). intros l f W.
    destruct (writes_sequence l f W m [] saving_refl) as (m2 & E & (lo & -> & _)). eexists _, f. split; [|shelve]. apply open_first. rewrite (seq_ok _ _ _ _ E). cbn [in_sequence]. unfold bindM, general_keys.
    cbn [fst]. change (calculations (with_loaded m lo)) with (calculations m). rewrite G. reflexivity.
    Unshelve. reflexivity.
  Qed.
  Lemma write_run d : general_calculations m = Calculations d ->
    exists m2, in_sequence (write_steps tmp) (m, fs) = ((m2, dset String.eqb (path tmp) (the_file d) fs), Ok tt) /\ saving m2.
  Proof.
    intros G. rewrite write_cons. pose proof (writes_all d G) as W. revert W. generalize (skipn 1 (@write_steps V tmp)) (the_file d). intros l f W.
    destruct (writes_sequence l f W m [] saving_refl) as (m2 & E & Hm). exists m2. split; [|exact Hm]. apply open_first. exact E.
  Qed.
End Steps.
