(** C107, continued: examples, and what goes wrong. *)
From Coq Require Import String ZArith Lia.
From Verif Require Import Base BaseFacts CostModel MolFileModel MolFileSpec MolFileProofs MolFileProps MolFileProps2 MolFileProps3 MolConcModel MolConcSpec MolConcProofs MolConcInv MolConcProps.
Open Scope list_scope.

(** a molecule whose properties are all in memory, with an energy; one with an energy and nothing in memory; and an old file *)
Definition with_energy (m : molecule Z) (e : Z) : molecule Z :=
  {| geo := geo m; basis := basis m; multiplicity := multiplicity m; charge := charge m; description := description m; name := name m; filename := filename m; n_atoms := n_atoms m;
     atoms := atoms m; protons := protons m; n_electrons := n_electrons m; n_orbitals := n_orbitals m; n_qubits := n_qubits m; nuclear_repulsion := nuclear_repulsion m;
     energies := [("fci_energy", e)]%string; loaded := loaded m; general_calculations := general_calculations m |}.
Definition empty_one : molecule Z := with_energy (get_ok (made water)) (-1).
Definition full_one : molecule Z := with_energy (with_loaded (get_ok (made water)) (map (fun k => (k, 7%Z)) on_demand)) (-2).
Definition two : list (string * molecule Z) := [("a", empty_one); ("b", full_one)]%string.
Lemma nodup_names (l : list string) : (if list_eq_dec string_dec (nodup string_dec l) l then true else false) = true -> NoDup l.
Proof. destruct (list_eq_dec string_dec (nodup string_dec l) l) as [E|]; [|discriminate]. intros _. rewrite <- E. apply NoDup_nodup. Qed.
Lemma two_new fs : dget String.eqb "a.hdf5"%string fs = None -> dget String.eqb "b.hdf5"%string fs = None -> NoDup (dkeys fs) -> new_names two fs.
Proof.
  intros A B N. split; [apply nodup_names; reflexivity|]. split; [|split; [|exact N]].
  - intros t m t' m' [H|[H|[]]] [H'|[H'|[]]]; injection H as <- <-; injection H' as <- <-; vm_compute; discriminate.
  - intros t m [H|[H|[]]]; injection H as <- <-; assumption.
Qed.
Lemma two_savable : savable two.
Proof. intros t m [H|[H|[]]]; injection H as <- <-; exists []; split; try reflexivity; constructor. Qed.
Lemma disk_nodup : NoDup (dkeys disk).
Proof. apply nodup_names. reflexivity. Qed.
Example ex_hypotheses : new_names two disk /\ new_names two [] /\ savable two /\ in_memory full_one /\ ~ in_memory empty_one /\ filename empty_one = filename full_one.
Proof.
  split; [apply two_new; [reflexivity|reflexivity|exact disk_nodup]|]. split; [apply two_new; [reflexivity|reflexivity|constructor]|]. split; [exact two_savable|]. split; [|split; [|reflexivity]].
  - intros k Hk. repeat (destruct Hk as [<-|Hk]; [vm_compute; discriminate|]). destruct Hk.
  - intros H. apply (H "fci_one_rdm"%string); [cbn; tauto|reflexivity].
Qed.
Definition turns (l : list (nat * nat)) : list nat := flat_map (fun x => repeat (fst x) (snd x)) l.
Definition outcome (l : list (nat * nat)) (fs : files Z) : list (nat * option exn) := map (fun p => (length (pending p), failure p)) (processes two fs (turns l)).
Definition name_of : string := filename empty_one.
Definition shown (l : list (nat * nat)) (fs : files Z) (k : string) : option Z := shows (blank name_of) (files_after two fs (turns l)) k.
Definition energy_read (l : list (nat * nat)) (fs : files Z) : option (option Z) :=
  match load (blank name_of) (files_after two fs (turns l)) with Ok m => Some (dget String.eqb "fci_energy"%string (energies m)) | Err _ => None end.
(** a schedule that interleaves and ends: both return, and the file is of the second *)
Example ex_end : outcome [(0, 10); (1, 30); (0, 34); (1, 15); (0, 1); (1, 0)] disk = [(0, None); (0, None)] /\ energy_read [(0, 10); (1, 30); (0, 34); (1, 15); (0, 1)] disk = Some (Some (-1)%Z)
  /\ energy_read [(0, 10); (1, 30); (0, 35); (1, 15)] disk = Some (Some (-2)%Z).
Proof. vm_compute. repeat split. Qed.
Example ex_returns : match nth_error (processes two disk (turns [(1, 44)])) 1, nth_error (processes two disk (turns [(1, 44)] ++ [1])) 1 with
  | Some p, Some p' => ~ returned p /\ returned p' | _, _ => False end.
Proof. vm_compute. split; [intros [H _]; discriminate H|split; reflexivity]. Qed.

(** A process can fail because another one saves: a property is missing when it looks first, and there when it looks again. *)
Theorem C107_race_refuted : exists (jobs : list (string * molecule Z)) fs schedule p, new_names jobs fs /\ savable jobs /\
  (forall t m, In (t, m) jobs -> snd (save t (m, fs)) = Ok tt) /\ nth_error (processes jobs fs schedule) 0 = Some p /\ failure p = Some TypeError.
Proof.
  exists two, [], (turns [(0, 17); (1, 45); (0, 1)]).
  assert (E : match nth_error (processes two [] (turns [(0, 17); (1, 45); (0, 1)])) 0 with Some p => failure p = Some TypeError | None => False end) by (vm_compute; reflexivity).
  destruct (nth_error _ 0) as [p|]; [|contradiction]. exists p. split; [apply two_new; [reflexivity|reflexivity|constructor]|]. split; [exact two_savable|]. split; [|split; [reflexivity|exact E]].
  intros t m [H|[H|[]]]; injection H as <- <-; vm_compute; reflexivity.
Qed.
(** A process that returns can have saved its own energies together with orbitals that another process had just saved; nobody had this molecule. *)
Theorem C107_mixed_refuted : exists (jobs : list (string * molecule Z)) fs schedule t m p, new_names jobs fs /\ savable jobs /\ nth_error jobs 0 = Some (t, m) /\
  nth_error (processes jobs fs schedule) 0 = Some p /\ returned p /\ shows m fs "canonical_orbitals" = None /\
  shows (blank (filename m)) (files_after jobs fs schedule) "canonical_orbitals" = Some 7%Z /\
  exists m2, load (blank (filename m)) (files_after jobs fs schedule) = Ok m2 /\ dget String.eqb "fci_energy"%string (energies m2) = dget String.eqb "fci_energy"%string (energies m) /\
    forall t' m', In (t', m') jobs -> dget String.eqb "fci_energy"%string (energies m2) = dget String.eqb "fci_energy"%string (energies m') -> shows m' fs "canonical_orbitals" = None.
Proof.
  exists two, [], (turns [(0, 16); (1, 45); (0, 29)]), "a"%string, empty_one.
  assert (E : match nth_error (processes two [] (turns [(0, 16); (1, 45); (0, 29)])) 0 with Some p => returned p | None => False end) by (vm_compute; split; reflexivity).
  destruct (nth_error (processes _ _ _) 0) as [p|]; [|contradiction]. exists p. split; [apply two_new; [reflexivity|reflexivity|constructor]|]. split; [exact two_savable|]. split; [reflexivity|]. split; [reflexivity|]. split; [exact E|].
  split; [reflexivity|]. split; [vm_compute; reflexivity|]. eexists. split; [vm_compute; reflexivity|]. split; [reflexivity|].
  intros t' m' [H|[H|[]]]; injection H as <- <-; [reflexivity|]. vm_compute. discriminate.
Qed.
(** While a process saves, the file that was there and will be there again can be missing for a reader. *)
Theorem C107_missing_refuted : exists (jobs : list (string * molecule Z)) fs schedule more m0, new_names jobs fs /\ savable jobs /\
  its_file m0 fs <> None /\ load m0 (files_after jobs fs schedule) = Err FileNotFoundError /\ exists m2, load m0 (files_after jobs fs (schedule ++ more)) = Ok m2.
Proof.
  exists two, disk, (turns [(1, 44)]), [1], full_one. split; [apply two_new; [reflexivity|reflexivity|exact disk_nodup]|]. split; [exact two_savable|]. split; [vm_compute; discriminate|].
  split; [vm_compute; reflexivity|]. eexists. vm_compute. reflexivity.
Qed.
(** A reader that has loaded a molecule can get its properties from the molecule of another process. *)
Theorem C107_reader_refuted : exists (jobs : list (string * molecule Z)) fs schedule more m0 m2 v, new_names jobs fs /\ savable jobs /\
  load m0 (files_after jobs fs schedule) = Ok m2 /\ shows m2 (files_after jobs fs schedule) "one_body_integrals" = None /\ shows m2 (files_after jobs fs (schedule ++ more)) "one_body_integrals" = Some v /\
  exists m3, load m0 (files_after jobs fs (schedule ++ more)) = Ok m3 /\ energies m3 <> energies m2.
Proof.
  exists two, [], (turns [(0, 45)]), (turns [(1, 45)]), (blank name_of). eexists _, 7%Z. split; [apply two_new; [reflexivity|reflexivity|constructor]|]. split; [exact two_savable|].
  split; [vm_compute; reflexivity|]. split; [vm_compute; reflexivity|]. split; [vm_compute; reflexivity|]. eexists. split; [vm_compute; reflexivity|]. cbn. discriminate.
Qed.
Print Assumptions C107_alone.
Print Assumptions C107_never_torn.
Print Assumptions C107_others.
Print Assumptions C107_gap.
Print Assumptions C107_failure.
Print Assumptions C107_progress.
Print Assumptions C107_returns.
Print Assumptions C107_stays.
Print Assumptions C107_end.
