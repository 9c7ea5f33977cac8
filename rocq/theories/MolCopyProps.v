(** C107, continued: saving to another file system. *)
From Coq Require Import String ZArith Lia.
From Verif Require Import Base BaseFacts CostModel MolFileModel MolFileSpec MolFileProofs MolFileProps MolFileProps2 MolFileProps3 MolConcSpec MolCopyModel.
Open Scope list_scope.

Section Props.
  Context {V : Type}.
  Implicit Types (m : molecule V) (fs : files V).
  (** the files when the process dies after [k] steps *)
  Definition copy_crash (k : nat) (tmp : string) m fs : files V := snd (fst (in_sequence (firstn k (copying_steps tmp)) (m, fs))).
  Lemma copy_run m fs tmp d : ready m fs tmp d -> exists m' f, in_sequence (write_steps tmp) (m, fs) = ((m', dset String.eqb (path tmp) f fs), Ok tt) /\ f = the_file m fs d /\ filename m' = filename m /\ (exists l, m' = with_loaded m l).
  Proof. intros R. destruct (save_run m fs tmp d R) as (m' & l & _ & -> & _ & E & _). eexists _, _. split; [exact E|]. split; [reflexivity|]. split; [reflexivity|]. now exists l. Qed.
  (** Saving to another file system has the same outcome as saving to the same one. *)
  Theorem C107_copy m fs tmp d : ready m fs tmp d -> snd (save_copying tmp (m, fs)) = Ok tt /\ fst (fst (save_copying tmp (m, fs))) = fst (fst (save tmp (m, fs))) /\
    forall n, dget String.eqb n (snd (fst (save_copying tmp (m, fs)))) = dget String.eqb n (snd (fst (save tmp (m, fs)))).
  Proof.
    intros R. destruct (copy_run m fs tmp d R) as (m' & f & E & _ & Ef & _). destruct R as (N & F & ND & G). pose proof (path_other m tmp N) as PO.
    unfold save_copying, copying_steps, save, save_steps. revert E. generalize (@write_steps V tmp). intros ws E. rewrite !(seq_ok _ _ _ _ E). cbn [in_sequence]. unfold bindM, remove_old, begin_copy, end_copy, unlink, move_temporary. rewrite !Ef.
    rewrite (dget_ddel_other _ str_ok), (dget_dset_same _ str_ok) by congruence. rewrite !(dget_dset_other _ str_ok (path tmp) (path (filename m))) by congruence.
    rewrite (dget_ddel_other _ str_ok), (dget_dset_same _ str_ok) by congruence. cbn [retM fst snd]. rewrite ?Ef. split; [reflexivity|]. split; [reflexivity|]. intros n.
    assert (NX : NoDup (dkeys (ddel String.eqb (path (filename m)) (dset String.eqb (path tmp) f fs)))) by (apply ddel_NoDup; now apply dset_NoDup_s).
    destruct (string_dec n (path tmp)) as [->|D1].
    - rewrite (dget_ddel_same _ str_ok) by (repeat apply dset_NoDup_s; exact NX). rewrite (dget_dset_other _ str_ok) by congruence. symmetry. apply (dget_ddel_same _ str_ok). exact NX.
    - rewrite (dget_ddel_other _ str_ok) by congruence. destruct (string_dec n (path (filename m))) as [->|D2]; [rewrite !(dget_dset_same _ str_ok); reflexivity|].
      rewrite !(dget_dset_other _ str_ok n) by congruence. rewrite !(dget_ddel_other _ str_ok n) by congruence. reflexivity.
  Qed.
  (** Wherever it stops after the new file is written, the new file is complete under the temporary name or under its own. *)
  Theorem C107_copy_crash k m fs tmp d : ready m fs tmp d -> length (@write_steps V tmp) <= k ->
    let after := copy_crash k tmp m fs in
    dget String.eqb (hdf5 tmp) after = its_file m (snd (fst (save tmp (m, fs)))) \/ its_file m after = its_file m (snd (fst (save tmp (m, fs)))).
  Proof.
    intros R Hk. cbv zeta. rewrite (saved_file m fs tmp d R). destruct (copy_run m fs tmp d R) as (m' & f & E & <- & Ef & _). destruct R as (N & F & ND & G). pose proof (path_other m tmp N) as PO.
    unfold copy_crash, copying_steps. revert Hk E. generalize (@write_steps V tmp). intros ws Hk E. rewrite firstn_app, firstn_all2 by exact Hk. rewrite (seq_ok _ _ _ _ E). change (hdf5 tmp) with (path tmp). unfold its_file. fold (path (filename m)).
    assert (J : forall j, firstn j (@nil (M (molecule V * files V) unit)) = []) by (now destruct j).
    destruct (k - length ws) as [|[|[|[|j]]]]; cbn [firstn in_sequence]; rewrite ?J; cbn [in_sequence]; unfold bindM, remove_old, begin_copy, end_copy, unlink;
      repeat first [rewrite (dget_ddel_other _ str_ok (path tmp) (path (filename m))) by congruence | rewrite (dget_dset_other _ str_ok (path tmp) (path (filename m))) by congruence
                   | rewrite (dget_ddel_other _ str_ok (path (filename m)) (path tmp)) by congruence | rewrite (dget_dset_same _ str_ok) | rewrite Ef | progress cbn [retM fst snd] | progress (unfold retM)]; auto.
  Qed.
End Props.
(** On another file system the file of a molecule can be torn: it is there, and cannot be loaded, although it could before. *)
Theorem C107_copy_refuted : exists (m : molecule Z) fs tmp d k m1, ready m fs tmp d /\ load m fs = Ok m1 /\ its_file m (copy_crash k tmp m fs) <> None /\
  forall m0 m2, filename m0 = filename m -> load m0 (copy_crash k tmp m fs) <> Ok m2.
Proof.
  exists mol, (after mol disk), "tmp"%string, [("dmrg"%string, 8%Z)], 35. eexists. split.
  { unfold ready. split; [vm_compute; discriminate|]. split; [vm_compute; reflexivity|]. split; [|reflexivity]. vm_compute. repeat (constructor; [cbn; intros H; repeat destruct H as [H|H]; try discriminate; contradiction|]). constructor. }
  split; [vm_compute; reflexivity|]. split; [vm_compute; discriminate|]. intros m0 m2 Hf. unfold load. rewrite Hf. vm_compute. discriminate.
Qed.
Example ex_copy : ready mol disk "tmp" [("dmrg", 8%Z)]%string /\ snd (save_copying "tmp" (mol, disk)) = Ok tt /\ length (@write_steps Z "tmp") = 33.
Proof. split; [exact (proj1 ex_ready)|]. split; vm_compute; reflexivity. Qed.
Print Assumptions C107_copy.
Print Assumptions C107_copy_crash.
