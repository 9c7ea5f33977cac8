(** C107, continued: readers, and the last process that saves. *)
From Coq Require Import String ZArith Lia.
From Verif Require Import Base BaseFacts CostModel MolFileModel MolFileSpec MolFileProofs MolFileProps MolFileProps2 MolFileProps3 MolConcModel MolConcSpec MolConcProofs MolConcInv MolConcProps MolConcProps2.
Open Scope list_scope.

Section Props.
  Context {V : Type}.
  Implicit Types (jobs : list (string * molecule V)) (m : molecule V) (fs : files V).
  (** Whatever an object shows while others save comes from its own memory, from a process, or from a file that was there before. *)
  Theorem C107_reads jobs fs schedule m0 k v : new_names jobs fs -> savable jobs -> (forall t m, In (t, m) jobs -> filename m0 <> t) -> In k on_demand ->
    shows m0 (files_after jobs fs schedule) k = Some v -> dget String.eqb k (loaded m0) = Some v \/ known jobs fs k v.
  Proof.
    intros N S P Hk H. unfold shows in H. destruct (dget String.eqb k (loaded m0)) as [w|] eqn:E; [left; exact H|right].
    destruct (C107_never_torn jobs fs schedule (filename m0) N S P) as [D|[D|(t & m & I & F & _ & K)]].
    - change (its_file m0 (files_after jobs fs schedule)) with (dget String.eqb (hdf5 (filename m0)) (files_after jobs fs schedule)) in H. rewrite D in H.
      destruct (dget String.eqb (hdf5 (filename m0)) fs) as [f|] eqn:Ef; [|discriminate H]. destruct (dget String.eqb k f) as [[]|] eqn:Ek; try discriminate H. injection H as <-. right. now exists (hdf5 (filename m0)), f.
    - change (its_file m0 (files_after jobs fs schedule)) with (dget String.eqb (hdf5 (filename m0)) (files_after jobs fs schedule)) in H. rewrite D in H. discriminate H.
    - apply (K k v Hk). unfold shows. cbn [loaded blank dget]. exact H.
  Qed.
  Lemma holds_same m fs fs' : dget String.eqb (hdf5 (filename m)) fs' = dget String.eqb (hdf5 (filename m)) fs -> holds m fs -> holds m fs'.
  Proof.
    intros E [H1 H2]. split.
    - intros m0 F. destruct (H1 m0 F) as (m2 & L & Q). exists m2. split; [|exact Q]. rewrite <- L. unfold load. rewrite F. change (path (filename m)) with (hdf5 (filename m)). rewrite E. reflexivity.
    - intros k v Hk Hv. rewrite <- (H2 k v Hk Hv). unfold shows. cbn [loaded blank dget]. change (its_file (blank (filename m)) fs') with (dget String.eqb (hdf5 (filename m)) fs').
      rewrite E. reflexivity.
  Qed.
  (** The process that returns last wins: its molecule is in the file as long as only processes with other files go on. *)
  Theorem C107_last jobs fs schedule i more t m p p' : new_names jobs fs -> savable jobs -> nth_error jobs i = Some (t, m) ->
    nth_error (processes jobs fs schedule) i = Some p -> ~ returned p -> nth_error (processes jobs fs (schedule ++ [i])) i = Some p' -> returned p' ->
    (forall j t' m', In j more -> nth_error jobs j = Some (t', m') -> filename m' <> filename m) ->
    holds m (files_after jobs fs ((schedule ++ [i]) ++ more)).
  Proof.
    intros N S Hj Hp NR Hp' R' O. pose proof (C107_returns jobs fs schedule i t m p p' N S Hj Hp NR Hp' R') as H. apply (holds_same m (files_after jobs fs (schedule ++ [i]))); [|exact H].
    apply C107_stays; [exact N|exact S| |exact O]. intros t' m' I E. destruct N as (_ & N & _). exact (N t' m' t m I (nth_error_In _ _ Hj) (eq_sym E)).
  Qed.
  (** Processes whose molecules have different files do not disturb each other: with everything in memory, each of them returns and finds its molecule in its file. *)
  Theorem C107_independent jobs fs schedule i t m : new_names jobs fs -> savable jobs -> (forall j t' m', nth_error jobs j = Some (t', m') -> j <> i -> filename m' <> filename m) ->
    nth_error jobs i = Some (t, m) -> in_memory m -> 45 <= count_occ Nat.eq_dec schedule i -> holds m (files_after jobs fs schedule).
  Proof.
    intros N S O Hj M C. destruct (C107_progress jobs fs schedule i t m Hj C) as (p & Hp & _ & R). specialize (R N S M).
    (* the first moment at which it has returned *)
    assert (G : forall l, (exists q, nth_error (processes jobs fs l) i = Some q /\ returned q) -> holds m (files_after jobs fs l)).
    { induction l as [|j l IH] using rev_ind; intros (q & Hq & Rq).
      - exfalso. unfold processes in Hq. cbn [run fold_left launch fst] in Hq. rewrite nth_error_map, Hj in Hq. injection Hq as <-. destruct Rq as [Rq _]. discriminate Rq.
      - destruct (Nat.eq_dec j i) as [->|D].
        + assert (E : exists q0, nth_error (processes jobs fs l) i = Some q0).
          { destruct (nth_error (processes jobs fs l) i) as [q0|] eqn:E; [now exists q0|]. exfalso. unfold processes in Hq, E. rewrite run_app in Hq. cbn [run fold_left] in Hq. unfold tick in Hq. rewrite E in Hq. congruence. }
          destruct E as (q0 & H0).
          assert (Dec : returned q0 \/ ~ returned q0).
          { unfold returned. destruct (pending q0) as [|x y]; [|right; intros [Z _]; discriminate Z]. destruct (failure q0); [right; intros [_ Z]; discriminate Z|left; auto]. }
          destruct Dec as [R0|R0]; [|exact (C107_returns jobs fs l i t m q0 q N S Hj H0 R0 Hq Rq)].
          pose proof (IH (ex_intro _ q0 (conj H0 R0))) as HI. revert HI. apply holds_same. unfold files_after. rewrite run_app. unfold processes in H0. revert H0. generalize (run l (launch jobs fs)). intros [ps g] H0.
          cbn [run fold_left fst snd] in *. unfold tick. cbn [fst snd]. rewrite H0. unfold advance. destruct R0 as [Z1 Z2]. rewrite Z1, Z2. reflexivity.
        + assert (H0 : nth_error (processes jobs fs l) i = Some q).
          { unfold processes in *. rewrite run_app in Hq. revert Hq. generalize (run l (launch jobs fs)). intros [ps g]. cbn [run fold_left fst snd]. unfold tick. cbn [fst snd]. destruct (nth_error ps j) as [z|]; [|auto].
            destruct (advance z g) as [z' g']. cbn [fst]. now rewrite replace_other. }
          pose proof (IH (ex_intro _ q (conj H0 Rq))) as HI. revert HI. apply holds_same. apply C107_stays; [exact N|exact S| |].
          * intros t' m' I E. destruct N as (_ & N & _). exact (N t' m' t m I (nth_error_In _ _ Hj) (eq_sym E)).
          * intros x t' m' [<-|[]] Hx. exact (O j t' m' Hx D). }
    apply G. exists p. auto.
  Qed.
End Props.
(** the hypotheses are met: two full molecules with different files; one returns while the other goes on *)
Definition other_file : molecule Z := with_filename full_one "data/second".
Definition apart : list (string * molecule Z) := [("a", full_one); ("b", other_file)]%string.
Example ex_apart : new_names apart disk /\ savable apart /\ in_memory full_one /\ filename other_file <> filename full_one /\ 45 <= count_occ Nat.eq_dec (turns [(0, 20); (1, 30); (0, 30)]) 0.
Proof.
  split; [|split; [|split; [exact (proj1 (proj2 (proj2 (proj2 ex_hypotheses))))|split; [vm_compute; discriminate|vm_compute; repeat constructor]]]].
  - split; [apply nodup_names; reflexivity|]. split; [|split; [|exact disk_nodup]].
    + intros t m t' m' [H|[H|[]]] [H'|[H'|[]]]; injection H as <- <-; injection H' as <- <-; vm_compute; discriminate.
    + intros t m [H|[H|[]]]; injection H as <- <-; reflexivity.
  - intros t m [H|[H|[]]]; injection H as <- <-; exists []; split; try reflexivity; constructor.
Qed.
Print Assumptions C107_reads.
Print Assumptions C107_last.
Print Assumptions C107_independent.
