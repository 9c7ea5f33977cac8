(** C99: results kept in files. *)
From Coq Require Import String ZArith QArith List Lia.
From Verif Require Import Base BaseFacts Json MatModel CostModel OpModel ArtModel ArtSpec ArtProofs.
From Verif Require UtilsModel UtilsProps EvModel MeasModel MeasProps LayoutModel LayoutProps DistModel DistSpec DistProps GraphModel GraphSpec GraphProps ConvModel ConvSpec ConvProps CreateModel
  CreateProps OpSpec GaussQ.
Import ListNotations.
Open Scope list_scope.
Local Open Scope nat_scope.

(** ** Whatever is saved and loaded *)
Section General.
  Context {K : Type}.
  Implicit Types fs : files K.
  (** Saving touches the named file only, also when it fails or is stopped half-way; the file then holds what it held, or cannot be read, or holds all of the new document. *)
  Theorem C99_crash (p : path) (made : result (json K)) fs fs' : In fs' (stopped p made fs) ->
    only (name_of p) fs fs' /\
    (dget String.eqb (name_of p) fs' = dget String.eqb (name_of p) fs \/
     (forall A how (from : jdict K -> result A), snd (load how from (At (Str (name_of p))) fs') = Err ValueError) \/
     (exists j, made = Ok j /\ dget String.eqb (name_of p) fs' = Some (Doc j) /\ fs' = fst (write_document p made fs) /\ snd (write_document p made fs) = Ok tt)).
  Proof.
    assert (T : forall A how (from : jdict K -> result A), snd (load how from (At (Str (name_of p))) (dset String.eqb (name_of p) Torn fs)) = Err ValueError).
    { intros A how from. unfold load. cbn [snd]. replace (read how _ _) with (@Err (json K) ValueError); [reflexivity|].
      destruct how; cbn; unfold read_file; rewrite (dget_dset_same _ name_eqb); reflexivity. }
    intros [<-|[<-|[<-|[]]]].
    - split; [intros n _; reflexivity|]. left. reflexivity.
    - split; [intros n N; apply (dget_dset_other _ name_eqb); congruence|]. right. left. exact T.
    - split; [apply write_only|]. destruct made as [j|e].
      + right. right. exists j. split; [reflexivity|]. split; [apply write_same|]. split; reflexivity.
      + right. left. exact T.
  Qed.
  (** A file that is not there: nothing is read, and nothing changes. *)
  Theorem C99_missing A (how : reader) (from : jdict K -> result A) name fs : dget String.eqb name fs = None ->
    load how from (At (Str name)) fs = (fs, Err FileNotFoundError) /\ (how = EnsureOpen -> load how from (At (PathLike name)) fs = (fs, Err FileNotFoundError)).
  Proof.
    intros E. unfold load. split; [|intros ->].
    - destruct how; cbn; unfold read_file; rewrite E; reflexivity.
    - cbn. unfold read_file. rewrite E. reflexivity.
  Qed.
End General.

(** ** Values and lists *)
Section Values.
  Context {K : Type}.
  Theorem C99_value_estimate (keqb : K -> K -> bool) (He : eqb_spec_of keqb) (e : UtilsModel.value_estimate) :
    kept_in_file false (save_value_estimate e) load_value_estimate (fun e' => UtilsModel.ve_eqb keqb e' e = true).
  Proof. destruct (UtilsProps.C26_value_estimate_round_trip keqb He e) as (v & E & Q). eapply kept_intro; [exact E|exact Q|discriminate|discriminate]. Qed.
  (** A list of numbers, strings, booleans, None, and lists and dictionaries of such, is loaded as it was. *)
  Theorem C99_list (l : list (json K)) (artifact_name : string) :
    kept_in_file false (fun p => save_list (object_of (JArr l)) p artifact_name) load_list (fun j => j = JArr l).
  Proof.
    unfold save_list. rewrite dumps_PDict. cbn [dumps_dict]. rewrite dumps_object. cbn [dumps rbind]. eapply kept_intro; [reflexivity|reflexivity|discriminate|discriminate].
  Qed.
  (** Other objects: tuples are loaded as lists, and the precision of a value estimate is lost. *)
  Theorem C99_list_tuple_refuted (l : list (json K)) (e : UtilsModel.value_estimate (K := K)) :
    kept_in_file false (fun p => save_list (PList [PTuple (map object_of l); PEst e]) p "") load_list (fun j => j = JArr [JArr l; JNum (UtilsModel.ve_value e)]).
  Proof.
    unfold save_list. rewrite dumps_PDict. cbn [dumps_dict]. rewrite dumps_PList. cbn [dumps_list]. rewrite dumps_PTuple, <- dumps_PList. change (PList (map object_of l)) with (object_of (JArr l)).
    rewrite dumps_object. cbn [dumps rbind]. eapply kept_intro; [reflexivity|reflexivity|discriminate|discriminate].
  Qed.
  (** A list that json cannot write: the error is raised, but the list that was in the file is gone. *)
  Theorem C99_failed_save_refuted (l : list (json K)) p (fs : files K) : exists fs1 fs2,
    save_list (object_of (JArr l)) p "" fs = (fs1, Ok tt) /\ load_list (At (Str (name_of p))) fs1 = (fs1, Ok (JArr l)) /\
    save_list (PList [POther]) p "" fs1 = (fs2, Err TypeError) /\ load_list (At (Str (name_of p))) fs2 = (fs2, Err ValueError).
  Proof.
    destruct (C99_list l "" p fs) as (fs1 & E & _ & x & -> & H). exists fs1. eexists. split; [exact E|]. split; [apply H; constructor|]. split; [reflexivity|].
    unfold load_list, load. cbn. unfold read_file. rewrite (dget_dset_same _ name_eqb). reflexivity.
  Qed.
  (** A path object or bytes can be given for saving, but most loaders do not take it. *)
  Theorem C99_path_refuted (l : list (json K)) name (fs : files K) : exists fs1,
    save_list (object_of (JArr l)) (PathLike name) "" fs = (fs1, Ok tt) /\ load_list (At (Str name)) fs1 = (fs1, Ok (JArr l)) /\ load_list (At (PathLike name)) fs1 = (fs1, Err AttributeError).
  Proof. destruct (C99_list l "" (PathLike name) fs) as (fs1 & E & _ & x & -> & H). exists fs1. split; [exact E|]. split; [apply H; constructor|reflexivity]. Qed.

  Lemma merged_get {V} (d : list (string * V)) : forall acc k, NoDup (dkeys d) ->
    dget String.eqb k (fold_left (fun d kv => dset String.eqb (fst kv) (snd kv) d) d acc) = match dget String.eqb k d with Some v => Some v | None => dget String.eqb k acc end.
  Proof.
    induction d as [|[k' v] d IH]; intros acc k N; [reflexivity|]. cbn [dkeys map] in N. apply NoDup_cons_iff in N as [N1 N2]. cbn [fold_left fst snd dget]. rewrite (IH _ _ N2).
    destruct (String.eqb_spec k k') as [->|D].
    - replace (dget String.eqb k' d) with (@None V); [apply (dget_dset_same _ name_eqb)|]. symmetry. apply (dget_None _ name_eqb). exact N1.
    - destruct (dget String.eqb k d); [reflexivity|]. apply (dget_dset_other _ name_eqb). congruence.
  Qed.
  Lemma merged_in {V} (d : list (string * V)) : forall acc k v, In (k, v) (fold_left (fun d kv => dset String.eqb (fst kv) (snd kv) d) d acc) -> In (k, v) d \/ In (k, v) acc.
  Proof.
    induction d as [|[k' v'] d IH]; intros acc k v H; [auto|]. cbn [fold_left fst snd] in H. apply IH in H as [H|H]; [left; right; exact H|].
    assert (X : (k, v) = (k', v') \/ In (k, v) acc).
    { clear -H. induction acc as [|[a b] acc IH]; cbn in H; [destruct H as [H|[]]; auto|]. destruct (String.eqb k' a) eqn:E.
      - destruct H as [H|H]; [left; injection H as <- <-; apply String.eqb_eq in E as ->; reflexivity|]. right. right. exact H.
      - destruct H as [H|H]; [right; left; exact H|]. destruct (IH H) as [X|X]; [auto|]. right. right. exact X. }
    destruct X as [X|X]; [left; left; congruence|auto].
  Qed.
  (** A dictionary of writable values: each of its entries is in the file, and there are no others but, if it has none of its own, the schema. *)
  Theorem C99_generic_dict (d : list (string * pyobj K)) p fs : NoDup (dkeys d) -> (forall k v, In (k, v) d -> exists j, dumps v = Ok j) ->
    exists fs' doc, save_generic_dict d p fs = (fs', Ok tt) /\ only (name_of p) fs fs' /\ dget String.eqb (name_of p) fs' = Some (Doc (JObj doc)) /\
      (forall k v, dget String.eqb k d = Some v -> exists j, dget String.eqb k doc = Some j /\ dumps v = Ok j) /\
      (forall k, dget String.eqb k d = None -> dget String.eqb k doc = if String.eqb k "schema" then Some (JStr "zapata-v1-dict") else None).
  Proof.
    intros N W. unfold save_generic_dict. rewrite dumps_PDict. set (m := fold_left _ d _).
    assert (WM : forall k v, In (k, v) m -> exists j, dumps v = Ok j).
    { intros k v H. apply merged_in in H as [H|[H|[]]]; [eauto|]. injection H as <- <-. eexists. reflexivity. }
    destruct (dumps_dict_ok m WM) as (js & E). rewrite E. cbn [rbind]. exists (fst (write_document p (Ok (JObj js)) fs)), js. split; [reflexivity|]. split; [apply write_only|].
    split; [apply write_same|]. pose proof (dumps_dict_get m js E) as G. unfold m in G. split; intros k.
    - intros v H. specialize (G k). rewrite (merged_get d _ _ N), H in G. destruct (dget String.eqb k js) as [j|]; [eauto|contradiction].
    - intros H. specialize (G k). rewrite (merged_get d _ _ N), H in G. cbn [dget] in G. destruct (String.eqb k "schema"); destruct (dget String.eqb k js) as [j|]; try contradiction; [|reflexivity].
      cbn in G. injection G as <-. reflexivity.
  Qed.

  (** A timing file: its two entries, read back with any JSON reader, are the schema and the time that was given; other files are untouched. *)
  Theorem C99_timing (walltime : K) p (fs : files K) : exists fs' entries, save_timing walltime p fs = (fs', Ok tt) /\ only (name_of p) fs fs' /\
    dget String.eqb (name_of p) fs' = Some (Doc (JObj entries)) /\ length entries = 2 /\
    dget String.eqb "schema"%string entries = Some (JStr "zapata-v1-timing") /\ dget String.eqb "walltime"%string entries = Some (JNum walltime).
  Proof.
    unfold save_timing. eexists _, _. split; [reflexivity|]. split; [apply (write_only p (Ok _))|]. split; [apply (write_same p)|]. repeat split.
  Qed.

  (** ** Evaluations on a grid *)
  Lemma nth_replace (m : memory K) r d : forall i, r < length m -> nth_error (replace r d m) i = if Nat.eqb i r then Some d else nth_error m i.
  Proof.
    revert r. induction m as [|x m IH]; intros r i H; [cbn in H; lia|]. destruct r as [|r], i as [|i]; cbn [replace nth_error]; try reflexivity. rewrite IH by (cbn in H; lia). reflexivity.
  Qed.
  Lemma length_replace (m : memory K) r d : length (replace r d m) = length m.
  Proof. revert r. induction m as [|x m IH]; intros [|r]; cbn; auto. Qed.
  (** the dictionary with its estimate written out *)
  Definition converted (d : list (string * pyobj K)) : list (string * pyobj K) :=
    match dget String.eqb "value"%string d with Some (PEst e) => dset String.eqb "value"%string (estimate_dict e) d | _ => d end.
  Definition has_estimate (m : memory K) (r : nat) : Prop := exists d e, nth_error m r = Some d /\ dget String.eqb "value"%string d = Some (PEst e).
  Lemma convert_all refs : forall m : memory K, NoDup refs -> (forall r, In r refs -> has_estimate m r) ->
    exists m', convert_evaluations refs m = (m', Ok tt) /\ length m' = length m /\
      forall i, nth_error m' i = if in_dec Nat.eq_dec i refs then option_map converted (nth_error m i) else nth_error m i.
  Proof.
    induction refs as [|r refs IH]; intros m N H; [exists m; repeat split; auto|]. apply NoDup_cons_iff in N as [N1 N2].
    destruct (H r (or_introl eq_refl)) as (d & e & E1 & E2). cbn [convert_evaluations]. rewrite E1, E2.
    assert (L : r < length m) by (apply nth_error_Some; congruence).
    destruct (IH (replace r (dset String.eqb "value"%string (estimate_dict e) d) m) N2) as (m' & E & L' & G).
    { intros s Hs. destruct (H s (or_intror Hs)) as (ds & es & F1 & F2). exists ds, es. rewrite nth_replace by exact L. destruct (Nat.eqb_spec s r); [subst; contradiction|]. auto. }
    exists m'. split; [exact E|]. split; [rewrite L', length_replace; reflexivity|]. intros i. rewrite G, nth_replace by exact L.
    destruct (in_dec Nat.eq_dec i refs) as [I|I]; destruct (in_dec Nat.eq_dec i (r :: refs)) as [J|J]; try (exfalso; apply J; right; exact I).
    - destruct (Nat.eqb_spec i r); [subst; contradiction|reflexivity].
    - destruct J as [->|J]; [|contradiction]. rewrite Nat.eqb_refl, E1. cbn. unfold converted. rewrite E2. reflexivity.
    - destruct (Nat.eqb_spec i r) as [->|]; [exfalso; apply J; left; reflexivity|reflexivity].
  Qed.
  Lemma in_dset {V} k (v : V) d k' v' : In (k', v') (dset String.eqb k v d) -> (k' = k /\ v' = v) \/ In (k', v') d.
  Proof.
    induction d as [|[a b] d IH]; cbn; [intros [H|[]]; left; split; congruence|]. destruct (String.eqb_spec k a) as [->|].
    - intros [H|H]; [left; split; congruence|]. right. right. exact H.
    - intros [H|H]; [right; left; exact H|]. destruct (IH H); auto.
  Qed.
  (** Distinct dictionaries, each with a value estimate and otherwise writable: value and precision of each are in the file, in order, with the other entries. *)
  Theorem C99_grid (refs : list nat) p (m : memory K) (fs : files K) : NoDup refs -> (forall r, In r refs -> has_estimate m r) ->
    (forall r d k v, In r refs -> nth_error m r = Some d -> In (k, v) d -> exists j, dumps v = Ok j) ->
    exists m' fs' doc, save_parameter_grid_evaluation refs p (m, fs) = ((m', fs'), Ok tt) /\ only (name_of p) fs fs' /\
      dget String.eqb (name_of p) fs' = Some (Doc (JObj [("schema"%string, JStr "zapata-v1-parameter_grid_evaluation"); ("values_set"%string, JArr doc)])) /\
      length doc = length refs /\
      (forall i r d, nth_error refs i = Some r -> nth_error m r = Some d -> exists o, nth_error doc i = Some (JObj o) /\
         (forall k v, k <> "value"%string -> dget String.eqb k d = Some v -> exists j, dget String.eqb k o = Some j /\ dumps v = Ok j) /\
         (forall e, dget String.eqb "value"%string d = Some (PEst e) -> exists q, dget String.eqb "value"%string o = Some (JObj q) /\
            dget String.eqb "value"%string q = Some (JNum (UtilsModel.ve_value e)) /\
            dget String.eqb "precision"%string q = Some match UtilsModel.ve_precision e with None => JNull | Some x => JNum (UtilsModel.pyval x) end)) /\
      (forall r, ~ In r refs -> nth_error m' r = nth_error m r).
  Proof.
    intros N H W. destruct (convert_all refs m N H) as (m' & E & L & G). unfold save_parameter_grid_evaluation. cbn [fst snd]. rewrite E.
    assert (M : forall r, In r refs -> exists d, nth_error m r = Some d /\ nth_error m' r = Some (converted d)).
    { intros r Hr. destruct (H r Hr) as (d & e & E1 & _). exists d. split; [exact E1|]. rewrite G. destruct (in_dec Nat.eq_dec r refs); [|contradiction]. rewrite E1. reflexivity. }
    assert (Ed : forall e, dumps (estimate_dict (K := K) e) = Ok (JObj [("schema"%string, JStr "zapata-v1-value_estimate"); ("value"%string, JNum (UtilsModel.ve_value e));
       ("precision"%string, match UtilsModel.ve_precision e with None => JNull | Some x => JNum (UtilsModel.pyval x) end)])).
    { intros e. unfold estimate_dict. cbn [dset String.eqb Ascii.eqb Bool.eqb]. rewrite dumps_PDict. cbn [dumps_dict dumps rbind]. destruct (UtilsModel.ve_precision e); reflexivity. }
    assert (D : forall r d, In r refs -> nth_error m r = Some d -> exists o, dumps_dict (converted d) = Ok o).
    { intros r d Hr Hd. apply dumps_dict_ok. intros k v Hv. unfold converted in Hv. destruct (dget String.eqb "value"%string d) as [[]|]; try (eapply W; eassumption).
      apply in_dset in Hv as [[_ ->]|Hv]; [rewrite Ed; eauto|]. eapply W; eassumption. }
    assert (Wl : forall v, In v (map (fun r => PDict (nth r m' [])) refs) -> exists j, dumps v = Ok j).
    { intros v Hv. apply in_map_iff in Hv as (r & <- & Hr). destruct (M r Hr) as (d & E1 & E2). rewrite (nth_error_nth _ _ _ E2), dumps_PDict. destruct (D r d Hr E1) as (o & ->). eexists. reflexivity. }
    destruct (dumps_list_ok _ Wl) as (doc & Ed'). rewrite dumps_PDict. cbn [dumps_dict]. rewrite dumps_PList, Ed'. cbn [dumps rbind].
    exists m', (fst (write_document p (Ok (JObj [("schema"%string, JStr "zapata-v1-parameter_grid_evaluation"); ("values_set"%string, JArr doc)])) fs)), doc.
    split; [reflexivity|]. split; [apply write_only|]. split; [apply write_same|]. split; [|split].
    - clear -Ed'. revert doc Ed'. induction refs as [|r refs IH]; intros doc E; cbn [map dumps_list] in E; [injection E as <-; reflexivity|].
      destruct (dumps _); [|discriminate]. cbn [rbind] in E. destruct (dumps_list _) eqn:F; [|discriminate]. injection E as <-. cbn. f_equal. apply IH. reflexivity.
    - intros i r d Hi Hd. assert (Hr : In r refs) by (eapply nth_error_In; exact Hi). destruct (M r Hr) as (d' & E1 & E2). rewrite Hd in E1. injection E1 as <-.
      destruct (dumps_list_nth _ _ Ed' i (PDict (nth r m' []))) as (j & J1 & J2); [rewrite nth_error_map, Hi; reflexivity|]. rewrite (nth_error_nth _ _ _ E2), dumps_PDict in J2.
      destruct (D r d Hr Hd) as (o & O). rewrite O in J2. cbn [rbind] in J2. injection J2 as <-. exists o. split; [exact J1|]. pose proof (dumps_dict_get _ _ O) as T. split.
      + intros k v Nk Hk. specialize (T k). replace (dget String.eqb k (converted d)) with (Some v) in T; [destruct (dget String.eqb k o); [eauto|contradiction]|].
        unfold converted. destruct (dget String.eqb "value"%string d) as [[]|]; try (symmetry; exact Hk). rewrite (dget_dset_other _ name_eqb) by congruence. symmetry. exact Hk.
      + intros e He. specialize (T "value"%string). unfold converted in T. rewrite He, (dget_dset_same _ name_eqb), Ed in T.
        destruct (dget String.eqb "value"%string o) as [j|]; [|contradiction]. injection T as <-. eexists. split; [reflexivity|]. split; reflexivity.
    - intros r Nr. rewrite G. destruct (in_dec Nat.eq_dec r refs); [contradiction|reflexivity].
  Qed.
  (** It changes the dictionaries it is given, so the same evaluations cannot be saved a second time; the file is then not opened. *)
  Theorem C99_grid_twice_refuted (refs : list nat) p p' (m : memory K) (fs : files K) : NoDup refs -> refs <> [] -> (forall r, In r refs -> has_estimate m r) ->
    (forall r d k v, In r refs -> nth_error m r = Some d -> In (k, v) d -> exists j, dumps v = Ok j) ->
    exists m' fs', save_parameter_grid_evaluation refs p (m, fs) = ((m', fs'), Ok tt) /\ save_parameter_grid_evaluation refs p' (m', fs') = ((m', fs'), Err AttributeError).
  Proof.
    intros N Ne H W. destruct (C99_grid refs p m fs N H W) as (m' & fs' & doc & E & _). exists m', fs'. split; [exact E|].
    destruct (convert_all refs m N H) as (m2 & E2 & _ & G). assert (m2 = m').
    { unfold save_parameter_grid_evaluation in E. cbn [fst snd] in E. rewrite E2 in E. destruct (write_document _ _ fs) as [f r]. congruence. }
    subst m2. destruct refs as [|r refs]; [contradiction|]. unfold save_parameter_grid_evaluation. cbn [fst snd convert_evaluations].
    destruct (H r (or_introl eq_refl)) as (d & e & F1 & F2). rewrite (G r). destruct (in_dec Nat.eq_dec r (r :: refs)) as [I|I]; [|exfalso; apply I; left; reflexivity].
    rewrite F1. cbn [option_map]. unfold converted. rewrite F2, (dget_dset_same _ name_eqb). reflexivity.
  Qed.
  (** A dictionary without a value, or with something else than an estimate there: nothing is written. *)
  Theorem C99_grid_rejected (r : nat) rest p (m : memory K) (fs : files K) d : nth_error m r = Some d ->
    (dget String.eqb "value"%string d = None -> save_parameter_grid_evaluation (r :: rest) p (m, fs) = ((m, fs), Err KeyError)) /\
    (forall x, dget String.eqb "value"%string d = Some (PNum x) -> save_parameter_grid_evaluation (r :: rest) p (m, fs) = ((m, fs), Err AttributeError)).
  Proof. intros E. unfold save_parameter_grid_evaluation. cbn [fst snd convert_evaluations]. rewrite E. split; [intros ->|intros x ->]; reflexivity. Qed.

  (** ** Random integers *)
  Theorem C99_integers {Kw} (integers : option Z -> Kw -> result (pyobj K)) seed kwargs (l : list (json K)) fs : integers seed kwargs = Ok (object_of (JArr l)) ->
    exists fs', generate_random_list_of_integers integers seed kwargs fs = (fs', Ok tt) /\ only "integers.json" fs fs' /\ load_list (At (Str "integers.json")) fs' = (fs', Ok (JArr l)).
  Proof.
    intros E. unfold generate_random_list_of_integers, bindM, liftM. rewrite E. destruct (C99_list l "" (Str "integers.json") fs) as (fs' & S & O & x & -> & H).
    exists fs'. split; [exact S|]. split; [exact O|]. apply H. constructor.
  Qed.
  (** Without a size the step draws one number, which is stored and loaded in place of a list. *)
  Theorem C99_integers_scalar_refuted {Kw} (integers : option Z -> Kw -> result (pyobj K)) seed kwargs (x : K) fs : integers seed kwargs = Ok (PNum x) ->
    exists fs', generate_random_list_of_integers integers seed kwargs fs = (fs', Ok tt) /\ load_list (At (Str "integers.json")) fs' = (fs', Ok (JNum x)).
  Proof.
    intros E. unfold generate_random_list_of_integers, bindM, liftM. rewrite E. eexists. split; [reflexivity|]. unfold load_list, load. cbn. unfold read_file.
    rewrite (dget_dset_same _ name_eqb). reflexivity.
  Qed.
  (** Arguments that numpy rejects: no file is written. *)
  Theorem C99_integers_rejected {Kw} (integers : option Z -> Kw -> result (pyobj K)) seed kwargs e (fs : files K) : integers seed kwargs = Err e ->
    generate_random_list_of_integers integers seed kwargs fs = (fs, Err e).
  Proof. intros E. unfold generate_random_list_of_integers, bindM, liftM. rewrite E. reflexivity. Qed.
End Values.

(** ** Examples *)
Example C99_values_example : let fs : files Z := [("old.json"%string, Doc (JNum 4%Z))] in
  match save_list (object_of (JArr [JNum 1%Z; JArr [JStr "a"; JNull]; JObj [("k"%string, JBool true)]])) (Str "l.json") "numbers" fs with
  | (fs', Ok _) => dget String.eqb "old.json"%string fs' = Some (Doc (JNum 4%Z)) /\ load_list (At (Str "l.json")) fs' = (fs', Ok (JArr [JNum 1%Z; JArr [JStr "a"; JNull]; JObj [("k"%string, JBool true)]]))
  | _ => False end /\
  length (stopped (Str "old.json") (Ok (JNum 5%Z)) fs) = 3.
Proof. vm_compute. repeat split. Qed.
Example C99_grid_example : let m : memory Z := [[("value"%string, PEst {| UtilsModel.ve_value := 3%Z; UtilsModel.ve_precision := Some (UtilsModel.PyFloat 1%Z) |}); ("x"%string, PNum 5%Z)];
    [("x"%string, PNum 6%Z); ("value"%string, PEst {| UtilsModel.ve_value := 4%Z; UtilsModel.ve_precision := None |})]] in
  NoDup [1; 0] /\ (forall r, In r [1; 0] -> has_estimate m r) /\ (forall r d k v, In r [1; 0] -> nth_error m r = Some d -> In (k, v) d -> exists j, dumps v = Ok j).
Proof.
  split; [|split].
  - repeat constructor; cbn; intuition discriminate.
  - intros r [<-|[<-|[]]]; eexists; eexists; split; reflexivity.
  - intros r d k v [<-|[<-|[]]] [= <-] [H|[H|[]]]; injection H as <- <-; eexists; reflexivity.
Qed.
Print Assumptions C99_crash.
Print Assumptions C99_list.
Print Assumptions C99_generic_dict.
Print Assumptions C99_grid.
Print Assumptions C99_grid_twice_refuted.
Print Assumptions C99_failed_save_refuted.
Print Assumptions C99_timing.
