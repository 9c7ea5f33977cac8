(** C95: the files of molecules. *)
From Coq Require Import String ZArith Lia Permutation.
From Verif Require Import Base BaseFacts CostModel MolFileModel MolFileSpec MolFileProofs.
Open Scope list_scope.

Section Props.
  Context {V : Type}.
  Implicit Types (m : molecule V) (fs : files V).

  (** ** Properties loaded on demand *)
  (** Reading a property gives its value, changes no other property and no file, and the value read stays whatever happens to the files. *)
  Theorem C95_get m fs k : exists m', get_property k (m, fs) = ((m', fs), Ok (shows m fs k)) /\ m' = with_loaded m (loaded m') /\
    (forall k', shows m' fs k' = shows m fs k') /\ (forall v, shows m fs k = Some v -> forall fs', shows m' fs' k = Some v).
  Proof.
    unfold get_property, get_from_file. destruct (dget String.eqb k (loaded m)) as [v|] eqn:E.
    - exists m. unfold shows at 1. rewrite E. repeat split; [destruct m; reflexivity|]. intros v0 H fs'. unfold shows in H |- *. rewrite E in *. exact H.
    - assert (H0 : exists m', (m, fs, Ok None) = (m', fs, @Ok (option V) None) /\ m' = with_loaded m (loaded m') /\ (forall k', shows m' fs k' = shows m fs k') /\
                     (forall v, None = Some v -> forall fs', shows m' fs' k = Some v)) by (exists m; repeat split; [destruct m; reflexivity|discriminate]).
      assert (Sk : shows m fs k = match dget String.eqb (filename m ++ ".hdf5")%string fs with Some f => match dget String.eqb k f with Some (HVal v) => Some v | _ => None end | None => None end)
        by (unfold shows; rewrite E; reflexivity).
      rewrite Sk. unfold path. destruct (dget String.eqb (filename m ++ ".hdf5")%string fs) as [f|] eqn:Ef; [destruct (dget String.eqb k f) as [[| | | | |v| |]|] eqn:E0|]; try exact H0.
      exists (with_loaded m (dset String.eqb k v (loaded m))). repeat split.
      + intros k'. unfold shows, its_file. cbn [loaded with_loaded filename]. rewrite Ef. destruct (String.eqb k' k) eqn:Ek.
        * apply String.eqb_eq in Ek as ->. rewrite (dget_dset_same _ str_ok), E, E0. reflexivity.
        * rewrite (dget_dset_other _ str_ok) by (intros H; rewrite H, String.eqb_refl in Ek; discriminate). reflexivity.
      + intros v0 [= <-] fs'. unfold shows. cbn [loaded with_loaded]. rewrite (dget_dset_same _ str_ok). reflexivity.
  Qed.
  (** An assigned value is the one shown, whatever the files hold; the other properties keep theirs. *)
  Theorem C95_set m fs k v : exists m', set_property k (Some v) (m, fs) = ((m', fs), Ok tt) /\ m' = with_loaded m (loaded m') /\
    (forall fs', shows m' fs' k = Some v) /\ (forall k' fs', k' <> k -> shows m' fs' k' = shows m fs' k').
  Proof.
    exists (with_loaded m (dset String.eqb k v (loaded m))). repeat split.
    - intros fs'. unfold shows. cbn [loaded with_loaded]. rewrite (dget_dset_same _ str_ok). reflexivity.
    - intros k' fs' N. unfold shows, its_file. cbn [loaded with_loaded filename]. rewrite (dget_dset_other _ str_ok) by congruence. reflexivity.
  Qed.
  (** Assigning None does not delete: the property shows what the file holds. *)
  Theorem C95_set_none m fs k : NoDup (dkeys (loaded m)) -> exists m', set_property k None (m, fs) = ((m', fs), Ok tt) /\ m' = with_loaded m (loaded m') /\
    (forall fs', shows m' fs' k = shows (with_loaded m []) fs' k) /\ (forall k' fs', k' <> k -> shows m' fs' k' = shows m fs' k').
  Proof.
    intros N. exists (with_loaded m (ddel String.eqb k (loaded m))). repeat split.
    - intros fs'. unfold shows, its_file. cbn [loaded with_loaded filename dget]. rewrite (dget_ddel_same _ str_ok) by exact N. reflexivity.
    - intros k' fs' D. unfold shows, its_file. cbn [loaded with_loaded filename]. rewrite (dget_ddel_other _ str_ok) by exact D. reflexivity.
  Qed.

  (** ** Saving *)
  Definition ready m fs tmp d : Prop :=
    tmp <> filename m /\ dget String.eqb (tmp ++ ".hdf5")%string fs = None /\ NoDup (dkeys fs) /\ general_calculations m = Calculations d.
  Lemma ddel_dset_fresh {B} k (v : B) d : dget String.eqb k d = None -> ddel String.eqb k (dset String.eqb k v d) = d.
  Proof.
    induction d as [|[a b] d IH]; cbn; [now rewrite String.eqb_refl|]. destruct (String.eqb k a) eqn:E; [discriminate|]. intros H. cbn. rewrite E, IH; [reflexivity|exact H].
  Qed.
  Lemma dset_NoDup_s {B} k (v : B) d : NoDup (dkeys d) -> NoDup (dkeys (dset String.eqb k v d)).
  Proof. apply (dset_NoDup _ str_ok). Qed.
  Lemma save_run m fs tmp d : ready m fs tmp d -> exists m' l,
    save tmp (m, fs) = ((m', dset String.eqb (path (filename m)) (the_file m fs d) (ddel String.eqb (path tmp) (ddel String.eqb (path (filename m)) (dset String.eqb (path tmp) (the_file m fs d) fs)))), Ok tt)
    /\ m' = with_loaded m l /\ (forall k, shows m' fs k = shows m fs k)
    /\ in_sequence (write_steps tmp) (m, fs) = ((m', dset String.eqb (path tmp) (the_file m fs d) fs), Ok tt)
    /\ in_sequence (write_steps tmp ++ [remove_old]) (m, fs) = ((m', ddel String.eqb (path (filename m)) (dset String.eqb (path tmp) (the_file m fs d) fs)), Ok tt).
  Proof.
    intros (N & F & ND & G). destruct (write_run m fs tmp N d G) as (m2 & E & (l & -> & Q)). exists (with_loaded m l), l. unfold save, save_steps.
    rewrite (seq_ok _ _ _ _ E), (seq_ok _ _ _ _ E). pose proof (path_other m tmp N) as PO. revert E. generalize (the_file m fs d). intros f E.
    split; [|repeat split; [exact Q|exact E]]. cbn [in_sequence]. unfold bindM, remove_old, move_temporary. cbn [filename with_loaded].
    rewrite (dget_ddel_other _ str_ok) by congruence. rewrite (dget_dset_same _ str_ok). reflexivity.
  Qed.
  Lemma file_shows m fs d k : In k on_demand -> dget String.eqb k (the_file m fs d) = Some (of_option (shows m fs k)).
  Proof. intros H. repeat (destruct H as [<-|H]; [reflexivity|]). destruct H. Qed.
  (** Saving writes only the file of the molecule, the temporary file is gone, and the object and its properties look as before. *)
  Theorem C95_save m fs tmp d : ready m fs tmp d -> exists m' fs', save tmp (m, fs) = ((m', fs'), Ok tt) /\ m' = with_loaded m (loaded m') /\
    (forall n, n <> (filename m ++ ".hdf5")%string -> dget String.eqb n fs' = dget String.eqb n fs) /\ (forall k, In k on_demand -> shows m' fs' k = shows m fs k).
  Proof.
    intros R. destruct (save_run m fs tmp d R) as (m' & l & E & Em & Q & _). destruct R as (N & F & ND & G). pose proof (path_other m tmp N) as PO. eexists m', _. split; [exact E|]. subst m'.
    split; [reflexivity|]. split.
    - intros n Hn. rewrite (dget_dset_other _ str_ok) by (unfold path; congruence). destruct (String.eqb n (path tmp)) eqn:En.
      + apply String.eqb_eq in En as ->. fold (path tmp) in F. rewrite F. apply (dget_ddel_same _ str_ok). apply ddel_NoDup. now apply dset_NoDup_s.
      + assert (n <> path tmp) by (intros ->; rewrite String.eqb_refl in En; discriminate).
        rewrite (dget_ddel_other _ str_ok), (dget_ddel_other _ str_ok), (dget_dset_other _ str_ok) by (unfold path in *; congruence). reflexivity.
    - intros k Hk. specialize (Q k). unfold shows at 1 in Q. unfold shows at 1. cbn [loaded with_loaded] in *. unfold its_file in *. cbn [filename with_loaded] in *. fold (path (filename m)) in *.
      rewrite (dget_dset_same _ str_ok), (file_shows m fs d k Hk). destruct (dget String.eqb k l) as [v|]; [exact Q|]. destruct (shows m fs k); reflexivity.
  Qed.

  Lemma zip_fst_snd {A B} (l : list (A * B)) : zip (map fst l) (map snd l) = l.
  Proof. induction l as [|[a b] l IH]; cbn; [reflexivity|now rewrite IH]. Qed.
  Lemma dset_new {B} k (v : B) d : ~ In k (dkeys d) -> dset String.eqb k v d = d ++ [(k, v)].
  Proof.
    induction d as [|[a b] d IH]; cbn; intros H; [reflexivity|]. destruct (String.eqb k a) eqn:E; [apply String.eqb_eq in E; exfalso; apply H; now left|]. rewrite IH; [reflexivity|]. intros C. apply H. now right.
  Qed.
  Lemma of_pairs (l d : list (string * V)) : NoDup (dkeys (d ++ l)) -> fold_left (fun d kv => dset String.eqb (fst kv) (snd kv) d) l d = d ++ l.
  Proof.
    revert d. induction l as [|[k v] l IH]; intros d H; cbn [fold_left]; [now rewrite app_nil_r|]. cbn [fst snd]. rewrite dset_new.
    - rewrite IH; rewrite <- app_assoc; [reflexivity|exact H].
    - unfold dkeys in H |- *. rewrite map_app in H. cbn in H. apply NoDup_remove_2 in H. intros C. apply H. apply in_or_app. now left.
  Qed.
  (** what the constructor gives when one of its three arguments is None *)
  Definition reopen m fs := load (blank (filename m)) fs.
  Lemma load_energies m fs d : exists en,
    foldM (fun (d0 : list (string * V)) (key : string) => let! v := value_or_none key (the_file m fs d) in Ok match v with Some x => d0 ++ [(key, x)] | None => d0 end) energy_names [] = Ok en
    /\ forall k, In k energy_names -> dget String.eqb k en = energy_of m k.
  Proof.
    assert (I : forall k, In k energy_names -> value_or_none k (the_file m fs d) = Ok (energy_of m k)).
    { intros k H. unfold value_or_none. assert (E : item k (the_file m fs d) = Ok (of_option (energy_of m k))) by (repeat (destruct H as [<-|H]; [reflexivity|]); destruct H).
      rewrite E. cbn [rbind]. destruct (energy_of m k); reflexivity. }
    unfold energy_names. cbn [foldM]. repeat (rewrite I by (cbn; tauto); cbn [rbind]). eexists. split; [reflexivity|]. intros k H.
    repeat (destruct H as [<-|H]; [repeat match goal with |- context [energy_of m ?k] => destruct (energy_of m k) end; reflexivity|]). destruct H.
  Qed.
  Lemma load_the_file m fs d m0 fs' : NoDup (dkeys d) -> filename m0 = filename m -> dget String.eqb (path (filename m)) fs' = Some (the_file m fs d) ->
    exists m2, load m0 fs' = Ok m2 /\ same_molecule m2 m /\ atoms m2 = Bytes (atom_names m) /\ loaded m2 = loaded m0 /\
      general_calculations m2 = match d with [] => general_calculations m0 | _ => Calculations d end.
  Proof.
    intros ND Ef H. unfold load. rewrite Ef, H.
    assert (EN : forall k, dget String.eqb k (energies m) = energy_of m k) by reflexivity.
    unfold text_item, int_item, int_or_none, value_or_none.
    repeat match goal with |- context [item ?k (the_file m fs d)] => let e := eval cbv [item dget the_file String.eqb Ascii.eqb Bool.eqb] in (item k (the_file m fs d)) in change (item k (the_file m fs d)) with e end.
    cbn [rbind].
    assert (G1 : forall X (f : geometry V -> result X), rbind (match (match geo m with Described s => @HText V s | Placed l => HTexts (map fst l) end) with
               | HText s => Ok (Described s)
               | HTexts l => match (match geo m with Described _ => @HFalse V | Placed l0 => HRows (map snd l0) end) with HRows rows => Ok (Placed (zip l rows)) | _ => Err TypeError end
               | _ => Err TypeError end) f = f (geo m)) by (intros X f; destruct (geo m); [reflexivity|]; cbn [rbind]; rewrite zip_fst_snd; reflexivity).
    rewrite G1. clear G1.
    assert (G2 : match match protons m with Some l => HInts l | None => @HInt V 0 end with HInt _ => Ok None | HInts l => Ok (Some l) | _ => Err TypeError end = Ok (protons m)) by (destruct (protons m); reflexivity).
    rewrite G2. clear G2. cbn [rbind].
    assert (G3 : forall o, match @of_int V o with HFalse => Ok None | HInt z => Ok (Some z) | _ => Err TypeError end = Ok o) by (intros []; reflexivity).
    rewrite !G3. clear G3. cbn [rbind].
    assert (G4 : forall o : option V, match of_option o with HFalse => Ok None | HVal z => Ok (Some z) | _ => Err TypeError end = Ok o) by (intros []; reflexivity).
    rewrite G4. clear G4. cbn [rbind].
    destruct (load_energies m fs d) as (en & E & Hen). unfold energy_names, value_or_none in E. rewrite E. clear E. cbn [rbind].
    set (gen := match d with [] => general_calculations m0 | _ => Calculations d end).
    match goal with |- context [rbind ?x _] => assert (G5 : x = Ok gen) end.
    { change (dget String.eqb "general_calculations_keys"%string (the_file m fs d)) with (Some (match d with [] => @HFalse V | _ => HTexts (dkeys d) end)).
      change (dget String.eqb "general_calculations_values"%string (the_file m fs d)) with (Some (match d with [] => @HFalse V | _ => HVals (map snd d) end)).
      unfold gen. destruct d as [|p d]; [reflexivity|]. unfold dkeys. rewrite zip_fst_snd, of_pairs; [reflexivity|exact ND]. }
    rewrite G5. cbn [rbind]. eexists. split; [reflexivity|]. unfold same_molecule. cbn [geo basis multiplicity charge description name filename n_atoms atoms protons n_electrons n_orbitals n_qubits nuclear_repulsion energies
      loaded general_calculations]. repeat split; try exact Ef. exact Hen.
  Qed.
End Props.
