(** C97: files of operators. *)
From Coq Require Import String Ascii ZArith Lia Permutation.
From Verif Require Import Base BaseFacts MatModel GateMatProps OpModel OpProofs OpSpec SymModel UtilsModel CostModel PauliProofs
  OpTextModel OpTextSpec OpTextProofs OpTextProofs2 OpTextProofs3 OpTextProps MolFileProofs OpFileModel OpFileSpec OpFileProofs.
Open Scope list_scope.
Local Open Scope nat_scope.

(** The file is in the given directory, or else in the default one; its name is the given one, with ".data" at the end once.
    Without a name there is no file. *)
Theorem C97_path (dd name path : string) dir : get_file_path dd (Some name) dir = Ok path <-> at_path dd name dir path.
Proof. symmetry. apply path_at. Qed.
Theorem C97_no_name (dd : string) dir : get_file_path dd None dir = Err GenericException /\ get_file_path dd (Some ""%string) dir = Err GenericException /\
  forall name, name <> ""%string -> exists path, get_file_path dd (Some name) dir = Ok path.
Proof.
  split; [reflexivity|]. split; [reflexivity|]. intros [|c n] H; [contradiction|]. eexists. reflexivity.
Qed.
(** In one directory, two names are the same file only if they are equal up to ".data" at the end. *)
Theorem C97_same_file (dd n1 n2 path : string) dir : at_path dd n1 dir path -> at_path dd n2 dir path -> n1 = n2 \/ n1 = (n2 ++ ".data")%string \/ n2 = (n1 ++ ".data")%string.
Proof.
  intros (_ & m1 & D1 & E1) (_ & m2 & D2 & E2). rewrite E1 in E2. assert (E : m1 = m2).
  { clear - E2. revert E2. generalize (match dir with Some d => d | None => dd end). induction s as [|c s IH]; cbn; intros H; [now injection H|]. injection H as H. now apply IH. }
  subst m2. inversion D1 as [a A1 A2|a A0 A1 A2]; subst; inversion D2 as [b B1 B2|b B0 B1 B2]; subst.
  - left. congruence.
  - right. left. congruence.
  - right. right. congruence.
  - left. eapply append_inj. symmetry. eassumption.
Qed.

Section C97.
  Context {K : cring} (im : K) (small symbolic : K -> bool) (float_of complex_of : text -> option K) (show : K -> text) (dd : string).
  Notation save := (save_operator small symbolic show dd).
  Notation load := (load_operator im small float_of complex_of dd).
  Notation files := (files (K := K)).
  Notation operator := (operator (K := K)).
  Notation tidy := (tidy im symbolic).
  Notation printable := (printable small float_of complex_of show).
  Notation all_but_small := (all_but_small small).

  Lemma orders_ok : (forall a b, pauli_le a b = true \/ pauli_le b a = true) /\ (forall a b c, pauli_le a b = true -> pauli_le b c = true -> pauli_le a c = true) /\
    (forall a b, pauli_le a b = true -> pauli_le b a = true -> a = b) /\
    (forall a b, fermi_le a b = true \/ fermi_le b a = true) /\ (forall a b c, fermi_le a b = true -> fermi_le b c = true -> fermi_le a c = true) /\
    (forall a b, fermi_le a b = true -> fermi_le b a = true -> a = b).
  Proof. repeat apply conj; [intros [] []|intros [] [] []|intros [] []|intros [] []|intros [] [] []|intros [] []]; cbn; auto; discriminate. Qed.
  Lemma fermi_actions a s : action_written fermion_class a s -> ~ In ":"%char s.
  Proof. intros (i & _ & H). destruct i as [|[|i]]; cbn in H; [injection H as <-|injection H as <-|destruct i; discriminate]; cbn; intuition discriminate. Qed.
  Lemma pauli_actions a s : action_written qubit_class a s -> ~ In ":"%char s.
  Proof. intros (i & _ & H). destruct i as [|[|[|i]]]; cbn in H; [injection H as <-|injection H as <-|injection H as <-|destruct i; discriminate]; cbn; intuition discriminate. Qed.
  Lemma unpacked (o : operator) : tidy o -> exists c o', packed_content o = Ok c /\ load_packed im small float_of complex_of c = Ok o' /\ all_but_small o o'.
  Proof.
    destruct o as [a|a| |]; cbn [OpFileSpec.tidy]; try contradiction; intros H; do 2 eexists; (split; [reflexivity|]).
    - cbn [load_packed]. change (text_eqb fermi_name fermi_name) with true. cbn iota. rewrite (unpack Bool.eqb bool_eqb_spec fermion_simplify small symbolic fermion_class float_of complex_of show fermi_atom) by first [exact H|intros [] _; reflexivity].
      split; [reflexivity|]. apply Permutation_refl.
    - cbn [load_packed]. change (text_eqb qubit_name fermi_name) with false. change (text_eqb qubit_name qubit_name) with true. cbn iota.
      rewrite (unpack pauli_eqb pauli_eqb_spec (qubit_simplify im) small symbolic qubit_class float_of complex_of show pauli_atom).
      + split; [reflexivity|]. apply Permutation_refl.
      + intros [] I; try reflexivity. cbn in I. intuition discriminate.
      + exact H.
  Qed.
  Lemma unprinted (o : operator) : tidy o -> printable o ->
    exists c o', plain_content small show o = Ok c /\ load_plain im float_of complex_of c = Ok o' /\ all_but_small o o'.
  Proof.
    destruct orders_ok as (P1 & P2 & P3 & F1 & F2 & F3). destruct (C67_classes K im) as (GQ & _ & GF & _).
    destruct o as [a|a| |]; cbn [OpFileSpec.tidy OpFileSpec.printable]; try contradiction; intros H P.
    - destruct (printed_no_colon Bool.eqb bool_eqb_spec fermion_simplify small symbolic fermion_class float_of complex_of show GF fermi_actions fermi_le F1 F2 F3 a H P) as (s & b & S1 & S2 & S3 & S4).
      eexists. exists (Fermi b). split; [cbn [plain_content]; rewrite S1; reflexivity|]. split; [|exact S4].
      cbn [load_plain]. rewrite split_at_header by (vm_compute; intuition discriminate). rewrite split_no_colon by exact S2. change (text_eqb fermi_name fermi_name) with true. cbn iota. rewrite S3. reflexivity.
    - destruct (printed_no_colon pauli_eqb pauli_eqb_spec (qubit_simplify im) small symbolic qubit_class float_of complex_of show GQ pauli_actions pauli_le P1 P2 P3 a H P) as (s & b & S1 & S2 & S3 & S4).
      eexists. exists (Qubit b). split; [cbn [plain_content]; rewrite S1; reflexivity|]. split; [|exact S4].
      cbn [load_plain]. rewrite split_at_header by (vm_compute; intuition discriminate). rewrite split_no_colon by exact S2. change (text_eqb qubit_name fermi_name) with false.
      change (text_eqb qubit_name qubit_name) with true. cbn iota. rewrite S3. reflexivity.
  Qed.
  Lemma tidy_checked (o : operator) : tidy o -> check_operator symbolic o = Ok tt.
  Proof.
    assert (E : forall A (simplify : term A -> K -> K * term A) cls (a : sop A K), tidy_terms symbolic simplify cls a -> existsb (fun tc => symbolic (snd tc)) a = false).
    { intros A simplify cls a [_ H]. destruct (existsb _ a) eqn:X; [|reflexivity]. apply existsb_exists in X as ([t c] & I & S). destruct (H t c I) as [N _]. cbn in S. congruence. }
    destruct o as [a|a| |]; cbn [OpFileSpec.tidy check_operator]; try contradiction; intros H; erewrite E by exact H; reflexivity.
  Qed.
  Lemma checked (o : operator) name dir allow path (fs : files) : tidy o -> at_path dd name dir path -> dget String.eqb path fs = None \/ allow = true ->
    checked_path symbolic dd fs o (Some name) dir allow = Ok path.
  Proof.
    intros T P D. unfold checked_path. apply path_at in P. rewrite P. cbn [rbind]. rewrite (tidy_checked o T). destruct D as [->| ->]; [reflexivity|]. now rewrite andb_false_r.
  Qed.
  Lemma set_only path c (fs : files) : only path fs (dset String.eqb path c fs).
  Proof. intros p N. now apply (dget_dset_other _ str_ok). Qed.

  (** Saving an operator to a new file, or to an existing one that may be overwritten, changes only that file; loading the file by any name that means it gives the
      operator back, except for the terms with small coefficients, and changes no file. *)
  Theorem C97_packed (o : operator) name dir allow path (fs : files) :
    tidy o -> at_path dd name dir path -> dget String.eqb path fs = None \/ allow = true ->
    exists fs' o', save false o (Some name) dir allow false fs = (fs', Ok tt) /\ only path fs fs' /\ all_but_small o o' /\
      forall name' dir', at_path dd name' dir' path -> load (Some name') dir' false fs' = (fs', Ok o').
  Proof.
    intros T P D. destruct (unpacked o T) as (c & o' & C1 & C2 & C3). eexists. exists o'. split; [|split; [|split; [exact C3|]]].
    - unfold save_operator. rewrite (checked o name dir allow path fs T P D), C1. rewrite dset_twice. reflexivity.
    - apply set_only.
    - intros name' dir' P'. unfold load_operator. apply path_at in P'. rewrite P'. cbn [rbind]. rewrite (dget_dset_same _ str_ok). now rewrite C2.
  Qed.
  (** The same for plain text, if the coefficients are printed exactly and some coefficient is not small. *)
  Theorem C97_plain (o : operator) name dir allow path (fs : files) :
    tidy o -> printable o -> at_path dd name dir path -> dget String.eqb path fs = None \/ allow = true ->
    exists fs' o', save false o (Some name) dir allow true fs = (fs', Ok tt) /\ only path fs fs' /\ all_but_small o o' /\
      forall name' dir', at_path dd name' dir' path -> load (Some name') dir' true fs' = (fs', Ok o').
  Proof.
    intros T PR P D. destruct (unprinted o T PR) as (c & o' & C1 & C2 & C3). eexists. exists o'. split; [|split; [|split; [exact C3|]]].
    - unfold save_operator. rewrite (checked o name dir allow path fs T P D), C1. rewrite dset_twice. reflexivity.
    - apply set_only.
    - intros name' dir' P'. unfold load_operator. apply path_at in P'. rewrite P'. cbn [rbind]. rewrite (dget_dset_same _ str_ok). now rewrite C2.
  Qed.

  (** Without permission an existing file is never written, whatever is saved; the other errors come next, and none changes a file: no name, an operator of another class,
      a coefficient that is an expression. *)
  Theorem C97_refused (o : operator) name dir plain path crash (fs : files) : at_path dd name dir path -> dget String.eqb path fs <> None ->
    save crash o (Some name) dir false plain fs = (fs, Err GenericException).
  Proof.
    intros P D. unfold save_operator, checked_path. apply path_at in P. rewrite P. cbn [rbind]. destruct (dget String.eqb path fs); [reflexivity|contradiction].
  Qed.
  Theorem C97_rejected (o : operator) name dir allow plain path crash (fs : files) : at_path dd name dir path -> dget String.eqb path fs = None \/ allow = true ->
    (o = Interaction -> save crash o (Some name) dir allow plain fs = (fs, Err NotImplementedError)) /\
    (o = OtherObject -> save crash o (Some name) dir allow plain fs = (fs, Err TypeError)) /\
    (forall a, o = Fermi a -> (exists t c, In (t, c) a /\ symbolic c = true) -> save crash o (Some name) dir allow plain fs = (fs, Err TypeError)) /\
    (forall a, o = Qubit a -> (exists t c, In (t, c) a /\ symbolic c = true) -> save crash o (Some name) dir allow plain fs = (fs, Err TypeError)).
  Proof.
    intros P D. apply path_at in P. assert (Q : forall e, check_operator symbolic o = Err e -> save crash o (Some name) dir allow plain fs = (fs, Err e)).
    { intros e C. unfold save_operator, checked_path. rewrite P. cbn [rbind]. rewrite C. destruct D as [->| ->]; [reflexivity|]. now rewrite andb_false_r. }
    split; [intros ->; now apply Q|]. split; [intros ->; now apply Q|].
    assert (X : forall A (a : sop A K), (exists t c, In (t, c) a /\ symbolic c = true) -> existsb (fun tc => symbolic (snd tc)) a = true).
    { intros A a (t & c & I & S). apply existsb_exists. now exists (t, c). }
    split; intros a -> H; apply Q; cbn [check_operator]; now rewrite X.
  Qed.
  Theorem C97_nameless (o : operator) dir allow plain crash (fs : files) name : name = None \/ name = Some ""%string ->
    save crash o name dir allow plain fs = (fs, Err GenericException) /\ load name dir plain fs = (fs, Err GenericException).
  Proof. intros [->| ->]; split; reflexivity. Qed.
  (** Whatever happens in a save, a crash included, no other file changes; without an error (of the checks), only the named file does. *)
  Theorem C97_only (o : operator) name dir allow plain path crash (fs : files) : at_path dd name dir path -> only path fs (fst (save crash o (Some name) dir allow plain fs)).
  Proof.
    intros P. apply path_at in P. unfold save_operator, checked_path. rewrite P. cbn [rbind]. destruct (_ && _); [intros p _; reflexivity|].
    destruct (check_operator symbolic o) as [[]|e]; [|intros p _; reflexivity]. cbn [rbind]. destruct crash; [apply set_only|].
    destruct (if plain then _ else _); cbn [fst]; [rewrite dset_twice|]; apply set_only.
  Qed.
  (** Loading changes no file; a missing file is an error. *)
  Theorem C97_load_keeps name dir plain (fs : files) : fst (load name dir plain fs) = fs /\
    forall path n, name = Some n -> at_path dd n dir path -> dget String.eqb path fs = None -> snd (load name dir plain fs) = Err FileNotFoundError.
  Proof.
    split; [reflexivity|]. intros path n -> P N. apply path_at in P. unfold load_operator. rewrite P. cbn [rbind snd]. now rewrite N.
  Qed.
  (** After a crash during a save, and when the file is read in the other form than it was written, loading raises: never another operator. *)
  Theorem C97_crash (o : operator) name dir allow plain plain' path (fs : files) : tidy o -> at_path dd name dir path -> dget String.eqb path fs = None \/ allow = true ->
    exists fs' e, save true o (Some name) dir allow plain fs = (fs', Err SystemExit) /\ only path fs fs' /\ load (Some name) dir plain' fs' = (fs', Err e).
  Proof.
    intros T P D. unfold save_operator. rewrite (checked o name dir allow path fs T P D). apply path_at in P.
    exists (dset String.eqb path (Bytes []) fs), (if plain' then ValueError else GenericException). split; [reflexivity|]. split; [apply set_only|].
    unfold load_operator. rewrite P. cbn [rbind]. rewrite (dget_dset_same _ str_ok). destruct plain'; reflexivity.
  Qed.
  Theorem C97_wrong_form (o : operator) name dir allow plain path (fs fs' : files) : at_path dd name dir path ->
    save false o (Some name) dir allow plain fs = (fs', Ok tt) -> exists e, load (Some name) dir (negb plain) fs' = (fs', Err e).
  Proof.
    intros P S. apply path_at in P. unfold save_operator in S. destruct (checked_path symbolic dd fs o (Some name) dir allow) as [p|e] eqn:C; [|discriminate].
    assert (p = path).
    { unfold checked_path in C. rewrite P in C. cbn [rbind] in C. destruct (_ && _); [discriminate|]. destruct (check_operator symbolic o); [cbn in C; congruence|discriminate]. }
    subst p. unfold load_operator. rewrite P. cbn [rbind].
    destruct plain; cbn [negb] in *.
    - destruct (plain_content small show o) as [c|e] eqn:E; [|discriminate]. injection S as <-. rewrite (dget_dset_same _ str_ok).
      destruct o as [a|a| |]; cbn [plain_content] in E; try discriminate; destruct (to_text _ _ _ _ _ a); try discriminate; injection E as <-; eexists; reflexivity.
    - destruct (packed_content o) as [c|e] eqn:E; [|discriminate]. injection S as <-. rewrite (dget_dset_same _ str_ok).
      destruct o as [a|a| |]; cbn [packed_content] in E; try discriminate; injection E as <-; eexists; reflexivity.
  Qed.
End C97.

(** ** Examples *)
Section Examples.
  Local Open Scope Z_scope.
  Notation save := (save_operator (K := ZR) zero_int (fun _ => false) show_int "data").
  Notation load := (load_operator (K := ZR) 1 zero_int int_of no_complex "data").
  Definition xo : operator (K := ZR) := Fermi xf.
  Example a_file : at_path "data" "h2" None "data/h2.data" /\ at_path "data" "h2.data" (Some "data"%string) "data/h2.data".
  Proof. split; apply path_at; reflexivity. Qed.
  Example hypotheses : tidy (K := ZR) 1 (fun _ => false) xo /\ printable zero_int int_of no_complex show_int xo.
  Proof.
    destruct round_trip_hypotheses as (W & X & H). split.
    - split; [exact W|]. intros t c I. split; [reflexivity|]. split; [intros c'; reflexivity|]. intros [i []] _; cbn; auto.
    - split; [exact X|]. intros t c I N. split; [now apply H in I|]. destruct I as [[= <- <-]|[[= <- <-]|[[= <- <-]|[[= <- <-]|[]]]]]; vm_compute; intuition discriminate.
  Qed.
  Example saved : let '(fs, r) := save false xo (Some "h2"%string) None false true [] in r = Ok tt /\
    snd (load (Some "h2.data"%string) None true fs) = Ok (Fermi (K := ZR) [([], -1); ([(0%nat, true)], 12); ([(2%nat, true); (0%nat, false)], 5)]) /\
    save false xo (Some "h2"%string) None false true fs = (fs, Err GenericException) /\ snd (save false xo (Some "h2"%string) None true false fs) = Ok tt.
  Proof. vm_compute. repeat split; reflexivity. Qed.
  (** As plain text the zero operator is not itself: the fermionic one is loaded as the annihilation operator of mode 0, the qubit one cannot be loaded;
      and an operator with small coefficients only is loaded as the identity.  With marshal they all come back. *)
  Theorem C97_zero_refuted :
    (let '(fs, r) := save false (Fermi []) (Some "z"%string) None false true [] in r = Ok tt /\ snd (load (Some "z"%string) None true fs) = Ok (Fermi (K := ZR) [([(0%nat, false)], 1)])) /\
    (let '(fs, r) := save false (Qubit []) (Some "z"%string) None false true [] in r = Ok tt /\ snd (load (Some "z"%string) None true fs) = Err ValueError) /\
    (let '(fs, r) := save false (Qubit (K := ZR) [([(0%nat, Px)], 0)]) (Some "z"%string) None false true [] in r = Ok tt /\ snd (load (Some "z"%string) None true fs) = Ok (Qubit (K := ZR) [([], 1)])) /\
    (let '(fs, r) := save false (Fermi []) (Some "z"%string) None false false [] in r = Ok tt /\ snd (load (Some "z"%string) None false fs) = Ok (Fermi (K := ZR) [])).
  Proof. vm_compute. repeat split; reflexivity. Qed.
  (** Overwriting is not atomic: after a crash the old operator is lost. *)
  Theorem C97_crash_refuted :
    let '(fs, r) := save false xo (Some "h2"%string) None false false [] in r = Ok tt /\
    snd (load (Some "h2"%string) None false (fst (save true xo (Some "h2"%string) None true false fs))) = Err GenericException.
  Proof. vm_compute. repeat split; reflexivity. Qed.
End Examples.
Print Assumptions C97_packed.
Print Assumptions C97_plain.
