(** C67: the text form of operators. *)
From Coq Require Import String Ascii ZArith Lia Permutation Sorting.Sorted.
From Verif Require Import Base BaseFacts MatModel GateMatProps GaussZ OpModel OpProofs PauliProofs EstProofs3 SymModel SymSpec SymProofs OpSpec OpTextModel OpTextSpec OpTextProofs OpTextProofs2 OpTextProofs3 UtilsModel DistModel.
Open Scope list_scope.
Local Open Scope nat_scope.

Lemma filter_permutes {X} (p : X -> bool) l l' : Permutation l l' -> Permutation (filter p l) (filter p l').
Proof.
  induction 1 as [|x l l' P IH|x y l|l l' l'' P1 IH1 P2 IH2]; cbn [filter].
  - constructor.
  - destruct (p x); [constructor|]; exact IH.
  - destruct (p x), (p y); try apply Permutation_refl. constructor.
  - eapply Permutation_trans; eauto.
Qed.

Section C67.
  Context {K : cring} {A : Type} (aeqb : A -> A -> bool) (aeq : eqb_spec_of aeqb) (simplify : term A -> K -> K * term A) (small : K -> bool) (cls : op_class A).
  Context (float_of complex_of : text -> option K) (show : K -> text) (G : good_class cls).
  Notation op := (sop A K).
  Notation construct := (construct aeqb simplify cls float_of complex_of).

  (** A text without brackets is a term: words that name factors, with any white space between them; anything else is a ValueError. *)
  Theorem C67_term_text (s : text) c : ~ In "["%char s ->
    (forall t, term_written cls s t -> construct (TermText s) c = Ok [(snd (simplify t c), fst (simplify t c))]) /\
    ((forall t, ~ term_written cls s t) -> construct (TermText s) c = Err ValueError).
  Proof.
    intros N. unfold OpTextModel.construct. destruct (memb Ascii.eqb "["%char s) eqn:E; [apply (memb_In _ ascii_eqb_spec) in E; contradiction|]. split.
    - intros t H. apply (parse_string_iff cls G) in H. rewrite H. cbn [rbind]. unfold mk_op. now destruct (simplify t c).
    - intros H. destruct (parse_string cls s) as [t|e] eqn:P; cbn [rbind].
      + exfalso. apply (H t). now apply (parse_string_iff cls G).
      + apply parse_string_err in P. now subst e.
  Qed.
  (** The term of a text is unique. *)
  Theorem C67_term_unique s t u : term_written cls s t -> term_written cls s u -> t = u.
  Proof. intros H1 H2. apply (parse_string_iff cls G) in H1, H2. rewrite H1 in H2. now injection H2. Qed.

  (** A text with bracketed terms is the sum of the pieces: each coefficient (times the given one) and term simplified, equal terms added, no other terms;
      what stands after the last bracket does not count. *)
  Theorem C67_sum (ps : list (text * text)) (cts : list (K * term A)) (tail : text) c0 :
    ps <> [] -> (forall p, In p ps -> ~ In "["%char (fst p) /\ ~ In "]"%char (snd p)) -> ~ In "["%char tail ->
    Forall2 (fun p ct => coefficient_written float_of complex_of (fst p) (fst ct) /\ term_written cls (snd p) (snd ct)) ps cts ->
    exists b, construct (TermText (pieces_text ps ++ tail)) c0 = Ok b /\ wf_op b /\
      let parts := map (fun ct => simplify (snd ct) (kmul (fst ct) c0)) cts in
      (forall t, coef aeqb b t = total aeqb parts t) /\ forall t, In t (dkeys b) <-> In t (map snd parts).
  Proof.
    intros N B T F. pose proof (construct_pieces aeqb simplify cls float_of complex_of G c0 ps cts tail N B T F) as E. eexists. split; [exact E|]. split; [|split].
    - apply (fold_wf aeqb aeq). constructor.
    - intros t. rewrite (fold_coef aeqb aeq). unfold contribution. unfold coef. cbn [dget]. destruct (kth K) as [L _ _ _ _ _ _ _ _]. apply L.
    - intros t. rewrite (fold_keys aeqb aeq). cbn. tauto.
    Unshelve. all: exact simplify.
  Qed.
  (** A coefficient that is no number or a bracket that is no term makes the constructor raise. *)
  Theorem C67_sum_invalid (ps : list (text * text)) (tail : text) c0 :
    ps <> [] -> (forall p, In p ps -> ~ In "["%char (fst p) /\ ~ In "]"%char (snd p)) -> ~ In "["%char tail ->
    (exists p, In p ps /\ ((forall c, ~ coefficient_written float_of complex_of (fst p) c) \/ forall t, ~ term_written cls (snd p) t)) ->
    construct (TermText (pieces_text ps ++ tail)) c0 = Err ValueError.
  Proof.
    intros N B T (p & Hp & D). apply (construct_pieces_err aeqb simplify cls float_of complex_of G); auto. exists p. split; [exact Hp|]. intros ct [R1 R2].
    destruct D as [D|D]; [now apply (D (fst ct))|now apply (D (snd ct))].
  Qed.

  (** A sequence: one factor, or a sequence of factors; nothing else is accepted. *)
  Theorem C67_sequence (l : list atom) c :
    (forall t, sequence_of cls l t -> construct (TermSeq l) c = Ok [(snd (simplify t c), fst (simplify t c))]) /\
    ((forall t, ~ sequence_of cls l t) -> exists e, construct (TermSeq l) c = Err e /\ (e = ValueError \/ e = TypeError)).
  Proof.
    unfold OpTextModel.construct. split.
    - intros t H. apply parse_sequence_iff in H. rewrite H. cbn [rbind]. unfold mk_op. now destruct (simplify t c).
    - intros H. destruct (parse_sequence cls l) as [t|e] eqn:P; cbn [rbind].
      + exfalso. apply (H t). now apply parse_sequence_iff.
      + exists e. split; [reflexivity|]. assert (M : forall l, mapM (validate_factor cls) l = Err e -> e = ValueError \/ e = TypeError).
        { intros l' X. apply mapM_err in X as (x & _ & X). apply validate_err in X. tauto. }
        unfold parse_sequence in P. destruct l as [|x l]; [discriminate|]. destruct x; try (eapply M; exact P).
        destruct (validate_factor cls (ASeq _)) as [f|e'] eqn:V; cbn [rbind] in P; [discriminate|]. injection P as ->. apply validate_err in V. tauto.
  Qed.

  Section Printing.
    Context (aleb : A -> A -> bool) (tot : forall a b, aleb a b = true \/ aleb b a = true) (tra : forall a b c, aleb a b = true -> aleb b c = true -> aleb a c = true)
      (anti : forall a b, aleb a b = true -> aleb b a = true -> a = b).
    Notation to_text := (to_text aeqb small cls show aleb).
    Notation not_small := (fun tc : term A * K => negb (small (snd tc))).
    (** The printed form: a line for each term whose coefficient is not small, in the order of tuples, with a plus sign and a line break in between. *)
    Theorem C67_printed (a : op) : a <> [] -> wf_op a ->
      (forall t c, In (t, c) a -> small c = false -> (exists x r, show c = x :: r /\ is_space x = false) /\ forall f, In f t -> In (snd f) (actions cls)) ->
      exists items lines, Permutation items (filter not_small a) /\ StronglySorted (term_before (fun x y => aleb x y = true /\ x <> y)) (map fst items) /\
        Forall2 (line_printed cls show) lines items /\ to_text a = Ok (joined [" "; "+"; "010"]%char lines).
    Proof.
      intros N W H. destruct (to_text_known aeqb aeq small cls float_of complex_of show aleb G a N H) as (wss & L1 & L2 & L3). eexists. eexists. split; [|split; [|split; [|exact L1]]].
      - apply filter_permutes, sort_by_perm.
      - apply sorted_items; [exact aeq|exact tot|exact tra|exact anti|exact W].
      - clear L1. set (items := filter _ _) in *. clearbody items. revert wss L2 L3. induction items as [|[t c] items IH]; intros [|ws wss] L2 L3; try discriminate; cbn [combine map]; [constructor|].
        inversion L3 as [|? ? ? ? (X1 & X2 & X3) X4]; subst. constructor; [|apply IH; auto]. exists ws. split; [exact X1|reflexivity].
    Qed.
    (** Reading the printed form gives the operator back (times the given coefficient), except for the terms with small coefficients,
        if the terms are simplified and the coefficients are printed exactly. *)
    Theorem C67_round_trip (a : op) c0 : wf_op a -> (exists t c, In (t, c) a /\ small c = false) ->
      (forall t c, In (t, c) a -> small c = false -> printed_exactly float_of complex_of show c /\ simplified simplify t /\ forall f, In f t -> In (snd f) (actions cls)) ->
      exists s b, to_text a = Ok s /\ construct (TermText s) c0 = Ok b /\ Permutation b (map (fun tc => (fst tc, kmul (snd tc) c0)) (filter not_small a)).
    Proof.
      intros W (t & c & T1 & T2) H.
      destruct (round_trip aeqb aeq simplify small cls float_of complex_of show aleb G a c0 W) as (s & R1 & R2); [|exact H|].
      - exists (t, c). split; [exact T1|]. unfold OpTextProofs2.not_small. cbn [snd]. now rewrite T2.
      - exists s. eexists. split; [exact R1|]. split; [exact R2|]. apply Permutation_map.
        apply filter_permutes, sort_by_perm.
    Qed.
  End Printing.
End C67.

(** The three classes satisfy what is needed, and these are their simplified terms. *)
Theorem C67_classes (K : cring) (im : K) : good_class qubit_class /\ good_class ising_class /\ good_class fermion_class /\
  (forall t, canonical t -> simplified (qubit_simplify im) t) /\ (forall t, StronglySorted lt (map fst t) -> simplified (K := K) ising_simplify t) /\
  forall t, simplified (K := K) fermion_simplify t.
Proof.
  split; [exact good_qubit|]. split; [exact good_ising|]. split; [exact good_fermion|]. split; [|split].
  - intros t H c. now apply canonical_simplify.
  - intros t H c. now apply (ising_simplify_sorted (fun _ => false)).
  - intros t c. reflexivity.
Qed.

(** What separates words: tab, line feed, vertical tab, form feed, carriage return, the four separators 28-31 and the space. *)
Theorem C67_white_space (x : ascii) : is_space x = true <-> In (nat_of_ascii x) [9; 10; 11; 12; 13; 28; 29; 30; 31; 32].
Proof.
  assert (G : is_space x = memb Nat.eqb (nat_of_ascii x) [9; 10; 11; 12; 13; 28; 29; 30; 31; 32]) by (destruct x as [[] [] [] [] [] [] [] []]; vm_compute; reflexivity).
  rewrite G. apply (memb_In _ nat_eqb_spec).
Qed.
(** The actions in sequences: "X", "Y" and "Z" for qubits, "Z" for Ising operators, 1 (creation) and 0 (annihilation) for fermions, nothing else; in texts
    "^" is creation and nothing is annihilation. *)
Theorem C67_actions (x : atom) :
  (forall p, action_of qubit_class x = Some p <-> (p, x) = (Px, AText ["X"%char]) \/ (p, x) = (Py, AText ["Y"%char]) \/ (p, x) = (Pz, AText ["Z"%char])) /\
  (forall z, action_of ising_class x = Some z <-> x = AText ["Z"%char]) /\
  (forall d : bool, action_of fermion_class x = Some d <-> x = AInt (if d then 1 else 0)) /\
  combine (actions qubit_class) (action_strings qubit_class) = [(Px, ["X"]); (Py, ["Y"]); (Pz, ["Z"])]%char /\
  combine (actions ising_class) (action_strings ising_class) = [(ZZ, ["Z"])]%char /\
  combine (actions fermion_class) (action_strings fermion_class) = [(true, ["^"]); (false, [])]%char.
Proof.
  assert (T : forall s t : text, text_eqb s t = true <-> s = t) by (intros; apply list_eqb_spec; intros a b; apply Ascii.eqb_eq).
  repeat apply conj; try reflexivity.
  - intros p. split; [|intros [E|[E|E]]; inversion E; reflexivity]. destruct x; try discriminate. cbn [action_of qubit_class dget fst snd].
    destruct (text_eqb s ["X"]%char) eqn:E1; [apply T in E1; intros H; inversion H; subst; auto|].
    destruct (text_eqb s ["Y"]%char) eqn:E2; [apply T in E2; intros H; inversion H; subst; auto|].
    destruct (text_eqb s ["Z"]%char) eqn:E3; [apply T in E3; intros H; inversion H; subst; auto|discriminate].
  - intros z. split; [|intros ->; destruct z; reflexivity]. destruct x; try discriminate. cbn [action_of ising_class dget fst snd].
    destruct (text_eqb s ["Z"]%char) eqn:E3; [apply T in E3; intros _; subst; reflexivity|discriminate].
  - intros d. split; [|intros ->; destruct d; reflexivity]. destruct x; try discriminate. cbn [action_of fermion_class].
    destruct (Z.eqb_spec z 1); [intros H; inversion H; subst; reflexivity|]. destruct (Z.eqb_spec z 0); [intros H; inversion H; subst; reflexivity|discriminate].
Qed.
(** No term is the zero operator; anything but None, a string, a list or a tuple is refused. *)
Theorem C67_other_arguments {K : cring} {A} (aeqb : A -> A -> bool) simplify (cls : op_class A) (float_of complex_of : text -> option K) c :
  construct aeqb simplify cls float_of complex_of NoTerm c = Ok [] /\ construct aeqb simplify cls float_of complex_of OtherTerm c = Err ValueError.
Proof. split; reflexivity. Qed.

(** ** Examples *)
Section Examples.
  Local Open Scope Z_scope.
  (** Integers in place of floating-point numbers. *)
  Definition show_int (z : ZR) : text := text_of (str_of_int z).
  Definition int_of (s : text) : option ZR := match int_of_string (string_of_list_ascii s) with Ok z => Some z | Err _ => None end.
  Definition no_complex (s : text) : option ZR := None.
  Definition zero_int (z : ZR) : bool := Z.eqb z 0.
  Definition fleb (a b : bool) : bool := implb a b.
  Definition pleb (a b : pauli) : bool := match a, b with Pid, _ | Px, Px | Px, Py | Px, Pz | Py, Py | Py, Pz | Pz, Pz => true | _, _ => false end.
  Definition xf : fop ZR := [([(2%nat, true); (0%nat, false)], 5); ([], -1); ([(1%nat, false)], 0); ([(0%nat, true)], 12)].
  Definition nl : string := String "010"%char "".
  Example printed_fermion : to_text Bool.eqb zero_int fermion_class show_int fleb xf = Ok (text_of ("-1 [] +" ++ nl ++ "12 [0^] +" ++ nl ++ "5 [2^ 0]")).
  Proof. vm_compute. reflexivity. Qed.
  Example read_fermion : construct Bool.eqb fermion_simplify fermion_class int_of no_complex (TermText (text_of ("-1 [] +" ++ nl ++ "12 [0^] +" ++ nl ++ "5 [2^ 0]"))) 2 =
    Ok [([], -2); ([(0%nat, true)], 24); ([(2%nat, true); (0%nat, false)], 10)].
  Proof. vm_compute. reflexivity. Qed.
  Lemma show_int_exact z : memb Z.eqb z [5; -1; 12; 3; 7] = true -> printed_exactly int_of no_complex show_int z.
  Proof.
    intros H. unfold memb in H. cbn [existsb] in H. rewrite !orb_true_iff, !Z.eqb_eq in H.
    assert (D : forall z, forallb (fun c => negb (is_space c)) (show_int z) && forallb (fun c => negb (Ascii.eqb c "[")) (show_int z) && forallb (fun c => negb (Ascii.eqb c "j")) (show_int z) &&
      negb (Ascii.eqb (hd " "%char (show_int z)) "+") && negb (list_eqb Ascii.eqb (show_int z) []) && negb (list_eqb Ascii.eqb (show_int z) ["-"%char]) && match int_of (show_int z) with Some y => Z.eqb y z | None => false end = true ->
      printed_exactly int_of no_complex show_int z).
    { clear. intros z H. rewrite !andb_true_iff in H. destruct H as ((((((H1 & H2) & H3) & H4) & H5) & H6) & H7). rewrite forallb_forall in H1, H2, H3. apply negb_true_iff in H4, H5, H6.
      split; [intros c Hc; apply H1 in Hc; now apply negb_true_iff in Hc|]. split; [intros Hc; apply H2 in Hc; discriminate|]. split; [intros E; rewrite E in H4; discriminate|].
      apply nw_real.
      - intros E. rewrite E in H5. discriminate.
      - intros E. rewrite E in H6. discriminate.
      - intros Hc. apply H3 in Hc. discriminate.
      - destruct (int_of (show_int z)) as [y|]; [|discriminate]. apply Z.eqb_eq in H7. now subst. }
    destruct H as [->|[->|[->|[->|[->|H]]]]]; [..|discriminate]; apply D; vm_compute; reflexivity.
  Qed.
  Example round_trip_hypotheses : wf_op xf /\ (exists t c, In (t, c) xf /\ zero_int c = false) /\
    forall t c, In (t, c) xf -> zero_int c = false -> printed_exactly int_of no_complex show_int c /\ simplified (K := ZR) fermion_simplify t /\ forall f, In f t -> In (snd f) (actions fermion_class).
  Proof.
    split; [|split].
    - unfold wf_op, xf. cbn [dkeys map fst]. repeat (constructor; [cbn; intuition discriminate|]). constructor.
    - exists [], (-1). split; [right; now left|reflexivity].
    - assert (F : forall f : factor bool, In (snd f) (actions fermion_class)) by (intros [i []]; cbn; auto).
      intros t c I S. split; [|split; [intros c'; reflexivity|intros f _; apply F]].
      destruct I as [[= <- <-]|[[= <- <-]|[[= <- <-]|[[= <- <-]|[]]]]]; first [now apply show_int_exact|discriminate].
  Qed.

  Example orders : (forall a b, pleb a b = true \/ pleb b a = true) /\ (forall a b c, pleb a b = true -> pleb b c = true -> pleb a c = true) /\ (forall a b, pleb a b = true -> pleb b a = true -> a = b) /\
    (forall a b, fleb a b = true \/ fleb b a = true) /\ (forall a b c, fleb a b = true -> fleb b c = true -> fleb a c = true) /\ (forall a b, fleb a b = true -> fleb b a = true -> a = b).
  Proof.
    repeat apply conj; [intros [] []|intros [] [] []|intros [] []|intros [] []|intros [] [] []|intros [] []]; cbn; auto; discriminate.
  Qed.

  (** Complex coefficients, with Gaussian integers: str gives (a+bj). *)
  Definition show_gauss (c : GZ) : text := text_of ("(" ++ str_of_int (fst c) ++ (if snd c <? 0 then "" else "+") ++ str_of_int (snd c) ++ "j)").
  Definition split_sign (s : text) : option (text * text) :=
    match s with
    | [] => None
    | c :: r => match until "+" r with Some (a, b) => Some (c :: a, b) | None => match until "-" r with Some (a, b) => Some (c :: a, "-"%char :: b) | None => None end end
    end.
  Definition gauss_of (s : text) : option GZ :=
    match s with
    | "("%char :: r => match split_sign (firstn (length r - 2) r) with Some (a, b) => match int_of a, int_of b with Some x, Some y => Some (x, y) | _, _ => None end | None => None end
    | _ => None
    end.
  Definition real_gauss (s : text) : option GZ := option_map (fun z : Z => (z, 0)) (int_of s).
  Definition xq : qop GZ := [([(3%nat, Pz); (10%nat, Px)], (1, -2)); ([(0%nat, Py)], (-3, 4))].
  Example complex_round_trip :
    to_text pauli_eqb gz_zero qubit_class show_gauss pleb xq = Ok (text_of ("(-3+4j) [Y0] +" ++ nl ++ "(1-2j) [Z3 X10]")) /\
    construct pauli_eqb (qubit_simplify gi) qubit_class real_gauss gauss_of (TermText (text_of ("(-3+4j) [Y0] +" ++ nl ++ "(1-2j) [Z3 X10]"))) (1, 0) = Ok [([(0%nat, Py)], (-3, 4)); ([(3%nat, Pz); (10%nat, Px)], (1, -2))].
  Proof. split; vm_compute; reflexivity. Qed.
  (** Other forms: an omitted coefficient, a lone sign, a repeated term, a negated complex number, white space, leading zeros, a product of equal indices. *)
  Example other_forms :
    construct pauli_eqb (qubit_simplify gi) qubit_class real_gauss gauss_of (TermText (text_of "[X0 Z1] - [Y02 ] +  3 [ Z1   X0 ] -(1+2j) [] + 5[X1 Y1] and so on")) (1, 0) =
    Ok [([(0%nat, Px); (1%nat, Pz)], (4, 0)); ([(2%nat, Py)], (-1, 0)); ([], (-1, -2)); ([(1%nat, Pz)], (0, 5))].
  Proof. vm_compute. reflexivity. Qed.
  Example rejected : map (fun s => construct pauli_eqb (qubit_simplify gi) qubit_class real_gauss gauss_of (TermText (text_of s)) (1, 0)) ["X"; "X-1"; "0X"; "A0"; "X0,X1"; "zz [X0]"; "1 [X0 Q1]"]%string =
    repeat (Err ValueError) 7.
  Proof. vm_compute. reflexivity. Qed.
  Example sequences : construct pauli_eqb (qubit_simplify gi) qubit_class real_gauss gauss_of (TermSeq [ASeq [AInt 4; AText ["X"%char]]; ASeq [AInt 2; AText ["Y"%char]]]) (2, 0) = Ok [([(2%nat, Py); (4%nat, Px)], (2, 0))] /\
    construct pauli_eqb (qubit_simplify gi) qubit_class real_gauss gauss_of (TermSeq [AInt 4; AText ["X"%char]]) (2, 0) = Ok [([(4%nat, Px)], (2, 0))] /\
    construct Bool.eqb fermion_simplify fermion_class real_gauss gauss_of (TermSeq [ASeq [AInt 4; AInt 1]; ASeq [AInt 4; AInt 0]]) (2, 0) = Ok [([(4%nat, true); (4%nat, false)], (2, 0))] /\
    construct Bool.eqb fermion_simplify fermion_class real_gauss gauss_of (TermSeq [ASeq [AInt (-4); AInt 1]]) (2, 0) = Err ValueError.
  Proof. repeat split; vm_compute; reflexivity. Qed.

  (** The empty operator prints as 0: that text is the annihilation operator of mode 0 for fermions, and no operator for qubits. *)
  Theorem C67_zero_refuted :
    to_text Bool.eqb zero_int fermion_class show_int fleb [] = Ok (text_of "0") /\
    construct Bool.eqb fermion_simplify fermion_class int_of no_complex (TermText (text_of "0")) 1 = Ok [([(0%nat, false)], 1)] /\
    to_text pauli_eqb zero_int qubit_class show_int pleb [] = Ok (text_of "0") /\
    construct pauli_eqb (qubit_simplify (K := ZR) 1) qubit_class int_of no_complex (TermText (text_of "0")) 1 = Err ValueError.
  Proof. repeat split; vm_compute; reflexivity. Qed.
  (** An operator whose coefficients are all small prints as the empty text, which is the identity. *)
  Theorem C67_small_refuted :
    to_text pauli_eqb zero_int qubit_class show_int pleb [([(3%nat, Pz)], 0%Z : ZR)] = Ok [] /\
    construct pauli_eqb (qubit_simplify (K := ZR) 1) qubit_class int_of no_complex (TermText []) 1 = Ok [([], 1)].
  Proof. split; vm_compute; reflexivity. Qed.
  (** A last bracket that is not closed is dropped without an error. *)
  Theorem C67_unclosed_refuted :
    construct pauli_eqb (qubit_simplify (K := ZR) 1) qubit_class int_of no_complex (TermText (text_of "3 [X0] + 7 [X1")) 1 = Ok [([(0%nat, Px)], 3)].
  Proof. vm_compute. reflexivity. Qed.
End Examples.

Print Assumptions C67_term_text.
Print Assumptions C67_sum.
Print Assumptions C67_sum_invalid.
Print Assumptions C67_sequence.
Print Assumptions C67_printed.
Print Assumptions C67_round_trip.
Print Assumptions C67_classes.
