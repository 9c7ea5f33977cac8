(** Proofs about helpers for qubit operators: vectors of labels. *)
From Coq Require Import String Ascii ZArith Lia Ring.
From Verif Require Import Base BaseFacts MatModel OpModel OpSpec OpProofs PauliProofs SymModel SymSpec SymProofs OpTextModel OpTextSpec OpTextProofs OpTextProofs2 OpTextProofs3 AnsatzModel AnsatzProofs LayoutProofs FermiSpec FermiProofs7 GaussQ QopUtilModel QopUtilSpec.
Open Scope list_scope.
Local Open Scope nat_scope.

Definition letter_of (e : Z) : option pauli := if Z.eqb e 1 then Some Px else if Z.eqb e 2 then Some Py else if Z.eqb e 3 then Some Pz else None.
Lemma letter_of_iff e p : letter_of e = Some p <-> p <> Pid /\ e = letter_code p.
Proof.
  unfold letter_of. destruct (Z.eqb_spec e 1), (Z.eqb_spec e 2), (Z.eqb_spec e 3); subst; split.
  all: try (intros [= <-]; split; [discriminate|reflexivity]).
  all: try discriminate.
  all: destruct p; cbn [letter_code]; intros [H1 H2]; try congruence; try lia; try reflexivity.
Qed.
Fixpoint lterm (s : nat) (label : list Z) : term pauli :=
  match label with [] => [] | e :: l => match letter_of e with Some p => (s, p) :: lterm (S s) l | None => lterm (S s) l end end.
Lemma lterm_In label : forall s q p, In (q, p) (lterm s label) <-> (p <> Pid /\ s <= q /\ nth_error label (q - s) = Some (letter_code p)).
Proof.
  induction label as [|e l IH]; intros s q p; cbn [lterm].
  - split; [intros []|]. intros (_ & _ & H). destruct (q - s); discriminate.
  - assert (X : In (q, p) (lterm (S s) l) <-> (p <> Pid /\ s < q /\ nth_error (e :: l) (q - s) = Some (letter_code p))).
    { rewrite IH. split; intros (H1 & H2 & H3); (split; [exact H1|]; split; [lia|]).
      - replace (q - s) with (S (q - S s)) by lia. exact H3.
      - replace (q - s) with (S (q - S s)) in H3 by lia. exact H3. }
    assert (Y : letter_of e = Some p <-> (p <> Pid /\ nth_error (e :: l) (s - s) = Some (letter_code p))).
    { rewrite letter_of_iff, Nat.sub_diag. cbn [nth_error]. split; intros [H1 H2]; (split; [exact H1|congruence]). }
    destruct (letter_of e) as [p'|] eqn:E.
    + cbn [In]. rewrite X. split.
      * intros [[= <- <-]|(H1 & H2 & H3)]; [destruct (proj1 Y eq_refl) as [Y1 Y2]; auto|split; [exact H1|split; [lia|exact H3]]].
      * intros (H1 & H2 & H3). destruct (Nat.eq_dec s q) as [<-|Ne].
        -- left. pose proof (proj2 Y (conj H1 H3)) as Y1. congruence.
        -- right. split; [exact H1|split; [lia|exact H3]].
    + rewrite X. split; intros (H1 & H2 & H3); (split; [exact H1|split; [|exact H3]]); [lia|].
      destruct (Nat.eq_dec s q) as [<-|Ne]; [|lia]. pose proof (proj2 Y (conj H1 H3)). discriminate.
Qed.
Lemma lterm_canonical label : forall s, canonical (lterm s label).
Proof.
  induction label as [|e l IH]; intros s; cbn [lterm]; [exact I|]. destruct (letter_of e) as [p|] eqn:E; [|apply IH].
  apply canonical_cons_intro; [now apply letter_of_iff in E as [? _]| |apply IH]. intros [q p'] Hg. apply lterm_In in Hg. cbn [fst]. lia.
Qed.
Lemma canonical_same (t : term pauli) : forall u, canonical t -> canonical u -> (forall f, In f t <-> In f u) -> t = u.
Proof.
  induction t as [|f t IH]; intros u Ct Cu H.
  - destruct u as [|g u]; [reflexivity|]. exfalso. apply (proj2 (H g)). now left.
  - destruct u as [|g u]; [exfalso; apply (proj1 (H f)); now left|].
    pose proof (canonical_head f t Ct) as Hf. pose proof (canonical_head g u Cu) as Hg.
    assert (E : f = g).
    { destruct (proj1 (H f) (or_introl eq_refl)) as [->|F]; [reflexivity|]. destruct (proj2 (H g) (or_introl eq_refl)) as [->|F']; [reflexivity|].
      specialize (Hg f F). specialize (Hf g F'). lia. }
    subst g. f_equal. apply IH.
    + now destruct Ct as (_ & _ & ?).
    + now destruct Cu as (_ & _ & ?).
    + intros x. split; intros Hx.
      * destruct (proj1 (H x) (or_intror Hx)) as [->|F]; [|exact F]. specialize (Hf x Hx). lia.
      * destruct (proj2 (H x) (or_intror Hx)) as [->|F]; [|exact F]. specialize (Hg x Hx). lia.
Qed.
Lemma string_of_label_iff label t : string_of_label label t <-> t = lterm 0 label.
Proof.
  assert (S0 : string_of_label label (lterm 0 label)).
  { split; [apply lterm_canonical|]. intros q p. rewrite lterm_In, Nat.sub_0_r. split; [tauto|intros [? ?]; auto with arith]. }
  split; [|intros ->; exact S0]. intros [C H]. destruct S0 as [C0 H0]. apply canonical_same; auto. intros [q p]. rewrite H, H0. reflexivity.
Qed.

(** The text of a label is read as its Pauli string. *)
Definition word_of (f : factor pauli) : text := (match snd f with Px => "X"%char | Py => "Y"%char | _ => "Z"%char end) :: digits_of_index (fst f).
Lemma label_text_words label : label_text label = concat (map (fun w => w ++ [" "%char]) (map word_of (lterm 0 label))).
Proof.
  unfold label_text. generalize 0. induction label as [|e l IH]; intros s; [reflexivity|]. cbn [length seq combine flat_map lterm].
  rewrite IH. unfold letter_of. destruct (Z.eqb_spec e 1), (Z.eqb_spec e 2), (Z.eqb_spec e 3); subst; try lia; cbn [map concat word_of snd fst]; reflexivity.
Qed.
Lemma word_text f : snd f <> Pid -> factor_text pauli_eqb qubit_class f = Ok (word_of f).
Proof. destruct f as [q []]; cbn [snd]; intros H; try congruence; reflexivity. Qed.
Lemma words_of_line fs : Forall good_word fs -> words (concat (map (fun w => w ++ [" "%char]) fs)) [] = fs.
Proof.
  induction 1 as [|w fs (H1 & H2 & _) F IH]; [reflexivity|]. cbn [map concat]. rewrite <- app_assoc. rewrite words_run by exact H2. cbn [app words]. change (is_space " ") with true. cbv iota.
  destruct w as [|c w]; [congruence|]. now rewrite IH.
Qed.
Lemma label_words label : Forall good_word (map word_of (lterm 0 label)).
Proof.
  apply Forall_forall. intros w Hw. apply in_map_iff in Hw as ([q p] & <- & Hf). apply lterm_In in Hf as (Hp & _ & _).
  eapply (factor_text_word (K := GQ) pauli_eqb pauli_eqb_spec qubit_class (fun _ => None) (fun _ => None) good_qubit (q, p)). apply word_text. exact Hp.
Qed.
Lemma label_parse label : parse_string qubit_class (label_text label) = Ok (lterm 0 label).
Proof.
  unfold parse_string. rewrite label_text_words, (words_of_line _ (label_words label)).
  assert (X : forall f, In f (lterm 0 label) -> snd f <> Pid) by (intros [q p] Hf; apply lterm_In in Hf; cbn [snd]; tauto).
  revert X. generalize (lterm 0 label) as t. induction t as [|f t IH]; intros X; [reflexivity|]. cbn [map mapM].
  assert (E : parse_factor qubit_class (word_of f) = Ok f).
  { apply (parse_factor_iff qubit_class good_qubit). eapply (factor_text_word (K := GQ) pauli_eqb pauli_eqb_spec qubit_class (fun _ => None) (fun _ => None) good_qubit f). apply word_text. apply X. now left. }
  rewrite E. cbn [rbind]. rewrite IH by (intros; apply X; now right). reflexivity.
Qed.
Lemma label_no_bracket label : memb Ascii.eqb "["%char (label_text label) = false.
Proof.
  destruct (memb Ascii.eqb "["%char (label_text label)) eqn:E; [|reflexivity]. exfalso. apply (memb_In _ ascii_eqb_spec) in E.
  rewrite label_text_words in E. apply in_concat in E as (x & Hx & Hin). apply in_map_iff in Hx as (w & <- & Hw). apply in_map_iff in Hw as (f & <- & Hf).
  apply in_app_iff in Hin as [Hin|[Hin|[]]]; [|discriminate]. unfold word_of in Hin. destruct Hin as [Hin|Hin]; [destruct (snd f); discriminate|].
  destruct (str_numeral (fst f)) as [[_ N2] _]. specialize (N2 _ Hin). discriminate.
Qed.

Section Labels.
  Context {K : cring} (im : K) (small : K -> bool) (float_of complex_of : text -> option K).
  Add Ring Kring_ql : (kth K).
  Open Scope K_scope.
  Notation from_labels := (get_qubitop_from_coeffs_and_labels im small float_of complex_of).
  Lemma label_operator label : construct pauli_eqb (qubit_simplify im) qubit_class float_of complex_of (TermText (label_text label)) 1 = Ok [(lterm 0 label, 1)].
  Proof.
    unfold construct. rewrite label_no_bracket, label_parse. cbn [rbind]. unfold mk_op. rewrite canonical_simplify by apply lterm_canonical. reflexivity.
  Qed.
  Definition lsteps (o : qop K) (l : list (K * term pauli)) : qop K := fold_left (fun o ct => op_add pauli_eqb small o [(snd ct, 1 * fst ct)]) l o.
  Lemma labels_run coeffs labels : length labels <= length coeffs -> from_labels coeffs labels = Ok (lsteps [] (combine coeffs (map (lterm 0) labels))).
  Proof.
    unfold get_qubitop_from_coeffs_and_labels. intros L.
    enough (G : forall pre o, foldM (fun (output : qop K) (il : nat * list Z) =>
      match nth_error (pre ++ coeffs) (fst il) with
      | None => Err IndexError
      | Some c =>
          let! o := construct pauli_eqb (qubit_simplify im) qubit_class float_of complex_of (TermText (label_text (snd il))) 1 in
          Ok (op_add pauli_eqb small output (op_scale o c))
      end) (combine (seq (length pre) (length labels)) labels) o = Ok (lsteps o (combine coeffs (map (lterm 0) labels)))) by exact (G [] []).
    revert coeffs L. induction labels as [|l labels IH]; intros coeffs L pre o; [cbn [length seq combine foldM map]; destruct coeffs; reflexivity|].
    destruct coeffs as [|c coeffs]; [cbn in L; lia|]. cbn [length seq combine foldM map fst snd]. rewrite nth_error_app2 by lia. rewrite Nat.sub_diag. cbn [nth_error].
    rewrite label_operator. cbn [rbind]. unfold lsteps. cbn [fold_left fst snd op_scale map].
    specialize (IH coeffs ltac:(cbn in L; lia) (pre ++ [c])). rewrite app_length, Nat.add_1_r in IH. rewrite <- app_assoc in IH. apply IH.
  Qed.
  Lemma labels_short coeffs labels : length coeffs < length labels -> from_labels coeffs labels = Err IndexError.
  Proof.
    unfold get_qubitop_from_coeffs_and_labels. intros L.
    enough (G : forall pre o, foldM (fun (output : qop K) (il : nat * list Z) =>
      match nth_error (pre ++ coeffs) (fst il) with
      | None => Err IndexError
      | Some c =>
          let! o := construct pauli_eqb (qubit_simplify im) qubit_class float_of complex_of (TermText (label_text (snd il))) 1 in
          Ok (op_add pauli_eqb small output (op_scale o c))
      end) (combine (seq (length pre) (length labels)) labels) o = Err IndexError) by exact (G [] []).
    revert coeffs L. induction labels as [|l labels IH]; intros coeffs L pre o; [cbn in L; lia|].
    cbn [length seq combine foldM map fst snd]. rewrite nth_error_app2 by lia. rewrite Nat.sub_diag. destruct coeffs as [|c coeffs]; [reflexivity|]. cbn [nth_error].
    rewrite label_operator. cbn [rbind].
    specialize (IH coeffs ltac:(cbn in L; lia) (pre ++ [c])). rewrite app_length, Nat.add_1_r in IH. rewrite <- app_assoc in IH. apply IH.
  Qed.
End Labels.
