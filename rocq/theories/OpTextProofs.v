(** Proofs about operator texts. *)
From Coq Require Import String Ascii ZArith Lia Permutation.
From Verif Require Import Base BaseFacts MatModel OpModel SymModel SymSpec SymProofs OpSpec OpTextModel OpTextSpec AnsatzModel AnsatzProofs UtilsModel DistModel.
Open Scope list_scope.
Local Open Scope nat_scope.

(** ** Words *)
Lemma spaces_cons c s : is_space c = true -> spaces s -> spaces (c :: s).
Proof. intros H1 H2 x [<-|H]; auto. Qed.
Lemma separated_space c s ws : is_space c = true -> separated s ws -> separated (c :: s) ws.
Proof.
  intros H [s' Hs|s' w r ws' Hs Hw Hn Hr HS]; [constructor; now apply spaces_cons|].
  change (c :: s' ++ w ++ r) with ((c :: s') ++ w ++ r). constructor; auto. now apply spaces_cons.
Qed.
Lemma words_separated s : forall cur, no_spaces cur -> separated (cur ++ s) (words s cur).
Proof.
  induction s as [|c s IH]; intros cur Hc; cbn [words].
  - destruct cur as [|x cur]; [constructor; intros y []|].
    rewrite app_nil_r. rewrite <- (app_nil_r (x :: cur)) at 1. apply (sep_word [] (x :: cur) [] []); auto; [intros y []|discriminate|constructor; intros y []].
  - destruct (is_space c) eqn:E.
    + destruct cur as [|x cur]; [now apply separated_space, (IH [])|].
      apply (sep_word [] (x :: cur) (c :: s)); auto; [intros y []|discriminate|]. apply separated_space; [exact E|]. apply (IH []). intros y [].
    + replace (cur ++ c :: s) with ((cur ++ [c]) ++ s) by now rewrite <- app_assoc. apply IH.
      intros y Hy. apply in_app_iff in Hy as [Hy|[<-|[]]]; auto.
Qed.
Lemma words_spaces s r : spaces s -> words (s ++ r) [] = words r [].
Proof. induction s as [|c s IH]; intros H; [reflexivity|]. cbn [app words]. rewrite (H c) by now left. apply IH. intros x Hx. apply H. now right. Qed.
Lemma words_run w r : no_spaces w -> forall cur, words (w ++ r) cur = words r (cur ++ w).
Proof.
  induction w as [|c w IH]; intros H cur; [now rewrite app_nil_r|]. cbn [app words]. rewrite (H c) by now left.
  rewrite IH by (intros x Hx; apply H; now right). now rewrite <- app_assoc.
Qed.
Lemma separated_words s ws : separated s ws -> words s [] = ws.
Proof.
  induction 1 as [s Hs|s w r ws Hs Hw Hn Hr HS IH].
  - rewrite <- (app_nil_r s). now rewrite words_spaces.
  - rewrite words_spaces, words_run by assumption. cbn [app]. destruct r as [|c r].
    + cbn [words] in *. destruct w; [congruence|]. now rewrite <- IH.
    + cbn [words] in *. rewrite Hr in *. destruct w; [congruence|]. now rewrite IH.
Qed.
Lemma words_iff s ws : words s [] = ws <-> separated s ws.
Proof. split; [intros <-; apply (words_separated s []); intros x []|apply separated_words]. Qed.
Lemma words_nonempty s : forall cur w, In w (words s cur) -> w <> [].
Proof.
  induction s as [|c s IH]; intros cur w H; cbn [words] in H.
  - destruct cur; [contradiction|]. destruct H as [<-|[]]. discriminate.
  - destruct (is_space c); [|now apply IH in H]. destruct cur; [now apply IH in H|]. destruct H as [<-|H]; [discriminate|now apply IH in H].
Qed.

(** ** Factors *)
Lemma span_spec s : let (d, r) := span_digits s in
  s = d ++ r /\ (forall c, In c d -> is_digit c = true) /\ match r with [] => True | c :: _ => is_digit c = false end.
Proof.
  induction s as [|c s IH]; cbn [span_digits]; [repeat split; intros c []|]. destruct (is_digit c) eqn:E.
  - destruct (span_digits s) as [d r]. destruct IH as (-> & H1 & H2). split; [reflexivity|]. split; [intros x [<-|H]; auto|exact H2].
  - split; [reflexivity|]. split; [intros x []|exact E].
Qed.
Lemma span_app d r : (forall c, In c d -> is_digit c = true) -> match r with [] => True | c :: _ => is_digit c = false end -> span_digits (d ++ r) = (d, r).
Proof.
  intros H1 H2. induction d as [|c d IH].
  - cbn [app]. destruct r as [|c r]; [reflexivity|]. cbn [span_digits]. now rewrite H2.
  - cbn [app span_digits]. rewrite (H1 c) by now left. rewrite IH by (intros x Hx; apply H1; now right). reflexivity.
Qed.
Lemma text_eqb_eq a b : text_eqb a b = true <-> a = b.
Proof. apply list_eqb_spec. intros x y. apply Ascii.eqb_eq. Qed.
Lemma ascii_eqb_spec : eqb_spec_of Ascii.eqb.
Proof. intros x y. apply Ascii.eqb_eq. Qed.

Section Class.
  Context {K : cring} {A : Type} (aeqb : A -> A -> bool) (aeq : eqb_spec_of aeqb) (simplify : term A -> K -> K * term A) (small : K -> bool) (cls : op_class A).
  Context (G : good_class cls).
  Lemma combine_nth {X Y} (l : list X) (m : list Y) x y : In (x, y) (combine l m) <-> exists i, nth_error l i = Some x /\ nth_error m i = Some y.
  Proof.
    revert m. induction l as [|a l IH]; intros m; cbn [combine].
    - split; [intros []|]. intros ([|i] & H & _); discriminate.
    - destruct m as [|b m]; [split; [intros []|]; intros ([|i] & _ & H); discriminate|]. cbn [In]. rewrite IH. split.
      + intros [[= -> ->]|(i & H)]; [now exists 0|now exists (S i)].
      + intros ([|i] & H1 & H2); cbn in H1, H2; [left; congruence|right; now exists i].
  Qed.
  Lemma fst_combine {X Y} (l : list X) (m : list Y) : length l = length m -> map fst (combine l m) = l.
  Proof. revert m. induction l as [|a l IH]; intros [|b m] H; cbn in *; try discriminate; [reflexivity|]. f_equal. apply IH. congruence. Qed.
  Lemma action_named_iff s a : action_named cls s = Ok a <-> action_written cls a s.
  Proof.
    destruct G as (N1 & N2 & L & P). unfold action_named, action_written. split.
    - destruct (dget _ s _) eqn:E; [|discriminate]. intros [= ->]. apply (dget_In _ text_eqb_eq) in E. apply combine_nth in E as (i & ? & ?). eauto.
    - intros (i & H1 & H2). rewrite (In_dget _ text_eqb_eq s a); [reflexivity| |apply combine_nth; eauto].
      unfold dkeys. rewrite fst_combine; [exact N2|lia].
  Qed.
  Lemma action_named_err s e : action_named cls s = Err e -> e = ValueError.
  Proof. unfold action_named. destruct (dget _ s _); congruence. Qed.
  Lemma action_plain a s c : action_written cls a s -> In c s -> plain_char c.
  Proof. intros (i & _ & H) Hc. destruct G as (_ & _ & _ & P). eapply P; [eapply nth_error_In; exact H|exact Hc]. Qed.
  Lemma parse_factor_iff w f : parse_factor cls w = Ok f <-> factor_word cls w f.
  Proof.
    unfold parse_factor, factor_word. destruct (action_before_index cls).
    - split.
      + pose proof (span_spec (rev w)) as Sp. destruct (span_digits (rev w)) as [d r]. destruct Sp as (E & Hd & Hr).
        apply (f_equal (@rev _)) in E. rewrite rev_involutive, rev_app_distr in E.
        destruct d as [|x d]; [discriminate|]. intros H.
        assert (H' : (let! a := action_named cls (rev r) in Ok (N.to_nat (int_of_digits (rev (x :: d))), a)) = Ok f).
        { destruct r as [|c r]; [exact H|]. destruct (Ascii.eqb c "-"); [discriminate|exact H]. }
        destruct (action_named cls (rev r)) as [a|] eqn:Ea; [|discriminate]. cbn [rbind] in H'. injection H' as <-. cbn [fst snd].
        apply action_named_iff in Ea. exists (rev r), (rev (x :: d)). split; [exact Ea|]. split; [now intros E0; apply (f_equal (@length _)) in E0; rewrite rev_length in E0|].
        split; [intros c Hc; apply Hd; now apply in_rev|]. split; [rewrite int_of_digits_value; now rewrite Nnat.N2Nat.id|exact E].
      + intros (s & d & Ha & Nd & Dd & V & ->). rewrite rev_app_distr.
        assert (Hr : match rev s with [] => True | c :: _ => is_digit c = false end).
        { destruct (rev s) as [|c r] eqn:E; [exact I|]. assert (Hc : In c s) by (apply in_rev; rewrite E; now left). apply (action_plain _ _ _ Ha Hc). }
        rewrite span_app; [|intros c Hc; apply Dd; now apply in_rev|exact Hr]. rewrite !rev_involutive.
        destruct (rev d) as [|x d'] eqn:Ed; [apply (f_equal (@rev _)) in Ed; rewrite rev_involutive in Ed; now destruct Nd|].
        apply action_named_iff in Ha. rewrite <- int_of_digits_value in V. destruct f as [i a]. cbn [fst snd] in *.
        destruct (rev s) as [|c r] eqn:E.
        * apply (f_equal (@rev _)) in E. rewrite rev_involutive in E. cbn in E. subst s. rewrite Ha. cbn [rbind]. now rewrite V, Nnat.Nat2N.id.
        * assert (Hc : In c s) by (apply in_rev; rewrite E; now left).
          apply action_named_iff in Ha. pose proof (action_plain _ _ _ Ha Hc) as (_ & _ & Hm & _). apply action_named_iff in Ha.
          destruct (Ascii.eqb_spec c "-"); [congruence|]. rewrite Ha. cbn [rbind]. now rewrite V, Nnat.Nat2N.id.
    - split.
      + destruct w as [|c w]; [discriminate|]. destruct (Ascii.eqb c "-"); [discriminate|]. destruct (is_digit c) eqn:Dc; [|discriminate]. cbn [negb].
        pose proof (span_spec (c :: w)) as Sp. destruct (span_digits (c :: w)) as [d r]. destruct Sp as (E & Hd & Hr).
        destruct (action_named cls r) as [a|] eqn:Ea; [|discriminate]. cbn [rbind]. intros [= <-]. cbn [fst snd]. apply action_named_iff in Ea.
        exists r, d. split; [exact Ea|]. split; [intros ->; cbn in E; subst r; congruence|]. split; [exact Hd|]. split; [rewrite int_of_digits_value; now rewrite Nnat.N2Nat.id|exact E].
      + intros (s & d & Ha & Nd & Dd & V & ->). 
        assert (Hr : match s with [] => True | c :: _ => is_digit c = false end).
        { destruct s as [|c r] eqn:E; [exact I|]. apply (action_plain _ _ c Ha). now left. }
        pose proof (span_app d s Dd Hr) as Sp. destruct d as [|c d]; [congruence|]. cbn [app] in *. pose proof (Dd c (or_introl eq_refl)) as Dc.
        destruct (Ascii.eqb_spec c "-"); [subst c; discriminate|]. rewrite Dc. cbn [negb]. rewrite Sp. apply action_named_iff in Ha. rewrite Ha. cbn [rbind].
        rewrite <- int_of_digits_value in V. rewrite V, Nnat.Nat2N.id. now destruct f.
  Qed.
  Lemma parse_factor_err w e : w <> [] -> parse_factor cls w = Err e -> e = ValueError.
  Proof.
    intros Hw. unfold parse_factor. destruct (action_before_index cls).
    - destruct (span_digits (rev w)) as [d r]. destruct d as [|x d]; [congruence|]. destruct r as [|c r].
      + destruct (action_named cls []) eqn:E; cbn [rbind]; [discriminate|]. intros [= <-]. now apply action_named_err in E.
      + destruct (Ascii.eqb c "-"); [congruence|]. destruct (action_named cls (rev (c :: r))) eqn:E; cbn [rbind]; [discriminate|]. intros [= <-]. now apply action_named_err in E.
    - destruct w as [|c w]; [congruence|]. destruct (Ascii.eqb c "-"); [congruence|]. destruct (negb (is_digit c)); [congruence|].
      destruct (span_digits (c :: w)) as [d r]. destruct (action_named cls r) eqn:E; cbn [rbind]; [discriminate|]. intros [= <-]. now apply action_named_err in E.
  Qed.
  Lemma parse_string_iff s t : parse_string cls s = Ok t <-> term_written cls s t.
  Proof.
    unfold parse_string, term_written. pose proof (mapM_Ok_Forall2 (parse_factor cls) (words s []) t) as M. split.
    - intros H. apply M in H. exists (words s []). split; [now apply words_iff|]. revert H. apply Forall2_imp. intros w f. apply parse_factor_iff.
    - intros (ws & H1 & H2). apply words_iff in H1. subst ws. apply M. revert H2. apply Forall2_imp. intros w f. apply parse_factor_iff.
  Qed.
  Lemma mapM_err {X Y} (f : X -> result Y) l e : mapM f l = Err e -> exists x, In x l /\ f x = Err e.
  Proof.
    induction l as [|x l IH]; cbn [mapM]; [discriminate|]. destruct (f x) as [y|e'] eqn:E; cbn [rbind].
    - destruct (mapM f l) as [ys|e''] eqn:E2; cbn [rbind]; [discriminate|]. intros [= ->]. destruct (IH eq_refl) as (z & ? & ?). exists z. split; [now right|assumption].
    - intros [= ->]. exists x. split; [now left|assumption].
  Qed.
  Lemma parse_string_err s e : parse_string cls s = Err e -> e = ValueError.
  Proof.
    unfold parse_string. intros H. apply mapM_err in H as (w & H1 & H2). apply parse_factor_err in H2; [exact H2|]. eapply words_nonempty. exact H1.
  Qed.
End Class.

(** ** Coefficients *)
Section Coefficients.
  Context {K : cring} (float_of complex_of : text -> option K).
  Notation number_written := (number_written float_of complex_of).
  Notation coefficient_written := (coefficient_written float_of complex_of).
  Notation parse_coefficient := (parse_coefficient float_of complex_of).
  Lemma lstrip_none s : no_spaces s -> lstrip s = s.
  Proof. destruct s as [|c s]; intros H; [reflexivity|]. cbn [lstrip]. now rewrite (H c) by now left. Qed.
  Lemma strip_none s : no_spaces s -> strip s = s.
  Proof. intros H. unfold strip. rewrite (lstrip_none s) by assumption. rewrite lstrip_none; [apply rev_involutive|]. intros c Hc. apply H. now apply in_rev. Qed.
  Lemma filter_no_spaces s : no_spaces (filter (fun c => negb (is_space c)) s).
  Proof. intros c H. apply filter_In in H as [_ H]. now destruct (is_space c). Qed.
  (** what is left after spaces and a plus sign are removed *)
  Definition clean (s : text) : text :=
    match filter (fun c => negb (is_space c)) s with c :: r => if Ascii.eqb c "+" then strip r else c :: r | [] => [] end.
  Lemma clean_iff s v : clean s = v <-> signless s v.
  Proof.
    unfold clean, signless. pose proof (filter_no_spaces s) as N. destruct (filter _ s) as [|c r].
    - split; [intros <-; right; split; [reflexivity|discriminate]|]. intros [H|[H _]]; congruence.
    - destruct (Ascii.eqb_spec c "+") as [->|Nc].
      + rewrite strip_none by (intros x Hx; apply N; now right). split; [intros ->; now left|]. intros [H|[<- H]]; [congruence|]. now destruct H.
      + split; [intros <-; right; split; [reflexivity|exact Nc]|]. intros [[= ? ?]|[H _]]; congruence.
  Qed.
  Definition parse_clean (s : text) : result K :=
    match s with
    | [] => Ok k1
    | c :: r =>
        if text_eqb s ["-"%char] then Ok (kopp k1)
        else match (if memb Ascii.eqb "j"%char s then
                      if Ascii.eqb c "-" then option_map kopp (complex_of r) else complex_of s
                    else float_of s) with
             | Some x => Ok x
             | None => Err ValueError
             end
    end.
  Lemma parse_coefficient_clean s : parse_coefficient s = parse_clean (clean s).
  Proof. unfold parse_coefficient, OpTextModel.parse_coefficient, clean. destruct (filter _ s) as [|c r]; [reflexivity|]. destruct (Ascii.eqb c "+"); reflexivity. Qed.
  Lemma memb_j s : memb Ascii.eqb "j"%char s = true <-> In "j"%char s.
  Proof. apply memb_In. exact ascii_eqb_spec. Qed.
  Lemma parse_clean_iff s x : parse_clean s = Ok x <-> (s = [] /\ x = k1) \/ (s = ["-"%char] /\ x = kopp k1) \/ number_written s x.
  Proof.
    destruct s as [|c r]; cbn [parse_clean].
    { split; [intros [= <-]; now left|]. intros [[_ ->]|[[H _]|H]]; [reflexivity|discriminate|]. inversion H; subst; [congruence|contradiction]. }
    destruct (text_eqb (c :: r) ["-"%char]) eqn:E.
    { apply text_eqb_eq in E. injection E as -> ->. split; [intros [= <-]; right; now left|].
      intros [[H _]|[[_ ->]|H]]; [discriminate|reflexivity|]. inversion H; subst; [congruence|now destruct H1|contradiction]. }
    assert (NE : c :: r <> ["-"%char]) by (intros H; apply text_eqb_eq in H; congruence).
    split.
    - intros H. right; right. destruct (memb Ascii.eqb "j"%char (c :: r)) eqn:J.
      + apply memb_j in J. destruct (Ascii.eqb_spec c "-") as [->|Nc].
        * destruct J as [J|J]; [discriminate|]. destruct (complex_of r) as [y|] eqn:Ey; cbn [option_map] in H; [|discriminate]. injection H as <-. now constructor.
        * destruct (complex_of (c :: r)) eqn:Ey; [|discriminate]. injection H as <-. now constructor 2.
      + destruct (float_of (c :: r)) eqn:Ey; [|discriminate]. injection H as <-. constructor; auto; [discriminate|]. intros H. apply memb_j in H. congruence.
    - intros [[H _]|[[H _]|H]]; [discriminate|congruence|]. inversion H; subst.
      + destruct (memb Ascii.eqb "j"%char (c :: r)) eqn:J; [apply memb_j in J; contradiction|]. now rewrite H3.
      + destruct (memb Ascii.eqb "j"%char (c :: r)) eqn:J; [|apply memb_j in H0; congruence]. cbn [hd] in H1. destruct (Ascii.eqb_spec c "-"); [congruence|]. now rewrite H2.
      + assert (J : memb Ascii.eqb "j"%char ("-"%char :: r) = true) by (apply memb_j; right; assumption). rewrite J.
        change (Ascii.eqb "-" "-") with true. cbv iota. match goal with E : complex_of r = Some _ |- _ => rewrite E end. reflexivity.
  Qed.
  Lemma parse_coefficient_iff s x : parse_coefficient s = Ok x <-> coefficient_written s x.
  Proof.
    rewrite parse_coefficient_clean, parse_clean_iff. split.
    - intros [[H ->]|[[H ->]|H]]; [apply cw_one; now apply clean_iff|apply cw_minus; now apply clean_iff|apply (cw_number _ _ s (clean s)); [now apply clean_iff|exact H]].
    - intros [s' H|s' H|s' v y H1 H2]; [left|right; left|right; right].
      + split; [now apply clean_iff|reflexivity].
      + split; [now apply clean_iff|reflexivity].
      + apply clean_iff in H1. now rewrite H1.
  Qed.
  Lemma parse_coefficient_err s e : parse_coefficient s = Err e -> e = ValueError.
  Proof.
    rewrite parse_coefficient_clean. unfold parse_clean. destruct (clean s) as [|c r]; [discriminate|]. destruct (text_eqb _ _); [discriminate|].
    destruct (if memb _ _ _ then _ else _); congruence.
  Qed.
End Coefficients.

(** ** Brackets *)
Lemma until_app x a r : ~ In x a -> until x (a ++ x :: r) = Some (a, r).
Proof.
  induction a as [|c a IH]; intros H; cbn [app until].
  - destruct (Ascii.eqb_spec x x); congruence.
  - destruct (Ascii.eqb_spec c x) as [->|]; [exfalso; apply H; now left|]. rewrite IH; [reflexivity|]. intros H'. apply H. now right.
Qed.
Lemma until_none x s : ~ In x s -> until x s = None.
Proof.
  induction s as [|c s IH]; intros H; [reflexivity|]. cbn [until]. destruct (Ascii.eqb_spec c x) as [->|]; [exfalso; apply H; now left|].
  rewrite IH; [reflexivity|]. intros H'. apply H. now right.
Qed.
Lemma find_terms_pieces l tail : (forall p, In p l -> ~ In "["%char (fst p) /\ ~ In "]"%char (snd p)) -> ~ In "["%char tail ->
  forall n, length l <= n -> find_terms n (pieces_text l ++ tail) = l.
Proof.
  intros H T. induction l as [|[a b] l IH]; intros n Hn.
  - cbn [pieces_text map concat app]. destruct n; [reflexivity|]. cbn [find_terms]. now rewrite until_none.
  - cbn [length] in Hn. destruct n as [|n]; [lia|]. destruct (H (a, b)) as [Ha Hb]; [now left|]. cbn [fst snd] in *.
    unfold pieces_text. cbn [map concat fst snd find_terms]. fold (pieces_text l). rewrite <- !app_assoc. cbn [app].
    rewrite until_app by assumption. rewrite until_app by assumption. rewrite IH; [reflexivity| |lia]. intros p Hp. apply H. now right.
Qed.
Lemma pieces_length l : length l <= length (pieces_text l).
Proof. induction l as [|[a b] l IH]; [reflexivity|]. unfold pieces_text in *. cbn [map concat]. rewrite !app_length. cbn [length fst snd] in *. lia. Qed.
