(** Proofs about operator texts: sums, and the printed form. *)
From Coq Require Import String Ascii ZArith Lia Permutation.
From Verif Require Import Base BaseFacts MatModel OpModel OpProofs SymModel SymSpec SymProofs OpSpec OpTextModel OpTextSpec OpTextProofs AnsatzModel AnsatzProofs UtilsModel DistModel.
Open Scope list_scope.
Local Open Scope nat_scope.

Section Sums.
  Context {K : cring} {A : Type} (aeqb : A -> A -> bool) (aeq : eqb_spec_of aeqb) (simplify : term A -> K -> K * term A) (small : K -> bool) (cls : op_class A).
  Context (float_of complex_of : text -> option K) (show : K -> text) (aleb : A -> A -> bool) (G : good_class cls).
  Add Ring KR : (kth K).
  Open Scope K_scope.
  Notation op := (sop A K).
  Notation teqb := (term_eqb aeqb).
  Notation coef := (coef (K := K) aeqb).
  Notation coefficient_written := (coefficient_written float_of complex_of).

  Lemma accumulate_coef t c (d : op) u : coef (accumulate_term aeqb t c d) u = coef d u + (if teqb t u then c else 0).
  Proof.
    unfold OpSpec.coef, accumulate_term. destruct (teqb t u) eqn:E.
    - apply (term_eqb_spec _ aeq) in E. subst u. destruct (dget teqb t d) as [c0|] eqn:D; rewrite (dget_dset_same _ (term_eqb_spec _ aeq)); ring.
    - assert (N : t <> u) by (intros ->; rewrite (proj2 (term_eqb_spec _ aeq u u) eq_refl) in E; discriminate).
      destruct (dget teqb t d) as [c0|]; rewrite (dget_dset_other _ (term_eqb_spec _ aeq)) by congruence; ring.
  Qed.
  Lemma accumulate_keys t c (d : op) u : In u (dkeys (accumulate_term aeqb t c d)) <-> u = t \/ In u (dkeys d).
  Proof.
    unfold accumulate_term. pose proof (dget_None _ (term_eqb_spec _ aeq) t d) as N. destruct (dget teqb t d) as [c0|] eqn:D; rewrite dkeys_dset.
    - apply (dget_In _ (term_eqb_spec _ aeq)) in D. assert (In t (dkeys d)) by (apply in_map_iff; exists (t, c0); auto).
      rewrite (proj2 (memb_In _ (term_eqb_spec _ aeq) t (dkeys d))) by assumption. split; [auto|]. intros [->|]; auto.
    - destruct (memb teqb t (dkeys d)) eqn:M; [apply (memb_In _ (term_eqb_spec _ aeq)) in M; destruct N as [N _]; now destruct (N eq_refl)|].
      rewrite in_app_iff. cbn [In]. split; [intros [|[<-|[]]]; auto|intros [->|]; auto].
  Qed.
  Lemma accumulate_wf t c (d : op) : wf_op d -> wf_op (accumulate_term aeqb t c d).
  Proof. unfold wf_op, accumulate_term. intros W. destruct (dget teqb t d); apply (dset_NoDup _ (term_eqb_spec _ aeq)), W. Qed.

  Definition read_piece (p : text * text) (ct : K * term A) : Prop := coefficient_written (fst p) (fst ct) /\ term_written cls (snd p) (snd ct).
  Definition contribution (c0 : K) (ct : K * term A) : K * term A := simplify (snd ct) (fst ct * c0).
  Lemma long_pieces c0 (ps : list (text * text)) cts : Forall2 read_piece ps cts -> forall d : op,
    foldM (fun d (m : text * text) =>
      let! c := parse_coefficient float_of complex_of (fst m) in
      let! t := parse_string cls (snd m) in
      let (c', t') := simplify t (c * c0) in
      Ok (accumulate_term aeqb t' c' d)) ps d = Ok (fold_left (fun d (x : K * term A) => accumulate_term aeqb (snd x) (fst x) d) (map (contribution c0) cts) d).
  Proof.
    induction 1 as [|p [c t] ps cts [H1 H2] HF IH]; intros d; cbn [foldM map fold_left]; [reflexivity|].
    cbn [fst snd] in *. apply parse_coefficient_iff in H1. apply (parse_string_iff cls G) in H2. rewrite H1. cbn [rbind]. rewrite H2. cbn [rbind].
    assert (E : contribution c0 (c, t) = simplify t (c * c0)) by reflexivity. rewrite E.
    destruct (simplify t (c * c0)) as [c' t']. cbn [rbind fst snd]. apply IH.
  Qed.
  Lemma fold_coef l : forall d u, coef (fold_left (fun d (x : K * term A) => accumulate_term aeqb (snd x) (fst x) d) l d) u = coef d u + total aeqb l u.
  Proof.
    induction l as [|[c t] l IH]; intros d u; cbn [fold_left total fold_right fst snd]; [ring|]. rewrite IH, accumulate_coef. fold (total aeqb l u).
    destruct (term_eqb aeqb t u); ring.
  Qed.
  Lemma fold_keys l : forall d u, In u (dkeys (fold_left (fun d (x : K * term A) => accumulate_term aeqb (snd x) (fst x) d) l d)) <-> In u (map snd l) \/ In u (dkeys d).
  Proof.
    induction l as [|[c t] l IH]; intros d u; cbn [fold_left map In fst snd]; [tauto|]. rewrite IH, accumulate_keys. split; [intros [|[->|]]; auto|intros [[->|]|]; auto].
  Qed.
  Lemma fold_wf l : forall d, wf_op d -> wf_op (fold_left (fun d (x : K * term A) => accumulate_term aeqb (snd x) (fst x) d) l d).
  Proof. induction l as [|[c t] l IH]; intros d W; cbn [fold_left fst snd]; [exact W|]. apply IH, accumulate_wf, W. Qed.
  Lemma fold_distinct l : forall d : op, NoDup (map snd l) -> (forall t, In t (map snd l) -> ~ In t (dkeys d)) ->
    fold_left (fun d (x : K * term A) => accumulate_term aeqb (snd x) (fst x) d) l d = d ++ map (fun x => (snd x, fst x)) l.
  Proof.
    induction l as [|[c t] l IH]; intros d ND D; cbn [fold_left map fst snd]; [now rewrite app_nil_r|]. cbn [map snd] in ND. inversion ND as [|? ? N1 N2]; subst.
    assert (E : accumulate_term aeqb t c d = d ++ [(t, c)]).
    { unfold accumulate_term. assert (N : ~ In t (dkeys d)) by (apply D; now left).
      rewrite (proj2 (dget_None _ (term_eqb_spec _ aeq) t d) N). apply (dset_app_new _ (term_eqb_spec _ aeq)), N. }
    rewrite E, IH; [now rewrite <- app_assoc|exact N2|]. intros u Hu. unfold dkeys. rewrite map_app, in_app_iff. intros [H|[H|[]]].
    - apply (D u); [now right|exact H].
    - cbn in H. subst u. contradiction.
  Qed.
  Lemma pieces_bracket ps tail : ps <> [] -> memb Ascii.eqb "["%char (pieces_text ps ++ tail) = true.
  Proof.
    intros N. destruct ps as [|[a b] ps]; [congruence|]. apply (memb_In _ ascii_eqb_spec). unfold pieces_text. cbn [map concat fst snd].
    rewrite !in_app_iff. left; left; right; left. now left.
  Qed.
  Lemma construct_pieces c0 (ps : list (text * text)) cts (tail : text) : ps <> [] -> (forall p, In p ps -> ~ In "["%char (fst p) /\ ~ In "]"%char (snd p)) -> ~ In "["%char tail ->
    Forall2 read_piece ps cts ->
    construct aeqb simplify cls float_of complex_of (TermText (pieces_text ps ++ tail)) c0 =
    Ok (fold_left (fun d (x : K * term A) => accumulate_term aeqb (snd x) (fst x) d) (map (contribution c0) cts) []).
  Proof.
    intros N B T F. unfold construct. rewrite pieces_bracket by assumption. unfold long_string_init.
    rewrite find_terms_pieces; [now apply long_pieces|exact B|exact T|]. rewrite app_length. etransitivity; [apply pieces_length|apply Nat.le_add_r].
  Qed.
  Lemma construct_pieces_err c0 (ps : list (text * text)) (tail : text) : ps <> [] -> (forall p, In p ps -> ~ In "["%char (fst p) /\ ~ In "]"%char (snd p)) -> ~ In "["%char tail ->
    (exists p, In p ps /\ forall ct, ~ read_piece p ct) ->
    construct aeqb simplify cls float_of complex_of (TermText (pieces_text ps ++ tail)) c0 = Err ValueError.
  Proof.
    intros N B T (p & Hp & Bad). unfold construct. rewrite pieces_bracket by assumption. unfold long_string_init.
    rewrite find_terms_pieces; [|exact B|exact T|rewrite app_length; etransitivity; [apply pieces_length|apply Nat.le_add_r]].
    generalize (@nil (term A * K)). revert Hp. clear N B T. induction ps as [|q ps IH]; intros Hp d; [contradiction|]. cbn [foldM].
    destruct (parse_coefficient float_of complex_of (fst q)) as [c|e] eqn:Ec; cbn [rbind]; [|apply parse_coefficient_err in Ec; subst e; reflexivity].
    destruct (parse_string cls (snd q)) as [t|e] eqn:Et; cbn [rbind]; [|apply parse_string_err in Et; subst e; reflexivity].
    destruct (simplify t (c * c0)) as [c' t']. cbn [rbind]. apply IH. destruct Hp as [->|Hp]; [|exact Hp].
    exfalso. apply (Bad (c, t)). split; cbn [fst snd]; [now apply parse_coefficient_iff in Ec|now apply (parse_string_iff cls G) in Et].
  Qed.

  (** ** Printing *)
  Notation join := (joined [" "%char]).
  Lemma concat_join (w : text) fs : concat (map (fun w => w ++ [" "%char]) (w :: fs)) = join (w :: fs) ++ [" "%char].
  Proof.
    revert w. induction fs as [|v fs IH]; intros w; [cbn; now rewrite !app_nil_r|].
    change (map (fun w => w ++ [" "%char]) (w :: v :: fs)) with ((w ++ [" "%char]) :: map (fun w => w ++ [" "%char]) (v :: fs)).
    cbn [concat]. rewrite IH. change (join (w :: v :: fs)) with (w ++ [" "%char] ++ join (v :: fs)). now rewrite <- !app_assoc.
  Qed.
  Definition good_word (w : text) : Prop := w <> [] /\ no_spaces w /\ ~ In "]"%char w.
  Lemma join_separated fs : Forall good_word fs -> separated (join fs) fs.
  Proof.
    induction 1 as [|w fs (H1 & H2 & _) F IH]; [constructor; intros c []|]. destruct fs as [|v fs].
    - cbn [joined]. replace w with ([] ++ w ++ []) at 1 by now rewrite app_nil_r. apply (sep_word [] w []); [intros c []|auto|auto|exact I|constructor; intros c []].
    - change (join (w :: v :: fs)) with ([] ++ w ++ ([" "%char] ++ join (v :: fs))). constructor; auto; [intros c []|reflexivity|].
      remember (join (v :: fs)) as jt eqn:Ej. clear Ej. inversion IH as [|s w' r ws S1 S2 S3 S4 S5]; subst.
      change ([" "%char] ++ s ++ v ++ r) with (([" "%char] ++ s) ++ v ++ r). constructor; auto. intros c Hc. apply in_app_iff in Hc as [[<-|[]]|Hc]; [reflexivity|now apply S1].
  Qed.
  Lemma join_bracket fs : Forall good_word fs -> ~ In "]"%char (join fs).
  Proof.
    induction 1 as [|w fs (_ & _ & H) F IH]; [intros []|]. destruct fs as [|v fs]; [exact H|].
    change (join (w :: v :: fs)) with (w ++ [" "%char] ++ join (v :: fs)). rewrite !in_app_iff. intros [X|[[X|[]]|X]]; [contradiction|discriminate|contradiction].
  Qed.
  Lemma strip_ends x s y : is_space x = false -> is_space y = false -> strip (x :: s ++ [y]) = x :: s ++ [y] /\ strip (x :: s ++ [y; " "%char]) = x :: s ++ [y].
  Proof.
    intros Hx Hy. unfold strip. cbn [lstrip]. rewrite Hx. split.
    - replace (rev (x :: s ++ [y])) with (y :: rev (x :: s)) by (change (x :: s ++ [y]) with ((x :: s) ++ [y]); now rewrite rev_app_distr).
      cbn [lstrip]. rewrite Hy. change (rev (y :: rev (x :: s))) with (rev (rev (x :: s)) ++ [y]). now rewrite rev_involutive.
    - replace (rev (x :: s ++ [y; " "%char])) with (" "%char :: y :: rev (x :: s)) by (change (x :: s ++ [y; " "%char]) with ((x :: s) ++ [y; " "%char]); now rewrite rev_app_distr).
      cbn [lstrip]. change (is_space " ") with true. cbv iota. cbn [lstrip]. rewrite Hy. change (rev (y :: rev (x :: s))) with (rev (rev (x :: s)) ++ [y]). now rewrite rev_involutive.
  Qed.
  Lemma last_char (w : text) : w <> [] -> exists u y, w = u ++ [y] /\ In y w.
  Proof. intros N. destruct (exists_last N) as (u & y & ->). exists u, y. split; [reflexivity|]. apply in_app_iff. right. now left. Qed.
  Lemma join_last fs : fs <> [] -> Forall good_word fs -> exists u y, join fs = u ++ [y] /\ is_space y = false.
  Proof.
    intros N F. induction F as [|w fs (W1 & W2 & _) F IH]; [congruence|]. destruct fs as [|v fs].
    - destruct (last_char w W1) as (u & y & -> & Hy). exists u, y. auto.
    - destruct IH as (u & y & E & Hy); [discriminate|]. change (join (w :: v :: fs)) with (w ++ [" "%char] ++ join (v :: fs)). rewrite E.
      exists (w ++ [" "%char] ++ u), y. split; [now rewrite <- !app_assoc|exact Hy].
  Qed.
  Lemma strip_line x s fs : is_space x = false -> Forall good_word fs ->
    strip ((x :: s) ++ text_of " [" ++ concat (map (fun w => w ++ [" "%char]) fs)) = (x :: s) ++ text_of " [" ++ join fs.
  Proof.
    intros Hx F. destruct fs as [|w fs].
    - cbn [map concat joined]. rewrite !app_nil_r. change (text_of " [") with [" "; "["]%char. change ((x :: s) ++ [" "; "["]%char) with (x :: s ++ [" "; "["]%char).
      replace (s ++ [" "; "["]%char) with ((s ++ [" "%char]) ++ ["["%char]) by now rewrite <- app_assoc. now apply strip_ends.
    - rewrite concat_join. destruct (join_last (w :: fs)) as (u & y & E0 & Hy); [discriminate|exact F|].
      assert (E1 : (x :: s) ++ text_of " [" ++ join (w :: fs) ++ [" "%char] = x :: (s ++ text_of " [" ++ u) ++ [y; " "%char]) by (rewrite E0; cbn [app]; now rewrite <- !app_assoc).
      assert (E2 : (x :: s) ++ text_of " [" ++ join (w :: fs) = x :: (s ++ text_of " [" ++ u) ++ [y]) by (rewrite E0; cbn [app]; now rewrite <- !app_assoc).
      etransitivity; [exact (f_equal strip E1)|]. etransitivity; [|exact (eq_sym E2)]. apply strip_ends; assumption.
  Qed.
  Lemma factor_text_word f w : factor_text aeqb cls f = Ok w -> factor_printed cls w f /\ factor_word cls w f /\ good_word w.
  Proof.
    unfold factor_text, action_text. destruct (dget aeqb (snd f) _) as [s|] eqn:E; [|discriminate]. cbn [rbind]. intros [= <-].
    apply (dget_In _ aeq) in E. apply combine_nth in E.
    destruct (str_numeral (fst f)) as [[N1 N2] V]. set (d := digits_of_index (fst f)).
    assert (Nd : d <> []) by (unfold d, digits_of_index, text_of; destruct (str_of_int (Z.of_nat (fst f))); [congruence|discriminate]).
    assert (Aw : action_written cls (snd f) s) by exact E.
    split; [exists s; split; [exact Aw|reflexivity]|]. split.
    - exists s, d. repeat split; auto.
    - assert (P : forall c, In c (if action_before_index cls then s ++ d else d ++ s) -> is_space c = false /\ c <> "]"%char).
      { intros c Hc. assert (H : In c s \/ In c d) by (destruct (action_before_index cls); apply in_app_iff in Hc; tauto).
        destruct H as [H|H].
        - apply (action_plain cls G _ _ _ Aw) in H as (_ & H1 & _ & _ & H2). auto.
        - specialize (N2 c H). split.
          + unfold is_digit, is_space in *. apply andb_true_iff in N2 as [X Y]. apply N.leb_le in X, Y.
            apply orb_false_iff. split; apply andb_false_iff; right; apply N.leb_gt; lia.
          + intros ->. discriminate. }
      split; [|split].
      + destruct (action_before_index cls); intros H; apply app_eq_nil in H as [? ?]; congruence.
      + intros c Hc. now apply P.
      + intros Hc. now apply P in Hc.
  Qed.

  Definition tidy (c : K) : Prop := exists x r, show c = x :: r /\ is_space x = false.
  Notation eol := [" "; "+"; "010"]%char.
  Lemma factor_text_known f : In (snd f) (actions cls) -> exists w, factor_text aeqb cls f = Ok w.
  Proof.
    intros H. unfold factor_text, action_text. destruct (dget aeqb (snd f) _) as [s|] eqn:E; [eexists; reflexivity|].
    exfalso. apply (dget_None _ aeq) in E. apply E. unfold dkeys. destruct G as (_ & _ & GL & _). now rewrite fst_combine.
  Qed.
  Lemma line_known (t : term A) c : tidy c -> (forall f, In f t -> In (snd f) (actions cls)) ->
    exists ws, line aeqb cls show (t, c) = Ok ((show c ++ text_of " [" ++ join ws ++ ["]"%char]) ++ eol) /\
      Forall2 (factor_printed cls) ws t /\ Forall2 (factor_word cls) ws t /\ Forall good_word ws.
  Proof.
    intros (x & r & E & Hx) H. unfold line. cbn [fst snd].
    assert (M : exists ws, mapM (factor_text aeqb cls) t = Ok ws /\ Forall2 (factor_printed cls) ws t /\ Forall2 (factor_word cls) ws t /\ Forall good_word ws).
    { clear E Hx. induction t as [|f t IH]; [exists []; repeat split; constructor|]. destruct (factor_text_known f) as [w Hw]; [apply H; now left|].
      destruct IH as (ws & I1 & I2 & I3 & I4); [intros g Hg; apply H; now right|]. destruct (factor_text_word _ _ Hw) as (F1 & F2 & F3).
      exists (w :: ws). cbn [mapM]. rewrite Hw. cbn [rbind]. rewrite I1. cbn [rbind]. repeat split; constructor; auto. }
    destruct M as (ws & M1 & M2 & M3 & M4). exists ws. rewrite M1. cbn [rbind]. split; [|auto]. f_equal.
    change ["]"; " "; "+"; "010"]%char with (["]"%char] ++ eol). rewrite app_assoc. f_equal. rewrite !app_assoc. f_equal. rewrite <- !app_assoc, E. now apply strip_line.
  Qed.
  Lemma lines_known (l : op) : (forall t c, In (t, c) l -> tidy c /\ forall f, In f t -> In (snd f) (actions cls)) ->
    exists wss, mapM (line aeqb cls show) l = Ok (map (fun p => (show (snd (fst p)) ++ text_of " [" ++ join (snd p) ++ ["]"%char]) ++ eol) (combine l wss)) /\
      length wss = length l /\ Forall2 (fun ws tc => Forall2 (factor_printed cls) ws (fst tc) /\ Forall2 (factor_word cls) ws (fst tc) /\ Forall good_word ws) wss l.
  Proof.
    induction l as [|[t c] l IH]; intros H; [exists []; repeat split; constructor|]. destruct (H t c) as [H1 H2]; [now left|].
    destruct (line_known t c H1 H2) as (ws & L1 & L2 & L3 & L4). destruct IH as (wss & I1 & I2 & I3); [intros t' c' H'; apply H; now right|].
    exists (ws :: wss). cbn [mapM]. rewrite L1. cbn [rbind]. rewrite I1. cbn [rbind combine map fst snd length]. split; [reflexivity|]. split; [now rewrite I2|]. constructor; auto.
  Qed.
  Lemma concat_joined sep (l : list text) : l <> [] -> concat (map (fun w => w ++ sep) l) = joined sep l ++ sep.
  Proof.
    induction l as [|w l IH]; [congruence|]. intros _. destruct l as [|v l]; [cbn; now rewrite !app_nil_r|].
    change (joined sep (w :: v :: l)) with (w ++ sep ++ joined sep (v :: l)). cbn [map concat] in *. rewrite IH by discriminate. now rewrite <- !app_assoc.
  Qed.
  Definition not_small : term A * K -> bool := fun tc => negb (small (snd tc)).
  Notation sorted_terms := (sort_by (fun x y : term A * K => term_leb aeqb aleb (fst x) (fst y))).
  Lemma to_text_known (a : op) : a <> [] -> (forall t c, In (t, c) a -> small c = false -> tidy c /\ forall f, In f t -> In (snd f) (actions cls)) ->
    let items := filter not_small (sorted_terms a) in
    exists wss, to_text aeqb small cls show aleb a = Ok (joined eol (map (fun p => show (snd (fst p)) ++ text_of " [" ++ join (snd p) ++ ["]"%char]) (combine items wss))) /\
      length wss = length items /\ Forall2 (fun ws tc => Forall2 (factor_printed cls) ws (fst tc) /\ Forall2 (factor_word cls) ws (fst tc) /\ Forall good_word ws) wss items.
  Proof.
    intros N H items. destruct (lines_known items) as (wss & L1 & L2 & L3).
    { intros t c I. apply filter_In in I as [I1 I2]. apply H; [|now apply negb_true_iff in I2]. eapply Permutation_in; [apply sort_by_perm|exact I1]. }
    exists wss. split; [|auto]. destruct a as [|tc0 a]; [congruence|]. unfold to_text. fold not_small. fold items. rewrite L1. cbn [rbind]. f_equal.
    rewrite <- (map_map (fun p => show (snd (fst p)) ++ text_of " [" ++ join (snd p) ++ ["]"%char]) (fun w => w ++ eol)).
    set (ls := map _ (combine items wss)). destruct ls as [|w ls]; [reflexivity|]. rewrite concat_joined by discriminate.
    rewrite app_length. cbn [length]. replace (length (joined eol (w :: ls)) + 3 - 3)%nat with (length (joined eol (w :: ls)) + 0)%nat by lia.
    rewrite firstn_app_2. cbn [firstn]. now rewrite app_nil_r.
  Qed.

  (** ** The printed form as pieces *)
  Definition piece (lead : text) (p : (term A * K) * list text) : text * text := (lead ++ show (snd (fst p)) ++ [" "%char], join (snd p)).
  Lemma printed_pieces p ps : joined eol (map (fun p : (term A * K) * list text => show (snd (fst p)) ++ text_of " [" ++ join (snd p) ++ ["]"%char]) (p :: ps)) =
    pieces_text (piece [] p :: map (piece eol) ps).
  Proof.
    revert p. induction ps as [|q ps IH]; intros p.
    - unfold pieces_text, piece. cbn [map joined concat fst snd]. rewrite app_nil_r. now rewrite <- !app_assoc.
    - cbn [map joined] in *. rewrite IH. unfold pieces_text, piece. cbn [map concat fst snd]. change (text_of " [") with ([" "%char] ++ ["["%char]). rewrite !app_nil_l. rewrite <- !app_assoc. reflexivity.
  Qed.
  Lemma filter_none (s : text) : no_spaces s -> filter (fun c => negb (is_space c)) s = s.
  Proof. induction s as [|c s IH]; intros H; [reflexivity|]. cbn [filter]. rewrite (H c) by now left. cbn [negb]. f_equal. apply IH. intros d Hd. apply H. now right. Qed.
  Lemma printed_coefficient c : printed_exactly float_of complex_of show c -> coefficient_written (show c ++ [" "%char]) c /\ coefficient_written (eol ++ show c ++ [" "%char]) c.
  Proof.
    intros (P1 & P2 & P3 & P4).
    assert (E : filter (fun c => negb (is_space c)) (show c ++ [" "%char]) = show c) by (rewrite filter_app, filter_none by exact P1; cbn; now rewrite app_nil_r).
    split; apply (cw_number _ _ _ (show c)); auto; unfold signless.
    - right. split; [exact E|]. intros X. apply P3. exact X.
    - left. cbn [app filter negb]. rewrite E. reflexivity.
  Qed.
  Lemma printed_tidy c : printed_exactly float_of complex_of show c -> tidy c.
  Proof.
    intros (P1 & _ & _ & P4). unfold tidy. destruct (show c) as [|x r] eqn:E; [|exists x, r; split; [reflexivity|apply P1; now left]].
    inversion P4; subst; [congruence|contradiction].
  Qed.
  Lemma round_trip (a : op) c0 : wf_op a -> (exists tc, In tc a /\ not_small tc = true) ->
    (forall t c, In (t, c) a -> small c = false -> printed_exactly float_of complex_of show c /\ simplified simplify t /\ forall f, In f t -> In (snd f) (actions cls)) ->
    exists s, to_text aeqb small cls show aleb a = Ok s /\
      construct aeqb simplify cls float_of complex_of (TermText s) c0 = Ok (map (fun tc => (fst tc, snd tc * c0)) (filter not_small (sorted_terms a))).
  Proof.
    intros W (tc & T1 & T2) H. assert (N : a <> []) by (intros ->; contradiction).
    destruct (to_text_known a N) as (wss & L1 & L2 & L3).
    { intros t c I S. destruct (H t c I S) as (H1 & _ & H2). split; [now apply printed_tidy|exact H2]. }
    eexists. split; [exact L1|]. set (items := filter not_small (sorted_terms a)) in *.
    assert (PI : Permutation (sorted_terms a) a) by apply sort_by_perm.
    assert (HI : forall t c, In (t, c) items -> printed_exactly float_of complex_of show c /\ simplified simplify t).
    { intros t c I. apply filter_In in I as [I1 I2]. apply negb_true_iff in I2. destruct (H t c) as (H1 & H2 & _); auto. eapply Permutation_in; [apply PI|exact I1]. }
    assert (NI : items <> []).
    { intros E. assert (X : In tc items) by (apply filter_In; split; [eapply Permutation_in; [symmetry; apply PI|exact T1]|exact T2]). rewrite E in X. contradiction. }
    assert (WI : NoDup (map fst items)).
    { assert (X : NoDup (map fst (sorted_terms a))) by (eapply Permutation_NoDup; [symmetry; apply Permutation_map, PI|exact W]).
      clear -X. unfold items. induction (sorted_terms a) as [|x l IH]; [constructor|]. cbn [map filter] in *. inversion X; subst. destruct (not_small x); auto. cbn [map]. constructor; auto.
      intros Y. apply H1. apply in_map_iff in Y as (z & Z1 & Z2). apply filter_In in Z2 as [Z2 _]. apply in_map_iff. eauto. }
    clearbody items. destruct items as [|i0 items]; [congruence|]. destruct wss as [|ws0 wss]; [discriminate|]. cbn [combine]. rewrite printed_pieces.
    set (ps := piece [] (i0, ws0) :: map (piece eol) (combine items wss)).
    assert (B : forall p, In p ps -> ~ In "["%char (fst p) /\ ~ In "]"%char (snd p)).
    { assert (B0 : forall lead tc ws, ~ In "["%char lead -> In tc (i0 :: items) -> Forall good_word ws -> ~ In "["%char (fst (piece lead (tc, ws))) /\ ~ In "]"%char (snd (piece lead (tc, ws)))).
      { intros lead [t c] ws B1 B2 B3. unfold piece. cbn [fst snd]. split; [|now apply join_bracket]. destruct (HI t c B2) as [(_ & P & _) _].
        rewrite !in_app_iff. intros [X|[X|[X|[]]]]; [contradiction|contradiction|discriminate]. }
      inversion L3 as [|? ? ? ? (_ & _ & X1) X2]; subst. intros p [<-|Hp]; [apply B0; auto; now left|]. apply in_map_iff in Hp as ((tc', ws) & <- & Hp).
      apply B0; [intros [X|[X|[X|[]]]]; discriminate|right; eapply in_combine_l; exact Hp|].
      clear -X2 Hp. revert wss X2 Hp. induction items as [|i items IH]; intros wss X2 Hp; [contradiction|]. destruct wss as [|w wss]; [contradiction|]. inversion X2 as [|? ? ? ? (_ & _ & Y1) Y2]; subst.
      destruct Hp as [[= -> ->]|Hp]; [exact Y1|]. eapply IH; eauto. }
    assert (R : Forall2 read_piece ps (map (fun tc => (snd tc, fst tc)) (i0 :: items))).
    { assert (R0 : forall lead tc ws, lead = [] \/ lead = eol -> In tc (i0 :: items) -> Forall2 (factor_word cls) ws (fst tc) -> Forall good_word ws -> read_piece (piece lead (tc, ws)) (snd tc, fst tc)).
      { intros lead [t c] ws D B2 B3 B4. unfold piece, read_piece. cbn [fst snd] in *. destruct (HI t c B2) as [P _]. apply printed_coefficient in P as [P1 P2].
        split; [destruct D as [->| ->]; assumption|]. exists ws. split; [now apply join_separated|exact B3]. }
      inversion L3 as [|? ? ? ? (_ & X0 & X1) X2]; subst. unfold ps. cbn [map]. constructor; [apply R0; auto; now left|].
      assert (R1 : forall tc ws, In tc items -> Forall2 (factor_word cls) ws (fst tc) -> Forall good_word ws -> read_piece (piece eol (tc, ws)) (snd tc, fst tc)) by (intros; apply R0; auto; now right).
      clear -X2 R1. revert wss X2 R1. induction items as [|i items IH]; intros wss X2 R1; inversion X2 as [|? ? ? ? (_ & Y0 & Y1) Y2]; subst; cbn [combine map]; constructor.
      - apply R1; auto. now left.
      - apply IH; auto. intros tc ws I. apply R1. now right. }
    rewrite <- (app_nil_r (pieces_text ps)). rewrite (construct_pieces c0 ps _ [] ltac:(discriminate) B ltac:(intros []) R).
    f_equal. rewrite map_map.
    assert (E : map (fun tc => contribution c0 (snd tc, fst tc)) (i0 :: items) = map (fun tc => (snd tc * c0, fst tc)) (i0 :: items)).
    { apply map_ext_in. intros [t c] I. unfold contribution. cbn [fst snd]. now apply (HI t c). }
    rewrite E. rewrite fold_distinct.
    - cbn [app]. rewrite map_map. reflexivity.
    - rewrite map_map. exact WI.
    - intros t _ [].
  Qed.
End Sums.
