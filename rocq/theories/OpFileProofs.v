(** Names, texts and terms in the files of operators. *)
From Coq Require Import String Ascii ZArith Lia Permutation Decimal DecimalString.
From Verif Require Import Base BaseFacts MatModel GateMatProps OpModel OpProofs OpSpec SymModel UtilsModel ConvModel ConvProofs CostModel PauliProofs
  OpTextModel OpTextSpec OpTextProofs OpTextProofs2 OpTextProofs3 OpTextProps OpFileModel OpFileSpec.
Open Scope list_scope.
Local Open Scope nat_scope.

(** ** Names *)
Lemma substring_app m d : substring (String.length m) (String.length d) (m ++ d) = d.
Proof.
  induction m as [|c m IH]; cbn [String.length String.append].
  - induction d as [|c d IH]; cbn; [reflexivity|]. now rewrite IH.
  - exact IH.
Qed.
Lemma string_length_app a b : String.length (a ++ b) = String.length a + String.length b.
Proof. induction a as [|c a IH]; cbn; [reflexivity|now rewrite IH]. Qed.
Lemma substring_split n : forall k m, k + m = String.length n -> n = (substring 0 k n ++ substring k m n)%string.
Proof.
  induction n as [|c n IH]; intros k m E; cbn [String.length] in E.
  - assert (k = 0) by lia. assert (m = 0) by lia. subst. reflexivity.
  - destruct k as [|k]; cbn [substring String.append].
    + cbn in E. subst m. cbn [substring]. f_equal. rewrite (IH 0 (String.length n) eq_refl) at 1. destruct n; reflexivity.
    + f_equal. apply IH. lia.
Qed.
Lemma ends_with_data n : String.eqb (substring (String.length n - 5) 5 n) ".data" = true <-> exists m, n = (m ++ ".data")%string.
Proof.
  rewrite String.eqb_eq. split.
  - intros E. destruct (Nat.le_gt_cases 5 (String.length n)) as [L|L].
    + exists (substring 0 (String.length n - 5) n). rewrite <- E. apply substring_split. lia.
    + exfalso. do 5 (destruct n as [|? n]; [discriminate|]). cbn in L. lia.
  - intros [m ->]. rewrite string_length_app. cbn [String.length]. replace (String.length m + 5 - 5) with (String.length m) by lia. exact (substring_app m ".data").
Qed.
Lemma path_at dd name dir path : at_path dd name dir path <-> get_file_path dd (Some name) dir = Ok path.
Proof.
  unfold at_path, get_file_path. split.
  - intros (N & n & D & ->). destruct name as [|c name]; [contradiction|]. inversion D as [m E1 E2|m H E1 E2]; subst.
    + rewrite E1. rewrite (proj2 (ends_with_data (String c name))); [reflexivity|]. exists m. now rewrite E1.
    + destruct (String.eqb _ ".data") eqn:E; [|reflexivity]. apply ends_with_data in E as [m E]. now apply H in E.
  - destruct name as [|c name]; [discriminate|]. cbv zeta. destruct (String.eqb (substring _ _ _) ".data") eqn:E; intros [= <-]; (split; [discriminate|]); eexists; (split; [|reflexivity]).
    + apply ends_with_data in E as [m E]. rewrite E. constructor.
    + constructor. intros m X. rewrite (proj2 (ends_with_data _)) in E by now exists m. discriminate.
Qed.

(** ** Texts *)
Notation colon := ":"%char.
Lemma split_no_colon s : ~ In colon s -> split_header s = [s].
Proof.
  induction s as [|c s IH]; intros N; [reflexivity|]. cbn [split_header]. rewrite IH by (intros H; apply N; now right).
  destruct (Ascii.eqb_spec c colon) as [->|D]; [exfalso; apply N; now left|reflexivity].
Qed.
Lemma split_at_header h s : ~ In colon h -> split_header (h ++ text_of ":" ++ ["010"%char] ++ s) = h :: split_header s.
Proof.
  induction h as [|c h IH]; intros N; [reflexivity|]. cbn [app split_header] in *. rewrite IH by (intros H; apply N; now right).
  destruct (Ascii.eqb_spec c colon) as [->|D]; [exfalso; apply N; now left|reflexivity].
Qed.
Lemma uint_no_colon d : ~ In colon (list_ascii_of_string (NilEmpty.string_of_uint d)).
Proof. induction d; cbn; [tauto|..]; (intros [H|H]; [discriminate|now apply IHd]). Qed.
Lemma int_no_colon z : ~ In colon (text_of (str_of_int z)).
Proof.
  unfold text_of, str_of_int. destruct (Z.to_int z) as [d|d].
  - destruct d; first [exact (uint_no_colon _)|cbn; intuition discriminate].
  - cbn. intros [H|H]; [discriminate|]. revert H. destruct d; first [exact (uint_no_colon _)|cbn; intuition discriminate].
Qed.
Lemma joined_In sep l c : In c (joined sep l) -> In c sep \/ exists w, In w l /\ In c w.
Proof.
  induction l as [|w l IH]; cbn [joined]; [contradiction|]. destruct l as [|v l]; [intros H; right; exists w; split; [now left|exact H]|].
  rewrite !in_app_iff. intros [H|[H|H]]; [right; exists w; split; [now left|exact H]|now left|]. apply IH in H as [H|(u & H1 & H2)]; [now left|]. right. exists u. split; [now right|exact H2].
Qed.

Lemma Forall2_in_l {X Y} (R : X -> Y -> Prop) l m x : Forall2 R l m -> In x l -> exists y, In y m /\ R x y.
Proof. induction 1 as [|a b l m H F IH]; [contradiction|]. intros [->|I]; [exists b; split; [now left|exact H]|]. destruct (IH I) as (y & I1 & I2). exists y. split; [now right|exact I2]. Qed.

Section Terms.
  Context {K : cring} {A : Type} (aeqb : A -> A -> bool) (aeq : eqb_spec_of aeqb) (simplify : term A -> K -> K * term A) (small symbolic : K -> bool) (cls : op_class A).
  Context (float_of complex_of : text -> option K) (show : K -> text) (G : good_class cls) (enc : A -> atom).
  Context (enc_ok : forall a, In a (actions cls) -> action_of cls (enc a) = Some a).
  Context (plain_actions : forall a s, action_written cls a s -> ~ In colon s).
  Context (aleb : A -> A -> bool) (tot : forall a b, aleb a b = true \/ aleb b a = true) (tra : forall a b c, aleb a b = true -> aleb b c = true -> aleb a c = true)
    (anti : forall a b, aleb a b = true -> aleb b a = true -> a = b).
  Notation op := (sop A K).

  Lemma term_atoms_ok (t : term A) : (forall f, In f t -> In (snd f) (actions cls)) -> parse_sequence cls (term_atoms enc t) = Ok t.
  Proof.
    intros H. apply parse_sequence_iff. right. unfold term_atoms. induction t as [|f t IH]; [constructor|]. cbn [map]. constructor.
    - exists (enc (snd f)). split; [reflexivity|]. apply enc_ok, H. now left.
    - apply IH. intros g Hg. apply H. now right.
  Qed.
  Lemma add_terms_ok (a o : op) : (forall t c, In (t, c) a -> simplified simplify t /\ forall f, In f t -> In (snd f) (actions cls)) ->
    foldM (fun o tc => let! b := construct aeqb simplify cls float_of complex_of (TermSeq (fst tc)) (snd tc) in Ok (op_add aeqb small o b))
      (map (fun tc => (term_atoms enc (fst tc), snd tc)) a) o = Ok (fold_left (fun o (tc : term A * K) => op_add aeqb small o [tc]) a o).
  Proof.
    revert o. induction a as [|[t c] a IH]; intros o H; [reflexivity|]. cbn [map foldM fst snd fold_left construct].
    destruct (H t c) as [S F]; [now left|]. rewrite term_atoms_ok by exact F. cbn [rbind]. unfold mk_op. rewrite S. apply IH. intros t' c' I. apply (H t' c'). now right.
  Qed.
  Lemma unpack (a : op) : tidy_terms symbolic simplify cls a ->
    add_terms small float_of complex_of aeqb simplify cls (map (fun tc => (term_atoms enc (fst tc), snd tc)) a) = Ok (filter (fun tc => negb (small (snd tc))) a).
  Proof.
    intros [W H]. unfold add_terms, zero_op. rewrite add_terms_ok by (intros t c I; destruct (H t c I); tauto). f_equal. rewrite (add_filter small aeqb aeq a []) by exact W. reflexivity.
  Qed.
  Lemma printed_no_colon (a : op) : tidy_terms symbolic simplify cls a -> printable_terms small float_of complex_of show a ->
    exists s b, to_text aeqb small cls show aleb a = Ok s /\ ~ In colon s /\ construct aeqb simplify cls float_of complex_of (TermText s) k1 = Ok b /\
      Permutation b (filter (fun tc => negb (small (snd tc))) a).
  Proof.
    intros [W H] [X P].
    destruct (C67_round_trip aeqb aeq simplify small cls float_of complex_of show G aleb a k1 W X) as (s & b & S1 & S2 & S3).
    { intros t c I N. destruct (H t c I) as (_ & H1 & H2). destruct (P t c I N). auto. }
    exists s, b. split; [exact S1|]. split; [|split; [exact S2|]].
    - assert (NE : a <> []) by (destruct X as (t & c & I & _); intros ->; contradiction).
      destruct (C67_printed aeqb aeq small cls float_of complex_of show G aleb tot tra anti a NE W) as (items & lines & L1 & _ & L3 & L4).
      { intros t c I N. destruct (P t c I N) as [(N1 & _ & _ & N2) _]. destruct (H t c I) as (_ & _ & H2). split; [|exact H2].
        destruct (show c) as [|x r] eqn:E; [exfalso; inversion N2; first [congruence|contradiction]|]. exists x, r. split; [reflexivity|]. apply N1. now left. }
      rewrite S1 in L4. injection L4 as ->. intros C. apply joined_In in C as [C|(w & C1 & C2)]; [cbn in C; intuition discriminate|].
      destruct (Forall2_in_l _ _ _ _ L3 C1) as ([t c] & I & ws & F & ->). cbn [fst snd] in *.
      assert (I' : In (t, c) (filter (fun tc => negb (small (snd tc))) a)) by (eapply Permutation_in; eauto). apply filter_In in I' as [I1 I2]. apply negb_true_iff in I2.
      rewrite !in_app_iff in C2. destruct C2 as [C2|[C2|[C2|C2]]].
      + now apply (proj2 (P t c I1 I2)).
      + cbn in C2. intuition discriminate.
      + apply joined_In in C2 as [C2|(v & V1 & V2)]; [cbn in C2; intuition discriminate|]. destruct (Forall2_in_l _ _ _ _ F V1) as (f & _ & s & Sf & E).
        cbn zeta in E. destruct (action_before_index cls); subst v; rewrite in_app_iff in V2; destruct V2 as [V2|V2]; try (revert V2; apply int_no_colon); revert V2; eapply plain_actions; eassumption.
      + cbn in C2. intuition discriminate.
    - eapply Permutation_trans; [exact S3|]. erewrite map_ext; [rewrite map_id; apply Permutation_refl|]. intros [t c]. cbn. f_equal. destruct (kth K). rewrite Rmul_comm. apply Rmul_1_l.
  Qed.
End Terms.
