(** C102: a function paired with its gradient; stated over FuncModel.v and FuncSpec.v. *)
From Coq Require Import String List Bool Arith Lia.
From Verif Require Import Base BaseFacts FuncModel FuncSpec FuncProofs.
Import ListNotations.
Open Scope list_scope.
Open Scope string_scope.
Open Scope list_scope.

Section C102.
  Context {V : Type}.
  Implicit Types (h : heap V) (v x s : value V).

  Lemma proper_pair h storing f g : proper h -> f < length h -> g < length h -> proper (h ++ [{| what := Pair storing f g; attributes := [] |}]).
  Proof.
    intros (P & Q) Hf Hg. split.
    - intros l c st f' g' E W. destruct (Nat.lt_ge_cases l (length h)) as [L|L]; [rewrite nth_error_app1 in E by exact L; now apply (P l c st)|].
      rewrite nth_error_app2 in E by exact L. destruct (l - length h) as [|k] eqn:D; [|destruct k; discriminate]. injection E as <-. cbn in W. injection W as <- <- <-. lia.
    - intros l c name l' E Hin. rewrite app_length. cbn. destruct (Nat.lt_ge_cases l (length h)) as [L|L]; [rewrite nth_error_app1 in E by exact L; specialize (Q l c name l' E Hin); lia|].
      rewrite nth_error_app2 in E by exact L. destruct (l - length h) as [|k] eqn:D; [|destruct k; discriminate]. injection E as <-. destruct Hin.
  Qed.
  Lemma new_cell h c : nth_error (h ++ [c]) (length h) = Some c.
  Proof. rewrite nth_error_app2 by lia. now rewrite Nat.sub_diag. Qed.
  Lemma not_tuple name : ~ In name tuple_names -> existsb (String.eqb name) tuple_names = false.
  Proof. intros N. apply Bool.not_true_iff_false. intros X. apply N. apply existsb_exists in X as (y & Hy & E). apply String.eqb_eq in E. now subst. Qed.

  (** ** Attributes *)
  (** What is found on the pair is what is found on the function; nothing changes for older objects. *)
  Theorem C102_attributes h f g h' w : proper h -> f < length h -> g < length h -> function_with_gradient h f g = Ok (h', w) ->
    proper h' /\ (forall name, free_name name -> getattr h' w name = getattr h f name) /\
    getattr h' w "function" = Ok (Object f) /\ getattr h' w "gradient" = Ok (Object g) /\
    (forall l name, l < length h -> getattr h' l name = getattr h l name) /\ (forall l pos kw, l < length h -> call h' l pos kw = call h l pos kw).
  Proof.
    intros P Hf Hg E. unfold function_with_gradient in E. destruct (has_store_artifact_param h f) as [st|e]; [|discriminate]. cbn [rbind] in E. injection E as <- <-.
    pose proof (proper_pair h st f g P Hf Hg) as P'. split; [exact P'|].
    assert (Old : forall l name, l < length h -> getattr (h ++ [{| what := Pair st f g; attributes := [] |}]) l name = getattr h l name) by (intros; unfold getattr; now apply getattr_old).
    split; [|split; [|split; [|split; [exact Old|]]]].
    - intros name (N1 & N2 & N3). rewrite <- (Old f name Hf). unfold getattr at 1. cbn [getattr_within]. rewrite new_cell. cbn [what].
      apply String.eqb_neq in N1, N2. rewrite N1, N2, (not_tuple name N3). apply getattr_more; assumption.
    - unfold getattr. cbn [getattr_within]. now rewrite new_cell.
    - unfold getattr. cbn [getattr_within]. now rewrite new_cell.
    - intros. unfold call. now apply call_old.
  Qed.

  (** ** Detection of artifacts: a pair stores artifacts exactly if its function does, also for decorated functions and for pairs of pairs; and it has a gradient. *)
  Lemma chain_old h y l p e : proper h -> l < length h -> chain h l p e <-> chain (h ++ y) l p e.
  Proof.
    intros P L. assert (Old : forall l name, l < length h -> getattr (h ++ y) l name = getattr h l name) by (intros; unfold getattr; now apply getattr_old). split.
    - intros C. revert L. induction C as [l H|l v H N|l l' p e H C IH]; intros L.
      + constructor. unfold hasattr in *. now rewrite Old.
      + apply (chain_dead _ l v); [now rewrite Old|exact N].
      + apply chain_step; [now rewrite Old|]. apply IH. now apply (wrapped_exists h l).
    - intros C. revert L. induction C as [l H|l v H N|l l' p e H C IH]; intros L.
      + constructor. unfold hasattr in *. now rewrite Old in H.
      + apply (chain_dead _ l v); [now rewrite <- Old|exact N].
      + rewrite Old in H by exact L. apply chain_step; [exact H|]. apply IH. now apply (wrapped_exists h l).
  Qed.
  Theorem C102_detected h f g h' w : proper h -> f < length h -> g < length h -> function_with_gradient h f g = Ok (h', w) ->
    has_store_artifact_param h' w = has_store_artifact_param h f /\ recorder_kind h' w = (let! a := has_store_artifact_param h f in Ok (a, true)).
  Proof.
    intros P Hf Hg E. destruct (C102_attributes h f g h' w P Hf Hg E) as (P' & At & _ & Gr & _ & _).
    assert (D : has_store_artifact_param h' w = has_store_artifact_param h f).
    { unfold function_with_gradient in E. destruct (has_store_artifact_param h f) as [st|e] eqn:Hs; [|discriminate]. cbn [rbind] in E. injection E as <- <-.
      set (c := {| what := Pair st f g; attributes := [] |}) in *. set (h' := h ++ [c]) in *. set (w := length h) in *.
      assert (Lw : w < length h') by (unfold h', w; rewrite app_length; cbn; lia).
      assert (Wr : getattr h' w "__wrapped__" = getattr h f "__wrapped__").
      { apply At. split; [discriminate|]. split; [discriminate|]. intros X. apply Bool.not_false_iff_true with (b := existsb (String.eqb "__wrapped__") tuple_names); [apply existsb_exists; exists "__wrapped__"; split; [exact X|reflexivity]|reflexivity]. }
      destruct (nth_error h f) as [cf|] eqn:Ef; [|apply nth_error_None in Ef; lia].
      unfold has_store_artifact_param, signature in Hs. rewrite Ef in Hs.
      unfold has_store_artifact_param, signature. unfold h' at 1. unfold w at 1. rewrite new_cell. cbn [what c is_callable negb].
      destruct (is_callable (what cf)) eqn:Cal; [|discriminate]. cbn [negb] in Hs.
      destruct (getattr h f "__wrapped__") as [v|e] eqn:G.
      - assert (S : unwrap (S (length h')) h' [w] w = unwrap (S (length h)) h [f] f).
        { symmetry. apply same_unwrap; [exact P|exact P'|exact Hf|exact Lw|]. intros e. split.
          - intros (p & C). inversion C; subst.
            + unfold hasattr in H. rewrite G in H. discriminate.
            + exists []. apply (chain_dead _ w v0); [now rewrite Wr, <- G|exact H0].
            + exists (l' :: p0). apply chain_step; [now rewrite Wr, <- G|]. apply (chain_old h [c]); [exact P|now apply (wrapped_exists h f)|exact H0].
          - intros (p & C). inversion C; subst.
            + unfold hasattr in H. rewrite Wr in H. discriminate.
            + exists []. apply (chain_dead _ f v0); [congruence|exact H0].
            + assert (G' : getattr h f "__wrapped__" = Ok (Object l')) by congruence. exists (l' :: p0). apply chain_step; [exact G'|]. apply (chain_old h [c]); [exact P|now apply (wrapped_exists h f)|exact H0]. }
        rewrite S. destruct (unwrap (Datatypes.S (length h)) h [f] f) as [e|e] eqn:U; [|cbn [rbind] in *; exact Hs].
        cbn [rbind] in *. assert (Le : e < length h).
        { destruct (unwrap_chain h (Datatypes.S (length h)) [f] f) as [(p & o & C)|R]; [|rewrite U in R; intuition discriminate].
          destruct (unwrap_spec h f P Hf) as (A & _). rewrite (A p o C) in U. destruct o as [o|]; [|discriminate]. injection U as ->.
          clear - C P Hf. remember (Some e) as q eqn:Eq. revert Hf. induction C; intros Hf; [injection Eq as ->; exact Hf|discriminate|apply IHC; [exact Eq|now apply (wrapped_exists h l)]]. }
        unfold h'. rewrite nth_error_app1 by exact Le. exact Hs.
      - assert (U : unwrap (S (length h')) h' [w] w = Ok w).
        { destruct (unwrap_spec h' w P' Lw) as (A & _). apply (A [] (Some w)). constructor. unfold hasattr. now rewrite Wr. }
        rewrite U. cbn [rbind]. unfold h', w. rewrite new_cell. cbn [what c parameters_of]. destruct st; reflexivity. }
    split; [exact D|]. unfold recorder_kind. rewrite D. destruct (has_store_artifact_param h f); [|reflexivity]. cbn [rbind]. unfold hasattr. rewrite Gr. reflexivity.
  Qed.
  (** What is not callable cannot be paired. *)
  Theorem C102_not_callable h f g c : nth_error h f = Some c -> what c = NotCallable -> function_with_gradient h f g = Err TypeError.
  Proof. intros E W. unfold function_with_gradient, has_store_artifact_param, signature. rewrite E, W. reflexivity. Qed.

  (** ** Calls *)
  Lemma call_pair h storing f g pos kw : proper h -> f < length h -> g < length h ->
    let h' := h ++ [{| what := Pair storing f g; attributes := [] |}] in
    call h' (length h) pos kw = (let! a := bind (own_parameters storing) pos kw in call h f (argument a "params" :: if storing then [argument a "store_artifact"] else []) []).
  Proof.
    intros P Hf Hg h'. unfold call at 1. cbn [call_within]. unfold h' at 1. rewrite new_cell. cbn [what]. destruct (bind _ pos kw) as [a|e]; [|reflexivity]. cbn [rbind].
    rewrite call_more by (try apply proper_pair; assumption). unfold call. apply call_old; assumption.
  Qed.
  (** A function without artifacts: the pair is called with the parameters, like the function. *)
  Theorem C102_call h f g h' w x : proper h -> f < length h -> g < length h -> function_with_gradient h f g = Ok (h', w) -> has_store_artifact_param h f = Ok false ->
    call h' w [x] [] = call h f [x] [] /\ call h' w [] [("params", x)] = call h f [x] [] /\
    (forall s, call h' w [x] [("store_artifact", s)] = Err TypeError) /\ call h' w [] [] = Err TypeError /\ (forall y, call h' w [x] [("params", y)] = Err TypeError).
  Proof.
    intros P Hf Hg E Hs. unfold function_with_gradient in E. rewrite Hs in E. cbn [rbind] in E. injection E as <- <-.
    repeat split; intros; rewrite (call_pair h false f g _ _ P Hf Hg); reflexivity.
  Qed.
  Lemma usual_bind ps x s : usual ps -> bind ps [x; PyNone] [] = bind ps [x] [] /\ bind ps [x; s] [] = bind ps [x] [("store_artifact", s)].
  Proof.
    intros ([n k d] & K & N & ->). cbn in K, N. subst k.
    assert (X : String.eqb "store_artifact" n = false) by (apply String.eqb_neq; congruence). assert (Y : String.eqb n "store_artifact" = false) by (apply String.eqb_neq; congruence).
    unfold bind. repeat (cbn -[String.eqb]; rewrite ?String.eqb_refl, ?X, ?Y). split; reflexivity.
  Qed.
  Lemma usual_call h f ps x s : called_with h f ps -> usual ps -> call h f [x; PyNone] [] = call h f [x] [] /\ call h f [x; s] [] = call h f [x] [("store_artifact", s)].
  Proof.
    intros (c & E & W) U. destruct (usual_bind ps x s U) as (A & B). unfold call. cbn [call_within]. rewrite E. destruct W as [W|[W|(st & f' & g' & W & ->)]]; rewrite W.
    - split; [now rewrite A|now rewrite B].
    - split; [now rewrite A|now rewrite B].
    - split; [now rewrite A|now rewrite B].
  Qed.
  (** A function with artifacts whose second parameter is store_artifact: with and without a store, the body is entered with the same arguments as if the function were called. *)
  Theorem C102_call_storing h f g h' w ps x s : proper h -> f < length h -> g < length h -> function_with_gradient h f g = Ok (h', w) -> has_store_artifact_param h f = Ok true ->
    called_with h f ps -> usual ps ->
    call h' w [x] [] = call h f [x] [] /\ call h' w [x] [("store_artifact", s)] = call h f [x] [("store_artifact", s)] /\ call h' w [x; s] [] = call h f [x; s] [] /\
    (forall y, call h' w [x] [("params", y)] = Err TypeError) /\ (forall t, call h' w [x; s] [("store_artifact", t)] = Err TypeError).
  Proof.
    intros P Hf Hg E Hs Cw U. unfold function_with_gradient in E. rewrite Hs in E. cbn [rbind] in E. injection E as <- <-. destruct (usual_call h f ps x s Cw U) as (A & B).
    repeat split; intros; rewrite (call_pair h true f g _ _ P Hf Hg); cbn; [exact A|exact B|reflexivity|reflexivity|reflexivity].
  Qed.
  (** If store_artifact can only be given by name, the function is taken for one that stores artifacts, and yet no call of the pair succeeds, though those of the function do. *)
  Theorem C102_keyword_refuted h f g c : proper h -> f < length h -> g < length h -> nth_error h f = Some c -> dget String.eqb "__wrapped__" (attributes c) = None ->
    what c = Function [{| p_name := "params"; p_kind := Pos; p_default := None |}; {| p_name := "store_artifact"; p_kind := KeywordOnly; p_default := Some PyNone |}] ->
    exists h' w, function_with_gradient h f g = Ok (h', w) /\ recorder_kind h' w = Ok (true, true) /\
      (forall x s, call h' w [x] [] = Err TypeError /\ call h' w [x] [("store_artifact", s)] = Err TypeError) /\
      (forall x s, (exists a, call h f [x] [] = Ok (f, a)) /\ (exists a, call h f [x] [("store_artifact", s)] = Ok (f, a))).
  Proof.
    intros P Hf Hg E N W.
    assert (Hs : has_store_artifact_param h f = Ok true).
    { unfold has_store_artifact_param, signature. rewrite E, W. cbn [is_callable negb].
      assert (U : unwrap (S (length h)) h [f] f = Ok f). { destruct (unwrap_spec h f P Hf) as (A & _). apply (A [] (Some f)). constructor. unfold hasattr, getattr. cbn [getattr_within]. rewrite E, W, N. reflexivity. }
      rewrite U. cbn [rbind]. rewrite E, W. reflexivity. }
    assert (Ef : function_with_gradient h f g = Ok (h ++ [{| what := Pair true f g; attributes := [] |}], length h)) by (unfold function_with_gradient; rewrite Hs; reflexivity).
    eexists _, _. split; [exact Ef|]. split; [destruct (C102_detected h f g _ _ P Hf Hg Ef) as (_ & R); rewrite R, Hs; reflexivity|]. split.
    - intros x s. split; rewrite (call_pair h true f g _ _ P Hf Hg); cbn [rbind bind own_parameters argument]; unfold call; cbn [call_within]; rewrite E, W; reflexivity.
    - intros x s. unfold call. cbn [call_within]. rewrite E, W. split; eexists; reflexivity.
  Qed.
  (** If there is a parameter before it, the store ends up there. *)
  Theorem C102_order_refuted h f g c name d : proper h -> f < length h -> g < length h -> nth_error h f = Some c -> dget String.eqb "__wrapped__" (attributes c) = None -> name <> "params" -> name <> "store_artifact" ->
    what c = Function [{| p_name := "params"; p_kind := Pos; p_default := None |}; {| p_name := name; p_kind := Pos; p_default := Some d |}; {| p_name := "store_artifact"; p_kind := Pos; p_default := Some PyNone |}] ->
    exists h' w, function_with_gradient h f g = Ok (h', w) /\
      forall x s, exists a a', call h' w [x] [("store_artifact", s)] = Ok (f, a) /\ call h f [x] [("store_artifact", s)] = Ok (f, a') /\
        argument a name = s /\ argument a "store_artifact" = PyNone /\ argument a' name = d /\ argument a' "store_artifact" = s.
  Proof.
    intros P Hf Hg E N N1 N2 W.
    assert (Hs : has_store_artifact_param h f = Ok true).
    { unfold has_store_artifact_param, signature. rewrite E, W. cbn [is_callable negb].
      assert (U : unwrap (S (length h)) h [f] f = Ok f). { destruct (unwrap_spec h f P Hf) as (A & _). apply (A [] (Some f)). constructor. unfold hasattr, getattr. cbn [getattr_within]. rewrite E, W, N. reflexivity. }
      rewrite U. cbn [rbind]. rewrite E, W. cbn. now rewrite Bool.orb_true_r. }
    assert (Ef : function_with_gradient h f g = Ok (h ++ [{| what := Pair true f g; attributes := [] |}], length h)) by (unfold function_with_gradient; rewrite Hs; reflexivity).
    eexists _, _. split; [exact Ef|]. intros x s. rewrite (call_pair h true f g _ _ P Hf Hg). cbn [rbind bind own_parameters argument]. unfold call. cbn [call_within]. rewrite E, W.
    assert (X1 : String.eqb name "params" = false) by now apply String.eqb_neq. assert (X2 : String.eqb name "store_artifact" = false) by now apply String.eqb_neq.
    assert (X3 : String.eqb "params" name = false) by (apply String.eqb_neq; congruence). assert (X4 : String.eqb "store_artifact" name = false) by (apply String.eqb_neq; congruence).
    assert (X5 : String.eqb "params" "store_artifact" = false) by reflexivity. assert (X6 : String.eqb "store_artifact" "params" = false) by reflexivity.
    unfold bind. repeat (cbn -[String.eqb]; rewrite ?String.eqb_refl, ?X1, ?X2, ?X3, ?X4, ?X5, ?X6).
    eexists _, _. split; [reflexivity|]. split; [reflexivity|]. unfold argument. repeat (cbn -[String.eqb]; rewrite ?String.eqb_refl, ?X1, ?X2, ?X3, ?X4, ?X5, ?X6). repeat split; reflexivity.
  Qed.
End C102.

Print Assumptions C102_attributes.
Print Assumptions C102_detected.
Print Assumptions C102_call_storing.
Print Assumptions C102_keyword_refuted.
Print Assumptions C102_order_refuted.
