(** C90: objects made from specifications. *)
From Coq Require Import String Lia.
From Verif Require GaussQ.
From Verif Require Import Base BaseFacts Json MatModel UtilsModel UtilsProps MeasProps CostModel CreateModel.
Open Scope list_scope.

Section C90.
  Context {V W Mod : Type} (import_module : V -> M W Mod) (getattr : Mod -> V -> result (creator V W)).
  Notation dict := (list (string * V)).
  Notation create := (create_object import_module getattr).
  (** the parameters in a specification *)
  Notation without d := (ddel String.eqb "function_name"%string (ddel String.eqb "module_name"%string d)).
  Notation disjoint a b := (forall k, In k (dkeys a) -> ~ In k (dkeys b)).
  (** nothing that was stored has changed *)
  Definition kept (s s' : store V W) : Prop := forall r d, nth_error (dicts s) r = Some d -> nth_error (dicts s') r = Some d.

  Lemma put_last (l : list dict) d d' : put (length l) d' (l ++ [d]) = l ++ [d'].
  Proof. induction l as [|x l IH]; [reflexivity|]. cbn. now rewrite IH. Qed.
  Lemma last_get (l : list dict) d : nth_error (l ++ [d]) (length l) = Some d.
  Proof. rewrite nth_error_app2 by lia. rewrite Nat.sub_diag. reflexivity. Qed.
  Lemma contents_last (l : list dict) d (w : W) : contents (length l) {| dicts := l ++ [d]; world := w |} = ({| dicts := l ++ [d]; world := w |}, Ok d).
  Proof. unfold contents. cbn [dicts]. now rewrite last_get. Qed.
  Lemma pop_last (l : list dict) d (w : W) k v : dget String.eqb k d = Some v ->
    pop (length l) k {| dicts := l ++ [d]; world := w |} = ({| dicts := l ++ [ddel String.eqb k d]; world := w |}, Ok v).
  Proof. intros E. unfold pop, bindM. rewrite contents_last, E. unfold write, bindM. cbn [dicts]. rewrite put_last. reflexivity. Qed.
  Lemma pop_none (l : list dict) d (w : W) k : dget String.eqb k d = None ->
    pop (length l) k {| dicts := l ++ [d]; world := w |} = ({| dicts := l ++ [d]; world := w |}, Err KeyError).
  Proof. intros E. unfold pop, bindM. rewrite contents_last, E. reflexivity. Qed.
  Lemma kept_app s d w : kept s {| dicts := dicts s ++ [d]; world := w |}.
  Proof. intros r d0 H. cbn [dicts]. rewrite nth_error_app1; [exact H|]. apply nth_error_Some. congruence. Qed.
  Lemma merge_disjoint (a b : dict) : NoDup (dkeys b) -> disjoint a b -> merge a b = a ++ b.
  Proof.
    revert a. induction b as [|[k v] b IH]; intros a N D; [now rewrite app_nil_r|]. unfold merge. cbn [fold_left fst snd]. inversion N as [|? ? N1 N2]; subst.
    rewrite (dset_app_new _ String.eqb_eq) by (intros H; apply (D k H); now left). fold (merge (a ++ [(k, v)]) b). rewrite IH; [now rewrite <- app_assoc|exact N2|].
    intros k0 H. unfold dkeys in H. rewrite map_app, in_app_iff in H. destruct H as [H|[<-|[]]]; [|exact N1]. intros H2. apply (D k0 H). now right.
  Qed.
  Lemma string_eqb_ok : forall a b, String.eqb a b = true <-> a = b.
  Proof. intros. apply String.eqb_eq. Qed.
  Lemma no_common (a b : dict) : disjoint a b -> existsb (fun k => memb String.eqb k (dkeys b)) (dkeys a) = false.
  Proof.
    intros D. destruct (existsb _ _) eqn:E; [|reflexivity]. exfalso. apply existsb_exists in E as (k & H & M). apply (memb_In _ string_eqb_ok) in M. exact (D k H M).
  Qed.
  Lemma ddel_get_other (d : dict) k k2 : k <> k2 -> dget String.eqb k (ddel String.eqb k2 d) = dget String.eqb k d.
  Proof. apply (dget_ddel_other _ string_eqb_ok). Qed.

  (** the run up to the choice of the creator *)
  Lemma create_run s specs kwargs d m mo f w' c : nth_error (dicts s) specs = Some d -> dget String.eqb "module_name"%string d = Some m -> dget String.eqb "function_name"%string d = Some f ->
    import_module m (world s) = (w', Ok mo) -> getattr mo f = Ok c ->
    create specs kwargs s =
      (if existsb (fun k => memb String.eqb k (dkeys kwargs)) (dkeys (without d)) then liftM (Err ValueError)
       else match c with
            | Function sg body => match kwargs, without d with [], [] => retM (Plain sg body)
                | _, _ => retM (Partial sg body (filter (fun kv => memb String.eqb (fst kv) (parameter_names sg)) (merge (without d) kwargs))) end
            | Other call => bindM (on_world (call (merge (without d) kwargs))) (fun v => retM (Made v))
            end) {| dicts := dicts s ++ [without d]; world := w' |}.
  Proof.
    intros Hd Hm Hf Hi Hg. unfold create_object. unfold bindM at 1. unfold contents at 1. rewrite Hd. unfold bindM at 1, alloc at 1. unfold bindM at 1. rewrite (pop_last _ _ _ _ _ Hm).
    unfold bindM at 1. unfold on_world at 1. cbn [world dicts]. rewrite Hi. unfold bindM at 1. rewrite (pop_last _ _ _ "function_name"%string f) by (rewrite ddel_get_other by discriminate; exact Hf).
    unfold bindM at 1. rewrite Hg. unfold bindM at 1. rewrite contents_last. destruct (existsb _ _); [reflexivity|]. destruct c; reflexivity.
  Qed.

  (** ** Missing names, names given twice *)
  Theorem C90_missing s specs kwargs d : nth_error (dicts s) specs = Some d -> dget String.eqb "module_name"%string d = None ->
    exists s', create specs kwargs s = (s', Err KeyError) /\ world s' = world s /\ kept s s'.
  Proof.
    intros Hd Hm. unfold create_object. unfold bindM at 1. unfold contents at 1. rewrite Hd. unfold bindM at 1, alloc at 1. unfold bindM at 1. rewrite (pop_none _ _ _ _ Hm).
    eexists. split; [reflexivity|]. split; [reflexivity|apply kept_app].
  Qed.
  Theorem C90_missing_function s specs kwargs d m mo w' : nth_error (dicts s) specs = Some d -> dget String.eqb "module_name"%string d = Some m -> dget String.eqb "function_name"%string d = None ->
    import_module m (world s) = (w', Ok mo) -> exists s', create specs kwargs s = (s', Err KeyError) /\ world s' = w' /\ kept s s'.
  Proof.
    intros Hd Hm Hf Hi. unfold create_object. unfold bindM at 1. unfold contents at 1. rewrite Hd. unfold bindM at 1, alloc at 1. unfold bindM at 1. rewrite (pop_last _ _ _ _ _ Hm).
    unfold bindM at 1. unfold on_world at 1. cbn [world dicts]. rewrite Hi. unfold bindM at 1. rewrite pop_none by (rewrite ddel_get_other by discriminate; exact Hf).
    eexists. split; [reflexivity|]. split; [reflexivity|apply kept_app].
  Qed.
  (** A parameter given both in the specification and as a keyword is refused, and nothing is called. *)
  Theorem C90_twice s specs kwargs d m mo f w' c k : nth_error (dicts s) specs = Some d -> dget String.eqb "module_name"%string d = Some m -> dget String.eqb "function_name"%string d = Some f ->
    import_module m (world s) = (w', Ok mo) -> getattr mo f = Ok c -> NoDup (dkeys d) ->
    k <> "module_name"%string -> k <> "function_name"%string -> In k (dkeys d) -> In k (dkeys kwargs) ->
    exists s', create specs kwargs s = (s', Err ValueError) /\ world s' = w' /\ kept s s'.
  Proof.
    intros Hd Hm Hf Hi Hg N N1 N2 I1 I2. rewrite (create_run s specs kwargs d m mo f w' c Hd Hm Hf Hi Hg).
    assert (E : existsb (fun k => memb String.eqb k (dkeys kwargs)) (dkeys (without d)) = true).
    { apply existsb_exists. exists k. split; [|apply (memb_In _ string_eqb_ok); exact I2]. destruct (dget String.eqb k (without d)) as [v|] eqn:E; [eapply dget_Some_key; [exact string_eqb_ok|exact E]|].
      rewrite !ddel_get_other in E by assumption. apply (dget_None _ string_eqb_ok) in E. contradiction. }
    rewrite E. eexists. split; [reflexivity|]. split; [reflexivity|apply kept_app].
  Qed.

  (** ** Classes are called with the parameters of both *)
  Theorem C90_class s specs kwargs d m mo f w' call : nth_error (dicts s) specs = Some d -> dget String.eqb "module_name"%string d = Some m -> dget String.eqb "function_name"%string d = Some f ->
    import_module m (world s) = (w', Ok mo) -> getattr mo f = Ok (Other call) -> NoDup (dkeys kwargs) -> disjoint (without d) kwargs ->
    exists s', create specs kwargs s = (s', rmap Made (snd (call (without d ++ kwargs) w'))) /\ world s' = fst (call (without d ++ kwargs) w') /\ kept s s'.
  Proof.
    intros Hd Hm Hf Hi Hg N D. rewrite (create_run s specs kwargs d m mo f w' _ Hd Hm Hf Hi Hg), (no_common _ _ D), (merge_disjoint _ _ N D). unfold bindM, on_world. cbn [world dicts].
    destruct (call (without d ++ kwargs) w') as [w2 [v|e]]; eexists; (split; [reflexivity|]; split; [reflexivity|apply kept_app]).
  Qed.

  (** ** Functions are returned with their parameters bound by name *)
  Lemma filter_all {A} (p : A -> bool) l : (forall x, In x l -> p x = true) -> filter p l = l.
  Proof. induction l as [|x l IH]; intros H; [reflexivity|]. cbn. rewrite H by now left. f_equal. apply IH. intros y Hy. apply H. now right. Qed.
  Lemma merge_nil (b : dict) : NoDup (dkeys b) -> merge [] b = b.
  Proof. intros N. rewrite merge_disjoint; [reflexivity|exact N|intros k []]. Qed.
  Lemma none_exists {A} (l : list A) : existsb (fun _ => false) l = false.
  Proof. induction l as [|x l IH]; [reflexivity|exact IH]. Qed.
  Lemma created_function s specs kwargs d m mo f w' sg body : nth_error (dicts s) specs = Some d -> dget String.eqb "module_name"%string d = Some m -> dget String.eqb "function_name"%string d = Some f ->
    import_module m (world s) = (w', Ok mo) -> getattr mo f = Ok (Function sg body) -> NoDup (dkeys kwargs) -> disjoint (without d) kwargs ->
    exists s' c, create specs kwargs s = (s', Ok c) /\ world s' = w' /\ kept s s' /\
      forall call_value args kws w, NoDup (dkeys kws) ->
        call_created call_value c args kws w = call_function sg body args (merge (filter (fun kv => memb String.eqb (fst kv) (parameter_names sg)) (without d ++ kwargs)) kws) w.
  Proof.
    intros Hd Hm Hf Hi Hg N D. rewrite (create_run s specs kwargs d m mo f w' _ Hd Hm Hf Hi Hg), (no_common _ _ D), (merge_disjoint _ _ N D).
    destruct kwargs as [|kw kwargs]; [destruct (without d) as [|x rest] eqn:E|].
    - do 2 eexists. split; [reflexivity|]. split; [reflexivity|]. split; [apply kept_app|]. intros cv args kws w Nk. cbn [app filter call_created]. rewrite merge_nil by exact Nk. reflexivity.
    - do 2 eexists. split; [reflexivity|]. split; [reflexivity|]. split; [apply kept_app|]. reflexivity.
    - do 2 eexists. split; [reflexivity|]. split; [reflexivity|]. split; [apply kept_app|]. reflexivity.
  Qed.
  (** Nothing is called yet; a later call is a call of the function with these parameters, which the later ones override. *)
  Theorem C90_function s specs kwargs d m mo f w' sg body : nth_error (dicts s) specs = Some d -> dget String.eqb "module_name"%string d = Some m -> dget String.eqb "function_name"%string d = Some f ->
    import_module m (world s) = (w', Ok mo) -> getattr mo f = Ok (Function sg body) -> NoDup (dkeys kwargs) -> disjoint (without d) kwargs ->
    (forall k, In k (dkeys (without d ++ kwargs)) -> In k (map fst (parameters sg))) ->
    exists s' c, create specs kwargs s = (s', Ok c) /\ world s' = w' /\ kept s s' /\
      forall call_value args kws w, NoDup (dkeys kws) -> call_created call_value c args kws w = call_function sg body args (merge (without d ++ kwargs) kws) w.
  Proof.
    intros Hd Hm Hf Hi Hg N D A. destruct (created_function s specs kwargs d m mo f w' sg body Hd Hm Hf Hi Hg N D) as (s' & c & E & Q1 & Q2 & H). exists s', c. split; [exact E|]. split; [exact Q1|]. split; [exact Q2|].
    intros cv args kws w Nk. rewrite H by exact Nk. rewrite filter_all; [reflexivity|]. intros x Hx. apply (memb_In _ string_eqb_ok). unfold parameter_names. apply in_or_app. left. apply A. now apply in_map.
  Qed.
  Lemma merge_keys (b : dict) : forall a k, In k (dkeys a) \/ In k (dkeys b) -> In k (dkeys (merge a b)).
  Proof.
    unfold merge. induction b as [|kv b IH]; intros a k H; cbn [fold_left]; [destruct H as [H|[]]; exact H|]. apply IH.
    destruct H as [H|[H|H]]; [left; apply (In_dkeys_dset _ string_eqb_ok); right; exact H|left; apply (In_dkeys_dset _ string_eqb_ok); left; auto|right; exact H].
  Qed.
  (** A later call that gives too many arguments, or gives by position a parameter that the specification, the keywords of create_object or its own keywords give, is a TypeError
      and the function does not run. *)
  Theorem C90_bad_call s specs kwargs d m mo f w' sg body : nth_error (dicts s) specs = Some d -> dget String.eqb "module_name"%string d = Some m -> dget String.eqb "function_name"%string d = Some f ->
    import_module m (world s) = (w', Ok mo) -> getattr mo f = Ok (Function sg body) -> NoDup (dkeys kwargs) -> disjoint (without d) kwargs ->
    (forall k, In k (dkeys (without d ++ kwargs)) -> In k (map fst (parameters sg))) ->
    exists s' c, create specs kwargs s = (s', Ok c) /\ forall call_value args kws w, NoDup (dkeys kws) ->
      length (parameters sg) < length args \/ (exists k, In k (firstn (length args) (map fst (parameters sg))) /\ In k (dkeys (without d) ++ dkeys kwargs ++ dkeys kws)) ->
      call_created call_value c args kws w = (w, Err TypeError).
  Proof.
    intros Hd Hm Hf Hi Hg N D A. destruct (C90_function s specs kwargs d m mo f w' sg body Hd Hm Hf Hi Hg N D A) as (s' & c & E & _ & _ & H). exists s', c. split; [exact E|].
    intros cv args kws w Nk B. rewrite H by exact Nk. unfold call_function, bind_arguments. rewrite map_length.
    destruct (Nat.ltb_spec (length (parameters sg)) (length args)) as [L|L]; [reflexivity|]. destruct B as [B|(k & B1 & B2)]; [lia|].
    assert (X : existsb (fun k => memb String.eqb k (firstn (length args) (map fst (parameters sg)))) (dkeys (merge (without d ++ kwargs) kws)) = true).
    { apply existsb_exists. exists k. split; [|apply (memb_In _ string_eqb_ok); exact B1]. apply merge_keys. unfold dkeys. rewrite map_app. rewrite !in_app_iff in *. tauto. }
    rewrite X. reflexivity.
  Qed.
  (** Parameters that the function does not have are dropped without notice, although the function itself would refuse them. *)
  Theorem C90_unknown_refuted s specs kwargs d m mo f w' sg body k : nth_error (dicts s) specs = Some d -> dget String.eqb "module_name"%string d = Some m -> dget String.eqb "function_name"%string d = Some f ->
    import_module m (world s) = (w', Ok mo) -> getattr mo f = Ok (Function sg body) -> NoDup (dkeys kwargs) -> disjoint (without d) kwargs ->
    var_keyword sg = None -> In k (dkeys (without d ++ kwargs)) -> ~ In k (map fst (parameters sg)) ->
    (forall w, call_function sg body [] (without d ++ kwargs) w = (w, Err TypeError)) /\
    exists s' c, create specs kwargs s = (s', Ok c) /\
      forall call_value args kws w, NoDup (dkeys kws) ->
        call_created call_value c args kws w = call_function sg body args (merge (filter (fun kv => memb String.eqb (fst kv) (map fst (parameters sg))) (without d ++ kwargs)) kws) w.
  Proof.
    intros Hd Hm Hf Hi Hg N D Hv Hk Nk. split.
    - intros w. unfold call_function, bind_arguments. rewrite Hv. cbn [length]. change (Nat.ltb (length (map fst (parameters sg))) 0) with false. cbv iota. cbn [firstn].
      assert (E : existsb (fun k : string => memb String.eqb k []) (dkeys (without d ++ kwargs)) = false) by exact (none_exists (dkeys (without d ++ kwargs))). rewrite E. clear E.
      destruct (filter (fun kv : string * V => negb (memb String.eqb (fst kv) (map fst (parameters sg)))) (without d ++ kwargs)) as [|x l] eqn:E; [|reflexivity]. exfalso.
      apply in_map_iff in Hk as ([k' v] & <- & Hk). assert (Q : In (k', v) []); [|destruct Q]. rewrite <- E. apply filter_In. split; [exact Hk|]. cbn [fst] in *. apply Bool.negb_true_iff.
      destruct (memb _ _ _) eqn:M; [|reflexivity]. apply (memb_In _ string_eqb_ok) in M. contradiction.
    - destruct (created_function s specs kwargs d m mo f w' sg body Hd Hm Hf Hi Hg N D) as (s' & c & E & _ & _ & H). exists s', c. split; [exact E|]. intros cv args kws w Nw. rewrite H by exact Nw.
      unfold parameter_names. rewrite Hv, app_nil_r. reflexivity.
  Qed.
  (** A function that takes any keywords gets none of those from the specification. *)
  Theorem C90_var_keyword_refuted s specs kwargs d m mo f w' sg body name : nth_error (dicts s) specs = Some d -> dget String.eqb "module_name"%string d = Some m -> dget String.eqb "function_name"%string d = Some f ->
    import_module m (world s) = (w', Ok mo) -> getattr mo f = Ok (Function sg body) -> NoDup (dkeys kwargs) -> disjoint (without d) kwargs ->
    parameters sg = [] -> var_keyword sg = Some name -> ~ In name (dkeys (without d ++ kwargs)) ->
    (forall w, call_function sg body [] (without d ++ kwargs) w = body [] (without d ++ kwargs) w) /\
    exists s' c, create specs kwargs s = (s', Ok c) /\ forall call_value w, call_created call_value c [] [] w = body [] [] w.
  Proof.
    intros Hd Hm Hf Hi Hg N D Hp Hv Hn. split.
    - intros w. unfold call_function, bind_arguments. rewrite Hp, Hv. cbn [map length firstn skipn mapM rbind app]. change (Nat.ltb 0 0) with false. cbv iota.
      assert (E : existsb (fun k : string => memb String.eqb k []) (dkeys (without d ++ kwargs)) = false) by exact (none_exists (dkeys (without d ++ kwargs))). rewrite E.
      rewrite filter_all by reflexivity. reflexivity.
    - destruct (created_function s specs kwargs d m mo f w' sg body Hd Hm Hf Hi Hg N D) as (s' & c & E & _ & _ & H). exists s', c. split; [exact E|]. intros cv w. rewrite H by constructor.
      unfold parameter_names. rewrite Hp, Hv. cbn [map app].
      assert (F : filter (fun kv : string * V => memb String.eqb (fst kv) [name]) (without d ++ kwargs) = []).
      { clear H. destruct (filter (fun kv : string * V => memb String.eqb (fst kv) [name]) (without d ++ kwargs)) as [|x l] eqn:F; [reflexivity|]. exfalso. assert (Q : In x (x :: l)) by now left. rewrite <- F in Q. apply filter_In in Q as [Q1 Q2]. apply (memb_In _ string_eqb_ok) in Q2 as [Q2|[]].
        apply Hn. rewrite Q2. exact (in_map fst _ _ Q1). }
      rewrite F. unfold call_function, bind_arguments. rewrite Hp, Hv. reflexivity.
  Qed.

  (** ** Specifications as text, and noise models in files *)
  Context {K : cring} (of_json : json K -> V) (call_value : V -> list V -> dict -> M W V).
  Lemma text_specs loads text d s : loads text = Ok d ->
    load_from_specs import_module getattr of_json loads (inl text) s =
    create (length (dicts s)) [] {| dicts := dicts s ++ [of_jdict of_json d]; world := world s |}.
  Proof. intros E. unfold load_from_specs. rewrite E. reflexivity. Qed.
  Theorem C90_noise_model data module_name function_name s w' mo sg body :
    import_module (of_json (JStr module_name)) (world s) = (w', Ok mo) -> getattr mo (of_json (JStr function_name)) = Ok (Function sg body) ->
    exists s', load_noise_model import_module getattr of_json call_value (save_noise_model data module_name function_name) s =
        (s', snd (call_function sg body [of_json data] [] w')) /\ world s' = fst (call_function sg body [of_json data] [] w') /\ kept s s'.
  Proof.
    intros Hi Hg. unfold load_noise_model, save_noise_model, of_jdict. cbn [map fst snd]. unfold bindM at 1, alloc at 1. unfold bindM at 1. rewrite contents_last. cbn [dget String.eqb Ascii.eqb Bool.eqb].
    unfold bindM at 1, write at 1. cbn [dicts world]. rewrite put_last. cbn [ddel String.eqb Ascii.eqb Bool.eqb].
    set (s1 := {| dicts := _; world := _ |}). set (d := [("module_name"%string, of_json (JStr module_name)); ("function_name"%string, of_json (JStr function_name))]) in *.
    assert (Hd : nth_error (dicts s1) (length (dicts s)) = Some d) by apply last_get.
    unfold bindM at 1. rewrite (create_run s1 (length (dicts s)) [] d _ mo _ w' _ Hd eq_refl eq_refl Hi Hg). change (without d) with (@nil (string * V)). cbn [dkeys map existsb]. unfold retM. unfold on_world. cbn [call_created world dicts].
    destruct (call_function sg body [of_json data] [] w') as [w2 r]. eexists. split; [reflexivity|]. split; [reflexivity|]. intros r0 d0 H. cbn [dicts]. unfold s1. cbn [dicts]. rewrite <- app_assoc. rewrite nth_error_app1; [exact H|]. apply nth_error_Some. congruence.
  Qed.
  (** A class is instantiated without the data first; the instance is called with them. *)
  Theorem C90_noise_class data module_name function_name s w' mo call w2 v :
    import_module (of_json (JStr module_name)) (world s) = (w', Ok mo) -> getattr mo (of_json (JStr function_name)) = Ok (Other call) -> call [] w' = (w2, Ok v) ->
    exists s', load_noise_model import_module getattr of_json call_value (save_noise_model data module_name function_name) s =
        (s', snd (call_value v [of_json data] [] w2)) /\ world s' = fst (call_value v [of_json data] [] w2) /\ kept s s'.
  Proof.
    intros Hi Hg Hc. unfold load_noise_model, save_noise_model, of_jdict. cbn [map fst snd]. unfold bindM at 1, alloc at 1. unfold bindM at 1. rewrite contents_last. cbn [dget String.eqb Ascii.eqb Bool.eqb].
    unfold bindM at 1, write at 1. cbn [dicts world]. rewrite put_last. cbn [ddel String.eqb Ascii.eqb Bool.eqb].
    set (s1 := {| dicts := _; world := _ |}). set (d := [("module_name"%string, of_json (JStr module_name)); ("function_name"%string, of_json (JStr function_name))]) in *.
    assert (Hd : nth_error (dicts s1) (length (dicts s)) = Some d) by apply last_get.
    unfold bindM at 1. rewrite (create_run s1 (length (dicts s)) [] d _ mo _ w' _ Hd eq_refl eq_refl Hi Hg). change (without d) with (@nil (string * V)). cbn [dkeys map existsb merge fold_left]. unfold bindM, on_world. cbn [world dicts]. rewrite Hc. cbn [retM call_created world dicts].
    destruct (call_value v [of_json data] [] w2) as [w3 r]. eexists. split; [reflexivity|]. split; [reflexivity|]. intros r0 d0 H. cbn [dicts]. unfold s1. cbn [dicts]. rewrite <- app_assoc. rewrite nth_error_app1; [exact H|]. apply nth_error_Some. congruence.
  Qed.
End C90.

(** ** Estimates of the number of measurements *)
Section Nmeas.
  Context {K : cring} (isz : K -> bool).
  Theorem C90_nmeas schema nmeas nterms (a : ndarray K) : storable a ->
    load_nmeas_estimate isz (save_nmeas_estimate schema nmeas nterms (Some a)) = Ok (JNum nmeas, JNum nterms, a).
  Proof. intros H. unfold load_nmeas_estimate, save_nmeas_estimate, jitem, jget. cbn [app dget String.eqb Ascii.eqb Bool.eqb rbind]. rewrite (storable_round_trip isz a H). reflexivity. Qed.
  (** What is saved without measurements per frame, the default, cannot be loaded. *)
  Theorem C90_nmeas_refuted schema nmeas nterms : load_nmeas_estimate isz (save_nmeas_estimate (K := K) schema nmeas nterms None) = Err KeyError.
  Proof. reflexivity. Qed.
End Nmeas.

(** ** Examples: values are numbers; module 1 has the function 5 with the parameters a and b (b with a default) and the class 6; the world is the list of what happened *)
Module Example90.
  Definition import_module (v : nat) : M (list nat) nat := fun w => (v :: w, if Nat.eqb v 1 then Ok 1 else Err GenericException).
  Definition sg : signature := {| parameters := [("a"%string, false); ("b"%string, true)]; var_keyword := None |}.
  Definition any : signature := {| parameters := []; var_keyword := Some "options"%string |}.
  Definition body (bound : list (option nat)) (extra : list (string * nat)) : M (list nat) nat :=
    fun w => (50 :: w, Ok (match bound with [Some a; Some b] => 10 * a + b | [Some a; None] => 10 * a + 9 | _ => length extra end)).
  Definition getattr (mo f : nat) : result (creator nat (list nat)) :=
    match f with 5 => Ok (Function sg body) | 6 => Ok (Other (fun d => fun w => (60 :: w, Ok (length d)))) | 7 => Ok (Function any body) | _ => Err AttributeError end.
  Definition names (f : nat) (d : list (string * nat)) := ("module_name"%string, 1) :: ("function_name"%string, f) :: d.
  Definition start d : store nat (list nat) := {| dicts := [d]; world := [] |}.
  Definition run d kwargs := create_object import_module getattr 0 kwargs (start d).
  Definition then_call (r : store nat (list nat) * result (created nat (list nat))) args kws :=
    match snd r with Ok c => snd (call_created (fun v _ _ w => (w, Ok v)) c args kws (world (fst r))) | Err e => Err e end.
  Example function : run (names 5 [("a"%string, 3)]) [("b"%string, 4)] =
      ({| dicts := [names 5 [("a"%string, 3)]; [("a"%string, 3)]]; world := [1] |}, Ok (Partial sg body [("a"%string, 3); ("b"%string, 4)])) /\
    then_call (run (names 5 [("a"%string, 3)]) [("b"%string, 4)]) [] [] = Ok 34 /\ then_call (run (names 5 [("a"%string, 3)]) []) [] [("b"%string, 2)] = Ok 32 /\
    then_call (run (names 5 [("b"%string, 3)]) []) [7] [] = Ok 73.
  Proof. repeat split. Qed.
  Example function_hypotheses : let d := names 5 [("a"%string, 3)] in
    nth_error (dicts (start d)) 0 = Some d /\ dget String.eqb "module_name"%string d = Some 1 /\ dget String.eqb "function_name"%string d = Some 5 /\
    import_module 1 (world (start d)) = ([1], Ok 1) /\ getattr 1 5 = Ok (Function sg body).
  Proof. repeat split. Qed.
  Example class : run (names 6 [("x"%string, 3)]) [("y"%string, 4)] = ({| dicts := [names 6 [("x"%string, 3)]; [("x"%string, 3)]]; world := [60; 1] |}, Ok (Made 2)).
  Proof. reflexivity. Qed.
  Example twice : snd (run (names 6 [("x"%string, 3)]) [("x"%string, 4)]) = Err ValueError.
  Proof. reflexivity. Qed.
  (** "B" for "b": the default is used *)
  Example misspelt : then_call (run (names 5 [("a"%string, 3); ("B"%string, 4)]) []) [] [] = Ok 39 /\ snd (call_function sg body [] [("a"%string, 3); ("B"%string, 4)] []) = Err TypeError.
  Proof. split; reflexivity. Qed.
  (** a is given by the specification already *)
  Example again : then_call (run (names 5 [("a"%string, 3)]) []) [9] [] = Err TypeError /\ exists v, then_call (run (names 5 [("b"%string, 3)]) []) [9] [] = Ok v.
  Proof. split; [reflexivity|eexists; reflexivity]. Qed.
  Example options : then_call (run (names 7 [("x"%string, 3)]) []) [] [] = Ok 0 /\ snd (call_function any body [] [("x"%string, 3)] []) = Ok 1.
  Proof. split; reflexivity. Qed.
  Example missing : snd (run [("function_name"%string, 5)] []) = Err KeyError /\ run [("module_name"%string, 1)] [] = ({| dicts := [[("module_name"%string, 1)]; []]; world := [1] |}, Err KeyError).
  Proof. split; reflexivity. Qed.
  (** strings stand for their length here: "m" for 1, "five!" for 5 *)
  Definition of_json (j : json GaussQ.GQ) : nat := match j with JStr s => String.length s | JArr l => 100 + length l | _ => 0 end.
  Example noise : snd (load_noise_model import_module getattr of_json (fun v _ _ w => (w, Ok v)) (save_noise_model (JArr [JNull; JNull]) "m" "five!") {| dicts := []; world := [] |}) = Ok 1029.
  Proof. reflexivity. Qed.
End Example90.

Print Assumptions C90_missing.
Print Assumptions C90_missing_function.
Print Assumptions C90_twice.
Print Assumptions C90_class.
Print Assumptions C90_function.
Print Assumptions C90_bad_call.
Print Assumptions C90_unknown_refuted.
Print Assumptions C90_var_keyword_refuted.
Print Assumptions C90_noise_model.
Print Assumptions C90_noise_class.
Print Assumptions C90_nmeas.
Print Assumptions C90_nmeas_refuted.
