(** C94: what the constructors of backends, ansatzes and cost functions receive. *)
From Coq Require Import String Lia.
From Verif Require Import Base BaseFacts Json MatModel UtilsModel CostModel CreateModel CreateProps BackendStepModel BackendStepSpec BackendStepProofs BackendStepProps.
Open Scope list_scope.

Section C94b.
  Context {V W Mod : Type} (import_module : V -> M W Mod) (getattr : Mod -> V -> result (creator V W)).
  Context {K : cring} (of_json : json K -> V) (call_value : V -> list V -> list (string * V) -> M W V).
  Context (of_created : created V W -> V) (of_list : list V -> V) (none : V) (text_of : V -> option string) (truthy : V -> bool).
  Context (loads : string -> result (jdict K)) (tracking_backend : V -> V -> V -> M W V).
  Notation dict := (list (string * V)).
  Notation get k d := (dget String.eqb k%string d).
  Notation set k v d := (dset String.eqb k%string v d).
  Notation load_noise := (load_noise_model import_module getattr of_json call_value).
  Notation backend_step := (backend_from_specs import_module getattr of_json call_value of_created none truthy loads tracking_backend).
  Notation opt_ansatz := (optimize_ansatz import_module getattr of_json of_created text_of loads).
  Notation eval_ansatz := (evaluate_ansatz import_module getattr of_json of_created text_of loads).
  Notation method_step := (estimation_method import_module getattr of_json of_created loads).
  Notation pre_step := (preprocessors import_module getattr of_json of_created loads).
  Notation evaluate := (evaluate_cost_function import_module getattr of_json call_value of_created of_list none text_of truthy loads tracking_backend).

  (** the specification describes [d]: as JSON text, or as a dictionary of the caller *)
  Definition specifies (s : store V W) (specs : string + nat) (d : dict) : Prop :=
    match specs with inl text => exists j, loads text = Ok j /\ d = of_jdict of_json j | inr r => nth_error (dicts s) r = Some d end.
  (** Reading this noise model in world [w] gives [v] and leads to world [w'], whatever dictionaries there are. *)
  Definition reads_noise (file : jdict K) (w w' : W) (v : V) : Prop :=
    forall l, exists l', load_noise file {| dicts := l; world := w |} = ({| dicts := l ++ l'; world := w' |}, Ok v).
  (** the class a specification names *)
  Definition names_class (d : dict) (w w' : W) (call : dict -> M W V) : Prop :=
    exists m f mo, get "module_name" d = Some m /\ get "function_name" d = Some f /\ import_module m w = (w', Ok mo) /\ getattr mo f = Ok (Other call).

  Lemma dictionary_run s specs d : specifies s specs d ->
    exists l r, dictionary of_json loads specs s = ({| dicts := dicts s ++ l; world := world s |}, Ok r) /\ nth_error (dicts s ++ l) r = Some d /\ (forall r0, specs = inr r0 -> r = r0 /\ l = []) /\ (forall t, specs = inl t -> r = length (dicts s)).
  Proof.
    destruct specs as [text|r]; cbn [specifies dictionary].
    - intros (j & E & ->). rewrite E. exists [of_jdict of_json j], (length (dicts s)). split; [reflexivity|]. split; [apply last_get|]. split; [discriminate|reflexivity].
    - intros H. exists [], r. rewrite app_nil_r. split; [destruct s; reflexivity|]. split; [exact H|]. split; [|discriminate]. intros r0 [= ->]. now split.
  Qed.
  Lemma nth_app_some {A} (l l' : list A) r x : nth_error l r = Some x -> nth_error (l ++ l') r = Some x.
  Proof. intros H. rewrite nth_error_app1; [exact H|]. apply nth_error_Some. congruence. Qed.
  Lemma set_run r k v (l : list dict) (w : W) d : nth_error l r = Some d -> set_item r k v {| dicts := l; world := w |} = ({| dicts := put r (dset String.eqb k v d) l; world := w |}, Ok tt).
  Proof. intros E. unfold set_item, bindM, contents. cbn [dicts]. rewrite E. reflexivity. Qed.
  Lemma get_run r k v (l : list dict) (w : W) d : nth_error l r = Some d -> dget String.eqb k d = Some v -> get_item r k {| dicts := l; world := w |} = ({| dicts := l; world := w |}, Ok v).
  Proof. intros E G. unfold get_item, bindM, contents. cbn [dicts]. rewrite E, G. reflexivity. Qed.
  Lemma contents_run r (l : list dict) (w : W) d : nth_error l r = Some d -> contents r {| dicts := l; world := w |} = ({| dicts := l; world := w |}, Ok d).
  Proof. intros E. unfold contents. cbn [dicts]. now rewrite E. Qed.
  Lemma new_run r kwargs (l : list dict) w d w' call : nth_error l r = Some d -> names_class d w w' call -> existsb (fun k => memb String.eqb k (dkeys kwargs)) (dkeys (parameters_in d)) = false ->
    exists l', new import_module getattr of_created r kwargs {| dicts := l; world := w |} =
      ({| dicts := l ++ l'; world := fst (call (merge (parameters_in d) kwargs) w') |}, rmap (fun v => of_created (Made v)) (snd (call (merge (parameters_in d) kwargs) w'))).
  Proof.
    intros E (m & f & mo & Hm & Hf & Hi & Hg) Hx. unfold new, bindM at 1. rewrite (create_run import_module getattr {| dicts := l; world := w |} r kwargs d m mo f w' _ E Hm Hf Hi Hg).
    unfold parameters_in in *. rewrite Hx. unfold bindM, on_world. cbn [world dicts]. exists [ddel String.eqb "function_name"%string (ddel String.eqb "module_name"%string d)].
    destruct (call _ w') as [w2 [v|e]]; reflexivity.
  Qed.
  Lemma class_set d w w' call k v : k <> "module_name"%string -> k <> "function_name"%string -> names_class d w w' call -> names_class (dset String.eqb k v d) w w' call.
  Proof. intros N1 N2 (m & f & mo & Hm & Hf & Hi & Hg). exists m, f, mo. rewrite !(dget_dset_other _ string_eqb_ok) by congruence. auto. Qed.
  Lemma put_twice r (a b : dict) l : put r b (put r a l) = put r b l.
  Proof. revert r. induction l as [|x l IH]; intros [|r]; cbn; [reflexivity..|]. now rewrite IH. Qed.
  Lemma ddel_dset k k' (v : V) (d : dict) : k <> k' -> ddel String.eqb k (dset String.eqb k' v d) = dset String.eqb k' v (ddel String.eqb k d).
  Proof.
    intros N. induction d as [|[k0 v0] d IH]; cbn; [now rewrite (proj2 (String.eqb_neq k k') N)|]. destruct (String.eqb k' k0) eqn:E.
    - apply String.eqb_eq in E as <-. cbn. rewrite (proj2 (String.eqb_neq k k') N). cbn. now rewrite String.eqb_refl.
    - cbn. destruct (String.eqb k k0) eqn:E2; [reflexivity|]. cbn. rewrite E. f_equal. exact IH.
  Qed.
  Lemma parameters_set k (v : V) (d : dict) : k <> "module_name"%string -> k <> "function_name"%string -> parameters_in (dset String.eqb k v d) = dset String.eqb k v (parameters_in d).
  Proof. intros N1 N2. unfold parameters_in. rewrite !ddel_dset by congruence. reflexivity. Qed.
  Lemma merge_none (d : dict) : merge d [] = d.
  Proof. reflexivity. Qed.

  (** ** Backends *)
  (** The dictionary [d] with what was asked for: from world [w] to world [w'] *)
  Definition with_noise (noise : option (jdict K)) (w w' : W) (d d' : dict) : Prop :=
    match noise with None => w' = w /\ d' = d | Some file => exists v, reads_noise file w w' v /\ d' = set "noise_model" v d end.
  Definition with_connectivity (conn : option (M W V)) (w w' : W) (d d' : dict) : Prop :=
    match conn with None => w' = w /\ d' = d | Some load => exists v, load w = (w', Ok v) /\ d' = set "device_connectivity" v d end.
  Definition tracking (d : dict) : bool := match get "track_measurements" d with Some v => truthy v | None => false end.

  Lemma backend_run s specs noise conn d w1 d1 w2 d2 w3 call : specifies s specs d -> with_noise noise (world s) w1 d d1 -> with_connectivity conn w1 w2 d1 d2 -> names_class d w2 w3 call ->
    exists l r, nth_error l r = Some d2 /\ (forall r0, specs = inr r0 -> r = r0) /\
      backend_step specs noise conn s =
        match call (parameters_in d2) w3 with
        | (w4, Err e) => ({| dicts := l; world := w4 |}, Err e)
        | (w4, Ok v) =>
            if tracking d2 then
              match get "raw_data_file_name" d2 with
              | Some file => let (w5, x) := tracking_backend (of_created (Made v)) file match get "record_bitstrings" d2 with Some b => b | None => none end w4 in ({| dicts := l; world := w5 |}, x)
              | None => ({| dicts := l; world := w4 |}, Err KeyError)
              end
            else ({| dicts := l; world := w4 |}, Ok (of_created (Made v)))
        end.
  Proof.
    intros Hs Hn Hc Hk. destruct (dictionary_run s specs d Hs) as (l0 & r & E0 & G0 & U0 & T0). unfold backend_from_specs. rewrite (bind_ok _ _ _ _ _ E0). clear E0.
    assert (N : exists l1, nth_error l1 r = Some d1 /\ (forall (k : unit -> M (store V W) V),
        bindM match noise with Some file => do! v := load_noise file in set_item r "noise_model" v | None => retM tt end k {| dicts := dicts s ++ l0; world := world s |} = k tt {| dicts := l1; world := w1 |})).
    { destruct noise as [file|]; cbn [with_noise] in Hn.
      - destruct Hn as (v & R & ->). destruct (R (dicts s ++ l0)) as (l' & E). exists (put r (dset String.eqb "noise_model"%string v d) ((dicts s ++ l0) ++ l')). split; [eapply put_same, nth_app_some, G0|].
        intros k. apply bind_ok. rewrite (bind_ok _ _ _ _ _ E). apply set_run. now apply nth_app_some.
      - destruct Hn as [-> ->]. exists (dicts s ++ l0). split; [exact G0|]. reflexivity. }
    destruct N as (l1 & G1 & N). rewrite N. clear N.
    assert (N : exists l2, nth_error l2 r = Some d2 /\ (forall (k : unit -> M (store V W) V),
        bindM match conn with Some load => do! v := on_world load in set_item r "device_connectivity" v | None => retM tt end k {| dicts := l1; world := w1 |} = k tt {| dicts := l2; world := w2 |})).
    { destruct conn as [load|]; cbn [with_connectivity] in Hc.
      - destruct Hc as (v & R & ->). eexists. split; [eapply put_same, G1|]. intros k. apply bind_ok. unfold bindM at 1. unfold on_world. cbn [world dicts]. rewrite R. now apply set_run.
      - destruct Hc as [-> ->]. exists l1. split; [exact G1|]. reflexivity. }
    destruct N as (l2 & G2 & N). rewrite N. clear N.
    assert (Hk2 : names_class d2 w2 w3 call).
    { assert (Hk1 : names_class d1 w2 w3 call) by (destruct noise; cbn [with_noise] in Hn; [destruct Hn as (v & _ & ->); apply class_set; [discriminate..|exact Hk]|destruct Hn as [_ ->]; exact Hk]).
      destruct conn; cbn [with_connectivity] in Hc; [destruct Hc as (v & _ & ->); apply class_set; [discriminate..|exact Hk1]|destruct Hc as [_ ->]; exact Hk1]. }
    destruct (new_run r [] l2 w2 d2 w3 call G2 Hk2 (none_exists _)) as (l3 & E3). rewrite merge_none in E3. exists (l2 ++ l3), r. split; [now apply nth_app_some|]. split; [intros r0 Q; now apply U0|].
    destruct (call (parameters_in d2) w3) as [w4 [v|e]] eqn:Ec; cbn [fst snd rmap] in E3.
    - rewrite (bind_ok _ _ _ _ _ E3). assert (G3 : nth_error (l2 ++ l3) r = Some d2) by now apply nth_app_some. rewrite (bind_ok _ _ _ _ _ (contents_run _ _ _ _ G3)).
      fold (tracking d2). destruct (tracking d2); [|reflexivity]. destruct (get "raw_data_file_name" d2) as [file|] eqn:Ef.
      + rewrite (bind_ok _ _ _ _ _ (get_run _ _ _ _ _ _ G3 Ef)). unfold on_world. cbn [world dicts]. reflexivity.
      + apply bind_err. unfold get_item, bindM. rewrite (contents_run _ _ _ _ G3), Ef. reflexivity.
    - now rewrite (bind_err _ _ _ _ _ E3).
  Qed.

  (** The class is called once, with every entry of the specification but the two names, and with the noise model and the connectivity that were asked for. *)
  Theorem C94_backend s specs noise conn d w1 d1 w2 d2 w3 call w4 v : specifies s specs d -> with_noise noise (world s) w1 d d1 -> with_connectivity conn w1 w2 d1 d2 -> names_class d w2 w3 call ->
    call (parameters_in d2) w3 = (w4, Ok v) -> tracking d = false ->
    exists s', backend_step specs noise conn s = (s', Ok (of_created (Made v))) /\ world s' = w4.
  Proof.
    intros Hs Hn Hc Hk E T. destruct (backend_run s specs noise conn d w1 d1 w2 d2 w3 call Hs Hn Hc Hk) as (l & r & _ & _ & Q). rewrite E in Q.
    assert (T2 : tracking d2 = false).
    { unfold tracking in *. destruct conn; cbn [with_connectivity] in Hc; [destruct Hc as (? & _ & ->); rewrite (dget_dset_other _ string_eqb_ok) by discriminate|destruct Hc as [_ ->]];
      (destruct noise; cbn [with_noise] in Hn; [destruct Hn as (? & _ & ->); rewrite (dget_dset_other _ string_eqb_ok) by discriminate|destruct Hn as [_ ->]]); exact T. }
    rewrite T2 in Q. eexists. split; [exact Q|reflexivity].
  Qed.
  Lemma same_entry noise conn w0 w1 w2 d d1 d2 k : with_noise noise w0 w1 d d1 -> with_connectivity conn w1 w2 d1 d2 -> k <> "noise_model"%string -> k <> "device_connectivity"%string -> get k d2 = get k d.
  Proof.
    intros Hn Hc N1 N2. destruct conn; cbn [with_connectivity] in Hc; [destruct Hc as (? & _ & ->); rewrite (dget_dset_other _ string_eqb_ok) by congruence|destruct Hc as [_ ->]];
      (destruct noise; cbn [with_noise] in Hn; [destruct Hn as (? & _ & ->); rewrite (dget_dset_other _ string_eqb_ok) by congruence|destruct Hn as [_ ->]]); reflexivity.
  Qed.
  (** With track_measurements, the backend is wrapped: it writes to the file named in the specification and records bitstrings as asked there. *)
  Theorem C94_tracking s specs noise conn d w1 d1 w2 d2 w3 call w4 v t file : specifies s specs d -> with_noise noise (world s) w1 d d1 -> with_connectivity conn w1 w2 d1 d2 -> names_class d w2 w3 call ->
    call (parameters_in d2) w3 = (w4, Ok v) -> get "track_measurements" d = Some t -> truthy t = true -> get "raw_data_file_name" d = Some file ->
    exists record, (get "record_bitstrings" d = Some record \/ get "record_bitstrings" d = None /\ record = none) /\
    exists s', backend_step specs noise conn s = (s', snd (tracking_backend (of_created (Made v)) file record w4)) /\ world s' = fst (tracking_backend (of_created (Made v)) file record w4).
  Proof.
    intros Hs Hn Hc Hk E T1 T2 F. destruct (backend_run s specs noise conn d w1 d1 w2 d2 w3 call Hs Hn Hc Hk) as (l & r & _ & _ & Q). rewrite E in Q. unfold tracking in Q.
    rewrite !(same_entry noise conn (world s) w1 w2 d d1 d2) in Q by (assumption || discriminate). rewrite T1, T2, F in Q.
    exists match get "record_bitstrings" d with Some b => b | None => none end. split; [destruct (get "record_bitstrings" d); auto|].
    destruct (tracking_backend _ _ _ _) as [w5 x]. eexists. split; [exact Q|reflexivity].
  Qed.
  (** Without a file name the step fails after the backend was made. *)
  Theorem C94_tracking_needs_name s specs noise conn d w1 d1 w2 d2 w3 call w4 v t : specifies s specs d -> with_noise noise (world s) w1 d d1 -> with_connectivity conn w1 w2 d1 d2 -> names_class d w2 w3 call ->
    call (parameters_in d2) w3 = (w4, Ok v) -> get "track_measurements" d = Some t -> truthy t = true -> get "raw_data_file_name" d = None ->
    exists s', backend_step specs noise conn s = (s', Err KeyError) /\ world s' = w4.
  Proof.
    intros Hs Hn Hc Hk E T1 T2 F. destruct (backend_run s specs noise conn d w1 d1 w2 d2 w3 call Hs Hn Hc Hk) as (l & r & _ & _ & Q). rewrite E in Q. unfold tracking in Q.
    rewrite !(same_entry noise conn (world s) w1 w2 d d1 d2) in Q by (assumption || discriminate). rewrite T1, T2, F in Q. eexists. split; [exact Q|reflexivity].
  Qed.
  Theorem C94_backend_error s specs noise conn d w1 d1 w2 d2 w3 call w4 e : specifies s specs d -> with_noise noise (world s) w1 d d1 -> with_connectivity conn w1 w2 d1 d2 -> names_class d w2 w3 call ->
    call (parameters_in d2) w3 = (w4, Err e) -> exists s', backend_step specs noise conn s = (s', Err e) /\ world s' = w4.
  Proof.
    intros Hs Hn Hc Hk E. destruct (backend_run s specs noise conn d w1 d1 w2 d2 w3 call Hs Hn Hc Hk) as (l & r & _ & _ & Q). rewrite E in Q. eexists. split; [exact Q|reflexivity].
  Qed.
  (** A dictionary of the caller keeps what was asked for once, so that a later step that asks for no noise model gets it as well. *)
  Theorem C94_remembered s r noise conn d w1 d1 w2 d2 w3 call : nth_error (dicts s) r = Some d -> with_noise noise (world s) w1 d d1 -> with_connectivity conn w1 w2 d1 d2 -> names_class d w2 w3 call ->
    specifies (fst (backend_step (inr r) noise conn s)) (inr r) d2.
  Proof.
    intros Hs Hn Hc Hk. destruct (backend_run s (inr r) noise conn d w1 d1 w2 d2 w3 call Hs Hn Hc Hk) as (l & r' & G & U & Q). rewrite (U r eq_refl) in G. rewrite Q. cbn [specifies].
    destruct (call _ _) as [w4 [v|e]]; [|exact G]. destruct (tracking d2); [|exact G]. destruct (get "raw_data_file_name" d2); [|exact G]. destruct (tracking_backend _ _ _ _) as [w5 x]. exact G.
  Qed.
  (** Noise models saved by save_noise_model with a function that makes them can be read. *)
  Lemma C94_saved_noise data module_name function_name w w' w2 mo sg body v : import_module (of_json (JStr module_name)) w = (w', Ok mo) -> getattr mo (of_json (JStr function_name)) = Ok (Function sg body) ->
    call_function sg body [of_json data] [] w' = (w2, Ok v) -> reads_noise (save_noise_model data module_name function_name) w w2 v.
  Proof.
    intros Hi Hg Hc l. destruct (C90_noise_model import_module getattr of_json call_value data module_name function_name {| dicts := l; world := w |} w' mo sg body Hi Hg) as (s' & E & Ew & _).
    destruct (noise_extends import_module getattr of_json call_value (save_noise_model data module_name function_name) {| dicts := l; world := w |}) as [l' X]. rewrite E in X. cbn [fst dicts] in X.
    exists l'. rewrite E, Hc. f_equal. destruct s' as [ds ws]. cbn [dicts world] in *. rewrite Hc in Ew. cbn [fst] in Ew. subst. reflexivity.
  Qed.

  (** ** Ansatzes *)
  Lemma name_run sub r (l : list dict) (w : W) d f t : nth_error l r = Some d -> get "function_name" d = Some f -> text_of f = Some t ->
    name_contains text_of r sub {| dicts := l; world := w |} = ({| dicts := l; world := w |}, Ok (contains sub t)).
  Proof. intros E G T. unfold name_contains. rewrite (bind_ok _ _ _ _ _ (get_run _ _ _ _ _ _ E G)), T. reflexivity. Qed.
  Lemma opt_ansatz_run s specs target thetas d d2 w2 w3 call f t : specifies s specs d -> get "function_name" d = Some f -> text_of f = Some t ->
    (if contains "WarmStartQAOAAnsatz" t then exists load th, thetas = Some load /\ load (world s) = (w2, Ok th) /\ d2 = set "cost_hamiltonian" target (set "thetas" th d)
     else w2 = world s /\ d2 = if contains "QAOA" t then set "cost_hamiltonian" target d else d) ->
    names_class d w2 w3 call ->
    exists l r, nth_error l r = Some d2 /\ (forall r0, specs = inr r0 -> r = r0) /\
      opt_ansatz specs target thetas s = ({| dicts := l; world := fst (call (parameters_in d2) w3) |}, rmap (fun v => of_created (Made v)) (snd (call (parameters_in d2) w3))).
  Proof.
    intros Hs Hf Ht H2 Hk. destruct (dictionary_run s specs d Hs) as (l0 & r & E0 & G0 & U0 & T0). unfold optimize_ansatz. rewrite (bind_ok _ _ _ _ _ E0). clear E0.
    rewrite (bind_ok _ _ _ _ _ (name_run _ _ _ _ _ _ _ G0 Hf Ht)). destruct (contains "WarmStartQAOAAnsatz" t).
    - destruct H2 as (load & th & -> & El & ->). set (l2 := put r (set "cost_hamiltonian" target (set "thetas" th d)) (put r (set "thetas" th d) (dicts s ++ l0))).
      assert (G2 : nth_error l2 r = Some (set "cost_hamiltonian" target (set "thetas" th d))) by (eapply put_same, put_same, G0).
      erewrite bind_ok; [|erewrite bind_ok by (unfold on_world; cbn [world dicts]; rewrite El; reflexivity); erewrite bind_ok by (apply set_run, G0); apply set_run; eapply put_same, G0].
      assert (Hk2 : names_class (set "cost_hamiltonian" target (set "thetas" th d)) w2 w3 call) by (repeat (apply class_set; [discriminate..|]); exact Hk).
      destruct (new_run r [] l2 w2 _ w3 call G2 Hk2 (none_exists _)) as (l3 & E3). rewrite merge_none in E3. exists (l2 ++ l3), r. split; [now apply nth_app_some|]. split; [intros r0 Q; now apply U0|]. exact E3.
    - destruct H2 as [-> ->].
      assert (N : exists l2, nth_error l2 r = Some (if contains "QAOA" t then set "cost_hamiltonian" target d else d) /\ forall k : unit -> M (store V W) V,
         bindM (do! qaoa := name_contains text_of r "QAOA" in if qaoa then set_item r "cost_hamiltonian" target else retM tt) k {| dicts := dicts s ++ l0; world := world s |} = k tt {| dicts := l2; world := world s |}).
      { destruct (contains "QAOA" t) eqn:Eq.
        - eexists. split; [eapply put_same, G0|]. intros k. apply bind_ok. rewrite (bind_ok _ _ _ _ _ (name_run _ _ _ _ _ _ _ G0 Hf Ht)), Eq. now apply set_run.
        - exists (dicts s ++ l0). split; [exact G0|]. intros k. apply bind_ok. rewrite (bind_ok _ _ _ _ _ (name_run _ _ _ _ _ _ _ G0 Hf Ht)), Eq. reflexivity. }
      destruct N as (l2 & G2 & N). rewrite N. clear N.
      assert (Hk2 : names_class (if contains "QAOA" t then set "cost_hamiltonian" target d else d) (world s) w3 call) by (destruct (contains "QAOA" t); [apply class_set; [discriminate..|]|]; exact Hk).
      destruct (new_run r [] l2 _ _ w3 call G2 Hk2 (none_exists _)) as (l3 & E3). rewrite merge_none in E3. exists (l2 ++ l3), r. split; [now apply nth_app_some|]. split; [intros r0 Q; now apply U0|]. exact E3.
  Qed.
  Notation contains_text sub t := (exists a b, t = (a ++ sub ++ b)%string).
  (** In an optimization, an ansatz whose name contains QAOA gets the operator that is optimized, whatever its specification said; others get their specification. *)
  Theorem C94_optimize_qaoa s specs target thetas d w3 call f t : specifies s specs d -> get "function_name" d = Some f -> text_of f = Some t -> contains_text "QAOA" t -> ~ contains_text "WarmStartQAOAAnsatz" t ->
    names_class d (world s) w3 call -> exists params s', get "cost_hamiltonian" params = Some target /\
      (forall k, k <> "cost_hamiltonian"%string -> get k params = get k (parameters_in d)) /\
      opt_ansatz specs target thetas s = (s', rmap (fun v => of_created (Made v)) (snd (call params w3))) /\ world s' = fst (call params w3).
  Proof.
    intros Hs Hf Ht Q NW Hk. apply contains_spec in Q. assert (Z : contains "WarmStartQAOAAnsatz" t = false) by (destruct (contains "WarmStartQAOAAnsatz" t) eqn:E; [apply contains_spec in E; contradiction|reflexivity]).
    destruct (opt_ansatz_run s specs target thetas d (set "cost_hamiltonian" target d) (world s) w3 call f t Hs Hf Ht) as (l & r & _ & _ & E); [rewrite Z, Q; split; reflexivity|exact Hk|].
    exists (parameters_in (set "cost_hamiltonian" target d)). eexists. split; [unfold parameters_in; rewrite !ddel_get_other by discriminate; apply (dget_dset_same _ string_eqb_ok)|]. split.
    - intros k N. rewrite parameters_set by discriminate. apply (dget_dset_other _ string_eqb_ok). congruence.
    - split; [exact E|reflexivity].
  Qed.
  Theorem C94_optimize_other s specs target thetas d w3 call f t : specifies s specs d -> get "function_name" d = Some f -> text_of f = Some t -> ~ contains_text "QAOA" t ->
    names_class d (world s) w3 call -> exists s', opt_ansatz specs target thetas s = (s', rmap (fun v => of_created (Made v)) (snd (call (parameters_in d) w3))) /\ world s' = fst (call (parameters_in d) w3).
  Proof.
    intros Hs Hf Ht NQ Hk. assert (Q : contains "QAOA" t = false) by (destruct (contains "QAOA" t) eqn:E; [apply contains_spec in E; contradiction|reflexivity]).
    assert (Z : contains "WarmStartQAOAAnsatz" t = false).
    { destruct (contains "WarmStartQAOAAnsatz" t) eqn:E; [|reflexivity]. apply contains_spec in E as (a & b & ->). exfalso. apply NQ. exists (a ++ "WarmStart")%string, ("Ansatz" ++ b)%string.
      clear. induction a as [|c a IH]; [reflexivity|]. cbn. f_equal. exact IH. }
    destruct (opt_ansatz_run s specs target thetas d d (world s) w3 call f t Hs Hf Ht) as (l & r & _ & _ & E); [rewrite Z, Q; split; reflexivity|exact Hk|]. eexists. split; [exact E|reflexivity].
  Qed.
  (** A warm start needs the file of angles. *)
  Theorem C94_optimize_warm s specs target load th d w2 w3 call f t : specifies s specs d -> get "function_name" d = Some f -> text_of f = Some t -> contains_text "WarmStartQAOAAnsatz" t ->
    load (world s) = (w2, Ok th) -> names_class d w2 w3 call -> exists params s', get "cost_hamiltonian" params = Some target /\ get "thetas" params = Some th /\
      opt_ansatz specs target (Some load) s = (s', rmap (fun v => of_created (Made v)) (snd (call params w3))) /\ world s' = fst (call params w3).
  Proof.
    intros Hs Hf Ht Q El Hk. apply contains_spec in Q.
    destruct (opt_ansatz_run s specs target (Some load) d (set "cost_hamiltonian" target (set "thetas" th d)) w2 w3 call f t Hs Hf Ht) as (l & r & _ & _ & E); [rewrite Q; now exists load, th|exact Hk|].
    exists (parameters_in (set "cost_hamiltonian" target (set "thetas" th d))). eexists. split; [unfold parameters_in; rewrite !ddel_get_other by discriminate; apply (dget_dset_same _ string_eqb_ok)|].
    split; [unfold parameters_in; rewrite !ddel_get_other by discriminate; rewrite (dget_dset_other _ string_eqb_ok) by discriminate; apply (dget_dset_same _ string_eqb_ok)|]. split; [exact E|reflexivity].
  Qed.
  Theorem C94_warm_needs_thetas s specs target d f t : specifies s specs d -> get "function_name" d = Some f -> text_of f = Some t -> contains_text "WarmStartQAOAAnsatz" t ->
    exists s', opt_ansatz specs target None s = (s', Err KeyError) /\ world s' = world s.
  Proof.
    intros Hs Hf Ht Q. apply contains_spec in Q. destruct (dictionary_run s specs d Hs) as (l0 & r & E0 & G0 & U0 & T0). unfold optimize_ansatz. rewrite (bind_ok _ _ _ _ _ E0). clear E0.
    rewrite (bind_ok _ _ _ _ _ (name_run _ _ _ _ _ _ _ G0 Hf Ht)), Q. eexists. split; reflexivity.
  Qed.
  (** An evaluation passes the operator to QAOAFarhiAnsatz only, and refuses a specification that has one already. *)
  Lemma is_run r (l : list dict) (w : W) d f t : nth_error l r = Some d -> get "function_name" d = Some f -> text_of f = Some t ->
    name_is text_of r "QAOAFarhiAnsatz" {| dicts := l; world := w |} = ({| dicts := l; world := w |}, Ok (String.eqb t "QAOAFarhiAnsatz")).
  Proof. intros E G T. unfold name_is. rewrite (bind_ok _ _ _ _ _ (get_run _ _ _ _ _ _ E G)), T. reflexivity. Qed.
  Theorem C94_evaluate_qaoa s specs target d w3 call f : specifies s specs d -> get "function_name" d = Some f -> text_of f = Some "QAOAFarhiAnsatz"%string -> names_class d (world s) w3 call ->
    get "cost_hamiltonian" d = None ->
    exists s', eval_ansatz specs target s = (s', rmap (fun v => of_created (Made v)) (snd (call (parameters_in d ++ [("cost_hamiltonian"%string, target)]) w3))) /\ world s' = fst (call (parameters_in d ++ [("cost_hamiltonian"%string, target)]) w3).
  Proof.
    intros Hs Hf Ht Hk N. destruct (dictionary_run s specs d Hs) as (l0 & r & E0 & G0 & U0 & T0). unfold evaluate_ansatz. rewrite (bind_ok _ _ _ _ _ E0). clear E0.
    rewrite (bind_ok _ _ _ _ _ (is_run _ _ _ _ _ _ G0 Hf Ht)). cbn [String.eqb Ascii.eqb Bool.eqb].
    assert (N2 : ~ In "cost_hamiltonian"%string (dkeys (parameters_in d))).
    { apply (dget_None _ string_eqb_ok). unfold parameters_in. rewrite !ddel_get_other by discriminate. exact N. }
    assert (D : forall k, In k (dkeys (parameters_in d)) -> ~ In k (dkeys [("cost_hamiltonian"%string, target)])) by (intros k I [<-|[]]; contradiction).
    destruct (new_run r [("cost_hamiltonian"%string, target)] _ _ _ w3 call G0 Hk (no_common _ _ D)) as (l3 & E3). rewrite merge_disjoint in E3; [|constructor; [intros []|constructor]|exact D].
    eexists. split; [exact E3|reflexivity].
  Qed.
  Theorem C94_evaluate_other s specs target d w3 call f t : specifies s specs d -> get "function_name" d = Some f -> text_of f = Some t -> t <> "QAOAFarhiAnsatz"%string -> names_class d (world s) w3 call ->
    exists s', eval_ansatz specs target s = (s', rmap (fun v => of_created (Made v)) (snd (call (parameters_in d) w3))) /\ world s' = fst (call (parameters_in d) w3).
  Proof.
    intros Hs Hf Ht N Hk. destruct (dictionary_run s specs d Hs) as (l0 & r & E0 & G0 & U0 & T0). unfold evaluate_ansatz. rewrite (bind_ok _ _ _ _ _ E0). clear E0.
    rewrite (bind_ok _ _ _ _ _ (is_run _ _ _ _ _ _ G0 Hf Ht)). rewrite (proj2 (String.eqb_neq _ _) N).
    destruct (new_run r [] _ _ _ w3 call G0 Hk (none_exists _)) as (l3 & E3). rewrite merge_none in E3. eexists. split; [exact E3|reflexivity].
  Qed.
  Lemma evaluate_has s r target d w3 call f : nth_error (dicts s) r = Some d -> get "function_name" d = Some f -> text_of f = Some "QAOAFarhiAnsatz"%string -> names_class d (world s) w3 call ->
    get "cost_hamiltonian" d <> None -> exists s', eval_ansatz (inr r) target s = (s', Err ValueError) /\ world s' = w3.
  Proof.
    intros Hs Hf Ht Hk N. unfold evaluate_ansatz, dictionary. destruct s as [ds w]. cbn [dicts world] in *. erewrite bind_ok by reflexivity.
    rewrite (bind_ok _ _ _ _ _ (is_run _ _ _ _ _ _ Hs Hf Ht)). cbn [String.eqb Ascii.eqb Bool.eqb].
    destruct Hk as (m & f' & mo & Hm & Hf' & Hi & Hg). unfold new, bindM at 1. rewrite (create_run import_module getattr {| dicts := ds; world := w |} r _ d m mo f' w3 _ Hs Hm Hf' Hi Hg).
    destruct (existsb _ _) eqn:X; [eexists; split; reflexivity|]. exfalso. assert (I : In "cost_hamiltonian"%string (dkeys (parameters_in d))).
    { destruct (get "cost_hamiltonian" (parameters_in d)) as [v|] eqn:G; [eapply dget_Some_key; [exact string_eqb_ok|exact G]|]. unfold parameters_in in G. rewrite !ddel_get_other in G by discriminate. contradiction. }
    assert (Y : existsb (fun k : string => memb String.eqb k (dkeys [("cost_hamiltonian"%string, target)])) (dkeys (parameters_in d)) = true) by (apply existsb_exists; eexists; split; [exact I|reflexivity]).
    unfold parameters_in in Y. rewrite X in Y. discriminate.
  Qed.
  (** Optimizing writes the operator into the caller's dictionary; evaluating with the same dictionary is then refused. *)
  Theorem C94_optimize_then_evaluate_refuted s r target target' thetas d w3 w4 call call' f : nth_error (dicts s) r = Some d -> get "function_name" d = Some f -> text_of f = Some "QAOAFarhiAnsatz"%string ->
    names_class d (world s) w3 call -> names_class d (world (fst (opt_ansatz (inr r) target thetas s))) w4 call' ->
    exists s', eval_ansatz (inr r) target' (fst (opt_ansatz (inr r) target thetas s)) = (s', Err ValueError).
  Proof.
    intros Hs Hf Ht Hk Hk'. destruct (opt_ansatz_run s (inr r) target thetas d (set "cost_hamiltonian" target d) (world s) w3 call f _ Hs Hf Ht) as (l & r' & G & U & E); [split; reflexivity|exact Hk|].
    rewrite (U r eq_refl) in G. rewrite E in *. cbn [fst world] in Hk'. cbn [fst].
    destruct (evaluate_has {| dicts := l; world := fst (call (parameters_in (set "cost_hamiltonian" target d)) w3) |} r target' (set "cost_hamiltonian" target d) w4 call' f G) as (s' & Q & _).
    - rewrite (dget_dset_other _ string_eqb_ok) by discriminate. exact Hf.
    - exact Ht.
    - apply class_set; [discriminate..|exact Hk'].
    - rewrite (dget_dset_same _ string_eqb_ok). discriminate.
    - exists s'. exact Q.
  Qed.

  (** ** Estimation methods and preprocessors *)
  Lemma default_method averaging s : method_step averaging None s = (s, Ok averaging).
  Proof. reflexivity. Qed.
  (** The objects of specifications [ds] made one after the other with these keywords, from world [w] to world [w'] *)
  Inductive made_in_order (kwargs : dict) : list dict -> W -> list V -> W -> Prop :=
  | made_none w : made_in_order kwargs [] w [] w
  | made_next d ds w w1 call w2 v vs w' : names_class d w w1 call -> call (parameters_in d ++ kwargs) w1 = (w2, Ok v) -> made_in_order kwargs ds w2 vs w' ->
      made_in_order kwargs (d :: ds) w (of_created (Made v) :: vs) w'.
  Definition with_prior (prior : option V) (d : dict) : dict := match prior with Some p => set "prior_expectation_values" p d | None => d end.
  Lemma f2_mono {A B} (P Q : A -> B -> Prop) l l' : (forall a b, P a b -> Q a b) -> Forall2 P l l' -> Forall2 Q l l'.
  Proof. intros H F. induction F; constructor; auto. Qed.
  Lemma dset_twice k (v : V) (d : dict) : dset String.eqb k v (dset String.eqb k v d) = dset String.eqb k v d.
  Proof.
    induction d as [|[k' v'] d IH]; cbn; [now rewrite String.eqb_refl|]. destruct (String.eqb k k') eqn:E; cbn; rewrite ?String.eqb_refl, ?E; [reflexivity|]. now rewrite IH.
  Qed.
  Lemma prior_twice prior d : with_prior prior (with_prior prior d) = with_prior prior d.
  Proof. destruct prior; [apply dset_twice|reflexivity]. Qed.
  (** Preprocessors are made in the order given, each from its specification, the prior expectation values and the keywords. *)
  Theorem C94_preprocessors prior kwargs l ds s vs w' : Forall2 (specifies s) l ds -> NoDup (dkeys kwargs) ->
    (forall d k, In d ds -> In k (dkeys (parameters_in (with_prior prior d))) -> ~ In k (dkeys kwargs)) -> made_in_order kwargs (map (with_prior prior) ds) (world s) vs w' ->
    exists s', pre_step prior kwargs l s = (s', Ok vs) /\ world s' = w'.
  Proof.
    intros F N D H.
    assert (F' : Forall2 (fun sp d => specifies s sp d \/ specifies s sp (with_prior prior d)) l ds) by (eapply f2_mono; [|exact F]; intros sp d Q; now left).
    clear F. revert s vs w' F' D H. revert ds. induction l as [|sp l IH]; intros ds s vs w' F D H; inversion F as [|? d ? ds' Hsp F2]; subst; cbn [map] in H; inversion H as [|? ? ? w1 call w2 v vs2 ? Hk Hcall Hrest]; subst.
    - cbn. eexists. split; reflexivity.
    - assert (X : exists d0, specifies s sp d0 /\ with_prior prior d0 = with_prior prior d) by (destruct Hsp as [Q|Q]; eexists; (split; [exact Q|]); [reflexivity|apply prior_twice]).
      destruct X as (d0 & Hs & Hd0). destruct (dictionary_run s sp d0 Hs) as (l0 & r & E0 & G0 & U0 & T0). cbn [preprocessors]. rewrite (bind_ok _ _ _ _ _ E0). clear E0.
      assert (Y : exists l1, nth_error l1 r = Some (with_prior prior d) /\ (forall r' d', nth_error (dicts s) r' = Some d' -> nth_error l1 r' = Some d' \/ (sp = inr r' /\ nth_error l1 r' = Some (with_prior prior d'))) /\
        forall k : unit -> M (store V W) (list V), bindM match prior with Some p => set_item r "prior_expectation_values" p | None => retM tt end k {| dicts := dicts s ++ l0; world := world s |} = k tt {| dicts := l1; world := world s |}).
      { rewrite <- Hd0. destruct prior as [p|]; cbn [with_prior].
        - eexists. split; [eapply put_same, G0|]. split; [|intros k; apply bind_ok; now apply set_run]. intros r' d' Q. destruct (Nat.eq_dec r r') as [<-|Nr].
          + destruct sp as [text|r0].
            * exfalso. rewrite (T0 text eq_refl) in Q. assert (Z : nth_error (dicts s) (length (dicts s)) <> None) by congruence. apply nth_error_Some in Z. lia.
            * right. destruct (U0 r0 eq_refl) as [-> ->]. split; [reflexivity|]. rewrite app_nil_r in *. rewrite Q in G0. injection G0 as ->. eapply put_same, Q.
          + left. rewrite put_other by exact Nr. now apply nth_app_some.
        - exists (dicts s ++ l0). split; [exact G0|]. split; [|reflexivity]. intros r' d' Q. left. now apply nth_app_some. }
      destruct Y as (l1 & G1 & K1 & Y). rewrite Y. clear Y.
      destruct (new_run r kwargs l1 (world s) _ w1 call G1 Hk) as (l2 & E2); [apply no_common; intros k; apply D; now left|]. rewrite merge_disjoint in E2; [|exact N|intros k; apply D; now left].
      rewrite Hcall in E2. cbn [fst snd rmap] in E2. rewrite (bind_ok _ _ _ _ _ E2).
      destruct (IH ds' {| dicts := l1 ++ l2; world := w2 |} vs2 w') as (s' & E3 & W3).
      + eapply f2_mono; [|exact F2]. intros sp' d' Q. destruct sp' as [text|r']; [exact Q|]. cbn [specifies dicts] in *.
        destruct Q as [Q|Q]; destruct (K1 _ _ Q) as [Z|[_ Z]]; [left|right|right|right]; try (apply nth_app_some; exact Z). apply nth_app_some. rewrite Z, prior_twice. reflexivity.
      + intros d' k I. apply D. now right.
      + exact Hrest.
      + rewrite (bind_ok _ _ _ _ _ E3). eexists. split; [reflexivity|exact W3].
  Qed.
End C94b.
