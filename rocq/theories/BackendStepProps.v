(** C94: steps that build backends, ansatzes and cost functions from specifications. *)
From Coq Require Import String Lia.
From Verif Require Import Base BaseFacts Json MatModel UtilsModel CostModel CreateModel CreateProps BackendStepModel BackendStepSpec BackendStepProofs.
Open Scope list_scope.

Lemma prefix_spec sub s : String.prefix sub s = true <-> exists b, s = (sub ++ b)%string.
Proof.
  revert s. induction sub as [|c sub IH]; intros s; [split; [now exists s|destruct s; reflexivity]|]. destruct s as [|c' s]; cbn.
  - split; [discriminate|intros [b H]; discriminate].
  - destruct (Ascii.ascii_dec c c') as [<-|N].
    + rewrite IH. split; intros [b H]; exists b; [now rewrite H|now injection H].
    + split; [discriminate|]. intros [b H]. injection H as H _. congruence.
Qed.
Lemma contains_spec sub s : contains sub s = true <-> exists a b, s = (a ++ sub ++ b)%string.
Proof.
  induction s as [|c s IH]; cbn [contains]; rewrite orb_true_iff, prefix_spec.
  - split; [intros [[b H]|H]; [now exists EmptyString, b|discriminate]|]. intros (a & b & H). left. destruct a; [now exists b|discriminate].
  - rewrite IH. split.
    + intros [[b H]|(a & b & H)]; [now exists EmptyString, b|]. exists (String c a), b. cbn. now rewrite H.
    + intros ([|c' a] & b & H); cbn in H; [left; now exists b|right; injection H as -> H; now exists a, b].
Qed.

Section C94.
  Context {V W Mod : Type} (import_module : V -> M W Mod) (getattr : Mod -> V -> result (creator V W)).
  Context {K : cring} (of_json : json K -> V) (call_value : V -> list V -> list (string * V) -> M W V).
  Context (of_created : created V W -> V) (of_list : list V -> V) (none : V) (text_of : V -> option string) (truthy : V -> bool).
  Context (loads : string -> result (jdict K)) (tracking_backend : V -> V -> V -> M W V).
  Notation dict := (list (string * V)).
  Notation load_noise := (load_noise_model import_module getattr of_json call_value).
  Notation backend_step := (backend_from_specs import_module getattr of_json call_value of_created none truthy loads tracking_backend).
  Notation opt_ansatz := (optimize_ansatz import_module getattr of_json of_created text_of loads).
  Notation eval_ansatz := (evaluate_ansatz import_module getattr of_json of_created text_of loads).
  Notation method_step := (estimation_method import_module getattr of_json of_created loads).
  Notation pre_step := (preprocessors import_module getattr of_json of_created loads).
  Notation optimize := (optimize_ansatz_based_cost_function import_module getattr of_json call_value of_created none text_of truthy loads tracking_backend).
  Notation evaluate := (evaluate_cost_function import_module getattr of_json call_value of_created of_list none text_of truthy loads tracking_backend).

  (** ** What the steps leave alone, whatever happens *)
  Lemma frames_dictionary n P specs : frames n P (dictionary of_json loads specs : M (store V W) nat) (fun r => n <= r \/ specs = inr r).
  Proof.
    destruct specs as [text|r]; cbn [dictionary]; [|apply frames_ret; now right]. destruct (loads text) as [d|e]; [|apply frames_err].
    intros s L. cbn. split; [rewrite app_length; lia|]. split; [apply only_kept; intros r0 d0 H; cbn [dicts]; rewrite nth_error_app1; [exact H|apply nth_error_Some; congruence]|].
    intros a [= <-]. now left.
  Qed.
  Lemma frames_new n P r kwargs : frames n P (new import_module getattr of_created r kwargs) (fun _ => True).
  Proof.
    unfold new. eapply frames_bind; [|intros c _; now apply frames_ret]. apply frames_kept. intros s. apply create_kept.
  Qed.
  Lemma frames_noise n P file : frames n P (load_noise file) (fun _ => True).
  Proof. apply frames_kept. intros s. apply extends_kept, noise_extends. Qed.
  (** the entries the backend of a step writes *)
  Definition backend_entries (specs : string + nat) (noise : option (jdict K)) (conn : option (M W V)) (r : nat) (k : string) : Prop :=
    specs = inr r /\ ((k = "noise_model"%string /\ noise <> None) \/ (k = "device_connectivity"%string /\ conn <> None)).
  Ltac st := repeat first [apply frames_ret; now auto | apply frames_err | apply frames_world | apply frames_contents | apply frames_new | apply frames_get_item | apply frames_noise].
  Lemma frames_backend n (P : nat -> string -> Prop) specs noise conn : (forall r k, n <= r -> P r k) -> (forall r k, backend_entries specs noise conn r k -> P r k) ->
    frames n P (backend_step specs noise conn) (fun _ => True).
  Proof.
    intros H1 H2. unfold backend_from_specs. eapply frames_bind; [apply frames_dictionary|]. intros r Hr.
    eapply frames_bind with (Q := fun _ => True).
    { destruct noise; [|st]. eapply frames_bind; [apply frames_noise|]. intros v _. apply frames_set_item. destruct Hr as [Hr| ->]; [now apply H1|]. apply H2. split; [reflexivity|]. left. now split. }
    intros _ _. eapply frames_bind with (Q := fun _ => True).
    { destruct conn; [|st]. eapply frames_bind; [apply frames_world|]. intros v _. apply frames_set_item. destruct Hr as [Hr| ->]; [now apply H1|]. apply H2. split; [reflexivity|]. right. now split. }
    intros _ _. eapply frames_bind; [apply frames_new|]. intros b _. eapply frames_bind; [apply frames_contents|]. intros d _.
    assert (T : frames n P (do! file_name := get_item r "raw_data_file_name" in on_world (tracking_backend b file_name match dget String.eqb "record_bitstrings"%string d with Some v => v | None => none end)) (fun _ => True))
      by (eapply frames_bind; [apply frames_get_item|]; intros f _; apply frames_world).
    destruct (dget String.eqb "track_measurements"%string d) as [t|]; [destruct (truthy t); [exact T|now apply frames_ret]|now apply frames_ret].
  Qed.
  (** A step with its backend given as text changes no dictionary; with a dictionary, only the entries noise_model and device_connectivity, when these are asked for. *)
  Theorem C94_backend_changes specs noise conn s : changes_only (backend_entries specs noise conn) s (fst (backend_step specs noise conn s)).
  Proof. eapply finish_frames. apply frames_backend; tauto. Qed.
  Theorem C94_backend_text text noise conn s : changes_nothing s (fst (backend_step (inl text) noise conn s)).
  Proof. intros r d E. destruct (C94_backend_changes (inl text) noise conn s r d E) as (d' & E' & A1 & B1). exists d'. split; [exact E'|]. split; [intros k _; apply A1|intros _; apply B1; intros k]; intros [Q _]; discriminate. Qed.
  Theorem C94_backend_unasked specs s : changes_nothing s (fst (backend_step specs None None s)).
  Proof. intros r d E. destruct (C94_backend_changes specs None None s r d E) as (d' & E' & A1 & B1). exists d'. split; [exact E'|]. split; [intros k _; apply A1|intros _; apply B1; intros k]; intros [_ [[_ Q]|[_ Q]]]; now apply Q. Qed.
  Lemma frames_method n P averaging specs : frames n P (method_step averaging specs) (fun _ => True).
  Proof. unfold estimation_method. destruct specs as [sp|]; [|now apply frames_ret]. eapply frames_bind; [apply frames_dictionary|]. intros r _. apply frames_new. Qed.
  Lemma frames_pre n (P : nat -> string -> Prop) prior kwargs l : (forall r k, n <= r -> P r k) -> (forall r, In (inr r) l -> prior <> None -> P r "prior_expectation_values"%string) ->
    frames n P (pre_step prior kwargs l) (fun _ => True).
  Proof.
    intros H1. induction l as [|sp l IH]; intros H2; cbn [preprocessors]; [now apply frames_ret|]. eapply frames_bind; [apply frames_dictionary|]. intros r Hr.
    eapply frames_bind with (Q := fun _ => True).
    { destruct prior as [p|]; [|now apply frames_ret]. apply frames_set_item. destruct Hr as [Hr| ->]; [now apply H1|]. apply H2; [now left|discriminate]. }
    intros _ _. eapply frames_bind; [apply frames_new|]. intros v _. eapply frames_bind; [apply IH; intros r' Q; apply H2; now right|]. intros rest _. now apply frames_ret.
  Qed.
  Lemma frames_name n P r sub : frames n P (name_contains text_of r sub : M (store V W) bool) (fun _ => True).
  Proof. unfold name_contains. eapply frames_bind; [apply frames_get_item|]. intros f _. destruct (text_of f); [now apply frames_ret|apply frames_err]. Qed.
  Lemma frames_opt_ansatz n (P : nat -> string -> Prop) specs target thetas : (forall r k, n <= r -> P r k) ->
    (forall r k, specs = inr r -> k = "thetas"%string \/ k = "cost_hamiltonian"%string -> P r k) -> frames n P (opt_ansatz specs target thetas) (fun _ => True).
  Proof.
    intros H1 H2. unfold optimize_ansatz. eapply frames_bind; [apply frames_dictionary|]. intros r Hr. eapply frames_bind; [apply frames_name|]. intros warm _.
    assert (HP : forall k, k = "thetas"%string \/ k = "cost_hamiltonian"%string -> P r k) by (intros k Hk; destruct Hr as [Hr|Hr]; [now apply H1|now apply H2]).
    eapply frames_bind with (Q := fun _ => True); [|intros _ _; apply frames_new]. destruct warm.
    - eapply frames_bind with (Q := fun _ => True); [destruct thetas; [apply frames_world|apply frames_err]|]. intros t _.
      eapply frames_bind; [apply frames_set_item; auto|]. intros _ _. apply frames_set_item; auto.
    - eapply frames_bind; [apply frames_name|]. intros q _. destruct q; [apply frames_set_item; auto|now apply frames_ret].
  Qed.
  Lemma frames_eval_ansatz n P specs target : frames n P (eval_ansatz specs target) (fun _ => True).
  Proof.
    unfold evaluate_ansatz. eapply frames_bind; [apply frames_dictionary|]. intros r _. eapply frames_bind with (Q := fun _ => True).
    - unfold name_is. eapply frames_bind; [apply frames_get_item|]. intros f _. destruct (text_of f); now apply frames_ret.
    - intros b _. destruct b; apply frames_new.
  Qed.
  (** Optimizing changes at most the entries thetas and cost_hamiltonian of the ansatz's specification. *)
  Theorem C94_optimize_changes optimizer_specs target ansatz_specs backend_specs averaging method pre thetas run s :
    changes_only (fun r k => ansatz_specs = inr r /\ (k = "thetas"%string \/ k = "cost_hamiltonian"%string)) s
      (fst (optimize optimizer_specs target ansatz_specs backend_specs averaging method pre thetas run s)).
  Proof.
    eapply finish_frames. unfold optimize_ansatz_based_cost_function. eapply frames_bind; [apply frames_dictionary|]. intros ro _. eapply frames_bind; [apply frames_new|]. intros opt _.
    eapply frames_bind; [apply frames_world|]. intros op _. eapply frames_bind; [apply frames_opt_ansatz; tauto|]. intros an _.
    eapply frames_bind; [apply frames_backend; [tauto|]; intros r k [_ [[_ Q]|[_ Q]]]; now destruct Q|]. intros b _. eapply frames_bind; [apply frames_method|]. intros me _.
    eapply frames_bind with (Q := fun _ => True); [destruct pre; [apply frames_pre; [tauto|]; intros r _ Q; now destruct Q|now apply frames_ret]|]. intros p _. apply frames_world.
  Qed.
  (** the entries evaluating a cost function writes *)
  Definition evaluate_entries (backend_specs cost_specs : string + nat) noise conn (pre : option (list (string + nat))) (prior : option (M W V)) (r : nat) (k : string) : Prop :=
    backend_entries backend_specs noise conn r k \/
    (cost_specs = inr r /\ (In k ["estimation_method"; "target_operator"; "ansatz"; "backend"]%string \/ (k = "estimation_preprocessors"%string /\ pre <> None))) \/
    (k = "prior_expectation_values"%string /\ prior <> None /\ exists l, pre = Some l /\ In (inr r) l).
  Theorem C94_evaluate_changes ansatz_specs backend_specs cost_specs operator averaging method pre noise conn prior kwargs s :
    changes_only (evaluate_entries backend_specs cost_specs noise conn pre prior) s
      (fst (evaluate ansatz_specs backend_specs cost_specs operator averaging method pre noise conn prior kwargs s)).
  Proof.
    eapply finish_frames. unfold evaluate_cost_function. eapply frames_bind; [apply frames_world|]. intros op _. eapply frames_bind; [apply frames_eval_ansatz|]. intros an _.
    eapply frames_bind; [apply frames_backend; [tauto|]; intros r k Q; right; left; exact Q|]. intros b _. eapply frames_bind; [apply frames_dictionary|]. intros rc Hrc.
    set (n := length (dicts s)) in *. set (P := fun r k => _).
    assert (HP : forall k, In k ["estimation_method"; "target_operator"; "ansatz"; "backend"]%string -> P rc k) by (intros k Hk; destruct Hrc as [Hr|Hr]; [left; exact Hr|right; right; left; split; [exact Hr|now left]]).
    eapply frames_bind; [apply frames_contents|]. intros d _. destruct (_ || _); [apply frames_err|].
    eapply frames_bind with (Q := fun v => v = None \/ prior <> None).
    { destruct prior as [load|]; [|apply frames_ret; now left]. eapply frames_bind; [apply frames_world|]. intros v _. apply frames_ret. right. discriminate. }
    intros pv Hpv. eapply frames_bind; [apply frames_method|]. intros me _. eapply frames_bind; [apply frames_set_item, HP; cbn; auto|]. intros _ _.
    eapply frames_bind with (Q := fun _ => True).
    { destruct pre as [l|]; [|now apply frames_ret]. eapply frames_bind.
      - apply frames_pre; [intros r k Q; left; exact Q|]. intros r I N. right. right. right. split; [reflexivity|]. split; [destruct Hpv; [contradiction|assumption]|]. now exists l.
      - intros vs _. apply frames_set_item. destruct Hrc as [Hr|Hr]; [left; exact Hr|right; right; left; split; [exact Hr|]]. right. split; [reflexivity|discriminate]. }
    intros _ _. eapply frames_bind; [apply frames_set_item, HP; cbn; auto|]. intros _ _. eapply frames_bind; [apply frames_set_item, HP; cbn; auto|]. intros _ _.
    eapply frames_bind; [apply frames_set_item, HP; cbn; auto 6|]. intros _ _. apply frames_new.
  Qed.
End C94.
