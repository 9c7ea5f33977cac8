(** C99: arrays, operators, layouts, measurements, distributions and graphs kept in files. *)
From Coq Require Import String ZArith QArith List Lia.
From Verif Require Import Base BaseFacts Json MatModel CostModel OpModel OpSpec ArtModel ArtSpec ArtProofs ArtProps.
From Verif Require UtilsModel UtilsProps EvModel MeasModel MeasProps LayoutModel LayoutProps DistModel DistSpec DistProps GraphModel GraphSpec GraphProps ConvModel ConvSpec ConvProps CreateModel
  CreateProps GaussQ.
From Verif Require Import GateMatProps.
Import ListNotations.
Open Scope list_scope.
Local Open Scope nat_scope.

Section Arrays.
  Context {K : cring} (isz : K -> bool).
  Import UtilsModel EvModel MeasProps.
  Lemma storable_array_of (a : ndarray K) : storable a -> EvModel.array_of isz (JObj (convert_array_to_dict a)) = Ok a.
  Proof. intros H. cbn. apply storable_round_trip. exact H. Qed.
  Theorem C99_array (a : ndarray K) : storable a -> kept_in_file true (save_array a) (load_array isz) (fun b => b = a).
  Proof.
    intros H. eapply kept_intro; [|reflexivity|discriminate|auto]. unfold jitem, jget. cbn [dget String.eqb Ascii.eqb Bool.eqb rbind]. apply storable_array_of. exact H.
  Qed.
  Theorem C99_expectation_values (e : ev_obj K) : storable (eo_values e) -> all_storable (eo_correlations e) -> all_storable (eo_covariances e) ->
    kept_in_file true (save_expectation_values e) (load_expectation_values isz)
      (fun f => f = {| eo_values := eo_values e; eo_correlations := none_if_empty (eo_correlations e); eo_covariances := none_if_empty (eo_covariances e) |}).
  Proof. intros H1 H2 H3. eapply kept_intro; [|reflexivity|discriminate|auto]. exact (C31_expectation_values_round_trip isz e H1 H2 H3). Qed.
  Theorem C99_parities (e : par_obj K) : storable (po_values e) -> all_storable (po_correlations e) ->
    kept_in_file true (ArtModel.save_parities e) (ArtModel.load_parities isz) (fun f => f = {| po_values := po_values e; po_correlations := none_if_empty (po_correlations e) |}).
  Proof. intros H1 H2. eapply kept_intro; [|reflexivity|discriminate|auto]. exact (C31_parities_round_trip isz e H1 H2). Qed.
  (** amplitudes that the constructor of wavefunctions accepts *)
  Theorem C99_wavefunction {W} (mk : ndarray K -> result W) (a : ndarray K) w : storable a -> mk a = Ok w -> kept_in_file true (ArtModel.save_wavefunction a) (ArtModel.load_wavefunction isz mk) (fun w' => w' = w).
  Proof. intros H1 H2. eapply kept_intro; [|reflexivity|discriminate|auto]. rewrite (C31_wavefunction_round_trip isz mk a H1). exact H2. Qed.
  (** This loader takes names and paths, but no open file. *)
  Theorem C99_nmeas (nmeas nterms : K) (a : ndarray K) p fs : storable a -> exists fs', save_nmeas_estimate nmeas nterms p (Some a) fs = (fs', Ok tt) /\ only (name_of p) fs fs' /\
    (forall q, name_of q = name_of p -> load_nmeas_estimate isz (At q) fs' = (fs', Ok (JNum nmeas, JNum nterms, a))) /\
    (forall c, load_nmeas_estimate isz (Stream c) fs' = (fs', Err TypeError)).
  Proof.
    intros H. pose proof (write_same p (JObj (CreateModel.save_nmeas_estimate "zapata-v1-hamiltonian_analysis" nmeas nterms (Some a))) fs) as E.
    exists (fst (save_nmeas_estimate nmeas nterms p (Some a) fs)). split; [reflexivity|]. split; [apply write_only|]. split; [|reflexivity]. intros q Q.
    change (write_document _ _ fs) with (save_nmeas_estimate nmeas nterms p (Some a) fs) in E. generalize dependent (fst (save_nmeas_estimate nmeas nterms p (Some a) fs)). intros fs' E.
    unfold load_nmeas_estimate, load. f_equal. destruct q as [n|n]; cbn [name_of] in Q; subst n; cbn [read]; unfold read_file; rewrite E; cbn [parse rbind as_object];
      exact (CreateProps.C90_nmeas isz "zapata-v1-hamiltonian_analysis" nmeas nterms a H).
  Qed.
  Theorem C99_interaction_operator (Hz : forall x, isz x = true -> x = k0) (o : ConvModel.interaction) : storable (ConvModel.i_one o) -> storable (ConvModel.i_two o) ->
    kept_in_file false (save_interaction_operator o) (load_interaction_operator isz)
      (fun o' => ConvProps.as_complex (ConvModel.i_constant o') = ConvProps.as_complex (ConvModel.i_constant o) /\ ConvModel.i_one o' = ConvModel.i_one o /\ ConvModel.i_two o' = ConvModel.i_two o).
  Proof. intros H1 H2. destruct (ConvProps.C53_interaction_round_trip isz Hz "zapata-v1-interaction_op" o H1 H2) as (o' & E & G). eapply kept_intro; [exact E|exact G|discriminate|discriminate]. Qed.
  Theorem C99_rdm (r : rdm K) : storable (one_body r) -> storable (two_body r) -> kept_in_file false (save_interaction_rdm r) (load_interaction_rdm isz) (fun r' => r' = r).
  Proof.
    intros H1 H2. eapply kept_intro with (x := r); [|reflexivity|discriminate|discriminate]. unfold dict_to_rdm, rdm_to_dict, ConvModel.array_field, jitem, jget.
    cbn [dget String.eqb Ascii.eqb Bool.eqb rbind]. rewrite (storable_round_trip isz _ H1), (storable_round_trip isz _ H2). destruct r. reflexivity.
  Qed.
  (** The schema of a file is not looked at: an interaction operator is loaded as density matrices, its constant being dropped. *)
  Theorem C99_schema_refuted (o : ConvModel.interaction (K := K)) : storable (ConvModel.i_one o) -> storable (ConvModel.i_two o) ->
    kept_in_file false (save_interaction_operator o) (load_interaction_rdm isz) (fun r => one_body r = ConvModel.i_one o /\ two_body r = ConvModel.i_two o).
  Proof.
    intros H1 H2. eapply kept_intro with (x := {| one_body := ConvModel.i_one o; two_body := ConvModel.i_two o |}); [|split; reflexivity|discriminate|discriminate].
    unfold dict_to_rdm, ConvModel.interaction_to_dict, ConvModel.array_field, jitem, jget.
    cbn [dget String.eqb Ascii.eqb Bool.eqb rbind]. rewrite (storable_round_trip isz _ H1), (storable_round_trip isz _ H2). reflexivity.
  Qed.
  (** Density matrices cannot be loaded as an interaction operator, nor as one of the other kinds. *)
  Theorem C99_other_kind (r : rdm K) p fs : exists fs', save_interaction_rdm r p fs = (fs', Ok tt) /\
    load_interaction_operator isz (At (Str (name_of p))) fs' = (fs', Err KeyError) /\ load_array isz (At (Str (name_of p))) fs' = (fs', Err KeyError) /\
    load_expectation_values isz (At (Str (name_of p))) fs' = (fs', Err KeyError) /\ load_parities isz (At (Str (name_of p))) fs' = (fs', Err KeyError) /\
    load_list (At (Str (name_of p))) fs' = (fs', Err KeyError).
  Proof.
    exists (fst (save_interaction_rdm r p fs)). pose proof (write_same p (JObj (rdm_to_dict r)) fs) as E. fold (save_interaction_rdm r p fs) in E. set (fs' := fst (save_interaction_rdm r p fs)) in *.
    split; [reflexivity|]. unfold load_interaction_operator, load_array, load_expectation_values, load_parities, load_list, load, read, rapid, standard, read_file. rewrite E. repeat split; reflexivity.
  Qed.
End Arrays.

Section Operators.
  Context {K : cring} {R : Type} (py : ConvModel.pynum K R) (HP : ConvSpec.parts_of_numbers py) (im : K) (small : K -> bool).
  Import ConvModel ConvSpec.
  (** a qubit operator as the constructors make it *)
  Definition proper (a : qop K) : Prop := wf_op a /\ forall t c, In (t, c) a -> canonical t.
  Theorem C99_qubit_operator (a : qop K) : proper a -> kept_in_file false (save_qubit_operator py a) (load_qubit_operator py im small) (fun b => b = not_small_terms small a).
  Proof. intros [W C]. eapply kept_intro; [|reflexivity|discriminate|discriminate]. apply (ConvProps.C53_qubit_round_trip py HP im small "zapata-v1-qubit_op" a W C). Qed.
  Theorem C99_ising_operator (a : isop K) : wf_op a -> (forall t c, In (t, c) a -> ising_canonical t) ->
    kept_in_file false (save_ising_operator py a) (load_ising_operator py small) (fun b => b = not_small_terms small a).
  Proof. intros W C. eapply kept_intro; [|reflexivity|discriminate|discriminate]. apply (ConvProps.C53_ising_round_trip py HP small "zapata-v1-ising_op" a W C). Qed.
  Lemma read_operators (l : list (qop K)) : Forall proper l ->
    mapM (fun j => let! d := as_object j in qubit_from py im small d) (map (fun a => JObj (operator_to_dict py pauli_name "zapata-v1-qubit_op" a)) l) = Ok (map (not_small_terms small) l).
  Proof.
    induction 1 as [|a l [W C] _ IH]; [reflexivity|]. cbn [map mapM as_object rbind]. unfold qubit_from at 1.
    rewrite (proj1 (ConvProps.C53_qubit_round_trip py HP im small "zapata-v1-qubit_op" a W C)). cbn [rbind]. rewrite IH. reflexivity.
  Qed.
  (** A list of operators: as many, in the same order. *)
  Theorem C99_operator_set (l : list (qop K)) : Forall proper l ->
    kept_in_file false (save_qubit_operator_set py l) (load_qubit_operator_set py im small) (fun m => m = map (not_small_terms small) l).
  Proof.
    intros H. eapply kept_intro; [|reflexivity|discriminate|discriminate]. unfold jitem, jget. cbn [dget String.eqb Ascii.eqb Bool.eqb rbind]. apply read_operators. exact H.
  Qed.
  (** The step: the first list, then the second, whether given or read from files. *)
  Definition list_of fs (a : operators K) : result (list (qop K)) := match a with GivenOps l => Ok l | NamedOps n => snd (load_qubit_operator_set py im small (At (Str n)) fs) end.
  Theorem C99_concatenate (a b : operators K) fs x y : list_of fs a = Ok x -> list_of fs b = Ok y -> Forall proper (x ++ y) ->
    exists fs', concatenate_qubit_operator_lists py im small a b fs = (fs', Ok tt) /\ only "concatenated-qubit-operators.json" fs fs' /\
      load_qubit_operator_set py im small (At (Str "concatenated-qubit-operators.json")) fs' = (fs', Ok (map (not_small_terms small) x ++ map (not_small_terms small) y)).
  Proof.
    intros E1 E2 H. assert (O : forall a, operators_of py im small a fs = (fs, list_of fs a)) by (intros []; reflexivity).
    unfold concatenate_qubit_operator_lists, bindM. rewrite (O a), E1, (O b), E2.
    destruct (C99_operator_set (x ++ y) H (Str "concatenated-qubit-operators.json") fs) as (fs' & S & Q & z & -> & L). exists fs'. split; [exact S|]. split; [exact Q|].
    rewrite <- map_app. apply L. constructor.
  Qed.
  Theorem C99_concatenate_error (a b : operators K) fs e : list_of fs a = Err e \/ (exists x, list_of fs a = Ok x /\ list_of fs b = Err e) ->
    concatenate_qubit_operator_lists py im small a b fs = (fs, Err e).
  Proof.
    assert (O : forall a, operators_of py im small a fs = (fs, list_of fs a)) by (intros []; reflexivity).
    intros [E|(x & E1 & E2)]; unfold concatenate_qubit_operator_lists, bindM; rewrite (O a); [rewrite E|rewrite E1, (O b), E2]; reflexivity.
  Qed.
  (** Pauli strings: one per term in the order of the terms, and no two terms have the same one. *)
  Theorem C99_pauli_strings (a b : qop K) :
    length (get_pauli_strings a) = length a /\ (get_pauli_strings a = get_pauli_strings b <-> map fst a = map fst b) /\ (NoDup (map fst a) -> NoDup (get_pauli_strings a)) /\
    (forall i t c, nth_error a i = Some (t, c) -> nth_error (get_pauli_strings a) i = Some (term_string t)).
  Proof.
    assert (G : forall a : qop K, get_pauli_strings a = map term_string (map fst a)).
    { intros x. unfold get_pauli_strings. rewrite map_map. apply map_ext. intros [t c]. cbn [fst]. apply (term_string_fold t ""). }
    rewrite !G. split; [rewrite !map_length; reflexivity|]. split; [|split].
    - split; [|intros ->; reflexivity]. generalize (map fst b). induction (map fst a) as [|t l IH]; intros [|u m] E; try discriminate; [reflexivity|].
      cbn in E. injection E as E1 E2. apply term_string_inj in E1. apply IH in E2. congruence.
    - intros N. apply FinFun.Injective_map_NoDup; [|exact N]. intros t u. apply term_string_inj.
    - intros i t c E. rewrite map_map, nth_error_map, E. reflexivity.
  Qed.
End Operators.

(** ** Layouts, measurements, distributions and graphs *)
Theorem C99_layouts (layers : list (list (list nat))) (connectivity : list (list nat)) (ordering : list nat) :
  kept_in_file false (save_circuit_layers layers) load_circuit_layers (fun x => x = layers) /\
  kept_in_file false (save_circuit_connectivity connectivity) load_circuit_connectivity (fun x => x = connectivity) /\
  kept_in_file false (save_circuit_ordering ordering) load_circuit_ordering (fun x => x = ordering).
Proof.
  split; [|split]; (eapply kept_intro; [|reflexivity|discriminate|discriminate]).
  - apply (LayoutProps.C13_dicts [] layers [] "zapata-v1-circuit_layers").
  - apply (LayoutProps.C13_dicts connectivity [] [] "zapata-v1-circuit_connectivity").
  - apply (LayoutProps.C13_dicts [] [] ordering "").
Qed.
Theorem C99_measurements (m : MeasModel.measurements) : kept_in_file false (save_measurements m) load_measurements (fun x => x = m).
Proof. eapply kept_intro; [|reflexivity|discriminate|discriminate]. apply MeasProps.C27_save_load. Qed.
Theorem C99_distributions (ds : list DistModel.dist) :
  (forall d, In d ds -> DistSpec.proper_dist d /\ DistProps.readable d /\ DistSpec.near_one (DistSpec.total_mass (map snd d))) ->
  (forall d, In d ds -> kept_in_file false (save_distribution d) load_distribution (fun x => x = d)) /\ kept_in_file false (save_distributions ds) load_distributions (fun x => x = ds).
Proof.
  intros H. split.
  - intros d I. destruct (H d I) as (H1 & H2 & H3). eapply kept_intro; [|reflexivity|discriminate|discriminate]. apply DistProps.C33_save_load; assumption.
  - eapply kept_intro; [|reflexivity|discriminate|discriminate]. apply DistProps.C33_save_load_set. exact H.
Qed.
Theorem C99_graph (g : GraphModel.graph) : GraphSpec.built g -> GraphSpec.storable g -> kept_in_file true (save_graph g) load_graph (fun h => GraphSpec.same_graph g h /\ GraphModel.compare_graphs g h = true).
Proof. intros B S. destruct (GraphProps.C62_save_load g B S) as (h & E & Q). eapply kept_intro; [exact E|exact Q|discriminate|auto]. Qed.

(** ** Examples *)
Example C99_pauli_example : get_pauli_strings (K := ZR) [([(1, Px); (20, Pz)], 3%Z); ([(12, Px); (0, Pz)], 1%Z); ([], 2%Z)] = ["X1Z20"; "X12Z0"; ""]%string.
Proof. reflexivity. Qed.
Example C99_proper_example : proper (K := ZR) [([(1, Px); (20, Pz)], 3%Z); ([], 2%Z)].
Proof.
  split; [repeat constructor; cbn; intuition discriminate|]. intros t c [[= <- <-]|[[= <- <-]|[]]]; cbn; repeat split; try discriminate; lia.
Qed.
Example C99_rdm_example : let r : rdm ZR := {| one_body := {| UtilsModel.a_shape := [1; 1]; UtilsModel.a_data := UtilsModel.RealData [2%Z : ZR] |}; two_body := {| UtilsModel.a_shape := [1; 1; 1; 1]; UtilsModel.a_data := UtilsModel.RealData [3%Z : ZR] |} |} in
  MeasProps.storable (one_body r) /\ MeasProps.storable (two_body r).
Proof. cbn. split; (split; [reflexivity|left; split; [discriminate|left; discriminate]]). Qed.
Print Assumptions C99_array.
Print Assumptions C99_interaction_operator.
Print Assumptions C99_schema_refuted.
Print Assumptions C99_operator_set.
Print Assumptions C99_concatenate.
Print Assumptions C99_pauli_strings.
Print Assumptions C99_graph.
