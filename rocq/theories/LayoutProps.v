(** C13: connectivity layouts. *)
From Coq Require Import String Permutation Lia.
From Verif Require Import Base BaseFacts Json LayoutModel LayoutSpec LayoutProofs.
Open Scope list_scope.
Local Open Scope nat_scope.

Theorem C13_nearest_neighbor n y :
  exists connectivity layers,
    build_circuit_layers_and_connectivity n y "nearest-neighbor" = Ok (Some (connectivity, layers))
    /\ length layers = 2
    /\ (forall layer, In layer layers -> parallel layer)
    /\ each_once layers connectivity
    /\ NoDup connectivity
    /\ forall e, In e connectivity <-> exists i, e = (i, i + 1) /\ i + 1 < n.
Proof.
  exists (fst (nearest_neighbors n)), (snd (nearest_neighbors n)).
  unfold build_circuit_layers_and_connectivity, nearest_neighbors. cbn [String.eqb Ascii.eqb Bool.eqb fst snd].
  split; [reflexivity|]. split; [reflexivity|]. repeat split.
  - intros layer [<-|[<-|[]]]; apply chain_parallel.
  - unfold each_once. cbn [concat]. rewrite app_nil_r. apply Permutation_refl.
  - apply NoDup_app.
    + apply FinFun.Injective_map_NoDup; [intros a b E; now injection E|apply range2_NoDup].
    + apply FinFun.Injective_map_NoDup; [intros a b E; now injection E|apply range2_NoDup].
    + intros e H H'. apply in_map_iff in H as (i & <- & H). apply in_map_iff in H' as (j & E & H').
      injection E as E _. apply range2_In in H as (k & ? & _). apply range2_In in H' as (k' & ? & _). lia.
  - intros H. apply in_app_or in H as [H|H]; apply in_map_iff in H as (i & <- & H); apply range2_In in H as (k & -> & H);
      eexists; (split; [reflexivity|lia]).
  - intros (i & -> & H). apply in_or_app. destruct (Nat.Even_or_Odd i) as [[k E]|[k E]]; [left|right];
      (apply in_map_iff; exists i; split; [reflexivity|]); apply range2_In; exists k; lia.
Qed.

(** Eight layers: 1, 2, 5, 6 use every connection once, and so do 3, 4, 7, 8. *)
Theorem C13_sycamore X Y : 0 < X -> 0 < Y ->
  exists connectivity l1 l2 l3 l4 l5 l6 l7 l8,
    build_circuit_layers_and_connectivity X (Some Y) "sycamore" = Ok (Some (connectivity, [l1; l2; l3; l4; l5; l6; l7; l8]))
    /\ (forall layer, In layer [l1; l2; l3; l4; l5; l6; l7; l8] -> parallel layer)
    /\ each_once [l1; l2; l5; l6] connectivity
    /\ each_once [l3; l4; l7; l8] connectivity
    /\ NoDup connectivity
    /\ forall e, In e connectivity <-> sycamore_joined X Y e.
Proof.
  intros HX HY. unfold build_circuit_layers_and_connectivity. cbn [String.eqb Ascii.eqb Bool.eqb].
  rewrite (sycamore_closed X Y HX HY). cbn [rmap].
  do 9 eexists. split; [reflexivity|]. split; [|split; [|split; [|split]]].
  - cbn [In]. intros layer H. repeat destruct H as [<-|H]; try contradiction; apply good_parallel; (apply good_spat || apply good_pat2); lia.
  - apply layers_once, spat_01.
  - apply layers_once, pat2_01.
  - apply conn_NoDup.
  - intros e. apply conn_In.
Qed.
Theorem C13_sycamore_empty X Y : X = 0 \/ Y = 0 -> build_circuit_layers_and_connectivity X (Some Y) "sycamore" = Err ValueError.
Proof.
  intros H. unfold build_circuit_layers_and_connectivity, sycamore. cbn [String.eqb Ascii.eqb Bool.eqb].
  destruct H as [->| ->]; cbn; [reflexivity|]. now rewrite Bool.orb_true_r.
Qed.

(** An unknown layer type is not an error: the caller gets None. *)
Theorem C13_unknown_type_refuted X y t : t <> "sycamore"%string -> t <> "nearest-neighbor"%string ->
  build_circuit_layers_and_connectivity X y t = Ok None.
Proof.
  intros N1 N2. unfold build_circuit_layers_and_connectivity.
  destruct (String.eqb_spec t "sycamore"); [contradiction|]. destruct (String.eqb_spec t "nearest-neighbor"); [contradiction|]. reflexivity.
Qed.

(** Exactly the calls that fail: a sycamore array without rows or columns, or without a second dimension. *)
Theorem C13_failures X y t e : build_circuit_layers_and_connectivity X y t = Err e <->
  t = "sycamore"%string /\ ((y = None /\ e = TypeError) \/ (exists Y, y = Some Y /\ (X = 0 \/ Y = 0) /\ e = ValueError)).
Proof.
  split.
  - intros H. destruct (String.eqb_spec t "sycamore") as [->|N].
    + split; [reflexivity|]. destruct y as [Y|]; [right|left; split; [reflexivity|cbn in H; congruence]]. exists Y. split; [reflexivity|].
      destruct (Nat.eq_dec X 0) as [HX|HX]; [rewrite C13_sycamore_empty in H by auto; split; [auto|congruence]|].
      destruct (Nat.eq_dec Y 0) as [HY|HY]; [rewrite C13_sycamore_empty in H by auto; split; [auto|congruence]|].
      destruct (C13_sycamore X Y ltac:(lia) ltac:(lia)) as (c & l1 & l2 & l3 & l4 & l5 & l6 & l7 & l8 & E & _). congruence.
    + unfold build_circuit_layers_and_connectivity in H. destruct (String.eqb_spec t "sycamore"); [contradiction|].
      destruct (String.eqb t "nearest-neighbor"); discriminate.
  - intros [-> [[-> ->]|(Y & -> & H & ->)]]; [reflexivity|]. apply C13_sycamore_empty. exact H.
Qed.

Lemma as_group_id g : as_group (jgroup g) = Ok g.
Proof.
  unfold as_group, jgroup. induction g as [|a g IH]; cbn [map mapM]; [reflexivity|]. rewrite IH. reflexivity.
Qed.
Lemma as_groups_id l : mapM as_group (map jgroup l) = Ok l.
Proof. induction l as [|a l IH]; cbn [map mapM]; [reflexivity|]. rewrite as_group_id, IH. reflexivity. Qed.
(** Dictionaries, bare or as saved to files, read back as the same groups in the same order. *)
Theorem C13_dicts (c : list (list nat)) (layers : list (list (list nat))) (ordering : list nat) (schema : string) :
  connectivity_from_dict (connectivity_to_dict c) = Ok c
  /\ connectivity_from_dict (with_schema schema (connectivity_to_dict c)) = Ok c
  /\ layers_from_dict (layers_to_dict layers) = Ok layers
  /\ layers_from_dict (with_schema schema (layers_to_dict layers)) = Ok layers
  /\ ordering_from_dict (ordering_to_dict ordering) = Ok ordering.
Proof.
  assert (L : mapM (fun l => match l with JArr gs => mapM as_group gs | _ => Err TypeError end) (map (fun l => JArr (map jgroup l)) layers) = Ok layers).
  { induction layers as [|a l IH]; cbn [map mapM]; [reflexivity|]. rewrite as_groups_id, IH. reflexivity. }
  unfold connectivity_from_dict, layers_from_dict, ordering_from_dict. cbn -[as_group mapM map jgroup].
  rewrite L, as_groups_id, as_group_id. repeat split.
Qed.

(** A saved document names its schema beside the data. *)
Theorem C13_saved_schema (c : list (list nat)) (layers : list (list (list nat))) (ordering : list nat) (schema : string) :
  (exists d, with_schema schema (connectivity_to_dict c) = JObj d /\ jget "schema" d = Some (JStr schema) /\
     jget "connectivity" d = Some (JArr (map (fun g => JArr (map JNum g)) c)) /\ length d = 2) /\
  (exists d, with_schema schema (layers_to_dict layers) = JObj d /\ jget "schema" d = Some (JStr schema) /\
     jget "layers" d = Some (JArr (map (fun l => JArr (map (fun g => JArr (map JNum g)) l)) layers)) /\ length d = 2) /\
  (exists d, ordering_to_dict ordering = JObj d /\ jget "schema" d = Some (JStr "zapata-v1-circuit_ordering") /\
     jget "ordering" d = Some (JArr (map JNum ordering)) /\ length d = 2).
Proof. repeat split; eexists; repeat split. Qed.

Example C13_chain5 : build_circuit_layers_and_connectivity 5 None "nearest-neighbor"
  = Ok (Some ([(0,1); (2,3); (1,2); (3,4)], [[(0,1); (2,3)]; [(1,2); (3,4)]])).
Proof. reflexivity. Qed.
Example C13_sycamore23 : build_circuit_layers_and_connectivity 2 (Some 3) "sycamore"
  = Ok (Some ([(2,0); (2,1); (3,1); (2,4); (2,5); (3,5)],
              [[(2,1); (3,5)]; [(2,4)]; [(2,1)]; [(2,4); (3,5)]; [(2,0)]; [(2,5); (3,1)]; [(2,0); (3,1)]; [(2,5)]])).
Proof. vm_compute. reflexivity. Qed.
Print Assumptions C13_nearest_neighbor.
Print Assumptions C13_sycamore.
Print Assumptions C13_dicts.
Print Assumptions C13_failures.
Print Assumptions C13_saved_schema.
