(** C62: comparing, storing and generating graphs. *)
From Coq Require Import List ZArith QArith String Bool Lia.
From Verif Require Import Base BaseFacts Json CostModel GraphModel GraphSpec GraphProofs.
Import ListNotations.
Open Scope nat_scope.
Open Scope string_scope.
Open Scope list_scope.

(** *** comparing *)
(** What is compared: the nodes, and the edges, up to the length of the shorter list. *)
Theorem C62_compare (g1 g2 : graph) : compare_graphs g1 g2 = true <-> one_extends (nodes g1) (nodes g2) /\ one_extends (edges g1) (edges g2).
Proof. apply compare_spec. Qed.
(** Graphs with as many nodes and edges: equal exactly if they list the same nodes and edges in the same order. *)
Theorem C62_compare_same_size (g1 g2 : graph) : length (nodes g1) = length (nodes g2) -> length (edges g1) = length (edges g2) ->
  (compare_graphs g1 g2 = true <-> nodes g1 = nodes g2 /\ edges g1 = edges g2).
Proof.
  intros L1 L2. rewrite C62_compare.
  assert (G : forall A (l m : list A), length l = length m -> (one_extends l m <-> l = m)).
  { intros A l m L. split; [|intros ->; left; exists []; rewrite app_nil_r; reflexivity].
    intros [[t ->]|[t ->]]; rewrite app_length in L; destruct t; cbn in L; try lia; rewrite app_nil_r; reflexivity. }
  rewrite !G by auto. reflexivity.
Qed.
(** So the empty graph equals every graph, *)
Theorem C62_compare_empty_refuted (g : graph) : compare_graphs empty_graph g = true.
Proof. apply C62_compare. split; left; eexists; reflexivity. Qed.
(** graphs with other weights are equal, *)
Theorem C62_compare_weights_refuted (x y : Q) : let g w := add_edge empty_graph (NInt 0) (NInt 1) [("weight", JNum w)] in compare_graphs (g x) (g y) = true.
Proof. reflexivity. Qed.
(** and graphs with the same nodes and edges can differ. *)
Theorem C62_compare_order_refuted :
  let g := add_edge empty_graph (NInt 0) (NInt 1) [] in let h := add_edge empty_graph (NInt 1) (NInt 0) [] in
  compare_graphs g h = false /\ (forall n, In n (nodes g) <-> In n (nodes h)) /\ (forall u v, edge_between g u v = edge_between h u v).
Proof.
  split; [reflexivity|]. split; [intros n; cbn; tauto|]. intros u v. unfold edge_between, row. cbn.
  destruct (node_eqb u (NInt 0)) eqn:E0, (node_eqb u (NInt 1)) eqn:E1; try reflexivity. apply node_eq in E0, E1. congruence.
Qed.

(** *** numbering the nodes *)
(** The nodes are numbered from 0 in order, and two nodes never get the same number. *)
Theorem C62_node_numbers (g : graph) : built g ->
  map fst (generate_graph_node_dict g) = nodes g /\ map snd (generate_graph_node_dict g) = seq 0 (length (nodes g)) /\
  (forall n i, dget node_eqb n (generate_graph_node_dict g) = Some i <-> nth_error (nodes g) i = Some n).
Proof.
  intros B. apply built_wf in B. rewrite node_dict_spec by auto. set (l := nodes g). assert (ND : NoDup l) by apply B. clearbody l. clear B g.
  assert (G : forall k, map fst (combine l (seq k (length l))) = l /\ map snd (combine l (seq k (length l))) = seq k (length l)).
  { clear ND. induction l as [|x l IH]; intros k; cbn; [auto|]. destruct (IH (Datatypes.S k)) as [-> ->]. auto. }
  split; [apply G|]. split; [apply G|].
  assert (H : forall k n i, dget node_eqb n (combine l (seq k (length l))) = Some i <-> k <= i /\ nth_error l (i - k) = Some n).
  { clear G. induction l as [|x l IH]; intros k n i; cbn [combine seq length dget]; [split; [discriminate|intros [_ H]; destruct (i - k); discriminate]|]. inversion ND; subst.
    destruct (node_eqb n x) eqn:E.
    - apply node_eq in E. subst. split.
      + intros [= <-]. rewrite Nat.sub_diag. auto.
      + intros [Hk H]. destruct (i - k) eqn:Ei; [f_equal; lia|]. cbn in H. apply nth_error_In in H. contradiction.
    - rewrite IH by auto. split.
      + intros [Hk H]. split; [lia|]. replace (i - k) with (Datatypes.S (i - Datatypes.S k)) by lia. exact H.
      + intros [Hk H]. destruct (i - k) eqn:Ei; [cbn in H; injection H as ->; rewrite node_eqb_refl in E; discriminate|]. split; [lia|]. cbn in H. replace (i - Datatypes.S k) with n0 by lia. exact H. }
  intros n i. rewrite H, Nat.sub_0_r. split; [tauto|intros; split; [lia|auto]].
Qed.

(** *** files *)
(** A graph whose attributes do not clash with the names used in the file is loaded as it was: nodes and edges in the same order, all attributes. *)
Theorem C62_save_load (g : graph) : built g -> storable g -> exists g', load_graph (save_graph g) = Ok g' /\ same_graph g g' /\ compare_graphs g g' = true.
Proof.
  intros B H. destruct (load_save g (built_wf g B) (built_keyed g B) H) as (g' & L & W & Sm). exists g'. split; [exact L|]. split; [exact Sm|].
  destruct Sm as (_ & E1 & E2 & _). apply C62_compare. unfold nodes, edges. rewrite E1, E2. split; left; exists []; rewrite app_nil_r; reflexivity.
Qed.
(** The file says what it contains. *)
Theorem C62_schema (g : graph) : jget "schema" (save_graph g) = Some (JStr "zapata-v1-graph").
Proof. reflexivity. Qed.
(** An attribute of a node called "id" is lost. *)
Theorem C62_id_attribute_refuted (x : json Q) : load_graph (save_graph (add_node empty_graph (NInt 7) [("id", x)])) = Ok (add_node empty_graph (NInt 7) []).
Proof. reflexivity. Qed.

(** *** weights *)
Section Generation.
  Context {S : Type} (w : world S).
  (** the state after seeding *)
  Definition seeded (seed : json Q) (s s0 : S) : Prop := match seed with JNull => s0 = s | _ => random_seed w seed s = (s0, Ok tt) end.
  (** Each edge gets the next value of the sampler, in order; nothing else changes. If seeding or the sampler raise, the graph is not changed. *)
  Theorem C62_weights (g : graph) (next : M S Q) (seed : json Q) (s : S) : built g ->
    (exists s0 s' g' ws, seeded seed s s0 /\ weight_graph_edges w g next seed s = (s', Ok g') /\ drawn next s0 ws s' /\ weighted g g' ws /\ built g') \/
    (exists s0 s1 s' ws e, seeded seed s s0 /\ weight_graph_edges w g next seed s = (s', Err e) /\ drawn next s0 ws s1 /\ next s1 = (s', Err e) /\ length ws < length (edges g)) \/
    (exists s' e, seed <> JNull /\ random_seed w seed s = (s', Err e) /\ weight_graph_edges w g next seed s = (s', Err e)).
  Proof.
    intros B. pose proof (built_wf g B) as W. unfold weight_graph_edges. rewrite (wf_multi g W).
    set (m := match seed with JNull => retM tt | _ => random_seed w seed end).
    assert (HS : (exists s0, m s = (s0, Ok tt) /\ seeded seed s s0) \/ (exists s' e, m s = (s', Err e) /\ seed <> JNull /\ random_seed w seed s = (s', Err e))).
    { unfold m, seeded. destruct seed as [|sb|sx|st|sl|sd]; [left; exists s; split; reflexivity| | | | | ];
      match goal with |- context [random_seed w ?q s] => destruct (random_seed w q s) as [s0 [[]|e]]; [left; exists s0; auto|right; exists s0, e; repeat split; auto; discriminate] end. }
    unfold bindM. destruct HS as [(s0 & E & Hs)|(s' & e & E & Hn & Hr)]; rewrite E.
    - destruct (draw_all_spec next (edges g) s0) as [(s' & xs & E1 & L & D)|(s1 & s' & xs & e & E1 & L & D & N)]; rewrite E1.
      + left. exists s0, s'. unfold edges in *. rewrite map_length in L.
        destruct (fold_weights (edges_data g) xs [] g W eq_refl L) as (_ & D1 & G1 & E2). { cbn [app]. unfold edges_data. rewrite (wf_adj g W). apply edges_distinct; apply W. }
        cbv zeta in *. eexists. exists xs. split; [exact Hs|]. split; [reflexivity|]. split; [exact D|]. split.
        * split; [exact G1|]. split; [exact D1|]. split; [exact L|]. rewrite E2. cbn [app]. apply map_ext. intros [[[u v] a] x]. reflexivity.
        * clear -B. revert xs g B. assert (G : forall l g, built g -> built (fold_left (fun g ex => add_edge g (fst (fst ex)) (snd (fst ex)) [("weight", JNum (snd ex))]) l g)).
          { induction l as [|x l IH]; intros g B; [exact B|]. cbn. apply IH. constructor. exact B. }
          intros. apply G, B.
      + right. left. exists s0, s1, s', xs, e. auto.
    - right. right. exists s', e. auto.
  Qed.
  Theorem C62_multigraph (g : graph) next seed s : multi g = true -> weight_graph_edges w g next seed s = (s, Err ValueError).
  Proof. intros H. unfold weight_graph_edges. rewrite H. reflexivity. Qed.

  (** What the samplers give *)
  Theorem C62_constant (x : Q) (s : S) ws s' : drawn (constant_sampler x) s ws s' -> s' = s /\ forall y, In y ws -> y = x.
  Proof.
    induction 1 as [s|s s1 y s2 xs E D [IH1 IH2]]; [split; [reflexivity|intros y []]|]. injection E as -> ->. split; [exact IH1|]. intros z [->|Hz]; auto.
  Qed.
  Theorem C62_uniform (lo hi : Q) s ws s' : (forall t, lo <= snd (random_uniform w lo hi t) <= hi)%Q -> drawn (uniform_sampler w lo hi) s ws s' -> forall y, In y ws -> (lo <= y <= hi)%Q.
  Proof.
    intros H. induction 1 as [s|s s1 y s2 xs E D IH]; [intros y []|]. intros z [->|Hz]; [|auto]. unfold uniform_sampler, always in E. specialize (H s).
    destruct (random_uniform w lo hi s) as [s3 v]. injection E as -> ->. exact H.
  Qed.
  Theorem C62_choice (choices : list Q) s ws s' : drawn (choice_sampler w choices) s ws s' -> forall y, In y ws -> In y choices.
  Proof.
    induction 1 as [s|s s1 y s2 xs E D IH]; [intros y []|]. intros z [->|Hz]; [|auto]. unfold choice_sampler in E. destruct choices as [|c cs]; [discriminate|].
    unfold bindM, always in E. destruct (random_choice w _ s) as [s3 i]. unfold liftM in E. destruct (nth_error (c :: cs) i) eqn:N; [|discriminate]. injection E as _ ->. eapply nth_error_In; eauto.
  Qed.
  Theorem C62_choice_empty s : choice_sampler w [] s = (s, Err IndexError).
  Proof. reflexivity. Qed.

  (** *** specifications of graphs *)
  Definition spec_seed (specs : jdict Q) : json Q := match jget "seed" specs with Some j => j | None => JNull end.
  Definition spec_random (specs : jdict Q) : Prop := exists j, jget "random_weights" specs = Some j /\ truthy (fun q => Qeq_bool q 0) j = true.
  (** The specified generator of networkx is called with the specified arguments, and its result gets weights. *)
  Theorem C62_specs (specs : jdict Q) t n m s : jget "type_graph" specs = Some (JStr t) -> jget "num_nodes" specs = Some n -> asks w specs n (spec_seed specs) t m ->
    exists next, (spec_random specs -> next = uniform_sampler w 0 1) /\ (~ spec_random specs -> next = constant_sampler 1) /\
      generate_graph_from_specs w specs s = match m s with (s1, Ok g) => weight_graph_edges w g next (spec_seed specs) s1 | (s1, Err e) => (s1, Err e) end.
  Proof.
    intros Ht Hn A. set (b := match jget "random_weights" specs with Some j => truthy (fun q => Qeq_bool q 0) j | None => false end).
    assert (Hb : b = true <-> spec_random specs).
    { unfold b, spec_random. destruct (jget "random_weights" specs) as [j|]; [|split; [discriminate|intros (j & [=] & _)]]. split; [intros H; exists j; auto|intros (j' & [= <-] & H); exact H]. }
    exists (if b then uniform_sampler w 0 1 else constant_sampler 1).
    split; [intros H; rewrite (proj2 Hb H); reflexivity|]. split; [intros H; destruct b; [elim H; apply Hb; reflexivity|reflexivity]|].
    clear Hb. unfold generate_graph_from_specs. fold b. unfold jitem. rewrite Ht, Hn.
    destruct A as [p H|d H| |x k H H'|x H|x H]; unfold bindM, liftM; cbn [String.eqb Ascii.eqb Bool.eqb]; rewrite ?H, ?H'; reflexivity.
  Qed.
  Theorem C62_specs_missing (specs : jdict Q) s :
    (jget "type_graph" specs = None \/ jget "num_nodes" specs = None \/
     exists t keys k, jget "type_graph" specs = Some (JStr t) /\ needed t = Some keys /\ In k keys /\ jget k specs = None) ->
    generate_graph_from_specs w specs s = (s, Err KeyError).
  Proof.
    unfold generate_graph_from_specs, bindM, liftM, jitem. intros H. destruct (jget "type_graph" specs) as [ty|] eqn:Et; [|reflexivity].
    destruct (jget "num_nodes" specs) as [n|] eqn:En; [|reflexivity]. destruct H as [[=]|[[=]|(t & keys & k & [= ->] & H1 & H2 & H3)]].
    destruct (String.eqb t "erdos_renyi") eqn:E1; [apply String.eqb_eq in E1; subst; injection H1 as <-; destruct H2 as [<-|[]]; rewrite H3; reflexivity|].
    destruct (String.eqb t "regular") eqn:E2; [apply String.eqb_eq in E2; subst; injection H1 as <-; destruct H2 as [<-|[]]; rewrite H3; reflexivity|].
    destruct (String.eqb t "complete") eqn:E3; [apply String.eqb_eq in E3; subst; injection H1 as <-; destruct H2|].
    destruct (String.eqb t "caveman") eqn:E4.
    { apply String.eqb_eq in E4; subst; injection H1 as <-; destruct H2 as [<-|[<-|[]]]; rewrite H3; [reflexivity|]. destruct (jget "number_of_cliques" specs); reflexivity. }
    destruct (String.eqb t "ladder") eqn:E5; [apply String.eqb_eq in E5; subst; injection H1 as <-; destruct H2 as [<-|[]]; rewrite H3; reflexivity|].
    destruct (String.eqb t "barbell") eqn:E6; [apply String.eqb_eq in E6; subst; injection H1 as <-; destruct H2 as [<-|[]]; rewrite H3; reflexivity|].
    exfalso. clear -H1 E1 E2 E3 E4 E5 E6. unfold needed in H1.
    repeat match goal with H : context [match ?x with _ => _ end] |- _ => is_var x; destruct x; try discriminate end.
  Qed.
  Theorem C62_specs_unknown (specs : jdict Q) ty n s : jget "type_graph" specs = Some ty -> jget "num_nodes" specs = Some n ->
    (forall t, ty = JStr t -> needed t = None) -> generate_graph_from_specs w specs s = (s, Err NotImplementedError).
  Proof.
    intros Ht Hn H. unfold generate_graph_from_specs, bindM, liftM, jitem. rewrite Ht, Hn. destruct ty as [| | |t| |]; try reflexivity. specialize (H t eq_refl).
    assert (G : forall k x, needed k = Some x -> String.eqb t k = false). { intros k x Hk. destruct (String.eqb t k) eqn:E; [apply String.eqb_eq in E; subst; congruence|reflexivity]. }
    erewrite !G by reflexivity. reflexivity.
  Qed.
  (** The nodes and edges are those networkx chose; the weights are 1, or lie between 0 and 1. *)
  Theorem C62_specs_result (specs : jdict Q) t n m s s' g' : jget "type_graph" specs = Some (JStr t) -> jget "num_nodes" specs = Some n -> asks w specs n (spec_seed specs) t m ->
    yields_graphs m -> (forall t, 0 <= snd (random_uniform w 0 1 t) <= 1)%Q -> generate_graph_from_specs w specs s = (s', Ok g') ->
    exists s1 g ws, m s = (s1, Ok g) /\ weighted g g' ws /\ (forall x, In x ws -> (0 <= x <= 1)%Q) /\ (~ spec_random specs -> forall x, In x ws -> x = 1%Q).
  Proof.
    intros Ht Hn A Y U G. destruct (C62_specs specs t n m s Ht Hn A) as (next & N1 & N2 & E). rewrite E in G. destruct (m s) as [s1 [g|e]] eqn:Em; [|discriminate].
    exists s1, g. destruct (C62_weights g next (spec_seed specs) s1 (Y _ _ _ Em)) as [(s0 & s2 & g2 & ws & _ & E1 & D & Hw & _)|[(s0 & s2 & s3 & ws & e & _ & E1 & _)|(s2 & e & _ & _ & E1)]]; try congruence.
    rewrite E1 in G. injection G as <- <-. exists ws. split; [reflexivity|]. split; [exact Hw|].
    assert (Hc : ~ spec_random specs -> forall x, In x ws -> x = 1%Q). { intros H. rewrite (N2 H) in D. apply (C62_constant 1%Q _ _ _ D). }
    split; [|exact Hc].
    destruct (jget "random_weights" specs) as [j|] eqn:Ej.
    - destruct (truthy (fun q => Qeq_bool q 0) j) eqn:Tj.
      + rewrite N1 in D by (exists j; auto). apply (C62_uniform 0 1 _ _ _ U D).
      + intros x Hx. assert (NR : ~ spec_random specs) by (intros (j' & Ej' & Tj'); congruence). rewrite (Hc NR x Hx). split; discriminate.
    - intros x Hx. assert (NR : ~ spec_random specs) by (intros (j' & Ej' & Tj'); congruence). rewrite (Hc NR x Hx). split; discriminate.
  Qed.
  (** With a seed the result does not depend on what was drawn before. *)
  Theorem C62_seed (specs : jdict Q) s s' : seeding_works w (spec_seed specs) -> snd (generate_graph_from_specs w specs s) = snd (generate_graph_from_specs w specs s').
  Proof.
    intros (H0 & H1 & H2 & H3 & H4 & H5 & H6).
    assert (HW : forall g next a b, snd (weight_graph_edges w g next (spec_seed specs) a) = snd (weight_graph_edges w g next (spec_seed specs) b)).
    { intros g next a b. unfold weight_graph_edges. destruct (multi g); [reflexivity|]. unfold bindM. destruct (spec_seed specs); [congruence| | | | |]; rewrite (H1 a b); reflexivity. }
    assert (HB : forall (m : M S graph) next a b, snd (m a) = snd (m b) ->
      snd (bindM m (fun g => weight_graph_edges w g next (spec_seed specs)) a) = snd (bindM m (fun g => weight_graph_edges w g next (spec_seed specs)) b)).
    { intros m next a b E. unfold bindM. destruct (m a) as [a1 r], (m b) as [b1 r2]. cbn in E. subst r2. destruct r; [apply HW|reflexivity]. }
    assert (HK : forall k (f : json Q -> M S graph), (forall x, snd (f x s) = snd (f x s')) -> snd (bindM (liftM (jitem k specs)) f s) = snd (bindM (liftM (jitem k specs)) f s')).
    { intros k f Hf. unfold bindM, liftM. destruct (jitem k specs); [apply Hf|reflexivity]. }
    unfold generate_graph_from_specs. apply HK. intros ty. apply HK. intros n. cbv zeta. fold (spec_seed specs).
    destruct ty as [| | |t| |]; try reflexivity.
    destruct (String.eqb t "erdos_renyi"); [apply HK; intros; apply HB, H2|]. destruct (String.eqb t "regular"); [apply HK; intros; apply HB, H3|].
    destruct (String.eqb t "complete"); [apply HB, H2|]. destruct (String.eqb t "caveman"); [apply HK; intros; apply HK; intros; apply HB, H4|].
    destruct (String.eqb t "ladder"); [apply HK; intros; apply HB, H5|]. destruct (String.eqb t "barbell"); [apply HK; intros; apply HB, H6|reflexivity].
  Qed.
End Generation.

(** A triangle with a tail and a loop, made in an order that is not that of the labels *)
Definition example_graph : graph :=
  fold_left (fun g e => add_edge g (fst e) (snd e) []) [(NInt 2, NInt 0); (NInt 0, NStr "a"); (NInt 1, NInt 2); (NStr "a", NInt 2); (NInt 1, NInt 1)]
    (add_node empty_graph (NInt 1) [("color", JStr "red")]).
Example C62_example_built : built example_graph /\ storable example_graph.
Proof.
  split; [repeat constructor|]. split.
  - intros n a H. cbn in H. repeat (destruct H as [[= <- <-]|H]; [cbn; intuition discriminate|]). destruct H.
  - intros u v a H. cbn in H. repeat (destruct H as [[= <- <- <-]|H]; [cbn; tauto|]). destruct H.
Qed.
Example C62_example_edges : nodes example_graph = [NInt 1; NInt 2; NInt 0; NStr "a"] /\
  edges example_graph = [(NInt 1, NInt 2); (NInt 1, NInt 1); (NInt 2, NInt 0); (NInt 2, NStr "a"); (NInt 0, NStr "a")].
Proof. split; reflexivity. Qed.
(** A world with a counter as random state *)
Definition example_world : world nat := {|
  random_seed := fun j s => (42, Ok tt);
  random_uniform := fun lo hi s => (s + 1, (lo + (hi - lo) * (1 # Pos.of_nat (s + 1)%nat))%Q);
  random_choice := fun n s => (s + 1, s mod n);
  random_normal := fun mu sigma s => (s + 1, mu);
  nx_erdos_renyi := fun n p seed s => (s + 1, Ok example_graph);
  nx_random_regular := fun d n seed s => (s, Err ValueError);
  nx_caveman := fun n k s => (s, Ok example_graph);
  nx_ladder := fun n s => (s, Ok example_graph);
  nx_barbell := fun n s => (s, Ok example_graph) |}.
Definition example_specs : jdict Q := [("type_graph", JStr "erdos_renyi"); ("num_nodes", JNum 4%Q); ("probability", JNum (1 # 2)); ("random_weights", JBool true); ("seed", JNum 3%Q)].
Example C62_example_world : seeding_works example_world (spec_seed example_specs) /\ (forall t, 0 <= snd (random_uniform example_world 0 1 t) <= 1)%Q /\
  yields_graphs (nx_erdos_renyi example_world (JNum 4%Q) (JNum (1 # 2)) (JNum 3%Q)) /\
  asks example_world example_specs (JNum 4%Q) (spec_seed example_specs) "erdos_renyi" (nx_erdos_renyi example_world (JNum 4%Q) (JNum (1 # 2)) (JNum 3%Q)).
Proof.
  split; [split; [discriminate|repeat split; reflexivity]|]. split.
  - intros t. cbn [snd example_world random_uniform]. generalize (Pos.of_nat (t + 1)). intros p. unfold Qle. cbn. split; lia.
  - split; [|apply a_erdos; reflexivity]. intros s s' g [= _ <-]. apply C62_example_built.
Qed.
Example C62_example_generated : exists s' g', generate_graph_from_specs example_world example_specs 7 = (s', Ok g') /\
  map (fun e => jget "weight" (snd e)) (edges_data g') = [Some (JNum (1 # 43)); Some (JNum (1 # 44)); Some (JNum (1 # 45)); Some (JNum (1 # 46)); Some (JNum (1 # 47))] /\
  edges g' = edges example_graph.
Proof.
  set (r := generate_graph_from_specs example_world example_specs 7). exists (fst r), (match snd r with Ok g => g | Err _ => empty_graph end).
  split; [vm_compute; reflexivity|]. split; vm_compute; reflexivity.
Qed.

Print Assumptions C62_save_load.
Print Assumptions C62_weights.
Print Assumptions C62_specs_result.
