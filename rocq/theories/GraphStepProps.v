(** C99: the graph steps. *)
From Coq Require Import String QArith List Lia.
From Verif Require Import Base BaseFacts Json MatModel CostModel GraphModel GraphSpec GraphProps CreateModel CreateProps ArtSpec ArtProofs ArtProps2 GraphStepModel.
From Verif Require ArtModel.
Import ListNotations.
Open Scope list_scope.
Local Open Scope nat_scope.

Section Props.
  Context {V W Mod : Type} (import_module : V -> M W Mod) (getattr : Mod -> V -> result (creator V W)) (call_value : V -> list V -> list (string * V) -> M W V)
          (of_json : json Q -> V) (loads : string -> result (jdict Q)) (next : V -> M W Q) (w : GraphModel.world W).
  Notation without d := (ddel String.eqb "function_name"%string (ddel String.eqb "module_name"%string d)).
  Notation make := (make_sampler import_module getattr call_value of_json loads next).
  (** The graphs that can be asked for, and what networkx is asked *)
  Inductive request := ErdosRenyi (nodes probability : json Q) | Regular (nodes degree : json Q) | Complete (nodes : json Q) | Caveman (cliques size : json Q) | Ladder (n : json Q) | Barbell (n : json Q).
  Definition asked (r : request) (seed : json Q) : M W graph :=
    match r with
    | ErdosRenyi n p => nx_erdos_renyi w n p seed
    | Regular n d => nx_random_regular w d n seed
    | Complete n => nx_erdos_renyi w n (JNum 1%Q) seed
    | Caveman c k => nx_caveman w c k
    | Ladder n => nx_ladder w n
    | Barbell n => nx_barbell w n
    end.
  Definition step (r : request) : sampler_specs -> json Q -> M (state (V := V)) unit :=
    match r with
    | ErdosRenyi n p => erdos_renyi_step import_module getattr call_value of_json loads next w n p
    | Regular n d => regular_step import_module getattr call_value of_json loads next w n d
    | Complete n => complete_step import_module getattr call_value of_json loads next w n
    | Caveman c k => caveman_step import_module getattr call_value of_json loads next w c k
    | Ladder n => ladder_step import_module getattr call_value of_json loads next w n
    | Barbell n => barbell_step import_module getattr call_value of_json loads next w n
    end.
  (** the file holds the graph, and nothing else changed *)
  Definition wrote (g : graph) (fs fs' : ArtModel.files Q) : Prop :=
    only "graph.json" fs fs' /\ exists g', ArtModel.load_graph (ArtModel.At (ArtModel.Str "graph.json")) fs' = (fs', Ok g') /\ same_graph g g'.

  Lemma step_run r specs seed s : step r specs seed s =
    match make specs (snd s) with
    | (st, Err e) => ((fst s, st), Err e)
    | (st, Ok nx) => match asked r seed (world st) with
                     | (w1, Err e) => ((fst s, {| dicts := dicts st; world := w1 |}), Err e)
                     | (w1, Ok g) => match weight_graph_edges w g nx seed w1 with
                                     | (w2, Err e) => ((fst s, {| dicts := dicts st; world := w2 |}), Err e)
                                     | (w2, Ok g') => save g' (fst s, {| dicts := dicts st; world := w2 |})
                                     end
                     end
    end.
  Proof.
    destruct r; cbn [step asked]; unfold erdos_renyi_step, regular_step, complete_step, caveman_step, ladder_step, barbell_step, bindM, on_store, on_world; cbn [fst snd];
      destruct (make specs (snd s)) as [st [nx|e]]; try reflexivity; cbn [fst snd world dicts];
      unfold generate_random_graph_erdos_renyi, generate_random_regular_graph, generate_caveman_graph, generate_ladder_graph, generate_barbell_graph, bindM;
      match goal with |- context [match ?m (world st) with _ => _ end] => destruct (m (world st)) as [w1 [g|e]]; try reflexivity end;
      destruct (weight_graph_edges w g nx seed w1) as [w2 [g'|e]]; reflexivity.
  Qed.
  Lemma weighted_storable g g' ws : storable g -> weighted g g' ws -> storable g'.
  Proof.
    intros [S1 S2] (E1 & E2 & L & E3). split.
    - intros n a H. rewrite E2 in H. eauto.
    - intros u v a H. rewrite E3 in H. apply in_map_iff in H as ([[[u' v'] a'] x] & [= <- <- <-] & H). apply in_combine_l in H. destruct (S2 _ _ _ H) as [A B].
      assert (I : forall k, In k (map fst (dset String.eqb "weight"%string (JNum x) a')) -> k = "weight"%string \/ In k (map fst a')).
      { intros k Hk. apply in_map_iff in Hk as ([k' y] & <- & Hk). apply ArtProps.in_dset in Hk as [[-> _]|Hk]; [auto|]. right. apply in_map_iff. exists (k', y). auto. }
      split; intros Hk; apply I in Hk as [Hk|Hk]; try discriminate; contradiction.
  Qed.
  Lemma save_wrote g fs (st : store V W) : built g -> storable g -> exists fs', save g (fs, st) = ((fs', st), Ok tt) /\ wrote g fs fs'.
  Proof.
    intros B S. destruct (C99_graph g B S (ArtModel.Str "graph.json") fs) as (fs' & E & O & h & [G _] & L). exists fs'. unfold save, on_files. cbn [fst snd]. rewrite E. split; [reflexivity|].
    split; [exact O|]. exists h. split; [apply L; constructor|exact G].
  Qed.

  (** The step asks networkx for the graph, draws a weight per edge from the sampler, and writes the result; or it raises what the sampler or networkx raised, and no file changes. *)
  Theorem C99_graph_step r specs seed fs (st : store V W) : yields_graphs (asked r seed) -> (forall s s' g, asked r seed s = (s', Ok g) -> storable g) ->
    (exists fs' st' st1 nx w1 g w0 ws g', step r specs seed (fs, st) = ((fs', st'), Ok tt) /\
       make specs st = (st1, Ok nx) /\ asked r seed (world st1) = (w1, Ok g) /\ seeded w seed w1 w0 /\ drawn nx w0 ws (world st') /\ weighted g g' ws /\ wrote g' fs fs' /\ dicts st' = dicts st1) \/
    (exists st' e, step r specs seed (fs, st) = ((fs, st'), Err e)).
  Proof.
    intros Y Sb. rewrite step_run. cbn [fst snd]. destruct (make specs st) as [st1 [nx|e]] eqn:E1; [|right; eexists; eexists; reflexivity].
    destruct (asked r seed (world st1)) as [w1 [g|e]] eqn:E2; [|right; eexists; eexists; reflexivity].
    destruct (C62_weights w g nx seed w1 (Y _ _ _ E2)) as [(s0 & s' & g' & ws & A1 & A2 & A3 & A4 & A5)|[(s0 & s1 & s' & ws & e & A1 & A2 & _)|(s' & e & _ & _ & A2)]];
      rewrite A2; [|right; eexists; eexists; reflexivity..].
    left. destruct (save_wrote g' fs {| dicts := dicts st1; world := s' |} A5 (weighted_storable g g' ws (Sb _ _ _ E2) A4)) as (fs' & E3 & Wr).
    exists fs', {| dicts := dicts st1; world := s' |}, st1, nx, w1, g, s0, ws, g'. repeat (split; [first [assumption|reflexivity]|]). reflexivity.
  Qed.
  (** Without specifications every edge weighs 1, and the only error there can be is one of networkx or of seeding. *)
  Theorem C99_graph_default r fs (st : store V W) w1 g w0 seed : yields_graphs (asked r seed) -> storable g -> asked r seed (world st) = (w1, Ok g) -> seeded w seed w1 w0 ->
    exists fs' g', step r NoSpecs seed (fs, st) = ((fs', {| dicts := dicts st; world := w0 |}), Ok tt) /\ wrote g' fs fs' /\ weighted g g' (repeat 1%Q (length (edges_data g))).
  Proof.
    intros Y S E Sd. rewrite step_run. cbn [fst snd]. unfold make_sampler, retM. cbv beta iota. rewrite E.
    destruct (C62_weights w g (constant_sampler 1) seed w1 (Y _ _ _ E)) as [(s0 & s' & g' & ws & A1 & A2 & A3 & A4 & A5)|[(s0 & s1 & s' & ws & e & A1 & A2 & A3 & A4 & _)|(s' & e & N & A3 & A2)]].
    - rewrite A2. destruct (C62_constant 1 s0 ws s' A3) as [-> C]. assert (s0 = w0) as ->.
      { unfold seeded in *. destruct seed; try congruence; destruct (random_seed w _ w1) as [? []]; congruence || (destruct A1, Sd; congruence) || idtac. all: try (destruct A1 as [? ?], Sd as [? ?]; congruence). }
      assert (ws = repeat 1%Q (length (edges_data g))) as ->.
      { destruct A4 as (_ & _ & L & _). rewrite <- L. clear -C. induction ws as [|x ws IH]; [reflexivity|]. cbn. rewrite (C x) by (left; reflexivity). f_equal. apply IH. intros y Hy. apply C. right. exact Hy. }
      destruct (save_wrote g' fs {| dicts := dicts st; world := w0 |} A5 (weighted_storable g g' _ S A4)) as (fs' & E3 & Wr). exists fs', g'. split; [exact E3|]. split; [exact Wr|exact A4].
    - exfalso. discriminate A4.
    - exfalso. unfold seeded in Sd. destruct seed; try congruence; rewrite A3 in Sd; try destruct Sd; congruence.
  Qed.
  (** Something else than text or a dictionary is refused before anything happens. *)
  Theorem C99_graph_bad_specs r seed s : step r OtherSpecs seed s = (s, Err ValueError).
  Proof. rewrite step_run. cbn. destruct s. reflexivity. Qed.
  (** A function named by a dictionary, or by the JSON text of one, is called with the given parameters to make the sampler; the caller's dictionaries stay as they are. *)
  Theorem C99_graph_sampler (d : list (string * V)) m mo f w' sg body st text jd r : loads text = Ok jd -> d = map (fun kv => (fst kv, of_json (snd kv))) jd -> nth_error (dicts st) r = Some d ->
    dget String.eqb "module_name"%string d = Some m -> dget String.eqb "function_name"%string d = Some f -> import_module m (world st) = (w', Ok mo) -> getattr mo f = Ok (Function sg body) ->
    (forall k, In k (dkeys (without d)) -> In k (map fst (parameters sg))) ->
    exists st1 st2, kept st st1 /\ kept st st2 /\
      make (DictSpecs r) st = (st1, rmap next (snd (call_function sg body [] (without d) w'))) /\ make (TextSpecs text) st = (st2, rmap next (snd (call_function sg body [] (without d) w'))) /\
      world st1 = fst (call_function sg body [] (without d) w') /\ world st2 = world st1.
  Proof.
    intros El Ed Hd Hm Hf Hi Hg A.
    assert (G : forall s r', nth_error (dicts s) r' = Some d -> world s = world st -> exists s', sampler_from import_module getattr call_value next r' s = (s', rmap next (snd (call_function sg body [] (without d) w'))) /\
      kept s s' /\ world s' = fst (call_function sg body [] (without d) w')).
    { intros s r' Hr Hw. rewrite <- Hw in Hi. destruct (C90_function import_module getattr s r' [] d m mo f w' sg body Hr Hm Hf Hi Hg) as (s' & c & E & W1 & K1 & C).
      - constructor.
      - intros k _ [].
      - rewrite app_nil_r. exact A.
      - unfold sampler_from, bindM. rewrite E. unfold on_world. rewrite W1. rewrite (C call_value [] [] w') by constructor. cbn [merge fold_left]. rewrite app_nil_r.
        destruct (call_function sg body [] (without d) w') as [w2 [v|e]]; eexists; (split; [reflexivity|]); (split; [|reflexivity]); intros r0 d0 H0; exact (K1 r0 d0 H0). }
    destruct (G st r Hd eq_refl) as (s1 & E1 & K1 & W1).
    destruct (G {| dicts := dicts st ++ [d]; world := world st |} (length (dicts st))) as (s2 & E2 & K2 & W2); [cbn [dicts]; rewrite nth_error_app2, Nat.sub_diag by lia; reflexivity|reflexivity|].
    exists s1, s2. split; [exact K1|]. split; [|split; [exact E1|split; [|split; [exact W1|congruence]]]].
    - intros r0 d0 H0. apply K2. cbn [dicts]. rewrite nth_error_app1; [exact H0|]. apply nth_error_Some. congruence.
    - unfold make_sampler. rewrite El. unfold bindM, alloc. rewrite <- Ed. cbv beta iota. exact E2.
  Qed.
  (** The step that takes a specification of the whole graph. *)
  Theorem C99_graph_specs text (d : jdict Q) fs (st : store V W) : loads text = Ok d -> (forall s s' g, generate_graph_from_specs w d s = (s', Ok g) -> built g /\ storable g) ->
    (exists fs' w' g, from_specs_step loads w text (fs, st) = ((fs', {| dicts := dicts st; world := w' |}), Ok tt) /\ generate_graph_from_specs w d (world st) = (w', Ok g) /\ wrote g fs fs') \/
    (exists w' e, from_specs_step loads w text (fs, st) = ((fs, {| dicts := dicts st; world := w' |}), Err e) /\ generate_graph_from_specs w d (world st) = (w', Err e)).
  Proof.
    intros El H. unfold from_specs_step, bindM, liftM. rewrite El. unfold on_store, on_world. cbn [fst snd]. destruct (generate_graph_from_specs w d (world st)) as [w' [g|e]] eqn:E.
    - left. destruct (H _ _ _ E) as [B S]. destruct (save_wrote g fs {| dicts := dicts st; world := w' |} B S) as (fs' & E3 & Wr). exists fs', w', g. auto.
    - right. exists w', e. auto.
  Qed.
End Props.

(** ** Example: values are numbers, 5 names the module and the function; the state of the world is a counter of drawn numbers *)
Definition ex_triangle : graph := add_edge (add_edge (add_edge empty_graph (NInt 0) (NInt 1) []) (NInt 1) (NInt 2) []) (NInt 0) (NInt 2) [].
Definition ex_world : GraphModel.world nat :=
  {| random_seed := fun _ _ => (0, Ok tt); random_uniform := fun lo hi n => (S n, lo); random_choice := fun _ n => (S n, 0); random_normal := fun m _ n => (S n, m);
     nx_erdos_renyi := fun _ _ _ n => (n, Ok ex_triangle); nx_random_regular := fun _ _ _ n => (n, Ok ex_triangle); nx_caveman := fun _ _ n => (n, Ok ex_triangle);
     nx_ladder := fun _ n => (n, Ok ex_triangle); nx_barbell := fun _ n => (n, Ok ex_triangle) |}.
Definition ex_import (v n : nat) : nat * result nat := (n, Ok v).
Definition ex_getattr (m : nat) (f : nat) : result (creator nat nat) := Ok (Function {| parameters := [("start"%string, false)]; var_keyword := None |} (fun args _ n => (n, Ok match args with [Some v] => v | _ => 0 end))).
Definition ex_next (v n : nat) : nat * result Q := (S n, Ok (inject_Z (Z.of_nat (v + n)))).
Definition ex_store : store nat nat := {| dicts := [[("module_name"%string, 5); ("function_name"%string, 5); ("start"%string, 10)]]; CreateModel.world := 7 |}.
Definition ex_step (r : request) specs seed := step ex_import ex_getattr (fun v _ _ n => (n, Ok v)) (fun _ => 0) (fun _ => Ok []) ex_next ex_world r specs seed ([], ex_store).
Example C99_step_example : yields_graphs (asked ex_world (Complete (JNum 3%Q)) JNull) /\ storable ex_triangle /\
  (let (s, r) := ex_step (Complete (JNum 3%Q)) (DictSpecs 0) (JNum 4%Q) in
   r = Ok tt /\ dicts (snd s) = dicts ex_store ++ [[("start"%string, 10)]] /\
   match ArtModel.load_graph (ArtModel.At (ArtModel.Str "graph.json")) (fst s) with
   | (_, Ok g) => edges_data g = [(NInt 0, NInt 1, [("weight"%string, JNum 10%Q)]); (NInt 0, NInt 2, [("weight"%string, JNum 11%Q)]); (NInt 1, NInt 2, [("weight"%string, JNum 12%Q)])]
   | _ => False end).
Proof.
  split; [|split; [|vm_compute; repeat split]].
  - intros s s' g [= _ <-]. unfold ex_triangle, empty_graph. repeat constructor.
  - split; [intros n a H; vm_compute in H; repeat (destruct H as [[= <- <-]|H]; [intros []|]); contradiction|].
    intros u v a H. vm_compute in H. repeat (destruct H as [[= <- <- <-]|H]; [split; intros []|]). contradiction.
Qed.
Print Assumptions C99_graph_step.
Print Assumptions C99_graph_default.
Print Assumptions C99_graph_sampler.
Print Assumptions C99_graph_specs.
