(** Model of steps/graph.py, on files. *)
From Coq Require Import String QArith.
From Verif Require Import Base Json MatModel CostModel CreateModel GraphModel.
From Verif Require ArtModel.
Open Scope list_scope.

Section Steps.
  (** [V]: Python values, [W]: the state of the random module, of iterators and of modules; [next] is what next() does with a value, [loads] is json.loads, of which only
      objects are modelled. *)
  Context {V W Mod : Type} (import_module : V -> M W Mod) (getattr : Mod -> V -> result (creator V W)) (call_value : V -> list V -> list (string * V) -> M W V)
          (of_json : json Q -> V) (loads : string -> result (jdict Q)) (next : V -> M W Q) (w : GraphModel.world W).
  (** The state: files, and dictionaries of the caller with [W] *)
  Definition state := (ArtModel.files Q * store V W)%type.
  Definition on_store {A} (m : M (store V W) A) : M state A := fun s => let (st, r) := m (snd s) in ((fst s, st), r).
  Definition on_files {A} (m : M (ArtModel.files Q) A) : M state A := fun s => let (fs, r) := m (fst s) in ((fs, snd s), r).
  Inductive sampler_specs := NoSpecs | TextSpecs (text : string) | DictSpecs (d : nat) | OtherSpecs.
  (** create_object(specs)() *)
  Definition sampler_from (d : nat) : M (store V W) (M W Q) :=
    do! c := create_object import_module getattr d [] in do! v := on_world (call_created call_value c [] []) in retM (next v).
  (** 13-26 [_make_sampler] *)
  Definition make_sampler (specs : sampler_specs) : M (store V W) (M W Q) :=
    match specs with
    | NoSpecs => retM (constant_sampler 1)
    | TextSpecs text => match loads text with Ok d => do! r := alloc (map (fun kv => (fst kv, of_json (snd kv))) d) in sampler_from r | Err e => liftM (Err e) end
    | DictSpecs r => sampler_from r
    | OtherSpecs => liftM (Err ValueError)
    end.
  Definition save (g : graph) : M state unit := on_files (ArtModel.save_graph g (ArtModel.Str "graph.json")).
  (** 29-42 *)
  Definition erdos_renyi_step (number_of_nodes edge_probability : json Q) (specs : sampler_specs) (seed : json Q) : M state unit :=
    do! next := on_store (make_sampler specs) in
    do! g := on_store (on_world (generate_random_graph_erdos_renyi w number_of_nodes edge_probability next seed)) in save g.
  (** 45-57 *)
  Definition regular_step (number_of_nodes degree : json Q) (specs : sampler_specs) (seed : json Q) : M state unit :=
    do! next := on_store (make_sampler specs) in
    do! g := on_store (on_world (generate_random_regular_graph w number_of_nodes degree next seed)) in save g.
  (** 60-71 *)
  Definition complete_step (number_of_nodes : json Q) (specs : sampler_specs) (seed : json Q) : M state unit :=
    do! next := on_store (make_sampler specs) in
    do! g := on_store (on_world (generate_random_graph_erdos_renyi w number_of_nodes (JNum 1%Q) next seed)) in save g.
  (** 74-86 *)
  Definition caveman_step (number_of_cliques size_of_cliques : json Q) (specs : sampler_specs) (seed : json Q) : M state unit :=
    do! next := on_store (make_sampler specs) in
    do! g := on_store (on_world (generate_caveman_graph w number_of_cliques size_of_cliques next seed)) in save g.
  (** 89-99 *)
  Definition ladder_step (length_of_ladder : json Q) (specs : sampler_specs) (seed : json Q) : M state unit :=
    do! next := on_store (make_sampler specs) in
    do! g := on_store (on_world (generate_ladder_graph w length_of_ladder next seed)) in save g.
  (** 102-112 *)
  Definition barbell_step (number_of_vertices_complete_graph : json Q) (specs : sampler_specs) (seed : json Q) : M state unit :=
    do! next := on_store (make_sampler specs) in
    do! g := on_store (on_world (generate_barbell_graph w number_of_vertices_complete_graph next seed)) in save g.
  (** 115-118 *)
  Definition from_specs_step (graph_specs : string) : M state unit :=
    do! d := liftM (loads graph_specs) in
    do! g := on_store (on_world (generate_graph_from_specs w d)) in save g.
End Steps.
