(** Model of graph.py. networkx's undirected graphs are modelled by their node and adjacency dictionaries; its generators, and Python's
    random module, are parameters. *)
From Coq Require Import List ZArith QArith String Bool.
From Verif Require Import Base Json CostModel.
Import ListNotations.
Open Scope nat_scope.
Open Scope string_scope.
Open Scope list_scope.

(** Node labels: integers and strings (other hashable labels are not modelled) *)
Inductive node := NInt (z : Z) | NStr (s : string).
Definition node_eqb (a b : node) : bool := match a, b with NInt x, NInt y => Z.eqb x y | NStr s, NStr t => String.eqb s t | _, _ => false end.
Definition attrs := list (string * json Q).
(** networkx.Graph: graph attributes, [_node], [_adj]; [multi] tells a MultiGraph, for which the rest is not modelled. The attribute
    dictionary of an edge is one object stored in two rows: here two copies, always written together. *)
Record graph := { multi : bool; gattrs : attrs; node_dict : list (node * attrs); adj : list (node * list (node * attrs)) }.
Definition empty_graph : graph := {| multi := false; gattrs := []; node_dict := []; adj := [] |}.
(** dict.update *)
Definition update (d new : attrs) : attrs := fold_left (fun d kv => dset String.eqb (fst kv) (snd kv) d) new d.
(** networkx Graph.add_node *)
Definition add_node (g : graph) (n : node) (a : attrs) : graph :=
  match dget node_eqb n (node_dict g) with
  | None => {| multi := multi g; gattrs := gattrs g; node_dict := node_dict g ++ [(n, update [] a)]; adj := adj g ++ [(n, [])] |}
  | Some b => {| multi := multi g; gattrs := gattrs g; node_dict := dset node_eqb n (update b a) (node_dict g); adj := adj g |}
  end.
Definition ensure_node (g : graph) (n : node) : graph := match dget node_eqb n (node_dict g) with None => add_node g n [] | Some _ => g end.
Definition row (g : graph) (n : node) : list (node * attrs) := match dget node_eqb n (adj g) with Some r => r | None => [] end.
Definition set_entry (u v : node) (a : attrs) (m : list (node * list (node * attrs))) : list (node * list (node * attrs)) :=
  dset node_eqb u (dset node_eqb v a (match dget node_eqb u m with Some r => r | None => [] end)) m.
(** networkx Graph.add_edge *)
Definition add_edge (g : graph) (u v : node) (a : attrs) : graph :=
  let g := ensure_node (ensure_node g u) v in
  let data := update (match dget node_eqb v (row g u) with Some d => d | None => [] end) a in
  {| multi := multi g; gattrs := gattrs g; node_dict := node_dict g; adj := set_entry v u data (set_entry u v data (adj g)) |}.
(** iteration over [graph.nodes] *)
Definition nodes (g : graph) : list node := map fst (node_dict g).
(** iteration over [graph.edges] with data: rows in order, skipping neighbours whose row has been seen *)
Fixpoint edges_from (seen : list node) (m : list (node * list (node * attrs))) : list (node * node * attrs) :=
  match m with
  | [] => []
  | (n, r) :: m' => map (fun va => (n, fst va, snd va)) (filter (fun va => negb (memb node_eqb (fst va) seen)) r) ++ edges_from (n :: seen) m'
  end.
Definition edges_data (g : graph) : list (node * node * attrs) := edges_from [] (adj g).
Definition edges (g : graph) : list (node * node) := map fst (edges_data g).

(** graph.py:47-58 [compare_graphs] *)
Fixpoint zip_same {A} (eqb : A -> A -> bool) (l m : list A) : bool :=
  match l, m with a :: l', b :: m' => if eqb a b then zip_same eqb l' m' else false | _, _ => true end.
Definition edge_eqb (a b : node * node) : bool := node_eqb (fst a) (fst b) && node_eqb (snd a) (snd b).
Definition compare_graphs (g1 g2 : graph) : bool :=
  if zip_same node_eqb (nodes g1) (nodes g2) then zip_same edge_eqb (edges g1) (edges g2) else false.

(** 61-69 *)
Definition generate_graph_node_dict (g : graph) : list (node * nat) := dict_of node_eqb (combine (nodes g) (seq 0 (length (nodes g)))).

(** ** Saving and loading *)
Definition node_json (n : node) : json Q := match n with NInt z => JNum (inject_Z z) | NStr s => JStr s end.
(** networkx's node_link_data: attributes first, then "id", or "source" and "target", which overwrite attributes of that name *)
Definition node_link_data (g : graph) : jdict Q :=
  [("directed", JBool false); ("multigraph", JBool (multi g)); ("graph", JObj (gattrs g));
   ("nodes", JArr (map (fun na => JObj (dict_of String.eqb (snd na ++ [("id", node_json (fst na))]))) (node_dict g)));
   ("links", JArr (map (fun e => JObj (dict_of String.eqb (snd e ++ [("source", node_json (fst (fst e))); ("target", node_json (snd (fst e)))]))) (edges_data g)))].
(** 19-31 [save_graph] *)
Definition save_graph (g : graph) : jdict Q := dset String.eqb "schema" (JStr "zapata-v1-graph") (node_link_data g).

Definition node_of_json (j : json Q) : result node :=
  match j with
  | JNum q => if Pos.eqb (Qden q) 1 then Ok (NInt (Qnum q)) else Err NotImplementedError
  | JStr s => Ok (NStr s)
  | JObj _ => Err TypeError
  | _ => Err NotImplementedError
  end.
Definition others (names : list string) (d : attrs) : attrs := filter (fun kv => negb (memb String.eqb (fst kv) names)) d.
Definition objects (j : json Q) : result (list (jdict Q)) :=
  match j with JArr l => mapM (fun x => match x with JObj d => Ok d | _ => Err AttributeError end) l | _ => Err TypeError end.
(** networkx's node_link_graph. Multigraphs, directed graphs, and labels that are not integers or strings: not modelled (NotImplementedError). *)
Fixpoint load_nodes (c : nat) (ds : list (jdict Q)) (g : graph) : result graph :=
  match ds with
  | [] => Ok g
  | d :: ds' =>
      let! n := match jget "id" d with Some j => node_of_json j | None => Ok (NInt (Z.of_nat c)) end in
      load_nodes (S c) ds' (add_node g n (others ["id"] d))
  end.
Fixpoint load_links (ds : list (jdict Q)) (g : graph) : result graph :=
  match ds with
  | [] => Ok g
  | d :: ds' =>
      let! j := jitem "source" d in
      let! j' := jitem "target" d in
      let! u := node_of_json j in
      let! v := node_of_json j' in
      load_links ds' (add_edge g u v (others ["source"; "target"] d))
  end.
Definition node_link_graph (data : jdict Q) : result graph :=
  match jget "multigraph" data, jget "directed" data with
  | Some (JBool false), Some (JBool false) =>
      let ga := match jget "graph" data with Some (JObj a) => a | _ => [] end in
      let! ns := jitem "nodes" data in
      let! ds := objects ns in
      let! g := load_nodes 0 ds {| multi := false; gattrs := ga; node_dict := []; adj := [] |} in
      let! ls := jitem "links" data in
      let! es := objects ls in
      load_links es g
  | _, _ => Err NotImplementedError
  end.
(** 34-44 [load_graph] *)
Definition load_graph (data : jdict Q) : result graph := node_link_graph data.

(** ** Generation *)
(** The state of the program: that of the random module, and of iterators passed by the caller. *)
Section Gen.
  Context {S : Type}.
  (** an iterator: what next() does *)
  Definition sampler := M S Q.
  (** the random module and networkx's generators; arguments are passed on as they are *)
  Record world := {
    random_seed : json Q -> M S unit;
    random_uniform : Q -> Q -> S -> S * Q;
    random_choice : nat -> S -> S * nat;
    random_normal : Q -> Q -> S -> S * Q;
    nx_erdos_renyi : json Q -> json Q -> json Q -> M S graph;
    nx_random_regular : json Q -> json Q -> json Q -> M S graph;
    nx_caveman : json Q -> json Q -> M S graph;
    nx_ladder : json Q -> M S graph;
    nx_barbell : json Q -> M S graph }.
  Context (w : world).
  Definition always {A} (f : S -> S * A) : M S A := fun s => let (s', a) := f s in (s', Ok a).
  (** 78-80 *)
  Definition uniform_sampler (min_value max_value : Q) : sampler := always (random_uniform w min_value max_value).
  (** 83-84 *)
  Definition constant_sampler (value : Q) : sampler := retM value.
  (** 87-89: random.choice raises IndexError for an empty sequence; otherwise it picks a position *)
  Definition choice_sampler (choices : list Q) : sampler :=
    match choices with
    | [] => liftM (Err IndexError)
    | _ => do! i := always (random_choice w (length choices)) in liftM match nth_error choices i with Some x => Ok x | None => Err IndexError end
    end.
  (** 92-94 *)
  Definition normal_sampler (mu sigma : Q) : sampler := always (random_normal w mu sigma).

  (** the list comprehension of 192 *)
  Fixpoint draw_all {A} (next : sampler) (l : list A) : M S (list (A * Q)) :=
    match l with
    | [] => retM []
    | a :: l' => do! x := next in do! xs := draw_all next l' in retM ((a, x) :: xs)
    end.
  (** 175-195 [_weight_graph_edges] *)
  Definition weight_graph_edges (g : graph) (next : sampler) (seed : json Q) : M S graph :=
    if multi g then liftM (Err ValueError)
    else
      do! _ := match seed with JNull => retM tt | _ => random_seed w seed end in
      do! weighted := draw_all next (edges g) in
      retM (fold_left (fun g ex => add_edge g (fst (fst ex)) (snd (fst ex)) [("weight", JNum (snd ex))]) weighted g).

  (** 97-118 *)
  Definition generate_random_graph_erdos_renyi (num_nodes edge_probability : json Q) (next : sampler) (seed : json Q) : M S graph :=
    do! g := nx_erdos_renyi w num_nodes edge_probability seed in weight_graph_edges g next seed.
  (** 121-140 *)
  Definition generate_random_regular_graph (num_nodes degree : json Q) (next : sampler) (seed : json Q) : M S graph :=
    do! g := nx_random_regular w degree num_nodes seed in weight_graph_edges g next seed.
  (** 143-151 *)
  Definition generate_caveman_graph (number_of_cliques size_of_cliques : json Q) (next : sampler) (seed : json Q) : M S graph :=
    do! g := nx_caveman w number_of_cliques size_of_cliques in weight_graph_edges g next seed.
  (** 154-161 *)
  Definition generate_ladder_graph (length_of_ladder : json Q) (next : sampler) (seed : json Q) : M S graph :=
    do! g := nx_ladder w length_of_ladder in weight_graph_edges g next seed.
  (** 164-172 *)
  Definition generate_barbell_graph (n : json Q) (next : sampler) (seed : json Q) : M S graph :=
    do! g := nx_barbell w n in weight_graph_edges g next seed.

  (** 198-286 [generate_graph_from_specs] *)
  Definition generate_graph_from_specs (specs : jdict Q) : M S graph :=
    do! type_graph := liftM (jitem "type_graph" specs) in
    do! num_nodes := liftM (jitem "num_nodes" specs) in
    let random_weights := match jget "random_weights" specs with Some j => truthy (fun q => Qeq_bool q 0) j | None => false end in
    let next := if random_weights then uniform_sampler 0 1 else constant_sampler 1 in
    let seed := match jget "seed" specs with Some j => j | None => JNull end in
    match type_graph with
    | JStr t =>
        if String.eqb t "erdos_renyi" then
          do! p := liftM (jitem "probability" specs) in generate_random_graph_erdos_renyi num_nodes p next seed
        else if String.eqb t "regular" then
          do! d := liftM (jitem "degree" specs) in generate_random_regular_graph num_nodes d next seed
        else if String.eqb t "complete" then generate_random_graph_erdos_renyi num_nodes (JNum 1%Q) next seed
        else if String.eqb t "caveman" then
          do! n := liftM (jitem "number_of_cliques" specs) in
          do! k := liftM (jitem "size_of_cliques" specs) in generate_caveman_graph n k next seed
        else if String.eqb t "ladder" then
          do! n := liftM (jitem "length_of_ladder" specs) in generate_ladder_graph n next seed
        else if String.eqb t "barbell" then
          do! n := liftM (jitem "number_of_vertices_complete_graph" specs) in generate_barbell_graph n next seed
        else liftM (Err NotImplementedError)
    | _ => liftM (Err NotImplementedError)
    end.
End Gen.
Arguments world : clear implicits.
