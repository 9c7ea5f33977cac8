(** What graph.py is expected to do with networkx graphs. *)
From Coq Require Import List ZArith QArith String Bool.
From Verif Require Import Base Json CostModel GraphModel.
Import ListNotations.
Open Scope nat_scope.
Open Scope string_scope.
Open Scope list_scope.

(** Graphs as users make them *)
Inductive built : graph -> Prop :=
| b_empty a : built {| multi := false; gattrs := a; node_dict := []; adj := [] |}
| b_node g n a : built g -> built (add_node g n a)
| b_edge g u v a : built g -> built (add_edge g u v a).
(** The attributes of the edge between two nodes, if there is one *)
Definition edge_between (g : graph) (u v : node) : option attrs := dget node_eqb v (row g u).
(** One of the two is a beginning of the other *)
Definition one_extends {A} (l m : list A) : Prop := (exists t, m = l ++ t) \/ (exists t, l = m ++ t).
(** The same graph: nodes in the same order with the same attributes, edges in the same order, in the same direction with the same attributes *)
Definition same_graph (g g' : graph) : Prop :=
  gattrs g' = gattrs g /\ node_dict g' = node_dict g /\ edges_data g' = edges_data g /\ forall u v, edge_between g' u v = edge_between g u v.
(** Attributes that do not clash with the names used in files *)
Definition storable (g : graph) : Prop :=
  (forall n a, In (n, a) (node_dict g) -> ~ In "id" (map fst a)) /\
  (forall u v a, In (u, v, a) (edges_data g) -> ~ In "source" (map fst a) /\ ~ In "target" (map fst a)).
(** [g'] is [g] with the given weights, edge by edge, and nothing else changed *)
Definition weighted (g g' : graph) (ws : list Q) : Prop :=
  gattrs g' = gattrs g /\ node_dict g' = node_dict g /\ length ws = length (edges_data g) /\
  edges_data g' = map (fun ex => match ex with (u, v, a, x) => (u, v, dset String.eqb "weight" (JNum x) a) end) (combine (edges_data g) ws).
Section Spec.
  Context {S : Type}.
  (** [n] values taken from an iterator one after another *)
  Inductive drawn (next : M S Q) : S -> list Q -> S -> Prop :=
  | d_nil s : drawn next s [] s
  | d_cons s s1 x s2 xs : next s = (s1, Ok x) -> drawn next s1 xs s2 -> drawn next s (x :: xs) s2.
  (** Seeding makes the random module, and the generators that are given the seed, independent of what happened before. *)
  Definition seeding_works (w : world S) (seed : json Q) : Prop :=
    seed <> JNull /\
    (forall s t, random_seed w seed s = random_seed w seed t) /\
    (forall n p s t, snd (nx_erdos_renyi w n p seed s) = snd (nx_erdos_renyi w n p seed t)) /\
    (forall d n s t, snd (nx_random_regular w d n seed s) = snd (nx_random_regular w d n seed t)) /\
    (forall n k s t, snd (nx_caveman w n k s) = snd (nx_caveman w n k t)) /\
    (forall n s t, snd (nx_ladder w n s) = snd (nx_ladder w n t)) /\
    (forall n s t, snd (nx_barbell w n s) = snd (nx_barbell w n t)).
  (** What networkx is asked for, by the type of graph, and the keys that are needed *)
  Inductive asks (w : world S) (specs : jdict Q) (num_nodes seed : json Q) : string -> M S graph -> Prop :=
  | a_erdos p : jget "probability" specs = Some p -> asks w specs num_nodes seed "erdos_renyi" (nx_erdos_renyi w num_nodes p seed)
  | a_regular d : jget "degree" specs = Some d -> asks w specs num_nodes seed "regular" (nx_random_regular w d num_nodes seed)
  | a_complete : asks w specs num_nodes seed "complete" (nx_erdos_renyi w num_nodes (JNum 1%Q) seed)
  | a_caveman n k : jget "number_of_cliques" specs = Some n -> jget "size_of_cliques" specs = Some k -> asks w specs num_nodes seed "caveman" (nx_caveman w n k)
  | a_ladder n : jget "length_of_ladder" specs = Some n -> asks w specs num_nodes seed "ladder" (nx_ladder w n)
  | a_barbell n : jget "number_of_vertices_complete_graph" specs = Some n -> asks w specs num_nodes seed "barbell" (nx_barbell w n).
  Definition needed (type_graph : string) : option (list string) :=
    match type_graph with
    | "erdos_renyi" => Some ["probability"] | "regular" => Some ["degree"] | "complete" => Some []
    | "caveman" => Some ["number_of_cliques"; "size_of_cliques"] | "ladder" => Some ["length_of_ladder"]
    | "barbell" => Some ["number_of_vertices_complete_graph"] | _ => None
    end.
  Definition yields_graphs (m : M S graph) : Prop := forall s s' g, m s = (s', Ok g) -> built g.
End Spec.
