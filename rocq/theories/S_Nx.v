(** * Using a networkx graph

    Specification of what pelote does with networkx graphs: a sequence of calls to their methods on the
    one hand, what can be read from them on the other.  [seen_alike] compares what is read from
    the dictionaries of networkx ([NxDicts]) and from the model ([NxGraph]). *)
From Verif Require Import NxGraph NxDicts.

Inductive call : Type :=
| AddNode (n : key) (a : attrs)              (* G.add_node(n, **a) *)
| AddEdge (u v : key) (a : attrs)            (* G.add_edge(u, v, **a) *)
| AddEdgeKey (u v k : key) (a : attrs)       (* G.add_edge(u, v, key=k, **a) *)
| RemoveNodes (l : list key)                 (* G.remove_nodes_from(l) *)
| RemoveEdges (l : list (key * key))         (* G.remove_edges_from(l) *)
| SetEdge (u v k : key) (name : key) (x : val)  (* G[u][v][k][name] = x, or G[u][v][name] = x *)
| SetGraph (a : attrs)                       (* G.graph.update(a) *)
| EmptyCopy.                                 (* G = nx.create_empty_copy(G) *)

(** the call on the dictionaries; in a simple graph, "key" is an attribute like the others and the
    attributes of the edge are those of the key 0 *)
Definition call_dicts (d : dgraph) (c : call) : res dgraph :=
  match c with
  | AddNode n a => Ok (d_add_node d n a)
  | AddEdge u v a => if d_multi d then d_add_edge_multi d u v None a else d_add_edge_simple d u v a
  | AddEdgeKey u v k a =>
      if d_multi d then d_add_edge_multi d u v (Some k) a
      else d_add_edge_simple d u v (dset (K "key") (VKey k) a)
  | RemoveNodes l => d_remove_nodes_from d l
  | RemoveEdges l => d_remove_edges_from d l
  | SetEdge u v k name x => d_map_edge d u v (if d_multi d then k else KInt 0) (dset name x)
  | SetGraph a => Ok (mkD (d_dir d) (d_multi d) (dupdate (d_graph d) a) (d_node d) (d_succ d) (d_pred d) (d_heap d))
  | EmptyCopy => Ok (d_create_empty_copy d)
  end.

(** the call on the model *)
Definition call_model (g : graph) (c : call) : res graph :=
  match c with
  | AddNode n a => Ok (add_node g n a)
  | AddEdge u v a => Ok (add_edge g u v a)
  | AddEdgeKey u v k a =>
      if g_multi g then Ok (add_edge_at g u v k a)
      else Ok (add_edge g u v (dset (K "key") (VKey k) a))
  | RemoveNodes l => Ok (remove_nodes_from g l)
  | RemoveEdges l => Ok (remove_edges_from g l)
  | SetEdge u v k name x =>
      let k := if g_multi g then k else KInt 0 in
      match edge_attrs g u v k with
      | Some _ => Ok (map_edge g u v k (dset name x))
      | None => Err KeyError
      end
  | SetGraph a => Ok (mkG (g_dir g) (g_multi g) (dupdate (g_attr g) a) (g_nodes g) (g_adj g))
  | EmptyCopy => Ok (create_empty_copy g)
  end.

(** the same from every reading method *)
Record seen_alike (d : dgraph) (g : graph) : Prop := {
  sa_directed : d_dir d = g_dir g;
  sa_multigraph : d_multi d = g_multi g;
  sa_graph : d_graph d = g_attr g;
  sa_nodes : d_nodes d = nodes g;
  sa_nodes_data : d_node d = g_nodes g;
  sa_node_data : forall n, d_node_data d n = node_data g n;
  sa_edge_data : forall u v, d_edge_data d u v = edge_data g u v;
  sa_has_edge : forall u v, d_has_edge d u v = has_edge g u v;
  sa_neighbors : forall n, d_neighbors d n = neighbors g n;
  sa_predecessors : g_dir g = true -> forall n, d_predecessors d n = predecessors g n;
  sa_edges : d_edges_keys d = edges_keys g;
  sa_edges_of : forall n, d_edges_of d n = edges_of g n;
  sa_degree : forall n, d_degree d n = degree g n;
  sa_size : d_size d = size g
}.

(** the reference under which [G._adj[u][v]], or [G._pred[v][u]], is reached *)
Definition reference (d : dict (dict nat)) (u v : key) : option nat :=
  match dget u d with Some nb => dget v nb | None => None end.

(** what holds of the dictionaries of a graph *)
Record dicts_ok (d : dgraph) : Prop := {
  (* no key twice, the same nodes everywhere *)
  do_nodes : NoDup (dkeys (d_node d));
  do_succ : dkeys (d_succ d) = dkeys (d_node d);
  do_pred : d_dir d = true -> dkeys (d_pred d) = dkeys (d_node d);
  do_nbrs : forall n nb, dget n (d_succ d) = Some nb -> NoDup (dkeys nb) /\ incl (dkeys nb) (dkeys (d_node d));
  do_preds : d_dir d = true -> forall n nb, dget n (d_pred d) = Some nb -> NoDup (dkeys nb) /\ incl (dkeys nb) (dkeys (d_node d));
  (* both sides of an edge hold the very same dict *)
  do_sides : if d_dir d then forall u v, reference (d_succ d) u v = reference (d_pred d) v u
             else forall u v, reference (d_succ d) u v = reference (d_succ d) v u;
  (* which no other edge holds *)
  do_shared : forall u v x y r, reference (d_succ d) u v = Some r -> reference (d_succ d) x y = Some r ->
    (x = u /\ y = v) \/ (d_dir d = false /\ x = v /\ y = u);
  (* and which is not empty; it is that of one edge in a simple graph *)
  do_data : forall u v kd, d_edge_data d u v = Some kd ->
    kd <> [] /\ NoDup (dkeys kd) /\ (d_multi d = false -> dkeys kd = [KInt 0])
}.
