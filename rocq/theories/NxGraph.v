(** * networkx graphs

    Model file: definitions only.  networkx 2.5.1 (pinned in
    /repo/requirements.txt, not vendored in /repo) is the library pelote is
    built on; this file models the part of its API pelote calls, from its
    documented behaviour.  It is trusted, see DESIGN.md.

    A graph stores its nodes in insertion order and, for each pair of
    linked nodes, one "bundle" in order of first insertion, holding the edge
    attribute dicts indexed by edge key.  In a simple graph
    (Graph, DiGraph) a bundle holds exactly one attribute dict, under the key 0.
    The adjacency dict of a node, [G[n]], lists the bundles incident to [n] (leaving [n] when
    directed) in that same order, as in networkx where both sides
    of an edge are inserted and deleted together. *)
From Verif Require Export PyBase.

Record bundle : Type := mkB { b_src : key; b_dst : key; b_data : dict attrs }.

Record graph : Type := mkG {
  g_dir : bool;          (* is_directed() *)
  g_multi : bool;        (* is_multigraph() *)
  g_attr : attrs;        (* G.graph *)
  g_nodes : dict attrs;  (* G.nodes.data() *)
  g_adj : list bundle
}.

Definition empty_graph (dir multi : bool) : graph := mkG dir multi [] [] [].

(** ** Reading *)

Definition nodes (g : graph) : list key := dkeys (g_nodes g).
Definition order (g : graph) : nat := List.length (g_nodes g).
Definition has_node (g : graph) (n : key) : bool := dmem n (g_nodes g).
(** [G.nodes[n]] *)
Definition node_data (g : graph) (n : key) : option attrs := dget n (g_nodes g).

(** The bundle joins [u] to [v] (in either direction when undirected). *)
Definition same_ends (dir : bool) (u v : key) (b : bundle) : bool :=
  (key_eqb (b_src b) u && key_eqb (b_dst b) v)
  || (negb dir && key_eqb (b_src b) v && key_eqb (b_dst b) u).

(** [G[u][v]] (the key dict; a simple graph has the single key 0). *)
Definition edge_data (g : graph) (u v : key) : option (dict attrs) :=
  option_map b_data (find (same_ends (g_dir g) u v) (g_adj g)).

Definition has_edge (g : graph) (u v : key) : bool :=
  match edge_data g u v with Some _ => true | None => false end.

(** The attributes of the edge [(u, v, k)]. *)
Definition edge_attrs (g : graph) (u v k : key) : option attrs :=
  match edge_data g u v with Some kd => dget k kd | None => None end.

Definition other_end (dir : bool) (n : key) (b : bundle) : option key :=
  if key_eqb (b_src b) n then Some (b_dst b)
  else if negb dir && key_eqb (b_dst b) n then Some (b_src b)
  else None.

(** [G[n].items()] / [G.adj[n]]; successors when directed. *)
Definition adj_items (g : graph) (n : key) : list (key * dict attrs) :=
  flat_map (fun b => match other_end (g_dir g) n b with
                     | Some m => [(m, b_data b)]
                     | None => []
                     end) (g_adj g).

(** [G.neighbors(n)], [G.successors(n)] *)
Definition neighbors (g : graph) (n : key) : list key := map fst (adj_items g n).

(** [G.pred[n]] of a directed graph *)
Definition pred_items (g : graph) (n : key) : list (key * dict attrs) :=
  flat_map (fun b => if key_eqb (b_dst b) n then [(b_src b, b_data b)] else []) (g_adj g).

Definition predecessors (g : graph) (n : key) : list key := map fst (pred_items g n).

(** The pairs [G.edges] iterates over: for each node in order, its adjacency;
    when undirected, neighbours already visited as sources are skipped. *)
Fixpoint pairs_from (g : graph) (seen todo : list key) : list (key * key * dict attrs) :=
  match todo with
  | [] => []
  | n :: todo' =>
      map (fun mk => (n, fst mk, snd mk))
        (filter (fun mk => g_dir g || negb (mem (fst mk) seen)) (adj_items g n))
      ++ pairs_from g (n :: seen) todo'
  end.

Definition edge_pairs (g : graph) : list (key * key * dict attrs) :=
  pairs_from g [] (nodes g).

(** [G.edges()] of a simple graph *)
Definition edges (g : graph) : list (key * key) := map fst (edge_pairs g).

(** [G.edges(keys=True, data=True)] *)
Definition edges_keys (g : graph) : list (key * key * key * attrs) :=
  flat_map (fun p => map (fun ka => (fst (fst p), snd (fst p), fst ka, snd ka)) (snd p))
    (edge_pairs g).

(** [G.edges.data()] / [G.edges(data=True)] *)
Definition edges_data (g : graph) : list (key * key * attrs) :=
  map (fun e => (fst (fst (fst e)), snd (fst (fst e)), snd e)) (edges_keys g).

(** [G.edges(n, keys=True, data=True)] (out-edges when directed) *)
Definition edges_of (g : graph) (n : key) : list (key * key * key * attrs) :=
  flat_map (fun mk => map (fun ka => (n, fst mk, fst ka, snd ka)) (snd mk)) (adj_items g n).

(** [G.size()]: half the sum of degrees, i.e. the number of edges. *)
Definition size (g : graph) : nat := List.length (edges_keys g).

Definition sum_nat (l : list nat) : nat := fold_right Nat.add 0 l.

(** [G.degree(n)]: loops count twice when undirected; in + out when directed. *)
Definition degree (g : graph) (n : key) : nat :=
  if g_dir g
  then sum_nat (map (fun mk => List.length (snd mk)) (adj_items g n))
       + sum_nat (map (fun mk => List.length (snd mk)) (pred_items g n))
  else sum_nat (map (fun mk => List.length (snd mk)) (adj_items g n))
       + match edge_data g n n with Some kd => List.length kd | None => 0 end.

(** ** Writing *)

Definition add_node (g : graph) (n : key) (a : attrs) : graph :=
  let old := match node_data g n with Some o => o | None => [] end in
  mkG (g_dir g) (g_multi g) (g_attr g) (dset n (dupdate old a) (g_nodes g)) (g_adj g).

(** the first lines of [add_edge]: create a missing endpoint *)
Definition ensure_node (g : graph) (n : key) : graph :=
  if has_node g n then g
  else mkG (g_dir g) (g_multi g) (g_attr g) (g_nodes g ++ [(n, [])]) (g_adj g).

(** update the attribute dict of the edge key [k] in the first bundle joining
    [u] and [v], or append a bundle *)
Fixpoint set_bundle (dir : bool) (u v k : key) (a : attrs) (l : list bundle) : list bundle :=
  match l with
  | [] => [mkB u v [(k, dupdate [] a)]]
  | b :: l' =>
      if same_ends dir u v b
      then mkB (b_src b) (b_dst b)
             (dset k (dupdate (match dget k (b_data b) with Some o => o | None => [] end) a)
                (b_data b)) :: l'
      else b :: set_bundle dir u v k a l'
  end.

Definition add_edge_at (g : graph) (u v k : key) (a : attrs) : graph :=
  let g1 := ensure_node (ensure_node g u) v in
  mkG (g_dir g1) (g_multi g1) (g_attr g1) (g_nodes g1)
    (set_bundle (g_dir g1) u v k a (g_adj g1)).

(** [MultiGraph.new_edge_key]: the first int >= len(keydict) not yet used
    (at most [len] candidates can be used). *)
Fixpoint first_unused (fuel : nat) (k : Z) (ks : list key) : Z :=
  match fuel with
  | O => k
  | S fuel' => if mem (KInt k) ks then first_unused fuel' (k + 1) ks else k
  end.

Definition new_edge_key (g : graph) (u v : key) : key :=
  match edge_data g u v with
  | None => KInt 0
  | Some kd => KInt (first_unused (List.length kd) (Z.of_nat (List.length kd)) (dkeys kd))
  end.

(** [G.add_edge(u, v, **a)] without an explicit key, names already checked *)
Definition add_edge (g : graph) (u v : key) (a : attrs) : graph :=
  add_edge_at g u v (if g_multi g then new_edge_key g u v else KInt 0) a.

Definition node_reserved : list key := [K "self"; K "node_for_adding"].
Definition edge_reserved (multi : bool) : list key :=
  if multi then [K "self"; K "u_for_edge"; K "v_for_edge"]
  else [K "self"; K "u_of_edge"; K "v_of_edge"].

(** [G.add_node(n, **a)] *)
Definition add_node_kw (g : graph) (n : key) (a : attrs) : res graph :=
  if kwargs_ok node_reserved a then Ok (add_node g n a) else Err TypeError.

(** [G.add_edge(u, v, **a)]; on a multigraph an attribute named "key" is taken as
    the edge key (simplification: a key that is neither None nor a [key] is reported
    as TypeError). *)
Definition add_edge_kw (g : graph) (u v : key) (a : attrs) : res graph :=
  if kwargs_ok (edge_reserved (g_multi g)) a then
    if g_multi g then
      match dget (K "key") a with
      | None => Ok (add_edge g u v a)
      | Some VNone => Ok (add_edge g u v (dremove [K "key"] a))
      | Some (VKey k) => Ok (add_edge_at g u v k (dremove [K "key"] a))
      | Some _ => Err TypeError
      end
    else Ok (add_edge g u v a)
  else Err TypeError.

(** [G.add_edge(u, v, key=k, **a)] on a multigraph *)
Definition add_edge_key_kw (g : graph) (u v k : key) (a : attrs) : res graph :=
  if kwargs_ok (K "key" :: edge_reserved true) a
  then Ok (add_edge_at g u v k a) else Err TypeError.

(** [nx.Graph( **a )], [nx.DiGraph( **a )]...: [self] is bound twice;
    [incoming_graph_data] is a parameter of the constructor, for which None means no data
    and where a string, a number or an opaque object is not a known data type. *)
Definition new_graph_kw (dir multi : bool) (a : attrs) : res graph :=
  if kwargs_ok [K "self"] a
  then
    match dget (K "incoming_graph_data") a with
    | None | Some VNone => Ok (mkG dir multi (dupdate [] (dremove [K "incoming_graph_data"] a)) [] [])
    | Some _ => Err NetworkXError
    end
  else Err TypeError.

(** [nx.create_empty_copy(G)]: all nodes and attributes, no edges *)
Definition create_empty_copy (g : graph) : graph :=
  mkG (g_dir g) (g_multi g) (g_attr g) (g_nodes g) [].

(** [G.remove_nodes_from(ns)] *)
Definition remove_nodes_from (g : graph) (ns : list key) : graph :=
  mkG (g_dir g) (g_multi g) (g_attr g)
    (filter (fun na => negb (mem (fst na) ns)) (g_nodes g))
    (filter (fun b => negb (mem (b_src b) ns) && negb (mem (b_dst b) ns)) (g_adj g)).

(** [G.remove_edge(u, v)]: a simple graph drops the edge, a multigraph drops the edge
    inserted last between [u] and [v]; silently nothing when absent, as in
    [remove_edges_from]. *)
Fixpoint drop_pair (dir multi : bool) (u v : key) (l : list bundle) : list bundle :=
  match l with
  | [] => []
  | b :: l' =>
      if same_ends dir u v b then
        match (if multi then removelast (b_data b) else []) with
        | [] => l'
        | kd => mkB (b_src b) (b_dst b) kd :: l'
        end
      else b :: drop_pair dir multi u v l'
  end.

(** [G.remove_edges_from(l)] for a list of pairs *)
Definition remove_edges_from (g : graph) (l : list (key * key)) : graph :=
  mkG (g_dir g) (g_multi g) (g_attr g) (g_nodes g)
    (fold_left (fun acc uv => drop_pair (g_dir g) (g_multi g) (fst uv) (snd uv) acc) l (g_adj g)).

(** In-place update of the attribute dict of an existing edge,
    [G[u][v][k] = f(G[u][v][k])]; nothing when absent. *)
Definition map_edge (g : graph) (u v k : key) (f : attrs -> attrs) : graph :=
  mkG (g_dir g) (g_multi g) (g_attr g) (g_nodes g)
    (map (fun b => if same_ends (g_dir g) u v b
                   then mkB (b_src b) (b_dst b)
                          (map (fun ka => if key_eqb k (fst ka) then (fst ka, f (snd ka)) else ka)
                             (b_data b))
                   else b) (g_adj g)).

(** [G.subgraph(ns)]: view on the induced subgraph *)
Definition subgraph (g : graph) (ns : list key) : graph :=
  mkG (g_dir g) (g_multi g) (g_attr g)
    (filter (fun na => mem (fst na) ns) (g_nodes g))
    (filter (fun b => mem (b_src b) ns && mem (b_dst b) ns) (g_adj g)).

(** [G.to_undirected(as_view=True)]: adjacency is the union of successors
    and predecessors.  (Simplification: networkx iterates that union in hash
    order; here in insertion order.) *)
Fixpoint merge_bundle (b : bundle) (l : list bundle) : list bundle :=
  match l with
  | [] => [b]
  | c :: l' => if same_ends false (b_src b) (b_dst b) c
               then mkB (b_src c) (b_dst c) (dupdate (b_data b) (b_data c)) :: l'
               else c :: merge_bundle b l'
  end.

Definition to_undirected (g : graph) : graph :=
  if g_dir g
  then mkG false (g_multi g) (g_attr g) (g_nodes g)
         (fold_left (fun acc b => merge_bundle b acc) (g_adj g) [])
  else g.

(** ** Well-formedness: the invariant of every graph built by the networkx API *)

Fixpoint nodup_keys (l : list key) : bool :=
  match l with [] => true | k :: l' => negb (mem k l') && nodup_keys l' end.

Fixpoint distinct_ends (dir : bool) (l : list bundle) : bool :=
  match l with
  | [] => true
  | b :: l' => negb (existsb (same_ends dir (b_src b) (b_dst b)) l') && distinct_ends dir l'
  end.

Definition bundle_ok (g : graph) (b : bundle) : bool :=
  has_node g (b_src b) && has_node g (b_dst b)
  && negb (match b_data b with [] => true | _ => false end)
  && nodup_keys (dkeys (b_data b))
  && forallb (fun ka => nodup_keys (dkeys (snd ka))) (b_data b)
  && (g_multi g || match b_data b with [(KInt 0, _)] => true | _ => false end).

Definition wf (g : graph) : bool :=
  nodup_keys (nodes g)
  && forallb (fun na => nodup_keys (dkeys (snd na))) (g_nodes g)
  && nodup_keys (dkeys (g_attr g))
  && forallb (bundle_ok g) (g_adj g)
  && distinct_ends (g_dir g) (g_adj g).

(** ** Connected components

    [nx.connected_components] and [nx.weakly_connected_components]: for each node of the graph in
    order, if it is in no previous component, the set of nodes found by a
    breadth-first search from it.  A component is a set in networkx; here a list
    without repetition. *)
Definition weak_neighbors (g : graph) (n : key) : list key :=
  if g_dir g then neighbors g n ++ predecessors g n else neighbors g n.

Fixpoint plain_bfs (fuel : nat) (nb : key -> list key) (seen queue : list key) : list key :=
  match fuel with
  | O => seen
  | S fuel' =>
      match queue with
      | [] => seen
      | v :: queue' =>
          if mem v seen then plain_bfs fuel' nb seen queue'
          else plain_bfs fuel' nb (seen ++ [v]) (queue' ++ nb v)
      end
  end.

(** enough steps for every node to be visited once and every neighbour to be queued *)
Definition bfs_fuel (g : graph) : nat :=
  S (S (sum_nat (map (fun n => List.length (weak_neighbors g n)) (nodes g)))).

Fixpoint components_from (g : graph) (seen todo : list key) : list (list key) :=
  match todo with
  | [] => []
  | v :: todo' =>
      if mem v seen then components_from g seen todo'
      else
        let c := plain_bfs (bfs_fuel g) (weak_neighbors g) [] [v] in
        c :: components_from g (seen ++ c) todo'
  end.

(** [nx.connected_components(G)] when undirected, [nx.weakly_connected_components(G)] when directed *)
Definition connected_components (g : graph) : list (list key) := components_from g [] (nodes g).
