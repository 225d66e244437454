(** * The dictionaries behind networkx graphs

    Model file: definitions only.  pelote is built on networkx
    (/repo/requirements.txt, line 5: networkx==2.5.1; not vendored in /repo).  [NxGraph] models
    the API with one bundle per pair of linked nodes.  Here the four classes Graph,
    DiGraph, MultiGraph and MultiDiGraph (networkx/classes/graph.py, digraph.py, multigraph.py,
    multidigraph.py, 2.5.1) are transcribed with the dictionaries they are made of,
    statement by statement, so that [P_Nx] can prove that the bundles say the same.

    [G._adj] maps nodes to dicts from neighbours to edge data; a directed graph has [_succ] (which
    is [_adj]) and [_pred].  The edge data of a pair, the [datadict] of a simple graph or the
    [keydict] of a multigraph, is one mutable dict reached from both ends: the
    dictionaries hold a reference to it, and [d_heap] holds the dict.  The datadict of a simple
    graph is stored as a keydict with the only key 0, as in [NxGraph].
    Only the methods pelote calls are here: they are called in /repo/pelote/graph.py, lines
    46-49, 114-191, 213-245, 278-343, /repo/pelote/sparsification/utils.py, lines 106-149,
    /repo/pelote/tabular_to_graph.py, lines 158-202 and 362, /repo/pelote/projection.py, lines
    131-259, and /repo/pelote/read.py, lines 49-69. *)
From Verif Require Import NxGraph.

Record dgraph : Type := mkD {
  d_dir : bool;
  d_multi : bool;
  d_graph : attrs;               (* G.graph *)
  d_node : dict attrs;           (* G._node *)
  d_succ : dict (dict nat);      (* G._adj, also named G._succ when directed *)
  d_pred : dict (dict nat);      (* G._pred when directed, otherwise not used *)
  d_heap : list (dict attrs)     (* the edge data dicts, by reference *)
}.

(** [nx.Graph()], [nx.DiGraph()]...: empty dicts (Graph.__init__, called in /repo/pelote/graph.py,
    line 47) *)
Definition d_empty (dir multi : bool) : dgraph := mkD dir multi [] [] [] [] [].

(** ** dicts and references *)

(** [d[k]], as in /repo/pelote/graph.py, line 181 *)
Definition getitem {A} (d : dict A) (k : key) : res A :=
  match dget k d with Some a => Ok a | None => Err KeyError end.

(** [del d[k]] *)
Definition delitem {A} (d : dict A) (k : key) : res (dict A) :=
  if dmem k d then Ok (dremove [k] d) else Err KeyError.

(** [d[u][v] = r] *)
Definition setitem2 (d : dict (dict nat)) (u v : key) (r : nat) : res (dict (dict nat)) :=
  let* nb := getitem d u in Ok (dset u (dset v r nb) d).

(** [del d[u][v]] *)
Definition delitem2 (d : dict (dict nat)) (u v : key) : res (dict (dict nat)) :=
  let* nb := getitem d u in
  let* nb' := delitem nb v in
  Ok (dset u nb' d).

(** the dict behind a reference (Python has no dangling references: the empty dict stands for them) *)
Definition deref (d : dgraph) (r : nat) : dict attrs := nth r (d_heap d) [].

(** mutation of the dict behind a reference *)
Fixpoint update_nth {A} (r : nat) (x : A) (l : list A) : list A :=
  match l, r with
  | [], _ => []
  | _ :: l', O => x :: l'
  | y :: l', S r' => y :: update_nth r' x l'
  end.

Definition store (d : dgraph) (r : nat) (kd : dict attrs) : dgraph :=
  mkD (d_dir d) (d_multi d) (d_graph d) (d_node d) (d_succ d) (d_pred d) (update_nth r kd (d_heap d)).

(** a new dict: the reference is the next one *)
Definition alloc (d : dgraph) (kd : dict attrs) : dgraph * nat :=
  (mkD (d_dir d) (d_multi d) (d_graph d) (d_node d) (d_succ d) (d_pred d) (d_heap d ++ [kd]),
   List.length (d_heap d)).

(** ** Reading *)

(** [list(G)], [G.nodes()]: [iter(self._node)]; called in /repo/pelote/graph.py, lines 142, 163, 278, 318 *)
Definition d_nodes (d : dgraph) : list key := dkeys (d_node d).

(** [G.nodes[n]]: [self._node[n]]; called in /repo/pelote/graph.py, line 167 *)
Definition d_node_data (d : dgraph) (n : key) : option attrs := dget n (d_node d).

(** [G[u][v]]: [self._adj[u][v]], None for KeyError; called in /repo/pelote/graph.py, line 181 *)
Definition d_edge_data (d : dgraph) (u v : key) : option (dict attrs) :=
  match dget u (d_succ d) with
  | Some nb => option_map (deref d) (dget v nb)
  | None => None
  end.

(** [G.has_edge(u, v)]: [v in self._adj[u]], False on KeyError; called in
    /repo/pelote/tabular_to_graph.py, lines 168 and 197 *)
Definition d_has_edge (d : dgraph) (u v : key) : bool :=
  match dget u (d_succ d) with
  | Some nb => dmem v nb
  | None => false
  end.

(** [G.neighbors(n)], [G.successors(n)]: [iter(self._adj[n])], nothing for KeyError; called in
    /repo/pelote/metrics/chiba_nishizeki.py, lines 66 and 137, and /repo/pelote/projection.py, line
    189 *)
Definition d_neighbors (d : dgraph) (n : key) : list key :=
  match dget n (d_succ d) with Some nb => dkeys nb | None => [] end.

(** [G.predecessors(n)]: [iter(self._pred[n])]; called in /repo/pelote/projection.py, line 189 *)
Definition d_predecessors (d : dgraph) (n : key) : list key :=
  match dget n (d_pred d) with Some nb => dkeys nb | None => [] end.

(** [G.edges(keys=True, data=True)], networkx/classes/reportviews.py: EdgeDataView and
    MultiEdgeDataView keep a dict [seen] of the nodes already visited; the Out- views of directed
    graphs do not.  Called in /repo/pelote/graph.py, lines 148, 177, 213, 241. *)
Fixpoint d_edges_from (d : dgraph) (seen : list key) (items : dict (dict nat))
  : list (key * key * key * attrs) :=
  match items with
  | [] => []
  | (n, nbrs) :: items' =>
      flat_map (fun mr => if d_dir d || negb (mem (fst mr) seen)
                          then map (fun ka => (n, fst mr, fst ka, snd ka)) (deref d (snd mr))
                          else []) nbrs
      ++ d_edges_from d (n :: seen) items'
  end.

Definition d_edges_keys (d : dgraph) : list (key * key * key * attrs) := d_edges_from d [] (d_succ d).

(** [G.edges(n, keys=True, data=True)]: the same loop over the single node [n]; called in
    /repo/pelote/graph.py, lines 325-340 and 433 *)
Definition d_edges_of (d : dgraph) (n : key) : list (key * key * key * attrs) :=
  match dget n (d_succ d) with Some nb => d_edges_from d [] [(n, nb)] | None => [] end.

(** [G.degree(n)], networkx/classes/reportviews.py: DegreeView, MultiDegreeView: the edges to the
    neighbours, plus those of the loop when [n in nbrs]; DiDegreeView,
    DiMultiDegreeView: successors and predecessors.  Called in /repo/pelote/graph.py, lines 370 and
    395. *)
Definition d_count (d : dgraph) (nbrs : dict nat) : nat :=
  sum_nat (map (fun mr => List.length (deref d (snd mr))) nbrs).

Definition d_degree (d : dgraph) (n : key) : nat :=
  let nbrs := match dget n (d_succ d) with Some nb => nb | None => [] end in
  if d_dir d
  then d_count d nbrs
       + d_count d (match dget n (d_pred d) with Some nb => nb | None => [] end)
  else d_count d nbrs
       + match dget n nbrs with Some r => List.length (deref d r) | None => 0 end.

(** [G.size()]: half the sum of the degrees, called in /repo/pelote/graph.py, line 174 *)
Definition d_size (d : dgraph) : nat :=
  Nat.div2 (sum_nat (map (d_degree d) (d_nodes d))).

(** ** Writing *)

(** a node is added: [self._adj[n] = {}] or [self._succ[n] = {}; self._pred[n] = {}], and
    [self._node[n] = attr_dict] *)
Definition d_new_node (d : dgraph) (n : key) (a : attrs) : dgraph :=
  mkD (d_dir d) (d_multi d) (d_graph d) (dset n a (d_node d)) (dset n [] (d_succ d))
    (if d_dir d then dset n [] (d_pred d) else d_pred d) (d_heap d).

(** [G.add_node(n, **a)]; called in /repo/pelote/graph.py, lines 143 and 322 *)
Definition d_add_node (d : dgraph) (n : key) (a : attrs) : dgraph :=
  match dget n (d_node d) with
  | None => d_new_node d n (dupdate [] a)
  | Some old => mkD (d_dir d) (d_multi d) (d_graph d) (dset n (dupdate old a) (d_node d))
                  (d_succ d) (d_pred d) (d_heap d)
  end.

(** the first lines of [add_edge]: [if u not in self._node: ...] *)
Definition d_ensure (d : dgraph) (n : key) : dgraph :=
  if dmem n (d_node d) then d else d_new_node d n [].

(** [self._adj[u][v] = dd; self._adj[v][u] = dd], or [self._succ[u][v] = dd; self._pred[v][u] = dd] *)
Definition d_link (d : dgraph) (u v : key) (r : nat) : res dgraph :=
  let* succ := setitem2 (d_succ d) u v r in
  if d_dir d then
    let* pred := setitem2 (d_pred d) v u r in
    Ok (mkD (d_dir d) (d_multi d) (d_graph d) (d_node d) succ pred (d_heap d))
  else
    let* succ := setitem2 succ v u r in
    Ok (mkD (d_dir d) (d_multi d) (d_graph d) (d_node d) succ (d_pred d) (d_heap d)).

(** [MultiGraph.new_edge_key(u, v)]: [try: keydict = self._adj[u][v] except KeyError: return 0;
    key = len(keydict); while key in keydict: key += 1; return key].  The loop stops after at most
    [len(keydict)] steps. *)
Definition d_new_edge_key (d : dgraph) (u v : key) : key :=
  match d_edge_data d u v with
  | None => KInt 0
  | Some kd => KInt (first_unused (List.length kd) (Z.of_nat (List.length kd)) (dkeys kd))
  end.

(** [Graph.add_edge(u, v, **a)], [DiGraph.add_edge(u, v, **a)]: [datadict = self._adj[u].get(v, {});
    datadict.update(a)] and the links *)
Definition d_add_edge_simple (d : dgraph) (u v : key) (a : attrs) : res dgraph :=
  let d := d_ensure (d_ensure d u) v in
  let* nb := getitem (d_succ d) u in
  match dget v nb with
  | Some r =>
      let old := match dget (KInt 0) (deref d r) with Some o => o | None => [] end in
      d_link (store d r [(KInt 0, dupdate old a)]) u v r
  | None =>
      let '(d, r) := alloc d [(KInt 0, dupdate [] a)] in
      d_link d u v r
  end.

(** [MultiGraph.add_edge(u, v, key=k, **a)], [MultiDiGraph.add_edge(u, v, key=k, **a)] *)
Definition d_add_edge_multi (d : dgraph) (u v : key) (ok : option key) (a : attrs) : res dgraph :=
  let d := d_ensure (d_ensure d u) v in
  let k := match ok with Some k => k | None => d_new_edge_key d u v end in
  let* nb := getitem (d_succ d) u in
  match dget v nb with
  | Some r =>
      let keydict := deref d r in
      let old := match dget k keydict with Some o => o | None => [] end in
      Ok (store d r (dset k (dupdate old a) keydict))
  | None =>
      let '(d, r) := alloc d [(k, dupdate [] a)] in
      d_link d u v r
  end.

(** the links of a pair are removed: [del self._adj[u][v]; if u != v: del self._adj[v][u]], or
    [del self._succ[u][v]; del self._pred[v][u]] *)
Definition d_unlink (d : dgraph) (u v : key) : res dgraph :=
  let* succ := delitem2 (d_succ d) u v in
  if d_dir d then
    let* pred := delitem2 (d_pred d) v u in
    Ok (mkD (d_dir d) (d_multi d) (d_graph d) (d_node d) succ pred (d_heap d))
  else
    let* succ := if key_eqb u v then Ok succ else delitem2 succ v u in
    Ok (mkD (d_dir d) (d_multi d) (d_graph d) (d_node d) succ (d_pred d) (d_heap d)).

(** one step of [G.remove_edges_from(l)] for a pair: a simple graph removes the links if there are
    some; a multigraph calls [remove_edge(u, v)], which removes the last edge of the
    keydict ([popitem]) and the links when it was the last one, and ignores NetworkXError.
    Called in /repo/pelote/graph.py, line 217, and /repo/pelote/sparsification/utils.py, line 116. *)
Definition d_remove_pair (d : dgraph) (u v : key) : res dgraph :=
  match dget u (d_succ d) with
  | None => Ok d
  | Some nb =>
      match dget v nb with
      | None => Ok d
      | Some r =>
          if d_multi d then
            let kd := removelast (deref d r) in
            let d := store d r kd in
            match kd with
            | [] => d_unlink d u v
            | _ => Ok d
            end
          else d_unlink d u v
      end
  end.

Definition d_remove_edges_from (d : dgraph) (l : list (key * key)) : res dgraph :=
  foldM (fun d uv => d_remove_pair d (fst uv) (snd uv)) l d.

(** one step of [G.remove_nodes_from(l)]; an absent node is ignored.  Called in
    /repo/pelote/graph.py, lines 114 and 282.

    Graph: [del self._node[n]; for u in list(adj[n]): del adj[u][n]; del adj[n]].
    DiGraph: [succs = self._succ[n]; del self._node[n]; for u in succs: del self._pred[u][n];
    del self._succ[n]; for u in self._pred[n]: del self._succ[u][n]; del self._pred[n]]. *)
Definition d_remove_node (d : dgraph) (n : key) : res dgraph :=
  if dmem n (d_node d) then
    let* node := delitem (d_node d) n in
    let* nbrs := getitem (d_succ d) n in
    if d_dir d then
      let* pred := foldM (fun pred u => delitem2 pred u n) (dkeys nbrs) (d_pred d) in
      let* succ := delitem (d_succ d) n in
      let* preds := getitem pred n in
      let* succ := foldM (fun succ u => delitem2 succ u n) (dkeys preds) succ in
      let* pred := delitem pred n in
      Ok (mkD (d_dir d) (d_multi d) (d_graph d) node succ pred (d_heap d))
    else
      let* succ := foldM (fun succ u => delitem2 succ u n) (dkeys nbrs) (d_succ d) in
      let* succ := delitem succ n in
      Ok (mkD (d_dir d) (d_multi d) (d_graph d) node succ (d_pred d) (d_heap d))
  else Ok d.

Definition d_remove_nodes_from (d : dgraph) (l : list key) : res dgraph := foldM d_remove_node l d.

(** [G[u][v][k][name] = ...] or, in a simple graph, [G[u][v][name] = ...]: the attributes of an edge
    are mutated; called in /repo/pelote/sparsification/utils.py, lines 126-149, and
    /repo/pelote/tabular_to_graph.py, lines 169 and 198 *)
Definition d_map_edge (d : dgraph) (u v k : key) (f : attrs -> attrs) : res dgraph :=
  let* nb := getitem (d_succ d) u in
  let* r := getitem nb v in
  let* a := getitem (deref d r) k in
  Ok (store d r (dset k (f a) (deref d r))).

(** [nx.create_empty_copy(G)] (networkx/classes/function.py): [H = G.__class__();
    H.add_nodes_from(G.nodes(data=True)); H.graph.update(G.graph)]; called in
    /repo/pelote/graph.py, lines 140 and 239, and /repo/pelote/sparsification/utils.py, line 106 *)
Definition d_create_empty_copy (d : dgraph) : dgraph :=
  let h := fold_left (fun h na => d_add_node h (fst na) (snd na)) (d_node d) (d_empty (d_dir d) (d_multi d)) in
  mkD (d_dir h) (d_multi h) (dupdate (d_graph h) (d_graph d)) (d_node h) (d_succ h) (d_pred h) (d_heap h).
