(** * Model of pelote/graph.py (union_of_maximum_spanning_trees is in M_Umst.v)

    Simplifications made throughout: arguments documented as graphs are graphs and those
    documented as callables are callables, so [check_graph] (lines 28-36) and the [callable]
    tests do not raise; predicates and filters are pure functions which may raise. *)
From Verif Require Import PyBase NxGraph M_UnionFind M_Traversal.

(** check_node_exists, lines 39-43 *)
Definition check_node_exists (g : graph) (n : key) : res key :=
  if has_node g n then Ok n else Err KeyError.

(** create_null_copy, lines 46-49 *)
Definition create_null_copy (graph : graph) : res NxGraph.graph :=
  new_graph_kw (g_dir graph) (g_multi graph) (g_attr graph).

(** ** Components *)

(** largest_connected_component, the loop of lines 77-85 *)
Fixpoint lcc_loop (largest : option (list key)) (remaining_nodes : Z) (comps : list (list key)) : option (list key) :=
  match comps with
  | [] => largest
  | component :: comps' =>
      let largest' :=
        match largest with
        | None => component
        | Some l => if List.length l <? List.length component then component else l
        end in
      let remaining := (remaining_nodes - Z.of_nat (List.length largest'))%Z in
      if (remaining <? Z.of_nat (List.length largest'))%Z then Some largest'
      else lcc_loop (Some largest') remaining comps'
  end.

(** largest_connected_component, lines 52-87 *)
Definition largest_connected_component (graph : graph) : option (list key) :=
  lcc_loop None (Z.of_nat (order graph)) (connected_components graph).

(** crop_to_largest_connected_component, lines 90-114 *)
Definition crop_to_largest_connected_component : sm graph unit := fun graph =>
  match largest_connected_component graph with
  | None => (graph, Ok tt)
  | Some component =>
      let nodes_to_drop := filter (fun node => negb (mem node component)) (nodes graph) in
      (remove_nodes_from graph nodes_to_drop, Ok tt)
  end.

(** largest_connected_component_subgraph, lines 117-156.  Simplification: a view is
    represented by the graph it shows. *)
Definition largest_connected_component_subgraph (graph : graph) (as_view : bool) : res NxGraph.graph :=
  let component := match largest_connected_component graph with Some c => c | None => [] end in
  if as_view then Ok (subgraph graph component)
  else
    let* sub := foldM (fun sub na => add_node_kw sub (fst na) (snd na)) (g_nodes graph) (create_empty_copy graph) in
    match component with
    | [] => Ok sub
    | _ =>
        foldM (fun sub e => let '(source, target, attr) := e in
                 if mem source component then add_edge_kw sub source target attr else Ok sub)
          (edges_data graph) sub
    end.

(** ** Comparison *)

(** have_same_nodes, lines 159-170.  [B.nodes[node]] is present since [node in B]. *)
Definition have_same_nodes (A B : graph) (check_attributes : bool) : bool :=
  Nat.eqb (order A) (order B) &&
  forallb (fun na => match node_data B (fst na) with
                     | None => false
                     | Some b => negb check_attributes || attrs_eqb (snd na) b
                     end) (g_nodes A).

(** [attr == B[u][v]] at line 181: in a simple graph [B[u][v]] is the attribute dict; in a multigraph
    it is a non-empty dict from edge keys to dicts, never equal to [attr] since attribute
    values are not dicts here. *)
Definition edge_attr_eqb (B : graph) (u v : key) (attr : attrs) : bool :=
  negb (g_multi B) && match edge_attrs B u v (KInt 0) with Some b => attrs_eqb attr b | None => false end.

(** have_same_edges, lines 173-184 *)
Definition have_same_edges (A B : graph) (check_attributes : bool) : bool :=
  Nat.eqb (size A) (size B) &&
  forallb (fun e => let '(u, v, attr) := e in
             has_edge B u v && (negb check_attributes || edge_attr_eqb B u v attr)) (edges_data A).

(** are_same_graphs, lines 187-190 *)
Definition are_same_graphs (A B : graph) (check_attributes : bool) : bool :=
  have_same_nodes A B check_attributes && have_same_edges A B check_attributes.

(** ** Filtering *)
Definition edge_predicate : Type := key -> key -> attrs -> res bool.
Definition node_predicate : Type := key -> attrs -> res bool.

Definition notM (r : res bool) : res bool := let* b := r in Ok (negb b).

(** remove_edges, lines 193-217 *)
Definition remove_edges (predicate : edge_predicate) : sm graph unit :=
  let! edges_to_drop := sread (fun graph =>
      let* dropped := filterM (fun e => let '(u, v, a) := e in notM (predicate u v a)) (edges_data graph) in
      Ok (map fst dropped)) in
  smodify (fun graph => remove_edges_from graph edges_to_drop).

(** filter_edges, lines 220-245 *)
Definition filter_edges (graph : graph) (predicate : edge_predicate) : res NxGraph.graph :=
  foldM (fun copy e => let '(u, v, a) := e in
           let* b := predicate u v a in
           if b then add_edge_kw copy u v a else Ok copy)
    (edges_data graph) (create_empty_copy graph).

(** remove_nodes, lines 248-282 *)
Definition remove_nodes (predicate : node_predicate) : sm graph unit :=
  let! nodes_to_drop := sread (fun graph =>
      let* dropped := filterM (fun na => notM (predicate (fst na) (snd na))) (g_nodes graph) in
      Ok (map fst dropped)) in
  smodify (fun graph => remove_nodes_from graph nodes_to_drop).

(** [predicate(v, graph.nodes[v])] in lines 327, 331, 336, 340 *)
Definition test_node (graph : graph) (predicate : node_predicate) (v : key) : res bool :=
  match node_data graph v with Some a => predicate v a | None => Err KeyError end.

(** filter_nodes, one edge (u, v, k, a_edge) incident to the accepted node u: lines 324-341.  The
    four branches only differ by the test [u > v] (undirected) and the key (multigraph). *)
Definition filter_nodes_edge (graph : graph) (predicate : node_predicate)
  (copy : NxGraph.graph) (e : key * key * key * attrs) : res NxGraph.graph :=
  let '(u, v, k, a_edge) := e in
  let* oriented := if g_dir graph then Ok true else key_gt u v in
  let* keep := if oriented then test_node graph predicate v else Ok false in
  if keep then
    if g_multi graph then add_edge_key_kw copy u v k a_edge
    else add_edge_kw copy u v a_edge
  else Ok copy.

(** filter_nodes, one node: lines 318-341 *)
Definition filter_nodes_step (graph : graph) (predicate : node_predicate)
  (copy : NxGraph.graph) (na : key * attrs) : res NxGraph.graph :=
  let '(n, a) := na in
  let* keep := predicate n a in
  if keep then
    let* copy' := add_node_kw copy n a in
    foldM (filter_nodes_edge graph predicate) (edges_of graph n) copy'
  else Ok copy.

(** filter_nodes, lines 285-343 *)
Definition filter_nodes (graph : graph) (predicate : node_predicate) : res NxGraph.graph :=
  let* copy := create_null_copy graph in
  foldM (filter_nodes_step graph predicate) (g_nodes graph) copy.

Definition not_leaf (graph : graph) : node_predicate := fun n _ => Ok (negb (Nat.eqb (degree graph n) 1)).

(** remove_leaves, lines 346-370.  The lambda reads the degree in the graph itself, which
    remove_nodes only mutates after the last call of the predicate. *)
Definition remove_leaves : sm graph unit := fun graph => remove_nodes (not_leaf graph) graph.

(** filter_leaves, lines 373-395 *)
Definition filter_leaves (graph : graph) : res NxGraph.graph := filter_nodes graph (not_leaf graph).

(** ** connected_component_orders, lines 398-441 *)

(** lines 434-435: [edge_filter is not None and not edge_filter(n1, n2, edge_attr)], negated *)
Definition follows (edge_filter : option edge_predicate) (n1 n2 : key) (edge_attr : attrs) : res bool :=
  match edge_filter with None => Ok true | Some f => f n1 n2 edge_attr end.

(** lines 433-437 *)
Definition cc_visit (graph : graph) (edge_filter : option edge_predicate) (n1 : key) (stack : trav unit) : res (trav unit) :=
  foldM (fun stack e => let '(_, n2, _, edge_attr) := e in
           let* b := follows edge_filter n1 n2 edge_attr in
           if b then Ok (fst (t_append n2 None stack)) else Ok stack)
    (edges_of graph n1) stack.

(** lines 429-437: the while loop, returning the size *)
Fixpoint cc_loop (fuel : nat) (graph : graph) (edge_filter : option edge_predicate) (size : nat) (stack : trav unit)
  : res (nat * trav unit) :=
  if Nat.eqb (t_len stack) 0 then Ok (size, stack)
  else
    match fuel with
    | O => Err OutOfFuel
    | S fuel' =>
        match t_pop stack with
        | (stack', Ok (inl n1)) =>
            let* stack'' := cc_visit graph edge_filter n1 stack' in
            cc_loop fuel' graph edge_filter (S size) stack''
        | (_, Ok (inr _)) => Err TypeError (* no item is ever pushed *)
        | (_, Err e) => Err e
        end
    end.

(** lines 425-439: the loop over [stack.nodes_yet_unseen()], a generator reading the stack as it
    advances (traversal.py, lines 28-36).  The yielded sizes are collected: simplification, a
    consumer stopping early or catching an exception between two yields is not represented. *)
Fixpoint cc_from (graph : graph) (edge_filter : option edge_predicate) (todo : list key) (stack : trav unit) : res (list nat) :=
  match todo with
  | [] => Ok []
  | node :: todo' =>
      if seen_everything stack then Ok []
      else if t_contains stack node then cc_from graph edge_filter todo' stack
      else
        let* (size, stack') :=
          cc_loop (S (order graph)) graph edge_filter 0 (fst (t_append node None stack)) in
        let* rest := cc_from graph edge_filter todo' stack' in
        Ok (size :: rest)
  end.

Definition connected_component_orders (graph : graph) (edge_filter : option edge_predicate) : res (list nat) :=
  cc_from graph edge_filter (nodes graph) (t_make (nodes graph)).

(** largest_connected_component_order, lines 444-458; [max] of an empty sequence raises *)
Definition largest_connected_component_order (graph : graph) : res (option nat) :=
  if Nat.eqb (order graph) 0 then Ok None
  else
    let* orders := connected_component_orders graph None in
    match orders with
    | [] => Err ValueError
    | x :: l => Ok (Some (fold_left Nat.max l x))
    end.

(** [heapq.nlargest(2, l)]: the two greatest in decreasing order *)
Fixpoint insert_desc (x : nat) (l : list nat) : list nat :=
  match l with [] => [x] | y :: l' => if y <? x then x :: l else y :: insert_desc x l' end.
Definition nlargest2 (l : list nat) : list nat :=
  firstn 2 (fold_left (fun acc x => insert_desc x acc) l []).

(** second_largest_connected_component_order, lines 461-481 *)
Definition second_largest_connected_component_order (graph : graph) (edge_filter : option edge_predicate) : res (option nat) :=
  let* orders := connected_component_orders graph edge_filter in
  match nlargest2 orders with
  | _ :: second :: _ => Ok (Some second)
  | _ => Ok None
  end.
