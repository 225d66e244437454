(** * Model of the checks which pelote's functions make on their arguments

    An argument given as graph may be any value, as may an argument given as function.  Values which are not graphs have
    none of the attributes of graphs (an object of the user's which imitates them is not modelled).

    The functions of the other models take graphs and functions; here they are given any arguments.  A call returns the
    argument as it is after the call and the result; the value returned by most functions is not kept.  A call of a function
    which returns a generator gives the suspended computation. *)
From Coq Require Import QArith.
From Verif Require Import PyBase PyNum NxGraph M_UnionFind M_Graph M_Umst M_Disparity M_Tri M_Proj M_Learn M_Sparse M_Json M_Shim M_Tabular.
Close Scope Q_scope.

Inductive arg : Type := AGraph (g : graph) | AOther (v : val).
Inductive fn (A : Type) : Type := Fn (f : A) | NotFn (v : val).
Arguments Fn {A} f.
Arguments NotFn {A} v.

Definition call : Type := arg * res unit.
Definition suspended (A : Type) : Type := unit -> res A.

(** is_graph, graph.py lines 15-25 *)
Definition is_graph (value : arg) : bool := match value with AGraph _ => true | AOther _ => false end.

(** check_graph, graph.py lines 28-36 *)
Definition check_graph (value : arg) : res unit := if is_graph value then Ok tt else Err TypeError.

(** the first access to a method of the graph, as [graph.order] *)
Definition methods (value : arg) : res graph := match value with AGraph g => Ok g | AOther _ => Err AttributeError end.

(** [callable(value)] *)
Definition callable {A} (value : fn A) : bool := match value with Fn _ => true | NotFn _ => false end.

(** [if not callable(value): raise TypeError], graph.py lines 208-209, 236-237, 273-274, 310-311; calling a value which
    is not callable raises TypeError too *)
Definition check_callable {A} (value : fn A) : res unit := if callable value then Ok tt else Err TypeError.
Definition function_of {A} (value : fn A) : res A := match value with Fn f => Ok f | NotFn _ => Err TypeError end.

(** [if value is not None and not callable(value): raise TypeError], graph.py lines 418-419 and learn.py lines 67-68 *)
Definition check_optional {A} (value : option (fn A)) : res unit :=
  match value with None => Ok tt | Some f => if callable f then Ok tt else Err TypeError end.
Definition option_of {A} (value : option (fn A)) : res (option A) :=
  match value with None => Ok None | Some f => let* f := function_of f in Ok (Some f) end.

(** A function which modifies its argument, after its checks [before] *)
Definition mutating_call (a : arg) (before : res unit) (m : sm graph unit) : call :=
  match before with
  | Err e => (a, Err e)
  | Ok _ => match methods a with
            | Err e => (a, Err e)
            | Ok g => let (g', r) := m g in (AGraph g', r)
            end
  end.

(** ** graph.py *)

(** create_null_copy, lines 46-49 *)
Definition call_create_null_copy (graph : arg) : res NxGraph.graph :=
  let* _ := check_graph graph in let* g := methods graph in create_null_copy g.

(** largest_connected_component, line 66 *)
Definition call_largest_connected_component (graph : arg) : res (option (list key)) :=
  let* _ := check_graph graph in let* g := methods graph in Ok (largest_connected_component g).

(** crop_to_largest_connected_component, line 101 *)
Definition call_crop (graph : arg) : call := mutating_call graph (check_graph graph) crop_to_largest_connected_component.

(** largest_connected_component_subgraph, line 133 *)
Definition call_subgraph (graph : arg) (as_view : bool) : res NxGraph.graph :=
  let* _ := check_graph graph in let* g := methods graph in largest_connected_component_subgraph g as_view.

(** have_same_nodes, have_same_edges, are_same_graphs, lines 159-190: no check *)
Definition call_have_same_nodes (A B : arg) (check_attributes : bool) : res bool :=
  let* a := methods A in let* b := methods B in Ok (have_same_nodes a b check_attributes).
Definition call_have_same_edges (A B : arg) (check_attributes : bool) : res bool :=
  let* a := methods A in let* b := methods B in Ok (have_same_edges a b check_attributes).
Definition call_are_same_graphs (A B : arg) (check_attributes : bool) : res bool :=
  let* n := call_have_same_nodes A B check_attributes in
  if n then call_have_same_edges A B check_attributes else Ok false.

(** remove_edges, lines 206-209 *)
Definition call_remove_edges (graph : arg) (predicate : fn edge_predicate) : call :=
  mutating_call graph (let* _ := check_graph graph in check_callable predicate)
    (match predicate with Fn p => remove_edges p | NotFn _ => sraise TypeError end).

(** filter_edges, lines 234-237 *)
Definition call_filter_edges (graph : arg) (predicate : fn edge_predicate) : res NxGraph.graph :=
  let* _ := check_graph graph in
  let* _ := check_callable predicate in
  let* g := methods graph in let* p := function_of predicate in filter_edges g p.

(** remove_nodes, lines 271-274 *)
Definition call_remove_nodes (graph : arg) (predicate : fn node_predicate) : call :=
  mutating_call graph (let* _ := check_graph graph in check_callable predicate)
    (match predicate with Fn p => remove_nodes p | NotFn _ => sraise TypeError end).

(** filter_nodes, lines 310-313: the graph is checked by create_null_copy *)
Definition call_filter_nodes (graph : arg) (predicate : fn node_predicate) : res NxGraph.graph :=
  let* _ := check_callable predicate in
  let* _ := call_create_null_copy graph in
  let* g := methods graph in let* p := function_of predicate in filter_nodes g p.

(** [lambda n, _: graph.degree(n) != 1], lines 370 and 395 *)
Definition arg_not_leaf (graph : arg) : node_predicate := fun n a => let* g := methods graph in not_leaf g n a.

(** remove_leaves, line 370, which calls remove_nodes *)
Definition call_remove_leaves (graph : arg) : call := call_remove_nodes graph (Fn (arg_not_leaf graph)).

(** filter_leaves, line 395, which calls filter_nodes *)
Definition call_filter_leaves (graph : arg) : res NxGraph.graph := call_filter_nodes graph (Fn (arg_not_leaf graph)).

(** connected_component_orders, lines 416-441: checked on call, "wrapping generator to make sure type checking raises on call" *)
Definition call_connected_component_orders (graph : arg) (edge_filter : option (fn edge_predicate)) : res (suspended (list nat)) :=
  let* _ := check_graph graph in
  let* _ := check_optional edge_filter in
  Ok (fun _ => let* g := methods graph in let* f := option_of edge_filter in connected_component_orders g f).

(** largest_connected_component_order, lines 455-458: [graph.order()] comes first *)
Definition call_largest_connected_component_order (graph : arg) : res (option nat) :=
  let* g := methods graph in
  if Nat.eqb (order g) 0 then Ok None
  else let* _ := call_connected_component_orders graph None in largest_connected_component_order g.

(** second_largest_connected_component_order, lines 476-481 *)
Definition call_second_largest (graph : arg) (edge_filter : option (fn edge_predicate)) : res (option nat) :=
  let* _ := call_connected_component_orders graph edge_filter in
  let* g := methods graph in let* f := option_of edge_filter in second_largest_connected_component_order g f.

(** union_of_maximum_spanning_trees, lines 511-553: checked on call *)
Definition call_umst (lib : libm) (pf : platform) (graph : arg) (edge_weight_attr : key) : res (suspended (list edge3)) :=
  let* _ := check_graph graph in
  Ok (fun _ => let* g := methods graph in union_of_maximum_spanning_trees lib pf g edge_weight_attr).

(** ** metrics *)

(** edge_disparity, edge_disparity.py line 70 *)
Definition call_edge_disparity (lib : libm) (graph : arg) (edge_weight_attr : key) (reverse : bool) : res (pdict Q) :=
  let* _ := check_graph graph in let* g := methods graph in edge_disparity lib g edge_weight_attr reverse.

(** triangles, chiba_nishizeki.py lines 40-111: checked on call *)
Definition call_triangles (set_order : list key -> list key) (graph : arg) : res (suspended (list triangle)) :=
  let* _ := check_graph graph in
  Ok (fun _ => let* g := methods graph in triangles set_order g).

(** naive_triangular_strength, chiba_nishizeki.py line 127 *)
Definition call_naive_strength (set_order : list key -> list key) (graph : arg) (full : bool) : res (pdict nat) :=
  let* _ := check_graph graph in let* g := methods graph in naive_triangular_strength set_order g full.

(** triangular_strength, chiba_nishizeki.py lines 179-204: with full=True [graph.edges()] comes before triangles *)
Definition call_strength (set_order : list key -> list key) (graph : arg) (full : bool) : res (pdict nat) :=
  let* _ := if full then let* _ := methods graph in Ok tt else Ok tt in
  let* _ := call_triangles set_order graph in
  let* g := methods graph in triangular_strength set_order g full.

(** ** projection.py *)

(** monopartite_projection, line 80 *)
Definition call_projection (lib : libm) (graph : arg) (part_to_keep : part) (node_part_attr edge_weight_attr : key)
  (metric_name : val) (bipartition_check : bool) (weight_threshold : val) : res NxGraph.graph :=
  let* _ := check_graph graph in
  let* g := methods graph in
  monopartite_projection lib g part_to_keep node_part_attr edge_weight_attr metric_name bipartition_check weight_threshold.

(** self_similarity_projection, line 195 *)
Definition call_self_similarity (lib : libm) (graph : arg) (depth : Z) : res NxGraph.graph :=
  let* _ := check_graph graph in let* g := methods graph in self_similarity_projection lib g depth.

(** ** learn.py *)

(** floatsam_threshold_learner, lines 65-68.  Simplification: on_epoch returns, see M_Epoch. *)
Definition call_learner (fuel : nat) (lib : libm) (graph : arg) (starting_threshold learning_rate : pynum)
  (max_drifter_order : option Z) (edge_weight_attr : key) (on_epoch : option (fn (epoch -> unit))) : res (pynum * list epoch) :=
  let* _ := check_graph graph in
  let* _ := check_optional on_epoch in
  let* g := methods graph in
  floatsam_threshold_learner fuel lib g starting_threshold learning_rate max_drifter_order edge_weight_attr.

(** ** sparsification *)

(** Sparsifier.relevant_edges and redundant_edges, utils.py lines 121-129: checked on call *)
Definition call_relevant_edges (sp : sparsifier) (graph : arg) : res (suspended (list edge3)) :=
  let* _ := check_graph graph in Ok (fun _ => let* g := methods graph in relevant_edges sp g).
Definition call_redundant_edges (sp : sparsifier) (graph : arg) : res (suspended (list edge3)) :=
  let* _ := check_graph graph in Ok (fun _ => let* g := methods graph in redundant_edges sp g).

(** Sparsifier.filter and __call__, utils.py lines 103-104, 118-119 *)
Definition call_filter (sp : sparsifier) (graph : arg) : res NxGraph.graph :=
  let* _ := check_graph graph in let* g := methods graph in sparsifier_filter sp g.

(** Sparsifier.remove, utils.py lines 113-114 *)
Definition call_remove (sp : sparsifier) (graph : arg) : call := mutating_call graph (check_graph graph) (sparsifier_remove sp).

(** GlobalThresholdSparsifier and MultiscaleBackboneSparsifier, as classes: the arguments of their instances *)
Inductive sparsifier_spec : Type :=
| GlobalThreshold (weight_threshold : Q) (edge_weight_attr : key) (reverse keep_connected : bool)
| Backbone (alpha : Q) (edge_weight_attr : key) (keep_connected : bool).

Definition instantiate (lib : libm) (pf : platform) (s : sparsifier_spec) : res sparsifier :=
  match s with
  | GlobalThreshold t w r k => global_threshold_sparsifier lib pf t w r k
  | Backbone alpha w k => multiscale_backbone_sparsifier lib pf alpha w k
  end.

(** [self.edge_predicate_factory(graph)] for these instances: global_threshold.py lines 16-20 does not look at the graph,
    multiscale_backbone.py lines 16-17 calls edge_disparity; with keep_connected, utils.py lines 12-13 call the
    factory and then union_of_maximum_spanning_trees *)
Definition call_factory (lib : libm) (pf : platform) (s : sparsifier_spec) (graph : arg) : res unit :=
  let* _ := match s with
            | GlobalThreshold _ _ _ _ => Ok tt
            | Backbone _ w _ => let* _ := call_edge_disparity lib graph w false in Ok tt
            end in
  if match s with GlobalThreshold _ _ _ k => k | Backbone _ _ k => k end
  then let* trees := call_umst lib pf graph (K "weight") in let* _ := trees tt in Ok tt
  else Ok tt.

(** flag_relevant_edges and flag_redundant_edges, utils.py lines 131-149: with full=True the graph is not checked *)
Definition call_flag (relevant : bool) (lib : libm) (pf : platform) (s : sparsifier_spec) (graph : arg) (attr : key) (full : bool) : call :=
  match instantiate lib pf s with
  | Err e => (graph, Err e)
  | Ok sp =>
      mutating_call graph
        (if full then call_factory lib pf s graph
         else let* _ := (if relevant then call_relevant_edges else call_redundant_edges) sp graph in Ok tt)
        (if relevant then flag_relevant_edges sp attr full else flag_redundant_edges sp attr full)
  end.

(** global_threshold_sparsification and multiscale_backbone: global_threshold.py lines 51-56, multiscale_backbone.py lines 66-68 *)
Definition call_sparsification (lib : libm) (pf : platform) (s : sparsifier_spec) (graph : arg) : res NxGraph.graph :=
  let* sp := instantiate lib pf s in call_filter sp graph.

(** ** write.py and graph_to_tabular.py *)

(** write_graphology_json, write.py line 59: no check, [graph.graph] comes first *)
Definition call_write (repr : nat -> string) (graph : arg) (allow_mixed_keys allow_invalid_attr_names : bool) : res document :=
  let* g := methods graph in write_graphology_json repr g allow_mixed_keys allow_invalid_attr_names.

(** graph_to_nodes_dataframe, graph_to_tabular.py lines 33-34: pandas is checked first *)
Definition call_nodes_dataframe (s : shim) (nan : val) (graph : arg) (node_key_col : option key) : res frame :=
  let* _ := check_pandas s in
  let* _ := check_graph graph in
  let* g := methods graph in graph_to_nodes_dataframe s nan g node_key_col.

(** graph_to_edges_dataframe, lines 86-87 *)
Definition call_edges_dataframe (s : shim) (nan : val) (graph : arg) (sc tc : key) (source_node_data target_node_data : option node_columns) : res frame :=
  let* _ := check_pandas s in
  let* _ := check_graph graph in
  let* g := methods graph in graph_to_edges_dataframe s nan g sc tc source_node_data target_node_data.

(** graph_to_dataframes, lines 163-172 *)
Definition call_dataframes (s : shim) (nan : val) (graph : arg) (node_key_col : option key) (sc tc : key)
  (source_node_data target_node_data : option node_columns) : res (frame * frame) :=
  let* n := call_nodes_dataframe s nan graph node_key_col in
  let* e := call_edges_dataframe s nan graph sc tc source_node_data target_node_data in
  Ok (n, e).
