(** * What the checks of arguments should do (C99)

    The calls of the functions which take a graph, by their arguments; what makes the arguments wrong; and which exception a
    wrong call raises. *)
From Coq Require Import QArith.
From Verif Require Import PyBase PyNum NxGraph M_UnionFind M_Graph M_Umst M_Disparity M_Tri M_Proj M_Learn M_Sparse M_Json M_Shim M_Tabular M_Check.
Close Scope Q_scope.

(** The surroundings of a call, which the checks do not depend on *)
Record surroundings : Type := mkEnv {
  s_lib : libm; s_pf : platform; s_order : list key -> list key; s_repr : nat -> string; s_nan : val; s_fuel : nat }.

Inductive request : Type :=
| RLargest (a : arg)
| RCrop (a : arg)
| RSubgraph (a : arg) (as_view : bool)
| RSameNodes (a b : arg) (check_attributes : bool)
| RSameEdges (a b : arg) (check_attributes : bool)
| RSameGraphs (a b : arg) (check_attributes : bool)
| RRemoveEdges (a : arg) (p : fn edge_predicate)
| RFilterEdges (a : arg) (p : fn edge_predicate)
| RRemoveNodes (a : arg) (p : fn node_predicate)
| RFilterNodes (a : arg) (p : fn node_predicate)
| RRemoveLeaves (a : arg)
| RFilterLeaves (a : arg)
| ROrders (a : arg) (f : option (fn edge_predicate))
| RLargestOrder (a : arg)
| RSecondOrder (a : arg) (f : option (fn edge_predicate))
| RTrees (a : arg) (w : key)
| RDisparity (a : arg) (w : key) (reverse : bool)
| RTriangles (a : arg)
| RNaiveStrength (a : arg) (full : bool)
| RStrength (a : arg) (full : bool)
| RProjection (a : arg) (p : part) (pa w : key) (metric_name : val) (check : bool) (threshold : val)
| RSelfSimilarity (a : arg) (depth : Z)
| RLearner (a : arg) (start rate : pynum) (drifters : option Z) (w : key) (on_epoch : option (fn (epoch -> unit)))
| RRelevant (sp : sparsifier) (a : arg)
| RRedundant (sp : sparsifier) (a : arg)
| RFilter (sp : sparsifier) (a : arg)
| RRemove (sp : sparsifier) (a : arg)
| RFlag (relevant : bool) (s : sparsifier_spec) (a : arg) (attr : key) (full : bool)
| RSparsify (s : sparsifier_spec) (a : arg)
| RWrite (a : arg) (mixed invalid : bool)
| RNodesFrame (s : shim) (a : arg) (col : option key)
| REdgesFrame (s : shim) (a : arg) (sc tc : key) (sd td : option node_columns)
| RFrames (s : shim) (a : arg) (col : option key) (sc tc : key) (sd td : option node_columns).

(** The argument given as graph (the first one, when there are two) *)
Definition subject (r : request) : arg :=
  match r with
  | RLargest a | RCrop a | RSubgraph a _ | RSameNodes a _ _ | RSameEdges a _ _ | RSameGraphs a _ _
  | RRemoveEdges a _ | RFilterEdges a _ | RRemoveNodes a _ | RFilterNodes a _ | RRemoveLeaves a | RFilterLeaves a
  | ROrders a _ | RLargestOrder a | RSecondOrder a _ | RTrees a _ | RDisparity a _ _ | RTriangles a | RNaiveStrength a _
  | RStrength a _ | RProjection a _ _ _ _ _ _ | RSelfSimilarity a _ | RLearner a _ _ _ _ _ | RRelevant _ a | RRedundant _ a
  | RFilter _ a | RRemove _ a | RFlag _ _ a _ _ | RSparsify _ a | RWrite a _ _ | RNodesFrame _ a _ | REdgesFrame _ a _ _ _ _
  | RFrames _ a _ _ _ _ _ => a
  end.

Definition is_a_graph (a : arg) : Prop := exists g, a = AGraph g.
Definition is_a_function {A} (f : fn A) : Prop := exists x, f = Fn x.

(** An argument which should be a graph is not one, or one which should be a function is not callable *)
Definition wrong (r : request) : Prop :=
  ~ is_a_graph (subject r)
  \/ match r with
     | RSameNodes _ b _ | RSameEdges _ b _ | RSameGraphs _ b _ => ~ is_a_graph b
     | RRemoveEdges _ p | RFilterEdges _ p => ~ is_a_function p
     | RRemoveNodes _ p | RFilterNodes _ p => ~ is_a_function p
     | ROrders _ (Some f) | RSecondOrder _ (Some f) => ~ is_a_function f
     | RLearner _ _ _ _ _ (Some f) => ~ is_a_function f
     | _ => False
     end.

(** The calls which do not refuse wrong arguments with a TypeError: the functions which compare graphs, the order of the
    largest component, the writer, the strengths with full=True, the flags with full=True of a global threshold without
    keep_connected, and the tables when pandas is missing *)
Definition unchecked (r : request) : Prop :=
  match r with
  | RSameNodes _ _ _ | RSameEdges _ _ _ | RSameGraphs _ _ _ | RLargestOrder _ | RWrite _ _ _ => True
  | RStrength _ full => full = true
  | RFlag _ (GlobalThreshold _ _ _ false) _ _ full => full = true
  | RNodesFrame s _ _ | REdgesFrame s _ _ _ _ _ | RFrames s _ _ _ _ _ _ => pd s = false
  | _ => False
  end.

(** The call made: the argument after it, and whether it returns.  Functions which return generators are called, and the
    generators are not consumed. *)
Definition outcome {A} (a : arg) (r : res A) : call := (a, match r with Ok _ => Ok tt | Err e => Err e end).

Definition run (e : surroundings) (r : request) : call :=
  match r with
  | RLargest a => outcome a (call_largest_connected_component a)
  | RCrop a => call_crop a
  | RSubgraph a v => outcome a (call_subgraph a v)
  | RSameNodes a b c => outcome a (call_have_same_nodes a b c)
  | RSameEdges a b c => outcome a (call_have_same_edges a b c)
  | RSameGraphs a b c => outcome a (call_are_same_graphs a b c)
  | RRemoveEdges a p => call_remove_edges a p
  | RFilterEdges a p => outcome a (call_filter_edges a p)
  | RRemoveNodes a p => call_remove_nodes a p
  | RFilterNodes a p => outcome a (call_filter_nodes a p)
  | RRemoveLeaves a => call_remove_leaves a
  | RFilterLeaves a => outcome a (call_filter_leaves a)
  | ROrders a f => outcome a (call_connected_component_orders a f)
  | RLargestOrder a => outcome a (call_largest_connected_component_order a)
  | RSecondOrder a f => outcome a (call_second_largest a f)
  | RTrees a w => outcome a (call_umst (s_lib e) (s_pf e) a w)
  | RDisparity a w rev => outcome a (call_edge_disparity (s_lib e) a w rev)
  | RTriangles a => outcome a (call_triangles (s_order e) a)
  | RNaiveStrength a full => outcome a (call_naive_strength (s_order e) a full)
  | RStrength a full => outcome a (call_strength (s_order e) a full)
  | RProjection a p pa w m c t => outcome a (call_projection (s_lib e) a p pa w m c t)
  | RSelfSimilarity a d => outcome a (call_self_similarity (s_lib e) a d)
  | RLearner a start rate d w f => outcome a (call_learner (s_fuel e) (s_lib e) a start rate d w f)
  | RRelevant sp a => outcome a (call_relevant_edges sp a)
  | RRedundant sp a => outcome a (call_redundant_edges sp a)
  | RFilter sp a => outcome a (call_filter sp a)
  | RRemove sp a => call_remove sp a
  | RFlag b s a attr full => call_flag b (s_lib e) (s_pf e) s a attr full
  | RSparsify s a => outcome a (call_sparsification (s_lib e) (s_pf e) s a)
  | RWrite a m i => outcome a (call_write (s_repr e) a m i)
  | RNodesFrame s a c => outcome a (call_nodes_dataframe s (s_nan e) a c)
  | REdgesFrame s a sc tc sd td => outcome a (call_edges_dataframe s (s_nan e) a sc tc sd td)
  | RFrames s a c sc tc sd td => outcome a (call_dataframes s (s_nan e) a c sc tc sd td)
  end.

(** The exception which a wrong call raises *)
Definition refusal (r : request) : exc :=
  match r with
  | RSameNodes _ _ _ | RSameEdges _ _ _ | RSameGraphs _ _ _ | RLargestOrder _ | RWrite _ _ _ => AttributeError
  | RStrength _ true => AttributeError
  | RFlag _ (GlobalThreshold _ _ _ false) _ _ true => AttributeError
  | RNodesFrame s _ _ | REdgesFrame s _ _ _ _ _ | RFrames s _ _ _ _ _ _ => if pd s then TypeError else MissingPandasException
  | _ => TypeError
  end.

(** What a call does when its arguments are right: the functions of the other models *)
Definition mutated {A} (x : graph * res A) : call := outcome (AGraph (fst x)) (snd x).
