(** * Specifications for pelote/graph.py

    Stated with what a networkx graph shows: its nodes, attributes and listed edges. *)
From Coq Require Import Relations.
From Verif Require Import PyBase NxGraph S_Partition.

(** ** Attributes *)

(** equality of dicts, by lookup *)
Definition same_attrs (a b : attrs) : Prop := forall k,
  match dget k a, dget k b with
  | Some x, Some y => val_eqb x y = true
  | None, None => True
  | _, _ => False
  end.

Definition same_opt (x y : option attrs) : Prop :=
  match x, y with Some a, Some b => same_attrs a b | None, None => True | _, _ => False end.

(** ** Graphs *)

Definition same_kind (g h : graph) : Prop := g_dir g = g_dir h /\ g_multi g = g_multi h.

Definition same_node_set (g h : graph) : Prop := forall n, In n (nodes g) <-> In n (nodes h).
Definition same_links (g h : graph) : Prop := forall u v, has_edge g u v = has_edge h u v.

(** nothing but the edges differs *)
Definition same_but_edges (g h : graph) : Prop :=
  same_kind g h /\ g_attr g = g_attr h /\ g_nodes g = g_nodes h.

(** a graph with the same nodes, each with the same attributes, in an order of its own *)
Definition same_nodes_attrs (g h : graph) : Prop := forall n, node_data g n = node_data h n.

(** [h] is the subgraph of [g] induced by the nodes satisfying [P], with every attribute and edge key *)
Definition induced_by (P : key -> bool) (g h : graph) : Prop :=
  same_kind g h /\ g_attr g = g_attr h
  /\ (forall n, node_data h n = if P n then node_data g n else None)
  /\ (forall u v k, edge_attrs h u v k = if P u && P v then edge_attrs g u v k else None).

(** every edge has the same number of parallels *)
Definition multiplicity (g : graph) (u v : key) : nat :=
  match edge_data g u v with Some kd => List.length kd | None => 0 end.

(** the predicate answers [p] on every edge / node of the graph *)
Definition edge_test (g : graph) (f : key -> key -> attrs -> res bool) (p : key -> key -> attrs -> bool) : Prop :=
  forall u v a, In (u, v, a) (edges_data g) -> f u v a = Ok (p u v a).
Definition node_test (g : graph) (f : key -> attrs -> res bool) (p : key -> attrs -> bool) : Prop :=
  forall n a, In (n, a) (g_nodes g) -> f n a = Ok (p n a).
Definition on_edge (p : key -> key -> attrs -> bool) (e : key * key * attrs) : bool :=
  p (fst (fst e)) (snd (fst e)) (snd e).

(** names which can be passed as keyword arguments to add_edge, add_node and the constructor *)
Definition edge_names (g : graph) : Prop := forall u v a k, In (u, v, a) (edges_data g) -> In k (dkeys a) ->
  (exists s, k = KStr s) /\ ~ In k (edge_reserved (g_multi g)) /\ (g_multi g = true -> k <> K "key").
Definition node_names (g : graph) : Prop := forall n a k, In (n, a) (g_nodes g) -> In k (dkeys a) ->
  (exists s, k = KStr s) /\ ~ In k node_reserved.
Definition graph_names (g : graph) : Prop := forall k, In k (dkeys (g_attr g)) ->
  (exists s, k = KStr s) /\ k <> K "self" /\ k <> K "incoming_graph_data".

(** ** Connectivity *)

(** joined by a path, ignoring directions *)
Definition connected (g : graph) : key -> key -> Prop :=
  clos_refl_sym_trans key (fun x y => has_edge g x y = true).

(** joined by a path of accepted edges *)
Definition connected_by (g : graph) (p : key -> key -> attrs -> bool) : key -> key -> Prop :=
  clos_refl_sym_trans key (fun x y => exists k a, edge_attrs g x y k = Some a /\ p x y a = true).

(** [xs] lists one value per class of [R] on [N], in order of the first node of the class, [Q] telling
    which value suits the class *)
Definition per_class {A} (N : list key) (R : key -> key -> Prop) (Q : (key -> Prop) -> A -> Prop) (xs : list A) : Prop :=
  exists first : key -> bool,
    (forall pre r post, N = pre ++ r :: post -> (first r = true <-> forall x, In x pre -> ~ R x r))
    /\ Forall2 (fun r x => Q (fun y => In y N /\ R r y) x) (filter first N) xs.

Definition class_sizes N R (sizes : list nat) : Prop := per_class N R has_size sizes.
(** the greatest of the first sizes, up to position [k]; these maxima summed up to [k]; the position from
    which the rest, computed with them, is smaller than the greatest size seen *)
Definition greatest_of (sizes : list nat) : nat := fold_right Nat.max 0 sizes.
Definition maximum_to (sizes : list nat) (k : nat) : nat := greatest_of (firstn (S k) sizes).
Definition maxima_to (sizes : list nat) (k : nat) : nat := list_sum (map (maximum_to sizes) (seq 0 (S k))).
Definition seems_enough (sizes : list nat) (k : nat) : Prop :=
  list_sum sizes < maxima_to sizes k + maximum_to sizes k.

Definition class_lists N R (classes : list (list key)) : Prop := per_class N R (fun P c => enumerates c P) classes.

(** [sizes] lists, for each node of [todo] which no node before it ([pre] holds the earlier ones) reaches by [R],
    the number of nodes it reaches and which none of the nodes before it reaches *)
Inductive newly_reached (R : key -> key -> Prop) : list key -> list key -> list nat -> Prop :=
| nr_end pre : newly_reached R pre [] []
| nr_known pre r todo sizes : (exists x, In x pre /\ R x r) -> newly_reached R (pre ++ [r]) todo sizes ->
    newly_reached R pre (r :: todo) sizes
| nr_new pre r todo n sizes : (forall x, In x pre -> ~ R x r) -> has_size (fun y => R r y /\ forall x, In x pre -> ~ R x y) n ->
    newly_reached R (pre ++ [r]) todo sizes -> newly_reached R pre (r :: todo) (n :: sizes).

(** [c] is the node set of a component of [g] *)
Definition is_component (g : graph) (c : list key) : Prop :=
  exists n, In n (nodes g) /\ enumerates c (fun x => In x (nodes g) /\ connected g n x).

(** the optional filter answers [p]; without filter everything is accepted *)
Definition filter_test (g : graph) (f : option (key -> key -> attrs -> res bool)) (p : key -> key -> attrs -> bool) : Prop :=
  match f with
  | None => forall u v a, p u v a = true
  | Some f => forall u v k a, edge_attrs g u v k = Some a -> f u v a = Ok (p u v a)
  end.
Definition symmetric_test (p : key -> key -> attrs -> bool) : Prop := forall u v a, p u v a = p v u a.

(** [m] is greatest in [l]; [m] comes second when [l] is sorted in decreasing order *)
Definition greatest (m : nat) (l : list nat) : Prop := In m l /\ forall x, In x l -> x <= m.
Definition second_greatest (m : nat) (l : list nat) : Prop :=
  exists a b M, l = a ++ M :: b /\ greatest M l /\ greatest m (a ++ b).

(** keys which Python can compare *)
Definition comparable (l : list key) : Prop :=
  (forall k, In k l -> exists z, k = KInt z) \/ (forall k, In k l -> exists s, k = KStr s).

Definition no_loops (g : graph) : Prop := forall u, has_edge g u u = false.

(** the number of edge ends at a node: a loop counts for two *)
Definition edge_ends (g : graph) (n : key) : nat :=
  sum_nat (map (fun e => (if key_eqb (fst (fst e)) n then 1 else 0) + (if key_eqb (snd (fst e)) n then 1 else 0)) (edges_data g)).

(** a node of the graph passing the test *)
Definition accepted (g : graph) (p : key -> attrs -> bool) (n : key) : bool :=
  match node_data g n with Some a => p n a | None => false end.

(** what filter_nodes needs: the attributes of the nodes and edges it copies are names of no argument, and in an
    undirected graph each accepted node can be compared with its neighbours, accepted or not *)
Definition fit_nodes (g : graph) (p : key -> attrs -> bool) : Prop := forall n a k, In (n, a) (g_nodes g) -> p n a = true -> In k (dkeys a) ->
  (exists s, k = KStr s) /\ ~ In k node_reserved.
Definition fit_edges (g : graph) (p : key -> attrs -> bool) : Prop := forall u v k a x, edge_attrs g u v k = Some a ->
  accepted g p u = true -> accepted g p v = true -> g_dir g = true \/ u <> v -> In x (dkeys a) ->
  (exists s, x = KStr s) /\ ~ In x (edge_reserved (g_multi g)) /\ (g_multi g = true -> x <> K "key").
Definition fit_order (g : graph) (p : key -> attrs -> bool) : Prop := g_dir g = false -> forall u v, accepted g p u = true -> has_edge g u v = true ->
  exists b, key_lt v u = Ok b.

(** [e] is the first exception raised by [f] on the list *)
Definition fails_first {A B} (f : A -> res B) (l : list A) (e : exc) : Prop :=
  exists l1 x l2, l = l1 ++ x :: l2 /\ (forall y, In y l1 -> exists b, f y = Ok b) /\ f x = Err e.
