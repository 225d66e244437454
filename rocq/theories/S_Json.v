(** * Specifications for reading and writing graphology JSON *)
From Coq Require Import ZArith String DecimalString.
From Verif Require Import PyBase NxGraph S_Graph M_Json.

(** one-to-one on the listed keys *)
Definition injective_on (N : list key) (f : key -> key) : Prop :=
  forall x y, In x N -> In y N -> f x = f y -> x = y.

(** the attributes of the edges from [u] to [v], in order *)
Definition parallel (g : graph) (u v : key) : list attrs :=
  match edge_data g u v with Some kd => map snd kd | None => [] end.

(** edge keys are 0, 1, 2... *)
Definition numbered (kd : dict attrs) : Prop := dkeys kd = map (fun i => KInt (Z.of_nat i)) (seq 0 (List.length kd)).

(** [h] is [g] where [f] gives the names of nodes; edge keys are not kept *)
Definition renamed_copy (f : key -> key) (g h : graph) : Prop :=
  same_kind g h /\ g_attr h = g_attr g
  /\ g_nodes h = map (fun na => (f (fst na), snd na)) (g_nodes g)
  /\ (forall u v, In u (nodes g) -> In v (nodes g) -> parallel h (f u) (f v) = parallel g u v)
  /\ (forall u v kd, edge_data h u v = Some kd -> numbered kd)
  /\ edges_data h = map (fun e => (f (fst (fst e)), f (snd (fst e)), snd e)) (edges_data g).

(** same kind, nodes, edges, edge keys and attributes *)
Definition same_graph (g h : graph) : Prop :=
  same_kind g h /\ g_attr h = g_attr g /\ g_nodes h = g_nodes g
  /\ (forall u v k, edge_attrs h u v k = edge_attrs g u v k)
  /\ edges_data h = edges_data g.

Definition str_keys (g : graph) : Prop := forall n, In n (nodes g) -> exists s, n = KStr s.
Definition int_keys (g : graph) : Prop := forall n, In n (nodes g) -> exists z, n = KInt z.

(** every attribute name of a node or an edge is a string *)
Definition str_names (g : graph) : Prop :=
  (forall n a k, In (n, a) (g_nodes g) -> In k (dkeys a) -> exists s, k = KStr s)
  /\ (forall u v a k, In (u, v, a) (edges_data g) -> In k (dkeys a) -> exists s, k = KStr s).

(** names which can be passed to networkx as keyword arguments *)
Definition passable (g : graph) : Prop := graph_names g /\ node_names g /\ edge_names g.

(** ** Serialized graphs *)
Definition doc_nodes (d : document) : list s_node := match d_nodes d with Some l => l | None => [] end.
Definition doc_edges (d : document) : list s_edge := match d_edges d with Some l => l | None => [] end.
Definition doc_attributes (d : document) : attrs := match d_attributes d with Some a => a | None => [] end.

(** no required field is missing *)
Definition complete (d : document) : Prop :=
  (exists o t m, d_options d = Some o /\ o_type o = Some t /\ o_multi o = Some m)
  /\ (forall s, In s (doc_nodes d) -> sn_key s <> None)
  /\ (forall e, In e (doc_edges d) -> se_source e <> None /\ se_target e <> None).

Definition declared (t : string) (d : document) : Prop := exists o, d_options d = Some o /\ o_type o = Some t.
Definition declared_multi (m : bool) (d : document) : Prop := exists o, d_options d = Some o /\ o_multi o = Some m.

(** the edges marked as undirected *)
Definition undirected_edge (e : s_edge) : Prop := se_undirected e = Some true.

(** attribute names which can be passed to networkx as keyword arguments *)
Definition doc_passable (d : document) : Prop :=
  (forall k, In k (dkeys (doc_attributes d)) -> (exists s, k = KStr s) /\ k <> K "self" /\ k <> K "incoming_graph_data")
  /\ (forall s a k, In s (doc_nodes d) -> sn_attributes s = Some a -> In k (dkeys a) -> (exists s, k = KStr s) /\ ~ In k node_reserved)
  /\ (forall e a k, In e (doc_edges d) -> se_attributes e = Some a -> In k (dkeys a) ->
        (exists s, k = KStr s) /\ forall m, declared_multi m d -> ~ In k (edge_reserved m) /\ (m = true -> k <> K "key")).

(** the decimal representation of an int *)
Definition decimal (z : Z) : string := NilZero.string_of_int (Z.to_int z).
