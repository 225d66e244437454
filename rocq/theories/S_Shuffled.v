(** * Specification of the same graph built in another order *)
From Verif Require Import PyBase NxGraph.

(** the same nodes, edges and attributes, inserted in any order *)
Definition shuffled (g h : graph) : Prop :=
  g_dir g = g_dir h /\ g_multi g = g_multi h
  /\ (forall n, node_data g n = node_data h n)
  /\ (forall u v k, edge_attrs g u v k = edge_attrs h u v k).
