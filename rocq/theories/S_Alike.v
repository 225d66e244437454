(** * Specification of graphs which differ only by attributes nobody reads *)
From Coq Require Import List.
From Verif Require Import PyBase NxGraph.
Import ListNotations.

(** the attributes of an edge whose names are in [names] *)
Definition shown (names : list key) (a : attrs) : attrs := filter (fun kv => mem (fst kv) names) a.

(** the graph without the attributes of the graph and of the nodes, and with those attributes of the edges only *)
Definition bare (names : list key) (g : graph) : graph :=
  mkG (g_dir g) (g_multi g) [] (map (fun na => (fst na, [])) (g_nodes g))
    (map (fun b => mkB (b_src b) (b_dst b) (map (fun ka => (fst ka, shown names (snd ka))) (b_data b))) (g_adj g)).

(** two graphs with the same nodes and edges, whose edges have the same values for those attributes *)
Definition alike (names : list key) (g h : graph) : Prop := bare names g = bare names h.
