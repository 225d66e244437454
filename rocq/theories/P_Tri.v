(** * C40-C42: triangles *)
From Coq Require Import List ZArith Lia Bool Permutation.
From Verif Require Import PyBase NxGraph L_Base L_Nx S_Partition S_Graph S_Sparse M_Disparity M_Tri S_Tri L_Tri L_Tri2 P_Graph.
Import ListNotations.

(** ** C40 each triangle once *)
Theorem C40_triangles set_order g : WF g -> reorders set_order ->
  exists l, triangles set_order g = Ok l /\ lists_triangles g l.
Proof. intros W R. destruct (triangles_spec set_order g W R) as (l & E & T & _). eauto. Qed.
Print Assumptions C40_triangles.

(** The same for whatever view of the graph without directions the code is given: neither the way degrees are counted
    (it depends on the version of networkx) nor the order of neighbours matters. *)
Theorem C40_any_view g v : WF g -> shows g v -> exists l, triangles_of v = Ok l /\ lists_triangles g l.
Proof. intros W Sh. destruct (triangles_of_spec g v W Sh) as (l & E & T & _). eauto. Qed.
Print Assumptions C40_any_view.

(** two orders of sets *)
Definition in_order (l : list key) : list key := l.
Lemma in_order_reorders : reorders in_order.
Proof. intros l. apply Permutation_refl. Qed.
Lemma rev_reorders : reorders (@rev key).
Proof. intros l. apply Permutation_rev. Qed.

(** a directed multigraph with a loop, parallel edges and a leaf; the set of nodes {0, 1, 2, 3} is complete *)
Definition knot : graph :=
  ex_graph true true [0; 1; 2; 3; 4; 5]%Z
    (plain [(0, 1); (1, 0); (2, 0); (2, 0); (1, 2); (3, 0); (3, 1); (2, 3); (3, 3); (3, 4); (4, 2); (5, 0)]%Z).
Example C40_ex : wf knot = true
  /\ triangles in_order knot = Ok [(KInt 3, KInt 4, KInt 2); (KInt 3, KInt 2, KInt 0); (KInt 3, KInt 2, KInt 1); (KInt 3, KInt 1, KInt 0); (KInt 0, KInt 2, KInt 1)].
Proof. split; vm_compute; reflexivity. Qed.

(** other orders give other lists of the same triangles *)
Example C40_ex_order :
  triangles (@rev key) knot = Ok [(KInt 3, KInt 0, KInt 2); (KInt 3, KInt 0, KInt 1); (KInt 3, KInt 1, KInt 2); (KInt 3, KInt 2, KInt 4); (KInt 0, KInt 1, KInt 2)].
Proof. vm_compute. reflexivity. Qed.

(** a view which counts each neighbour and edge key once *)
Definition knot_view : view :=
  let u := to_undirected knot in mkView (nodes u) (neighbors u) (degree u) (edge_list u).
Example C40_ex_view :
  map (v_degree knot_view) (nodes knot) = [5; 3; 5; 6; 2; 1]
  /\ map (v_degree (undirected_view in_order knot)) (nodes knot) = [6; 4; 5; 8; 2; 1]
  /\ triangles_of knot_view = Ok [(KInt 3, KInt 4, KInt 2); (KInt 3, KInt 2, KInt 0); (KInt 3, KInt 2, KInt 1); (KInt 3, KInt 1, KInt 0); (KInt 0, KInt 2, KInt 1)].
Proof. vm_compute. repeat split. Qed.

(** ** C41 triangular strength *)
Theorem C41_strength set_order g full : WF g -> reorders set_order -> comparable (nodes g) ->
  exists d, triangular_strength set_order g full = Ok d /\ NoDup (map fst d)
    /\ (forall u v, In (u, v) (map fst d) <->
          smaller_first u v /\ linked g u v /\ (full = true \/ exists w, common g u v w))
    /\ forall u v n, In (u, v, n) d -> has_size (common g u v) n.
Proof. exact (triangular_strength_spec set_order g full). Qed.
Print Assumptions C41_strength.

Example C41_ex : comparable (nodes knot)
  /\ triangular_strength in_order knot true = Ok [
       (KInt 0, KInt 1, 2); (KInt 1, KInt 2, 2); (KInt 0, KInt 2, 2); (KInt 2, KInt 3, 3); (KInt 0, KInt 3, 2); (KInt 1, KInt 3, 2);
       (KInt 3, KInt 3, 0); (KInt 3, KInt 4, 1); (KInt 2, KInt 4, 1); (KInt 0, KInt 5, 0)].
Proof. split; [left; vm_compute; intuition (subst; eauto)|vm_compute; reflexivity]. Qed.

(** ** C42 the naive method *)

(** an edge between two nodes of degree two or more in no triangle has an entry of its own even if full is False *)
Definition chain : graph := ex_graph false false [0; 1; 2; 3]%Z (plain [(0, 1); (1, 2); (2, 3)]%Z).
Theorem C42_zero_entries_refuted :
  exists g, WF g /\ comparable (nodes g) /\ no_loops g
    /\ triangular_strength in_order g false = Ok [] /\ naive_triangular_strength in_order g false = Ok [(KInt 1, KInt 2, 0)].
Proof.
  exists chain. split; [apply graph_WF; reflexivity|]. split; [left; vm_compute; intuition (subst; eauto)|]. split.
  - intros u. destruct (has_edge chain u u) eqn:E; [|reflexivity]. exfalso.
    assert (X : In (u, u) (edges chain)).
    { apply has_edge_edges in E; [|apply graph_WF; reflexivity]. tauto. }
    vm_compute in X. intuition congruence.
  - split; vm_compute; reflexivity.
Qed.
Print Assumptions C42_zero_entries_refuted.

(** a self-loop gets the number of neighbours of its node *)
Definition looped : graph := ex_graph false false [0; 1; 2]%Z (plain [(0, 0); (0, 1); (0, 2)]%Z).
Theorem C42_loops_refuted :
  exists g, WF g /\ comparable (nodes g)
    /\ triangular_strength in_order g true = Ok [(KInt 0, KInt 0, 0); (KInt 0, KInt 1, 0); (KInt 0, KInt 2, 0)]
    /\ naive_triangular_strength in_order g true = Ok [(KInt 0, KInt 0, 2); (KInt 0, KInt 1, 0); (KInt 0, KInt 2, 0)].
Proof.
  exists looped. split; [apply graph_WF; reflexivity|]. split; [left; vm_compute; intuition (subst; eauto)|].
  split; vm_compute; reflexivity.
Qed.
Print Assumptions C42_loops_refuted.

(** Full statement: both functions return the same mapping, for both values of full.  It holds for full=True on graphs
    without loops, and otherwise up to the entries of loops and, without full, the entries 0. *)
Theorem C42_agree_partial set_order g full : WF g -> reorders set_order -> comparable (nodes g) ->
  exists d d', triangular_strength set_order g full = Ok d /\ naive_triangular_strength set_order g full = Ok d'
    /\ NoDup (map fst d) /\ NoDup (map fst d')
    /\ (forall u v n, u <> v -> (In (u, v, n) d <-> In (u, v, n) d' /\ (full = true \/ 0 < n)))
    /\ (no_loops g -> full = true -> forall p n, In (p, n) d <-> In (p, n) d').
Proof.
  intros W R C. destruct (triangular_strength_spec set_order g full W R C) as (d & E & ND & KD & _).
  destruct (naive_spec set_order g full W R C) as (d' & E' & ND' & KD'). exists d, d'. do 4 (split; [assumption|]).
  pose proof (strengths_agree set_order g full d d' W R C E E') as A. split; [exact A|].
  intros L F [u v] n. destruct (key_eq_dec u v) as [->|D].
  - assert (NL : ~ linked g v v) by (intros [H|H]; rewrite L in H; discriminate). split.
    + intros I. exfalso. apply NL. assert (K : In (v, v) (map fst d)) by (apply in_map_iff; exists (v, v, n); auto). apply KD in K. tauto.
    + intros I. apply KD' in I. tauto.
  - rewrite (A u v n D). tauto.
Qed.
Print Assumptions C42_agree_partial.

Example C42_ex : naive_triangular_strength in_order knot true = Ok [
       (KInt 0, KInt 1, 2); (KInt 0, KInt 2, 2); (KInt 0, KInt 3, 2); (KInt 0, KInt 5, 0); (KInt 1, KInt 2, 2); (KInt 1, KInt 3, 2);
       (KInt 2, KInt 3, 3); (KInt 2, KInt 4, 1); (KInt 3, KInt 3, 4); (KInt 3, KInt 4, 1)].
Proof. vm_compute. reflexivity. Qed.
