(** * C10-C24, C76, C87, C92: components, comparison and filtering of graphs *)
From Coq Require Import List Relations ZArith Lia Bool Permutation Sorted.
From Verif Require Import PyBase NxGraph L_Base L_Nx L_Nx2 M_UnionFind S_Partition L_Partition M_Traversal M_Graph S_Graph
  L_Graph L_Graph2 L_Fit L_Graph3 L_Comp L_Comp2 L_Comp3.
Import ListNotations.

(** graphs for the examples *)
Definition ex_graph (dir multi : bool) (ns : list Z) (es : list (Z * Z * attrs)) : graph :=
  fold_left (fun g e => add_edge g (KInt (fst (fst e))) (KInt (snd (fst e))) (snd e)) es
    (fold_left (fun g n => add_node g (KInt n) []) ns (mkG dir multi [] [] [])).
Definition plain (es : list (Z * Z)) : list (Z * Z * attrs) := map (fun e => (e, [])) es.
Definition ks : list Z -> list key := map KInt.
Definition weight (n : Z) : attrs := [(K "weight", VKey (KInt n))].

Lemma graph_WF g : wf g = true -> WF g.
Proof. apply wf_WF. Qed.

(** ** C10 connected_component_orders on undirected graphs *)
Theorem C10_component_orders_undirected g f p :
  WF g -> g_dir g = false -> filter_test g f p -> symmetric_test p ->
  exists sizes, connected_component_orders g f = Ok sizes /\ class_sizes (nodes g) (connected_by g p) sizes.
Proof. exact (orders_undirected g f p). Qed.
Print Assumptions C10_component_orders_undirected.

(** without filter: the components of the graph *)
Theorem C10_component_orders_no_filter g : WF g -> g_dir g = false ->
  exists sizes, connected_component_orders g None = Ok sizes /\ class_sizes (nodes g) (connected g) sizes.
Proof.
  intros W D. apply orders_reciprocal; [assumption|]. intros u v H. apply rt_step. rewrite has_edge_sym; assumption.
Qed.
Print Assumptions C10_component_orders_no_filter.

Definition light : edge_predicate := fun _ _ a => Ok (match dget (K "weight") a with Some (VKey (KInt n)) => (n <? 5)%Z | _ => true end).
Example C10_ex :
  let g := ex_graph false true [0; 1; 2; 3; 4; 5]%Z [(0, 1, weight 9); (0, 1, weight 2); (4, 5, []); (2, 4, weight 7); (3, 3, [])]%Z in
  wf g = true /\ connected_component_orders g None = Ok [2; 3; 1]
  /\ connected_component_orders g (Some light) = Ok [2; 1; 1; 2].
Proof. vm_compute. auto. Qed.

(** ** C11 connected_component_orders partitions the nodes *)
Theorem C11_component_orders_partition g f p : WF g -> filter_test g f p ->
  exists sizes, connected_component_orders g f = Ok sizes
    /\ (forall n, In n sizes -> 0 < n) /\ sum_nat sizes = order g.
Proof. exact (orders_partition g f p). Qed.
Print Assumptions C11_component_orders_partition.

Example C11_ex :
  let g := ex_graph true false [0; 1; 2; 3]%Z (plain [(1, 0); (2, 1); (3, 3)]%Z) in
  wf g = true /\ connected_component_orders g None = Ok [1; 1; 1; 1].
Proof. vm_compute. auto. Qed.

(** ** C12 weak components of directed graphs: false, only outgoing edges are followed *)
Theorem C12_component_orders_directed_refuted : exists g sizes, WF g /\ g_dir g = true
  /\ connected_component_orders g None = Ok sizes /\ ~ class_sizes (nodes g) (connected g) sizes.
Proof.
  set (g := ex_graph true false [0; 1]%Z (plain [(1, 0)]%Z)).
  assert (W : WF g) by (apply graph_WF; reflexivity).
  exists g, [1; 1]. split; [exact W|]. split; [reflexivity|]. split; [reflexivity|].
  intros C. apply component_sizes in C; [|exact W]. vm_compute in C. discriminate.
Qed.
Print Assumptions C12_component_orders_directed_refuted.

(** what holds: the sizes are right when each edge can be walked back. Missing: all other digraphs,
    where C11 still holds. *)
Theorem C12_component_orders_directed_partial g : WF g ->
  (forall u v, has_edge g u v = true -> clos_refl_trans key (fun x y => has_edge g x y = true) v u) ->
  exists sizes, connected_component_orders g None = Ok sizes /\ class_sizes (nodes g) (connected g) sizes.
Proof. exact (orders_reciprocal g). Qed.
Print Assumptions C12_component_orders_directed_partial.

(** what it yields on every graph: for each node which no previous one reaches along the edges accepted by the
    filter, the number of nodes it reaches and which the previous ones do not *)
Theorem C12_exact g f p : WF g -> filter_test g f p ->
  exists sizes, connected_component_orders g f = Ok sizes
    /\ newly_reached (clos_refl_trans key (fun x y => exists k a, edge_attrs g x y k = Some a /\ p x y a = true)) [] (nodes g) sizes.
Proof. exact (orders_new g f p). Qed.
Print Assumptions C12_exact.

Example C12_ex_directed :
  let g := ex_graph true false [0; 1; 2; 3; 4]%Z (plain [(1, 0); (1, 2); (3, 2); (3, 4)]%Z) in
  wf g = true /\ connected_component_orders g None = Ok [1; 2; 2].
Proof. vm_compute. auto. Qed.

Example C12_ex :
  let g := ex_graph true false [0; 1; 2; 3]%Z (plain [(0, 1); (1, 2); (2, 0)]%Z) in
  wf g = true /\ connected_component_orders g None = Ok [3; 1].
Proof. vm_compute. auto. Qed.

(** ** C13 largest_connected_component

    It always returns a component. *)
Theorem C13_returns_component g : WF g -> nodes g <> [] ->
  exists c, largest_connected_component g = Some c /\ is_component g c.
Proof. exact (lcc_component g). Qed.
Print Assumptions C13_returns_component.

(** Not always of maximum size: the early exit counts the largest component instead of the current
    one.  Components of sizes 3, 1, 4. *)
Theorem C13_largest_component_refuted : exists g c d, WF g /\ nodes g <> []
  /\ largest_connected_component g = Some c /\ is_component g d /\ List.length c < List.length d.
Proof.
  set (g := ex_graph false false [0; 1; 2; 3; 4; 5; 6; 7]%Z (plain [(0, 1); (1, 2); (4, 5); (5, 6); (6, 7)]%Z)).
  assert (W : WF g) by (apply graph_WF; reflexivity).
  exists g, (ks [0; 1; 2]%Z), (ks [4; 5; 6; 7]%Z). split; [exact W|]. split; [discriminate|]. split; [reflexivity|].
  split; [|cbn; lia]. apply components_is; [exact W|]. vm_compute. tauto.
Qed.
Print Assumptions C13_largest_component_refuted.

(** It is of maximum size if the components preceding some greatest one have non-decreasing sizes;
    in particular if the first component is a greatest one.  Missing: the other graphs. *)
Theorem C13_largest_component_partial g b m a : WF g -> class_sizes (nodes g) (connected g) (b ++ m :: a) ->
  (forall x, In x (b ++ m :: a) -> x <= m) -> StronglySorted le b ->
  exists c, largest_connected_component g = Some c /\ is_component g c /\ List.length c = m
            /\ forall d, is_component g d -> List.length d <= List.length c.
Proof. exact (lcc_greatest g b m a). Qed.
Print Assumptions C13_largest_component_partial.

Example C13_ex :
  let g := ex_graph true false [0; 1; 2; 3; 4; 5; 6]%Z (plain [(2, 1); (5, 4); (3, 5)]%Z) in
  wf g = true /\ map (@List.length key) (connected_components g) = [1; 2; 3; 1]
  /\ largest_connected_component g = Some (ks [3; 5; 4]%Z).
Proof. vm_compute. auto. Qed.

(** Exactly what it returns, [sizes] being those of the components in the order of their first nodes: the
    first of the greatest components up to the position where the loop stops.  It is of maximum size exactly
    when a greatest component comes up to that position. *)
Theorem C13_exact g sizes : WF g -> nodes g <> [] -> class_sizes (nodes g) (connected g) sizes ->
  exists k c, k < List.length sizes /\ seems_enough sizes k /\ (forall i, i < k -> ~ seems_enough sizes i)
    /\ largest_connected_component g = Some c /\ is_component g c /\ List.length c = maximum_to sizes k
    /\ ((forall d, is_component g d -> List.length d <= List.length c)
        <-> exists i, i <= k /\ forall x, In x sizes -> x <= nth i sizes 0).
Proof. exact (lcc_exact g sizes). Qed.
Print Assumptions C13_exact.

(** the loop stops at the second of the sizes 3, 1, 4, and at the third of 3, 1, 4, 1, 1 *)
Example C13_exact_ex :
  map (fun k => (maxima_to [3; 1; 4] k, maximum_to [3; 1; 4] k)) [0; 1; 2] = [(3, 3); (6, 3); (10, 4)]
  /\ ~ seems_enough [3; 1; 4] 0 /\ seems_enough [3; 1; 4] 1
  /\ ~ seems_enough [3; 1; 4; 1; 1] 1 /\ seems_enough [3; 1; 4; 1; 1] 2.
Proof. unfold seems_enough. cbn. repeat split; lia. Qed.

(** ** C14 crop_to_largest_connected_component *)
Theorem C14_crop g c : WF g -> largest_connected_component g = Some c ->
  exists h, crop_to_largest_connected_component g = (h, Ok tt) /\ WF h /\ induced_by (fun n => mem n c) g h.
Proof. exact (crop_spec g c). Qed.
Print Assumptions C14_crop.

Theorem C14_crop_null g : nodes g = [] -> crop_to_largest_connected_component g = (g, Ok tt).
Proof. intros H. unfold crop_to_largest_connected_component. rewrite lcc_null by assumption. reflexivity. Qed.
Print Assumptions C14_crop_null.

Example C14_ex :
  let g := ex_graph false true [9; 0; 1; 2]%Z [(0, 1, weight 3); (1, 0, weight 4); (9, 9, [])]%Z in
  wf g = true /\ largest_connected_component g = Some (ks [0; 1]%Z)
  /\ let h := fst (crop_to_largest_connected_component g) in
     nodes h = ks [0; 1]%Z /\ edges_data h = [(KInt 0, KInt 1, weight 3); (KInt 0, KInt 1, weight 4)].
Proof. vm_compute. auto. Qed.

(** ** C15 largest_connected_component_subgraph

    As a view it is the induced subgraph. *)
Theorem C15_view g c : WF g -> largest_connected_component g = Some c ->
  exists h, largest_connected_component_subgraph g true = Ok h /\ WF h /\ induced_by (fun n => mem n c) g h.
Proof. exact (subgraph_view_spec g c). Qed.
Print Assumptions C15_view.

(** The copy has every edge of the component and no other.  Missing: it should not have the nodes
    outside of the component, see the refutation. *)
Theorem C15_copy_partial g c : WF g -> node_names g -> edge_names g -> largest_connected_component g = Some c ->
  exists h, largest_connected_component_subgraph g false = Ok h /\ WF h /\ same_but_edges g h
    /\ edges_data h = filter (fun e => mem (fst (fst e)) c && mem (snd (fst e)) c) (edges_data g).
Proof. exact (subgraph_copy_spec g c). Qed.
Print Assumptions C15_copy_partial.

Theorem C15_copy_refuted : exists g c h n, WF g /\ node_names g /\ edge_names g
  /\ largest_connected_component g = Some c /\ largest_connected_component_subgraph g false = Ok h
  /\ In n (nodes h) /\ ~ In n c.
Proof.
  set (g := ex_graph false false [0; 1; 2]%Z (plain [(0, 1)]%Z)).
  exists g, (ks [0; 1]%Z), g, (KInt 2). split; [apply graph_WF; reflexivity|]. split; [|split].
  - intros n a k H. vm_compute in H. intuition; match goal with H : _ = _ |- _ => inversion H; subst end; contradiction.
  - intros u v a k H. vm_compute in H. intuition; match goal with H : _ = _ |- _ => inversion H; subst end; contradiction.
  - split; [reflexivity|]. split; [reflexivity|]. vm_compute. intuition discriminate.
Qed.
Print Assumptions C15_copy_refuted.

Example C15_ex :
  let g := ex_graph false false [0; 1; 2]%Z [(0, 1, weight 2)]%Z in
  option_map (fun h => (nodes h, edges_data h)) (match largest_connected_component_subgraph g false with Ok h => Some h | _ => None end)
    = Some (ks [0; 1; 2]%Z, [(KInt 0, KInt 1, weight 2)])
  /\ option_map (fun h => (nodes h, edges_data h)) (match largest_connected_component_subgraph g true with Ok h => Some h | _ => None end)
    = Some (ks [0; 1]%Z, [(KInt 0, KInt 1, weight 2)]).
Proof. vm_compute. auto. Qed.

(** ** C16 largest and second largest component orders *)
Theorem C16_largest_order g : WF g -> g_dir g = false ->
  (nodes g = [] /\ largest_connected_component_order g = Ok None)
  \/ exists sizes m, class_sizes (nodes g) (connected g) sizes /\ greatest m sizes
                     /\ largest_connected_component_order g = Ok (Some m).
Proof. exact (largest_order_spec g). Qed.
Print Assumptions C16_largest_order.

Theorem C16_second_largest_order g f p : WF g -> g_dir g = false -> filter_test g f p -> symmetric_test p ->
  exists sizes, class_sizes (nodes g) (connected_by g p) sizes /\
    ((List.length sizes < 2 /\ second_largest_connected_component_order g f = Ok None)
     \/ exists m, second_greatest m sizes /\ second_largest_connected_component_order g f = Ok (Some m)).
Proof. exact (second_largest_spec g f p). Qed.
Print Assumptions C16_second_largest_order.

Example C16_ex :
  let g := ex_graph false false [0; 1; 2; 3; 4; 5; 6; 7]%Z (plain [(0, 1); (1, 2); (4, 5); (5, 6); (6, 7)]%Z) in
  largest_connected_component_order g = Ok (Some 4) /\ second_largest_connected_component_order g None = Ok (Some 3)
  /\ largest_connected_component_order (ex_graph false false [] []) = Ok None
  /\ second_largest_connected_component_order (ex_graph false false [0; 1]%Z (plain [(0, 1)]%Z)) None = Ok None
  /\ second_largest_connected_component_order (ex_graph false false [0; 1; 2; 3]%Z (plain [(0, 1); (2, 3)]%Z)) None = Ok (Some 2).
Proof. vm_compute. auto 6. Qed.

(** ** C87 a filter which raises

    [f] raises [e] on some edge of [g] *)
Definition raises_on (g : graph) (f : edge_predicate) (e : exc) : Prop :=
  exists u v k a, edge_attrs g u v k = Some a /\ f u v a = Err e.

(** every edge is given to the filter, even between nodes already seen, and its exceptions come out *)
Theorem C87_filter_raises g f : WF g ->
  (forall e, connected_component_orders g (Some f) = Err e -> raises_on g f e)
  /\ (forall e, second_largest_connected_component_order g (Some f) = Err e -> raises_on g f e)
  /\ ((exists e, raises_on g f e) ->
      (exists e, connected_component_orders g (Some f) = Err e) /\ exists e, second_largest_connected_component_order g (Some f) = Err e).
Proof.
  intros W. destruct (orders_raise g f W) as [A B]. split; [exact A|]. unfold second_largest_connected_component_order.
  split.
  - intros e E. apply A. destruct (connected_component_orders g (Some f)); cbn [bind] in E; [|congruence].
    destruct (nlargest2 a) as [|? [|]]; discriminate.
  - intros R. apply B in R as (e & E). rewrite E. split; exists e; reflexivity.
Qed.
Print Assumptions C87_filter_raises.

(** the edge between 1 and 2 joins two nodes already seen from 0 *)
Example C87_ex :
  let g := ex_graph false false [0; 1; 2]%Z [(0, 1, [(K "w", VInt 1)]); (0, 2, [(K "w", VInt 1)]); (1, 2, [])]%Z in
  wf g = true
  /\ connected_component_orders g (Some (fun _ _ a => match dget (K "w") a with Some _ => Ok true | None => Err KeyError end)) = Err KeyError.
Proof. vm_compute. auto. Qed.

(** ** C17 are_same_graphs on simple graphs *)
Theorem C17_are_same_graphs A B : WF A -> WF B -> same_kind A B -> g_multi A = false ->
  (are_same_graphs A B false = true <-> same_node_set A B /\ same_links A B).
Proof. exact (are_same_graphs_iff A B). Qed.
Print Assumptions C17_are_same_graphs.

Theorem C17_are_same_graphs_attributes A B : WF A -> WF B -> same_kind A B -> g_multi A = false ->
  (are_same_graphs A B true = true <->
   (forall n, same_opt (node_data A n) (node_data B n))
   /\ (forall u v, same_opt (edge_attrs A u v (KInt 0)) (edge_attrs B u v (KInt 0)))).
Proof. exact (are_same_graphs_attrs_iff A B). Qed.
Print Assumptions C17_are_same_graphs_attributes.

Lemma kind_sym A B : same_kind A B -> same_kind B A.
Proof. intros [H1 H2]; split; congruence. Qed.

(** it is an equivalence on each kind *)
Lemma are_same_graphs_equivalence c : forall A B D, WF A -> WF B -> WF D -> same_kind A B -> same_kind B D -> g_multi A = false ->
  are_same_graphs A A c = true
  /\ (are_same_graphs A B c = true -> are_same_graphs B A c = true)
  /\ (are_same_graphs A B c = true -> are_same_graphs B D c = true -> are_same_graphs A D c = true).
Proof.
  intros A B D WA WB WD K1 K2 M.
  assert (KA : same_kind A A) by (split; reflexivity). assert (MB : g_multi B = false) by (destruct K1; congruence).
  assert (KD : same_kind A D) by (destruct K1, K2; split; congruence).
  destruct c.
  - rewrite !are_same_graphs_attrs_iff by (try assumption; apply kind_sym; assumption). split; [|split].
    + split; intros; apply same_opt_refl.
    + intros [H1 H2]; split; intros; apply same_opt_sym; auto.
    + intros [H1 H2] [H3 H4]; split; intros; eapply same_opt_trans; eauto.
  - rewrite !are_same_graphs_iff by (try assumption; apply kind_sym; assumption). split; [|split].
    + split; intros ?; reflexivity || tauto.
    + intros [H1 H2]; split; [intros n; symmetry; apply H1|intros u v; symmetry; apply H2].
    + intros [H1 H2] [H3 H4]; split; [intros n; rewrite (H1 n); apply H3|intros u v; rewrite (H2 u v); apply H4].
Qed.

Theorem C17_equivalence c A B D : WF A -> WF B -> WF D -> same_kind A B -> same_kind B D -> g_multi A = false ->
  are_same_graphs A A c = true
  /\ (are_same_graphs A B c = true -> are_same_graphs B A c = true)
  /\ (are_same_graphs A B c = true -> are_same_graphs B D c = true -> are_same_graphs A D c = true).
Proof. exact (are_same_graphs_equivalence c A B D). Qed.
Print Assumptions C17_equivalence.

Example C17_ex :
  let A := ex_graph false false [0; 1; 2]%Z [(0, 1, weight 1); (1, 2, [])]%Z in
  let B := ex_graph false false [2; 1; 0]%Z [(2, 1, []); (1, 0, weight 1)]%Z in
  let B' := ex_graph false false [2; 1; 0]%Z [(2, 1, []); (1, 0, weight 2)]%Z in
  are_same_graphs A B true = true /\ are_same_graphs A B' true = false /\ are_same_graphs A B' false = true
  /\ are_same_graphs A (ex_graph false false [0; 1; 2]%Z (plain [(0, 1); (0, 2)]%Z)) false = false.
Proof. vm_compute. auto. Qed.

(** ** C18 multigraphs: multiplicities are not compared *)
Theorem C18_multiplicities_refuted : exists A B u v, WF A /\ WF B /\ same_kind A B /\ g_multi A = true
  /\ are_same_graphs A B false = true /\ multiplicity A u v <> multiplicity B u v.
Proof.
  exists (ex_graph false true [0; 1; 2]%Z (plain [(0, 1); (0, 1); (1, 2)]%Z)),
         (ex_graph false true [0; 1; 2]%Z (plain [(0, 1); (1, 2); (1, 2)]%Z)), (KInt 0), (KInt 1).
  split; [apply graph_WF; reflexivity|]. split; [apply graph_WF; reflexivity|]. split; [split; reflexivity|].
  split; [reflexivity|]. split; [reflexivity|]. vm_compute. discriminate.
Qed.
Print Assumptions C18_multiplicities_refuted.

(** they agree if no pair of nodes linked in B has more parallel edges in A than in B, for instance when A has
    no parallel edges.  Missing: the other pairs of multigraphs. *)
Theorem C18_multiplicities_partial A B : WF A -> WF B -> same_kind A B ->
  (forall u v, has_edge B u v = true -> multiplicity A u v <= multiplicity B u v) ->
  (are_same_graphs A B false = true <-> same_node_set A B /\ forall u v, multiplicity A u v = multiplicity B u v).
Proof. exact (are_same_multigraphs A B). Qed.
Print Assumptions C18_multiplicities_partial.

(** what it decides on multigraphs: same nodes, same number of edges, and the links of A are in B *)
Theorem C18_exact A B : WF A -> WF B -> same_kind A B ->
  (are_same_graphs A B false = true <->
   same_node_set A B /\ size A = size B /\ forall u v, has_edge A u v = true -> has_edge B u v = true).
Proof.
  intros WA WB [D _]. unfold are_same_graphs, have_same_edges. rewrite !andb_true_iff, (have_same_nodes_iff A B false WA WB), Nat.eqb_eq, forallb_forall.
  split.
  - intros ((N & _) & S & F). split; [assumption|]. split; [assumption|].
    assert (H : forall u v, In (u, v) (edges A) -> has_edge B u v = true).
    { intros u v H. apply edges_edges_data in H as (a & H); [|assumption]. apply F in H. apply andb_true_iff in H. tauto. }
    intros u v E. apply has_edge_edges in E; [|assumption]. destruct E as [E|[DA E]]; [auto|].
    rewrite has_edge_sym by congruence. auto.
  - intros (N & S & H). split; [split; [assumption|discriminate]|]. split; [assumption|]. intros [[u v] a] I.
    cbn [negb orb]. rewrite andb_true_r. apply H. apply has_edge_edges; [assumption|]. left. eapply edges_data_edges; eassumption.
Qed.
Print Assumptions C18_exact.

Example C18_ex :
  let A := ex_graph true true [0; 1; 2]%Z (plain [(0, 1); (1, 2)]%Z) in
  are_same_graphs A (ex_graph true true [2; 1; 0]%Z (plain [(1, 2); (0, 1)]%Z)) false = true
  /\ are_same_graphs A (ex_graph true true [2; 1; 0]%Z (plain [(1, 2); (0, 1); (0, 1)]%Z)) false = false.
Proof. vm_compute. auto. Qed.

(** ** C76 are_same_graphs(A, A, check_attributes=True): false on every multigraph with an edge *)
Theorem C76_reflexive_attributes_refuted A : WF A -> g_multi A = true -> edges_data A <> [] ->
  are_same_graphs A A true = false.
Proof.
  intros W M NE. unfold are_same_graphs, have_same_edges. destruct (edges_data A) as [|[[u v] a] l] eqn:E; [congruence|].
  cbn [forallb]. unfold edge_attr_eqb at 1. rewrite M. cbn [negb orb andb]. rewrite andb_false_r. cbn [andb]. rewrite !andb_false_r. reflexivity.
Qed.
Print Assumptions C76_reflexive_attributes_refuted.

(** it holds for all the other graphs *)
Theorem C76_reflexive_partial A : WF A -> (are_same_graphs A A true = true <-> g_multi A = false \/ edges_data A = []).
Proof.
  intros W. split.
  - intros H. destruct (g_multi A) eqn:M; [right|left; reflexivity]. destruct (edges_data A) as [|e l] eqn:E; [reflexivity|].
    rewrite C76_reflexive_attributes_refuted in H; [discriminate|assumption|assumption|]. rewrite E. discriminate.
  - intros [M|E].
    + destruct (are_same_graphs_equivalence true A A A W W W) as [H _]; try assumption; split; reflexivity.
    + unfold are_same_graphs, have_same_edges. rewrite E, Nat.eqb_refl, andb_true_r. apply have_same_nodes_iff; try assumption.
      split; [intros n; reflexivity|]. intros _ n. apply same_opt_refl.
Qed.
Print Assumptions C76_reflexive_partial.

Example C76_ex : let A := ex_graph false true [0; 1]%Z [(0, 1, weight 1)]%Z in
  wf A = true /\ are_same_graphs A A false = true /\ are_same_graphs A A true = false.
Proof. vm_compute. auto. Qed.

(** ** C92 are_same_graphs as a relation *)

(** on all the graphs of a kind, multigraphs included, without attributes: reflexive and transitive *)
Theorem C92_preorder A B D : WF A -> WF B -> WF D -> same_kind A B -> same_kind B D ->
  are_same_graphs A A false = true
  /\ (are_same_graphs A B false = true -> are_same_graphs B D false = true -> are_same_graphs A D false = true).
Proof.
  intros WA WB WD K1 K2. assert (K3 : same_kind A D) by (destruct K1, K2; split; congruence).
  rewrite (C18_exact A A WA WA (conj eq_refl eq_refl)), (C18_exact A B WA WB K1), (C18_exact B D WB WD K2), (C18_exact A D WA WD K3).
  split; [split; [intros n; reflexivity|]; split; auto|]. intros (N1 & S1 & H1) (N2 & S2 & H2). split; [|split; [congruence|auto]].
  intros n. rewrite (N1 n). apply N2.
Qed.
Print Assumptions C92_preorder.

(** symmetric exactly when the links are the same both ways *)
Theorem C92_symmetric_iff A B : WF A -> WF B -> same_kind A B -> are_same_graphs A B false = true ->
  (are_same_graphs B A false = true <-> forall u v, has_edge A u v = has_edge B u v).
Proof.
  intros WA WB K H. rewrite (C18_exact A B WA WB K) in H. rewrite (C18_exact B A WB WA (kind_sym A B K)). destruct H as (N & S & H). split.
  - intros (_ & _ & H') u v. destruct (has_edge A u v) eqn:E1, (has_edge B u v) eqn:E2; try reflexivity.
    + rewrite (H u v E1) in E2. discriminate.
    + rewrite (H' u v E2) in E1. discriminate.
  - intros E. split; [intros n; symmetry; apply N|]. split; [congruence|]. intros u v. rewrite E. auto.
Qed.
Print Assumptions C92_symmetric_iff.

Theorem C92_symmetric_refuted : exists A B, WF A /\ WF B /\ same_kind A B /\ g_multi A = true
  /\ are_same_graphs A B false = true /\ are_same_graphs B A false = false.
Proof.
  exists (ex_graph false true [0; 1; 2]%Z (plain [(0, 1); (0, 1)]%Z)), (ex_graph false true [0; 1; 2]%Z (plain [(0, 1); (1, 2)]%Z)).
  split; [apply graph_WF; reflexivity|]. split; [apply graph_WF; reflexivity|]. split; [split; reflexivity|]. auto.
Qed.
Print Assumptions C92_symmetric_refuted.

(** graphs of different kinds are compared too, whatever the directions: then it is not even transitive *)
Theorem C92_kinds_refuted : exists A B D, WF A /\ WF B /\ WF D /\ g_dir A = true /\ g_dir B = false /\ g_dir D = true
  /\ are_same_graphs A B true = true /\ are_same_graphs B D true = true /\ are_same_graphs A D true = false
  /\ are_same_graphs B A true = false.
Proof.
  exists (ex_graph true false [0; 1]%Z (plain [(0, 1)]%Z)), (ex_graph false false [1; 0]%Z (plain [(0, 1)]%Z)), (ex_graph true false [0; 1]%Z (plain [(1, 0)]%Z)).
  do 3 (split; [apply graph_WF; reflexivity|]). vm_compute. auto 10.
Qed.
Print Assumptions C92_kinds_refuted.

Example C92_ex :
  let A := ex_graph false true [0; 1; 2]%Z (plain [(0, 1); (0, 1); (1, 2)]%Z) in
  let B := ex_graph false true [2; 0; 1]%Z (plain [(2, 1); (0, 1); (1, 2)]%Z) in
  let D := ex_graph false true [1; 2; 0]%Z (plain [(2, 0); (0, 1); (1, 2)]%Z) in
  are_same_graphs A B false = true /\ are_same_graphs B D false = true /\ are_same_graphs A D false = true
  /\ are_same_graphs B A false = true /\ are_same_graphs D B false = false.
Proof. vm_compute. auto. Qed.

(** ** C19 remove_edges on simple graphs *)
Theorem C19_remove_edges g f p : WF g -> g_multi g = false -> edge_test g f p ->
  exists g', remove_edges f g = (g', Ok tt) /\ WF g' /\ same_but_edges g g'
             /\ edges_data g' = filter (on_edge p) (edges_data g).
Proof. exact (remove_edges_spec g f p). Qed.
Print Assumptions C19_remove_edges.

(** a raising predicate: nothing is changed *)
Theorem C19_remove_edges_raises g f l1 u v a l2 e :
  edges_data g = l1 ++ (u, v, a) :: l2 ->
  (forall x y b, In (x, y, b) l1 -> exists r, f x y b = Ok r) -> f u v a = Err e ->
  remove_edges f g = (g, Err e).
Proof. exact (remove_edges_raises g f l1 u v a l2 e). Qed.
Print Assumptions C19_remove_edges_raises.

Definition at_least (n : Z) : edge_predicate := fun _ _ a =>
  match dget (K "weight") a with Some (VKey (KInt m)) => Ok (n <=? m)%Z | _ => Err KeyError end.
Example C19_ex :
  let g := ex_graph true false [0; 1; 2]%Z [(0, 1, weight 5); (1, 0, weight 1); (2, 2, weight 7)]%Z in
  edges_data (fst (remove_edges (at_least 5) g)) = [(KInt 0, KInt 1, weight 5); (KInt 2, KInt 2, weight 7)]
  /\ let g' := ex_graph true false [0; 1; 2]%Z [(0, 1, weight 5); (1, 0, []); (2, 2, weight 7)]%Z in
     remove_edges (at_least 5) g' = (g', Err KeyError).
Proof. vm_compute. auto. Qed.

(** ** C20 filter_edges *)
Theorem C20_filter_edges g f p : WF g -> edge_names g -> edge_test g f p ->
  exists h, filter_edges g f = Ok h /\ WF h /\ same_but_edges g h /\ edges_data h = filter (on_edge p) (edges_data g)
            /\ incl (edges h) (edges g).
Proof. exact (filter_edges_spec g f p). Qed.
Print Assumptions C20_filter_edges.

Example C20_ex :
  let g := ex_graph false true [0; 1; 2]%Z [(2, 0, weight 5); (0, 2, weight 1); (2, 0, weight 7)]%Z in
  option_map edges_data (match filter_edges g (at_least 5) with Ok h => Some h | _ => None end)
  = Some [(KInt 0, KInt 2, weight 5); (KInt 0, KInt 2, weight 7)].
Proof. vm_compute. reflexivity. Qed.

(** ** C21 remove_edges and filter_edges *)
Theorem C21_agree_partial g f p : WF g -> g_multi g = false -> edge_names g -> edge_test g f p ->
  exists g' h, remove_edges f g = (g', Ok tt) /\ filter_edges g f = Ok h
    /\ same_but_edges g' h /\ edges_data g' = edges_data h.
Proof.
  intros W M N T. destruct (remove_edges_spec g f p W M T) as (g' & E & _ & S & D).
  destruct (filter_edges_spec g f p W N T) as (h & E' & _ & S' & D' & _). exists g', h. repeat (split; [assumption|]).
  split; [|congruence]. destruct S as ((A & B) & C & F), S' as ((A' & B') & C' & F'). repeat split; congruence.
Qed.
Print Assumptions C21_agree_partial.

(** On multigraphs both leave the same number of edges between any two nodes.  Missing: not the same
    ones, see the refutation. *)
Theorem C21_agree_multigraph_partial g f p : WF g -> g_multi g = true -> edge_names g -> edge_test g f p ->
  exists g' h, remove_edges f g = (g', Ok tt) /\ filter_edges g f = Ok h /\ same_but_edges g g' /\ same_but_edges g h
    /\ forall u v, multiplicity g' u v = multiplicity h u v.
Proof. exact (remove_filter_multiplicity g f p). Qed.
Print Assumptions C21_agree_multigraph_partial.

(** what remove_edges keeps on a multigraph: the right number of edges, but the ones inserted first *)
Theorem C21_remove_edges_multigraph g f p : WF g -> g_multi g = true -> edge_test g f p ->
  exists g', remove_edges f g = (g', Ok tt) /\ WF g' /\ same_but_edges g g' /\
    forall u v, edge_data g' u v =
      match edge_data g u v with
      | Some kd => match firstn (kept_between g p u v) kd with [] => None | kd' => Some kd' end
      | None => None
      end.
Proof. exact (remove_edges_multi g f p). Qed.
Print Assumptions C21_remove_edges_multigraph.

Theorem C21_agree_refuted : exists g f p g' h, WF g /\ edge_names g /\ edge_test g f p
  /\ remove_edges f g = (g', Ok tt) /\ filter_edges g f = Ok h
  /\ edges_data g' = [(KInt 0, KInt 1, weight 1)] /\ edges_data h = [(KInt 0, KInt 1, weight 9)].
Proof.
  set (g := ex_graph false true [0; 1]%Z [(0, 1, weight 1); (0, 1, weight 9)]%Z).
  exists g, (at_least 5), (fun _ _ a => match dget (K "weight") a with Some (VKey (KInt m)) => (5 <=? m)%Z | _ => false end).
  exists (fst (remove_edges (at_least 5) g)), (match filter_edges g (at_least 5) with Ok h => h | _ => g end).
  split; [apply graph_WF; reflexivity|]. split; [|split; [|repeat split]].
  - intros u v a k H Hk. vm_compute in H. destruct H as [H|[H|[]]]; inversion H; subst; destruct Hk as [<-|[]];
      (split; [exists "weight"%string; reflexivity|]; split; [vm_compute; intuition discriminate|discriminate]).
  - intros u v a H. vm_compute in H. destruct H as [H|[H|[]]]; inversion H; subst; reflexivity.
Qed.
Print Assumptions C21_agree_refuted.

(** ** C22 remove_nodes *)
Theorem C22_remove_nodes g f p : WF g -> node_test g f p ->
  exists g', remove_nodes f g = (g', Ok tt) /\ WF g'
    /\ induced_by (fun n => match node_data g n with Some a => p n a | None => false end) g g'.
Proof.
  intros W T. exists (induced (accepted g p) g). split; [apply remove_nodes_ok; assumption|].
  split; [apply WF_induced; assumption|apply induced_induced_by].
Qed.
Print Assumptions C22_remove_nodes.

Definition even_node : node_predicate := fun n _ => match n with KInt z => Ok (Z.even z) | _ => Err TypeError end.
Example C22_ex :
  let g := ex_graph true true [0; 1; 2; 4]%Z [(0, 2, weight 1); (0, 2, weight 2); (0, 1, []); (1, 1, []); (4, 4, weight 3)]%Z in
  let h := fst (remove_nodes even_node g) in
  nodes h = ks [0; 2; 4]%Z
  /\ edges_data h = [(KInt 0, KInt 2, weight 1); (KInt 0, KInt 2, weight 2); (KInt 4, KInt 4, weight 3)].
Proof. vm_compute. auto. Qed.

(** ** C23 filter_nodes

    Self-loops of undirected graphs are lost. *)
Theorem C23_filter_nodes_refuted : exists g f p h, WF g /\ node_test g f p /\ edge_names g /\ node_names g /\ graph_names g
  /\ comparable (nodes g) /\ filter_nodes g f = Ok h
  /\ (forall n a, p n a = true) /\ has_edge g (KInt 0) (KInt 0) = true /\ has_edge h (KInt 0) (KInt 0) = false.
Proof.
  set (g := ex_graph false false [0]%Z (plain [(0, 0)]%Z)).
  exists g, (fun _ _ => Ok true), (fun _ _ => true), (match filter_nodes g (fun _ _ => Ok true) with Ok h => h | _ => g end).
  split; [apply graph_WF; reflexivity|]. split; [intros n a _; reflexivity|]. split; [|split; [|split; [|split]]].
  - intros u v a k H. vm_compute in H. destruct H as [H|[]]; inversion H; subst; contradiction.
  - intros n a k H. vm_compute in H. destruct H as [H|[]]; inversion H; subst; contradiction.
  - intros k H. destruct H.
  - left. intros k [<-|[]]. exists 0%Z. reflexivity.
  - repeat split.
Qed.
Print Assumptions C23_filter_nodes_refuted.

(** Everything else is there, for simple graphs and multigraphs alike. *)
Theorem C23_filter_nodes_partial g f p : WF g -> node_test g f p -> edge_names g -> node_names g -> graph_names g ->
  (g_dir g = false -> comparable (nodes g)) ->
  exists h, filter_nodes g f = Ok h /\ WF h /\ same_kind g h /\ g_attr h = g_attr g
  /\ (forall n, node_data h n = if accepted g p n then node_data g n else None)
  /\ (forall u v k, edge_attrs h u v k =
        if accepted g p u && accepted g p v && (g_dir g || negb (key_eqb u v)) then edge_attrs g u v k else None).
Proof. intros W T EN NN GN C. destruct (names_fit g p W EN NN C) as (FE & FN & FO). exact (filter_nodes_spec g f p W T FE FN FO GN). Qed.
Print Assumptions C23_filter_nodes_partial.

(** which graphs are accepted, and what is returned for them; TypeError otherwise *)
Theorem C23_exact g f p : WF g -> node_test g f p -> graph_names g ->
  (fit_nodes g p /\ fit_edges g p /\ fit_order g p
   /\ exists h, filter_nodes g f = Ok h /\ WF h /\ same_kind g h /\ g_attr h = g_attr g
      /\ (forall n, node_data h n = if accepted g p n then node_data g n else None)
      /\ (forall u v k, edge_attrs h u v k =
            if accepted g p u && accepted g p v && (g_dir g || negb (key_eqb u v)) then edge_attrs g u v k else None))
  \/ (~ (fit_nodes g p /\ fit_edges g p /\ fit_order g p) /\ filter_nodes g f = Err TypeError).
Proof.
  intros W T GN. destruct (filter_raises g f p W T GN) as [(h & E)|E].
  - left. destruct (filtered_fits g f p W T h E) as (FE & FN & FO). split; [exact FN|]. split; [exact FE|]. split; [exact FO|].
    exact (filter_nodes_spec g f p W T FE FN FO GN).
  - right. split; [|exact E]. intros (FN & FE & FO). destruct (filter_nodes_spec g f p W T FE FN FO GN) as (h & E' & _). congruence.
Qed.
Print Assumptions C23_exact.

(** nodes 0 and "a" are compared although "a" is filtered out, unless they are not adjacent *)
Example C23_exact_ex :
  let g := add_edge (empty_graph false false) (KInt 0) (K "a") [] in
  let p := fun (n : key) (_ : attrs) => key_eqb n (KInt 0) in
  wf g = true /\ ~ fit_order g p /\ filter_nodes g (fun n a => Ok (p n a)) = Err TypeError
  /\ fit_order (add_node (add_node (empty_graph false false) (KInt 0) []) (K "a") []) p
  /\ filter_nodes (add_node (add_node (empty_graph false false) (KInt 0) []) (K "a") []) (fun n a => Ok (p n a)) = Ok (add_node (empty_graph false false) (KInt 0) []).
Proof.
  cbv zeta. split; [vm_compute; reflexivity|]. split; [|split; [vm_compute; reflexivity|split; [|vm_compute; reflexivity]]].
  - intros F. destruct (F eq_refl (KInt 0) (K "a")) as (b & E); [reflexivity|reflexivity|discriminate].
  - intros _ u v _ E. discriminate.
Qed.

(** without self-loops, or directed: the induced subgraph *)
Theorem C23_filter_nodes_no_loops g f p : WF g -> node_test g f p -> edge_names g -> node_names g -> graph_names g ->
  (g_dir g = false -> comparable (nodes g)) -> g_dir g = true \/ no_loops g ->
  exists h, filter_nodes g f = Ok h /\ WF h
    /\ induced_by (fun n => match node_data g n with Some a => p n a | None => false end) g h.
Proof.
  intros W T EN NN GN C L. destruct (names_fit g p W EN NN C) as (FE & FN & FO). destruct (filter_nodes_spec g f p W T FE FN FO GN) as (h & E & W' & K & A & N & X).
  exists h. split; [assumption|]. split; [assumption|]. split; [assumption|]. split; [congruence|]. split; [exact N|].
  intros u v k. rewrite X. fold (accepted g p u) (accepted g p v).
  destruct (accepted g p u && accepted g p v); [|reflexivity]. cbn [andb].
  destruct L as [-> | L]; [reflexivity|]. destruct (key_eqb u v) eqn:Kv; [|rewrite orb_true_r; reflexivity].
  apply key_eqb_eq in Kv. subst v. destruct (edge_attrs g u u k) eqn:Ea; [|destruct (_ || _); reflexivity].
  apply edge_attrs_has in Ea. rewrite L in Ea. discriminate.
Qed.
Print Assumptions C23_filter_nodes_no_loops.

Example C23_ex :
  let g := ex_graph false true [0; 1; 2; 4]%Z [(2, 0, weight 1); (0, 2, weight 2); (0, 1, []); (2, 4, weight 3)]%Z in
  option_map (fun h => (nodes h, edges_keys h)) (match filter_nodes g even_node with Ok h => Some h | _ => None end)
  = Some (ks [0; 2; 4]%Z, [(KInt 0, KInt 2, KInt 0, weight 1); (KInt 0, KInt 2, KInt 1, weight 2); (KInt 2, KInt 4, KInt 0, weight 3)]).
Proof. vm_compute. reflexivity. Qed.

(** ** C24 leaves

    [edge_ends g n]: how many edge ends are at [n], computed from the listed edges. *)
Lemma leaves_induced g h : WF g ->
  induced_by (fun n => match node_data g n with Some _ => negb (Nat.eqb (edge_ends g n) 1) | None => false end) g h ->
  induced_by (fun n => negb (Nat.eqb (edge_ends g n) 1)) g h.
Proof.
  intros W (K & A & N & X). split; [assumption|]. split; [assumption|]. split.
  - intros n. rewrite N. destruct (node_data g n); [reflexivity|]. destruct (negb _); reflexivity.
  - intros u v k. rewrite X. destruct (node_data g u) eqn:Eu, (node_data g v) eqn:Ev; cbn [andb]; rewrite ?andb_false_r;
      try reflexivity; destruct (edge_attrs g u v k) eqn:E; try (destruct (_ && _); reflexivity);
      apply edge_attrs_has, (has_edge_nodes g u v W) in E as [E1 E2]; apply node_data_In in E1 as (? & E1), E2 as (? & E2); congruence.
Qed.

Theorem C24_remove_leaves g : WF g ->
  exists g', remove_leaves g = (g', Ok tt) /\ WF g' /\ induced_by (fun n => negb (Nat.eqb (edge_ends g n) 1)) g g'.
Proof.
  intros W. destruct (C22_remove_nodes g (not_leaf g) _ W (not_leaf_test g W)) as (g' & E & W' & I).
  exists g'. split; [exact E|]. split; [assumption|]. apply leaves_induced; assumption.
Qed.
Print Assumptions C24_remove_leaves.

(** filter_leaves agrees unless an undirected graph has self-loops.  Missing: those, see the refutation. *)
Theorem C24_filter_leaves_partial g : WF g -> edge_names g -> node_names g -> graph_names g ->
  (g_dir g = false -> comparable (nodes g)) -> g_dir g = true \/ no_loops g ->
  exists h, filter_leaves g = Ok h /\ WF h /\ induced_by (fun n => negb (Nat.eqb (edge_ends g n) 1)) g h.
Proof.
  intros W EN NN GN C L. destruct (C23_filter_nodes_no_loops g (not_leaf g) _ W (not_leaf_test g W) EN NN GN C L) as (h & E & W' & I).
  exists h. split; [exact E|]. split; [assumption|]. apply leaves_induced; assumption.
Qed.
Print Assumptions C24_filter_leaves_partial.

(** filter_leaves on every graph *)
Theorem C24_exact g : WF g -> graph_names g ->
  let kept n := has_node g n && negb (Nat.eqb (edge_ends g n) 1) in
  let inner := fun (n : key) (_ : attrs) => negb (Nat.eqb (edge_ends g n) 1) in
  (fit_nodes g inner /\ fit_edges g inner /\ fit_order g inner
   /\ exists h, filter_leaves g = Ok h /\ WF h /\ same_kind g h /\ g_attr h = g_attr g
      /\ (forall n, node_data h n = if kept n then node_data g n else None)
      /\ (forall u v k, edge_attrs h u v k = if kept u && kept v && (g_dir g || negb (key_eqb u v)) then edge_attrs g u v k else None))
  \/ (~ (fit_nodes g inner /\ fit_edges g inner /\ fit_order g inner) /\ filter_leaves g = Err TypeError).
Proof.
  intros W GN kept inner. pose proof (C23_exact g (not_leaf g) inner W (not_leaf_test g W) GN) as [H|H]; [left|right; exact H].
  assert (A : forall n, accepted g inner n = kept n).
  { intros n. unfold accepted, kept, has_node, dmem, inner, node_data. destruct (dget n (g_nodes g)) eqn:E.
    - apply dget_Some_key, mem_In in E. rewrite E. reflexivity.
    - apply dget_None, mem_nIn in E. rewrite E. reflexivity. }
  destruct H as (F1 & F2 & F3 & h & E & W' & K & GA & N & X). split; [exact F1|]. split; [exact F2|]. split; [exact F3|].
  exists h. split; [exact E|]. split; [exact W'|]. split; [exact K|]. split; [exact GA|]. split; intros; rewrite ?N, ?X, !A; reflexivity.
Qed.
Print Assumptions C24_exact.

Theorem C24_filter_leaves_refuted : exists g h, WF g /\ edge_names g /\ node_names g /\ graph_names g /\ comparable (nodes g)
  /\ filter_leaves g = Ok h /\ ~ induced_by (fun n => negb (Nat.eqb (edge_ends g n) 1)) g h.
Proof.
  set (g := ex_graph false false [0]%Z (plain [(0, 0)]%Z)).
  exists g, (match filter_leaves g with Ok h => h | _ => g end).
  split; [apply graph_WF; reflexivity|]. split; [|split; [|split; [|split; [|split]]]].
  - intros u v a k H. vm_compute in H. destruct H as [H|[]]; inversion H; subst; contradiction.
  - intros n a k H. vm_compute in H. destruct H as [H|[]]; inversion H; subst; contradiction.
  - intros k H. destruct H.
  - left. intros k [<-|[]]. exists 0%Z. reflexivity.
  - reflexivity.
  - intros (_ & _ & _ & X). specialize (X (KInt 0) (KInt 0) (KInt 0)). vm_compute in X. discriminate.
Qed.
Print Assumptions C24_filter_leaves_refuted.

(** a path keeps its inner nodes; a node with only a self-loop has degree 2 *)
Example C24_ex :
  let g := ex_graph false false [0; 1; 2; 3; 4]%Z (plain [(0, 1); (1, 2); (2, 3); (4, 4)]%Z) in
  nodes (fst (remove_leaves g)) = ks [1; 2; 4]%Z
  /\ option_map nodes (match filter_leaves g with Ok h => Some h | _ => None end) = Some (ks [1; 2; 4]%Z).
Proof. vm_compute. auto. Qed.
