(** * C111: attributes which are not asked for change nothing *)
From Coq Require Import List ZArith Bool QArith.
From Verif Require Import PyBase PyNum NxGraph L_Base L_Nx M_UnionFind M_Traversal M_Graph M_Umst M_Disparity M_Sparse M_Learn M_Tri S_Renaming S_Alike L_Alike P_Graph P_Sparse.
Import ListNotations.
Close Scope Q_scope.

(** ** functions which read no attribute at all *)
Theorem C111_components g h : alike [] g h ->
  connected_components g = connected_components h
  /\ largest_connected_component g = largest_connected_component h
  /\ connected_component_orders g None = connected_component_orders h None
  /\ largest_connected_component_order g = largest_connected_component_order h
  /\ second_largest_connected_component_order g None = second_largest_connected_component_order h None.
Proof.
  intros A. unfold alike in A. split; [rewrite <- (connected_components_bare [] g), A; apply connected_components_bare|].
  split; [rewrite <- (largest_bare [] g), A; apply largest_bare|]. split; [rewrite <- (orders_bare [] None (fun _ _ _ => eq_refl) g), A; apply orders_bare; reflexivity|].
  split; [rewrite <- (largest_order_bare [] g), A; apply largest_order_bare|]. rewrite <- (second_bare [] None (fun _ _ _ => eq_refl) g), A. apply second_bare. reflexivity.
Qed.
Print Assumptions C111_components.

Theorem C111_triangles set_order g h full : alike [] g h ->
  triangles set_order g = triangles set_order h
  /\ triangular_strength set_order g full = triangular_strength set_order h full
  /\ naive_triangular_strength set_order g full = naive_triangular_strength set_order h full.
Proof.
  intros A. unfold alike in A. split; [rewrite <- (triangles_bare [] set_order g), A; apply triangles_bare|].
  split; [rewrite <- (strength_bare [] set_order g), A; apply strength_bare|]. rewrite <- (naive_bare [] set_order g), A. apply naive_bare.
Qed.
Print Assumptions C111_triangles.

(** ** functions which read one attribute of the edges *)

(** the trees have the same edges in the same order, or the same exception is raised *)
Theorem C111_spanning_trees lib pf g h w : alike [w] g h ->
  on_res (map fst) (union_of_maximum_spanning_trees lib pf g w) = on_res (map fst) (union_of_maximum_spanning_trees lib pf h w).
Proof.
  intros A. assert (E : forall x, on_res (map fst) (union_of_maximum_spanning_trees lib pf x w) = on_res (map fst) (union_of_maximum_spanning_trees lib pf (bare [w] x) w)).
  { intros x. rewrite umst_bare by (left; reflexivity). destruct (union_of_maximum_spanning_trees lib pf x w); cbn [on_res]; [|reflexivity]. rewrite map_map. reflexivity. }
  rewrite (E g), A, <- E. reflexivity.
Qed.
Print Assumptions C111_spanning_trees.

Theorem C111_disparity lib g h w reverse : alike [w] g h -> edge_disparity lib g w reverse = edge_disparity lib h w reverse.
Proof. intros A. rewrite <- (disparity_bare [w] lib g), A by (left; reflexivity). apply disparity_bare. left. reflexivity. Qed.
Print Assumptions C111_disparity.

Theorem C111_learner fuel lib g h start rate m w : alike [w] g h ->
  floatsam_threshold_learner fuel lib g start rate m w = floatsam_threshold_learner fuel lib h start rate m w.
Proof. intros A. rewrite <- (learner_bare [w] fuel lib g), A by (left; reflexivity). apply learner_bare. left. reflexivity. Qed.
Print Assumptions C111_learner.

(** ** sparsifiers: the attribute they are given, and "weight" too when asked to keep the graph connected *)
Theorem C111_sparsifiers lib pf t alpha w reverse (keep_connected : bool) sp g h :
  alike (if keep_connected then [w; K "weight"] else [w]) g h ->
  global_threshold_sparsifier lib pf t w reverse keep_connected = Ok sp \/ multiscale_backbone_sparsifier lib pf alpha w keep_connected = Ok sp ->
  on_res (map fst) (relevant_edges sp g) = on_res (map fst) (relevant_edges sp h)
  /\ on_res (map fst) (redundant_edges sp g) = on_res (map fst) (redundant_edges sp h).
Proof.
  intros A M. set (names := if keep_connected then [w; K "weight"] else [w]) in A.
  assert (I : In w names) by (unfold names; destruct keep_connected; left; reflexivity).
  assert (J : keep_connected = true -> In (K "weight") names) by (unfold names; intros ->; right; left; reflexivity).
  assert (E : forall x, relevant_edges sp (bare names x) = on_res (map (sh names)) (relevant_edges sp x)
                     /\ redundant_edges sp (bare names x) = on_res (map (sh names)) (redundant_edges sp x)).
  { intros x. destruct M as [M|M]; [refine (made_bare names lib pf _ x _ sp J (threshold_factory_bare names t w reverse x I) M)
                                   |refine (made_bare names lib pf _ x _ sp J (backbone_factory_bare names lib alpha w x I) M)]. }
  assert (D : forall r : res (list edge3), on_res (map fst) (on_res (map (sh names)) r) = on_res (map fst) r) by (intros [l|]; cbn [on_res]; rewrite ?map_map; reflexivity).
  destruct (E g) as (E1 & E2), (E h) as (F1 & F2). rewrite <- (D (relevant_edges sp g)), <- (D (redundant_edges sp g)), <- E1, <- E2, A, F1, F2, !D. split; reflexivity.
Qed.
Print Assumptions C111_sparsifiers.

(** With keep_connected, the attribute "weight" is read even when another one is given: see C33. *)
Theorem C111_weight_read_refuted : exists lib pf t w sp g h, WF g /\ WF h /\ alike [w] g h
  /\ global_threshold_sparsifier lib pf t w false true = Ok sp
  /\ on_res (map fst) (relevant_edges sp g) <> on_res (map fst) (relevant_edges sp h).
Proof.
  pose (e := fun x y => [(K "w", VInt 1); (K "weight", VInt x); (y, VInt 2)]).
  exists lib64, Long64, 2%Q, (K "w").
  exists (mkSP (Some (decorate lib64 Long64 (Some (fun _ => Ok (threshold_predicate 2 (K "w") false))))) None None).
  exists (ex_graph false false [0; 1; 2]%Z [(0, 1, e 1 (K "a")); (1, 2, e 2 (K "b")); (0, 2, e 3 (K "c"))]%Z).
  exists (ex_graph false false [0; 1; 2]%Z [(0, 1, e 3 (K "a")); (1, 2, e 2 (K "c")); (0, 2, e 1 (K "b"))]%Z).
  split; [apply graph_WF; reflexivity|]. split; [apply graph_WF; reflexivity|]. split; [reflexivity|]. split; [reflexivity|]. vm_compute. discriminate.
Qed.
Print Assumptions C111_weight_read_refuted.

(** the same graph with other attributes: colours of edges, names of nodes and a title *)
Definition colored : graph :=
  let g := ex_graph false false [0; 1; 2; 3]%Z
    (map (fun e => (fst e, (K "color", VStr "red") :: snd e ++ [(K "size", VInt 3)]))
      [(0, 1, weight 5); (1, 2, weight 1); (0, 2, weight 2); (2, 2, weight 4); (2, 3, weight 1); (3, 0, weight 1)]%Z) in
  mkG (g_dir g) (g_multi g) [(K "title", VStr "colors")] (map (fun na => (fst na, [(K "name", VKey (fst na))])) (g_nodes g)) (g_adj g).
Example C111_ex :
  wf colored = true /\ alike [K "weight"] strengths colored /\ strengths <> colored
  /\ on_res (map fst) (union_of_maximum_spanning_trees lib64 Long64 colored (K "weight"))
     = Ok [(KInt 0, KInt 1); (KInt 0, KInt 2); (KInt 0, KInt 3); (KInt 2, KInt 3)]
  /\ alike [] strengths colored.
Proof. split; [reflexivity|]. split; [reflexivity|]. split; [discriminate|]. split; vm_compute; reflexivity. Qed.
