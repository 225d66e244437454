(** * C33, C36: what keep_connected adds to the threshold and to the backbone *)
From Coq Require Import List Relations ZArith Lia Bool QArith.
From Verif Require Import PyBase PyNum NxGraph L_Base L_Nx L_Nx2 M_Utils M_UnionFind S_Partition L_Partition M_Traversal M_Graph S_Graph L_Graph L_Graph2 L_Comp L_Comp2 P_Graph
  M_Umst M_Disparity M_Sparse S_Sparse L_Sparse P_Sparse.
Import ListNotations.
Close Scope Q_scope.

Lemma kept_and_added lib pf F g h0 t : WF g -> edge_names g ->
  sparsifier_filter (mkSP (Some F) None None) g = Ok h0 -> union_of_maximum_spanning_trees lib pf g (K "weight") = Ok t ->
  exists h, sparsifier_filter (mkSP (Some (decorate lib pf (Some F))) None None) g = Ok h
  /\ same_but_edges g h /\ (forall x y, connected h x y <-> connected g x y)
  /\ forall u v a, In (u, v, a) (edges_data h) <-> In (u, v, a) (edges_data h0) \/ (In (u, v, a) (edges_data g) /\ In (u, v) (map fst t)).
Proof.
  intros W N F0 U. destruct (relevant_edges (mkSP (Some F) None None) g) as [l0|] eqn:R0; [|unfold sparsifier_filter in F0; rewrite R0 in F0; discriminate].
  pose proof R0 as R0'. unfold relevant_edges in R0'. cbn [sp_relevant sp_predicate sp_factory] in R0'. unfold sp_predicate in R0'. cbn [sp_factory] in R0'.
  destruct (F g) as [p|] eqn:Ef; [|discriminate]. cbn [bind] in R0'. apply filterM_Ok_inv in R0' as (A & L0).
  set (keep0 := fun e : edge3 => match (let '(u, v, a) := e in p u v a) with Ok b => b | Err _ => false end) in L0.
  assert (R : relevant_edges (mkSP (Some (decorate lib pf (Some F))) None None) g = Ok (filter (fun e => keep0 e || pmem (fst e) (map fst t)) (edges_data g))).
  { unfold relevant_edges, sp_predicate, decorate. cbn [sp_relevant sp_factory]. rewrite Ef. cbn [bind]. rewrite U. cbn [bind]. apply filterM_Ok.
    intros [[u v] a] J. destruct (A _ J) as (b & E). unfold keep0. rewrite E. reflexivity. }
  destruct (sparsifier_filter_spec _ g _ W N R) as (h & Eh & _ & S & D).
  rewrite L0 in R0. destruct (sparsifier_filter_spec _ g _ W N R0) as (h0' & Eh0 & _ & _ & D0). assert (h0' = h0) by congruence. subst h0'.
  exists h. split; [exact Eh|]. split; [exact S|]. split.
  - destruct (keep_connected_components lib pf F g h W Eh) as (_ & C & _). exact C.
  - intros u v a. rewrite D, D0, !filter_In. cbn [fst snd]. rewrite orb_true_iff, pmem_In. tauto.
Qed.

(** With keep_connected, the backbone keeps its edges and those of the spanning trees of the attribute "weight", whatever
    attribute the disparities are computed with: nodes are connected as in the graph. *)
Theorem C36_keep_connected lib pf g alpha attr h0 t : WF g -> edge_names g ->
  multiscale_backbone lib pf g alpha attr false = Ok h0 -> union_of_maximum_spanning_trees lib pf g (K "weight") = Ok t ->
  exists h, multiscale_backbone lib pf g alpha attr true = Ok h
  /\ same_but_edges g h /\ (forall x y, connected h x y <-> connected g x y)
  /\ forall u v a, In (u, v, a) (edges_data h) <-> In (u, v, a) (edges_data h0) \/ (In (u, v, a) (edges_data g) /\ In (u, v) (map fst t)).
Proof. intros W N F0 U. exact (kept_and_added lib pf (backbone_factory lib alpha attr) g h0 t W N F0 U). Qed.
Print Assumptions C36_keep_connected.

Theorem C33_keep_connected lib pf g threshold attr reverse h0 t : WF g -> edge_names g ->
  global_threshold_sparsification lib pf g threshold attr reverse false = Ok h0 -> union_of_maximum_spanning_trees lib pf g (K "weight") = Ok t ->
  exists h, global_threshold_sparsification lib pf g threshold attr reverse true = Ok h
  /\ same_but_edges g h /\ (forall x y, connected h x y <-> connected g x y)
  /\ forall u v a, In (u, v, a) (edges_data h) <-> In (u, v, a) (edges_data h0) \/ (In (u, v, a) (edges_data g) /\ In (u, v) (map fst t)).
Proof. intros W N F0 U. exact (kept_and_added lib pf (fun _ => Ok (threshold_predicate threshold attr reverse)) g h0 t W N F0 U). Qed.
Print Assumptions C33_keep_connected.

(** at level 1/4 the backbone keeps 0-1 and the loop of 2, and a threshold of 4 keeps the same; the edges of the trees, 0-2,
    0-3 and 2-3, are added and 1-2 stays out *)
Example C36_keep_connected_ex :
  let links r := match r with Ok h => edges h | Err _ => [] end in
  let backbone k := links (multiscale_backbone lib64 Long64 strengths (1 # 4)%Q (K "weight") k) in
  let cut k := links (global_threshold_sparsification lib64 Long64 strengths 4%Q (K "weight") false k) in
  let trees := match union_of_maximum_spanning_trees lib64 Long64 strengths (K "weight") with Ok t => map fst t | Err _ => [] end in
  let small := [(KInt 0, KInt 1); (KInt 2, KInt 2)] in
  let large := [(KInt 0, KInt 1); (KInt 0, KInt 2); (KInt 0, KInt 3); (KInt 2, KInt 2); (KInt 2, KInt 3)] in
  (wf strengths, backbone false, backbone true, cut false, cut true, trees)
  = (true, small, large, small, large, [(KInt 0, KInt 1); (KInt 0, KInt 2); (KInt 0, KInt 3); (KInt 2, KInt 3)]).
Proof. vm_compute. reflexivity. Qed.
