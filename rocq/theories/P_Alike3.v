(** * C111: removals in graphs which differ only by attributes nobody reads *)
From Coq Require Import List ZArith Bool QArith.
From Verif Require Import PyBase PyNum NxGraph L_Base L_Nx M_Graph S_Renaming L_Renaming L_Renaming3 S_Alike L_Alike P_Alike2 P_Graph.
Import ListNotations.
Close Scope Q_scope.

Lemma remove_nodes_from_bare names g l : bare names (remove_nodes_from g l) = remove_nodes_from (bare names g) l.
Proof. unfold remove_nodes_from, bare. cbn [g_dir g_multi g_attr g_nodes g_adj]. f_equal; symmetry; apply filter_map_renamed; reflexivity. Qed.
Lemma subgraph_bare names g l : bare names (subgraph g l) = subgraph (bare names g) l.
Proof. unfold subgraph, bare. cbn [g_dir g_multi g_attr g_nodes g_adj]. f_equal; symmetry; apply filter_map_renamed; reflexivity. Qed.
Lemma crop_bare names g : bare names (fst (crop_to_largest_connected_component g)) = fst (crop_to_largest_connected_component (bare names g)).
Proof.
  unfold crop_to_largest_connected_component. rewrite largest_bare, nodes_bare. destruct (largest_connected_component g); [|reflexivity]. apply remove_nodes_from_bare.
Qed.
Lemma remove_leaves_bare names g : bare names (fst (remove_leaves g)) = fst (remove_leaves (bare names g)).
Proof.
  unfold remove_leaves, remove_nodes, sbind, sread, smodify. change (g_nodes (bare names g)) with (map (fun na : key * attrs => (fst na, [] : attrs)) (g_nodes g)).
  rewrite (filterM_renamed (fun na : key * attrs => (fst na, [] : attrs)) (fun na => notM (not_leaf g (fst na) (snd na)))).
  - destruct (filterM _ (g_nodes g)) as [l|]; cbn [on_res bind]; [|reflexivity]. cbn [fst]. rewrite remove_nodes_from_bare, map_map. reflexivity.
  - intros [n a]. cbn [fst snd]. unfold not_leaf. rewrite degree_bare. reflexivity.
Qed.
Lemma remove_edges_read names (p : edge_predicate) g : (forall u v a, p u v (shown names a) = p u v a) ->
  remove_edges p (bare names g) = (bare names (fst (remove_edges p g)), snd (remove_edges p g)).
Proof.
  intros H. unfold remove_edges, sbind, sread, smodify. rewrite edges_data_bare.
  rewrite (filterM_renamed (sh names) (fun e => let '(u, v, a) := e in notM (p u v a))) by (intros [[u v] a]; unfold sh; cbn [fst snd]; rewrite H; reflexivity).
  destruct (filterM _ (edges_data g)) as [l|]; cbn [on_res bind]; [|reflexivity]. cbn [fst snd]. rewrite remove_edges_bare, map_map. reflexivity.
Qed.

(** Cropping to the largest component, removing leaves, viewing the largest component, and removing the edges which a predicate reading those attributes only refuses. *)
Theorem C111_removals names g h : alike names g h ->
  alike names (fst (crop_to_largest_connected_component g)) (fst (crop_to_largest_connected_component h))
  /\ alike names (fst (remove_leaves g)) (fst (remove_leaves h))
  /\ (forall g' h', largest_connected_component_subgraph g true = Ok g' -> largest_connected_component_subgraph h true = Ok h' -> alike names g' h')
  /\ (forall p : edge_predicate, (forall u v a b, shown names a = shown names b -> p u v a = p u v b) ->
        alike names (fst (remove_edges p g)) (fst (remove_edges p h)) /\ snd (remove_edges p g) = snd (remove_edges p h)).
Proof.
  intros A. unfold alike in *. split; [|split; [|split]].
  - rewrite !crop_bare, A. reflexivity.
  - rewrite !remove_leaves_bare, A. reflexivity.
  - intros g' h' E F. unfold largest_connected_component_subgraph in E, F. inversion E; inversion F. rewrite !subgraph_bare.
    rewrite <- (largest_bare names g), <- (largest_bare names h), A. reflexivity.
  - intros p H. assert (R : forall u v a, p u v (shown names a) = p u v a).
    { intros u v a. apply H. unfold shown. clear. induction a as [|x a IH]; [reflexivity|]. cbn [filter]. destruct (mem (fst x) names) eqn:M; [|exact IH]. cbn [filter]. rewrite M, IH. reflexivity. }
    pose proof (remove_edges_read names p g R) as G. rewrite A, (remove_edges_read names p h R) in G. symmetry in G. split; [exact (f_equal fst G)|exact (f_equal snd G)].
Qed.
Print Assumptions C111_removals.

(** Two colourings of a triangle with a leaf and, apart, an edge. *)
Example C111_removals_ex :
  let e c x := [(K "color", VStr c); (K "w", VInt x)] in
  let g c := ex_graph false false [0; 1; 2; 3; 4; 5]%Z [(0, 1, e c 3); (1, 2, e c 1); (2, 0, e c 2); (0, 3, e c 4); (4, 5, e c 5)]%Z in
  let heavy : edge_predicate := fun _ _ a => Ok (match dget (K "w") a with Some (VKey (KInt z)) => (3 <=? z)%Z | _ => false end) in
  alike [K "w"] (g "red"%string) (g "blue"%string) /\ g "red"%string <> g "blue"%string
  /\ (forall u v a b, shown [K "w"] a = shown [K "w"] b -> heavy u v a = heavy u v b)
  /\ edges_data (fst (remove_edges heavy (g "blue"%string)))
     = [(KInt 0, KInt 1, e "blue"%string 3); (KInt 0, KInt 3, e "blue"%string 4); (KInt 4, KInt 5, e "blue"%string 5)]%Z
  /\ nodes (fst (remove_leaves (g "blue"%string))) = [KInt 0; KInt 1; KInt 2]%Z.
Proof.
  split; [reflexivity|]. split; [discriminate|]. split; [|split; vm_compute; reflexivity].
  intros u v a b H. rewrite <- (dget_shown [K "w"] (K "w") a), <- (dget_shown [K "w"] (K "w") b), H by (left; reflexivity). reflexivity.
Qed.
