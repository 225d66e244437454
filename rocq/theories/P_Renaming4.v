(** * C110: filters, removals and subgraphs with other names of nodes *)
From Coq Require Import List ZArith Bool QArith.
From Verif Require Import PyBase PyNum NxGraph L_Base M_Graph S_Renaming L_Renaming L_Renaming2 L_Renaming3 P_Graph P_Renaming.
Import ListNotations.
Close Scope Q_scope.

Section Renaming.
Variable f : key -> key.
Hypothesis I : injective f.

Lemma drop_pair_renamed dir multi u v l :
  drop_pair dir multi (f u) (f v) (map (fun b => mkB (f (b_src b)) (f (b_dst b)) (b_data b)) l)
  = map (fun b => mkB (f (b_src b)) (f (b_dst b)) (b_data b)) (drop_pair dir multi u v l).
Proof.
  induction l as [|b l IH]; [reflexivity|]. cbn [map drop_pair]. rewrite (same_ends_renamed f I dir u v b). destruct (same_ends dir u v b); [|cbn [map]; rewrite IH; reflexivity].
  cbn [b_data]. destruct multi; [|reflexivity]. destruct (removelast (b_data b)); reflexivity.
Qed.
Lemma remove_edges_from_renamed g l : remove_edges_from (renamed f g) (map (fun e => (f (fst e), f (snd e))) l) = renamed f (remove_edges_from g l).
Proof.
  unfold remove_edges_from, renamed. cbn [g_dir g_multi g_attr g_nodes g_adj]. f_equal. generalize (g_adj g).
  induction l as [|[u v] l IH]; intros acc; [reflexivity|]. cbn [map fold_left fst snd]. rewrite drop_pair_renamed. apply IH.
Qed.
Lemma remove_edges_renamed p p' g : (forall u v a, p' (f u) (f v) a = p u v a) ->
  remove_edges p' (renamed f g) = (renamed f (fst (remove_edges p g)), snd (remove_edges p g)).
Proof.
  intros H. unfold remove_edges, sbind, sread, smodify. rewrite edges_data_renamed by exact I.
  rewrite (filterM_renamed (on_edge f) (fun e => let '(u, v, a) := e in notM (p u v a))) by (intros [[u v] a]; cbn; rewrite H; reflexivity).
  destruct (filterM _ (edges_data g)) as [l|]; cbn [on_res bind]; [|reflexivity]. cbn [fst snd]. rewrite <- remove_edges_from_renamed, !map_map. reflexivity.
Qed.
Lemma remove_nodes_renamed p p' g : (forall n a, p' (f n) a = p n a) ->
  remove_nodes p' (renamed f g) = (renamed f (fst (remove_nodes p g)), snd (remove_nodes p g)).
Proof.
  intros H. unfold remove_nodes, sbind, sread, smodify. cbn [renamed g_nodes].
  rewrite (filterM_renamed (fun na => (f (fst na), snd na)) (fun na => notM (p (fst na) (snd na)))) by (intros [n a]; cbn; rewrite H; reflexivity).
  destruct (filterM _ (g_nodes g)) as [l|]; cbn [on_res bind]; [|reflexivity]. cbn [fst snd]. rewrite <- remove_nodes_from_renamed by exact I. rewrite !map_map. reflexivity.
Qed.
Lemma filter_edges_renamed p p' g : (forall u v a, p' (f u) (f v) a = p u v a) -> filter_edges (renamed f g) p' = on_res (renamed f) (filter_edges g p).
Proof.
  intros H. unfold filter_edges. rewrite edges_data_renamed by exact I. change (create_empty_copy (renamed f g)) with (renamed f (create_empty_copy g)).
  apply foldM_renamed. intros m [[u v] a]. cbn. rewrite H. destruct (p u v a) as [[|]|]; cbn [bind on_res]; [apply add_edge_kw_renamed; exact I|reflexivity|reflexivity].
Qed.
Lemma subgraph_renamed g l : subgraph (renamed f g) (map f l) = renamed f (subgraph g l).
Proof.
  unfold subgraph, renamed. cbn [g_dir g_multi g_attr g_nodes g_adj]. f_equal.
  - apply filter_map_renamed. intros [n a]. cbn. apply mem_renamed, I.
  - apply filter_map_renamed. intros b. cbn. rewrite !(mem_renamed f I). reflexivity.
Qed.
Lemma lcc_subgraph_renamed g as_view : largest_connected_component_subgraph (renamed f g) as_view = on_res (renamed f) (largest_connected_component_subgraph g as_view).
Proof.
  unfold largest_connected_component_subgraph. cbn zeta. rewrite largest_renamed by exact I.
  replace (match option_map (map f) (largest_connected_component g) with Some c => c | None => [] end)
    with (map f (match largest_connected_component g with Some c => c | None => [] end)) by (destruct (largest_connected_component g); reflexivity).
  set (c := match largest_connected_component g with Some c => c | None => [] end). destruct as_view; [cbn [on_res]; rewrite subgraph_renamed; reflexivity|].
  change (create_empty_copy (renamed f g)) with (renamed f (create_empty_copy g)). cbn [renamed g_nodes].
  rewrite (foldM_renamed (renamed f) (fun na => (f (fst na), snd na)) (fun sub na => add_node_kw sub (fst na) (snd na))) by (intros; apply add_node_kw_renamed; exact I).
  destruct (foldM _ (g_nodes g) _) as [sub|]; cbn [on_res bind]; [|reflexivity]. destruct c as [|x c]; [reflexivity|]. change (map f (x :: c)) with (f x :: map f c) at 1. cbn iota.
  change (f x :: map f c) with (map f (x :: c)). change (mkG _ _ _ _ _) with (renamed f g). rewrite edges_data_renamed by exact I.
  apply foldM_renamed. intros m [[u v] a]. cbn [on_edge fst snd]. rewrite mem_renamed by exact I. destruct (mem u (x :: c)); [apply add_edge_kw_renamed; exact I|reflexivity].
Qed.

Lemma node_data_renamed g n : node_data (renamed f g) (f n) = node_data g n.
Proof. unfold node_data. apply (dget_renamed f I). Qed.
Lemma filter_nodes_renamed p p' g : g_dir g = true \/ keeps_order f -> (forall n a, p' (f n) a = p n a) ->
  filter_nodes (renamed f g) p' = on_res (renamed f) (filter_nodes g p).
Proof.
  intros O H. unfold filter_nodes, create_null_copy. cbn [renamed g_dir g_multi g_attr g_nodes].
  destruct (new_graph_kw (g_dir g) (g_multi g) (g_attr g)) as [c|] eqn:C; cbn [bind on_res]; [|reflexivity].
  assert (E : c = renamed f c).
  { unfold new_graph_kw in C. destruct (kwargs_ok _ _); [|discriminate]. destruct (dget _ _) as [[| | |]|]; inversion C; reflexivity. }
  rewrite E at 1. change (mkG _ _ _ _ _) with (renamed f g). apply foldM_renamed. intros m [n a]. cbn [filter_nodes_step fst snd]. rewrite H.
  destruct (p n a) as [[|]|]; cbn [bind on_res]; [|reflexivity|reflexivity]. rewrite add_node_kw_renamed by exact I.
  destruct (add_node_kw m n a) as [m'|]; cbn [bind on_res]; [|reflexivity]. rewrite edges_of_renamed by exact I. apply foldM_renamed.
  intros s [[[u v] k] b]. unfold filter_nodes_edge. cbn [renamed g_dir g_multi].
  assert (Q : (if g_dir g then Ok true else key_gt (f u) (f v)) = (if g_dir g then Ok true else key_gt u v)).
  { destruct O as [-> |[_ O]]; [reflexivity|]. unfold key_gt. rewrite O. reflexivity. }
  rewrite Q. destruct (if g_dir g then Ok true else key_gt u v) as [o|]; cbn [bind]; [|reflexivity]. unfold test_node. rewrite node_data_renamed.
  replace (match node_data g v with Some a0 => p' (f v) a0 | None => Err KeyError end) with (match node_data g v with Some a0 => p v a0 | None => Err KeyError end)
    by (destruct (node_data g v); [rewrite H|]; reflexivity).
  destruct (if o then _ else Ok false) as [[|]|]; cbn [bind on_res]; [|reflexivity|reflexivity]. destruct (g_multi g); [|apply add_edge_kw_renamed; exact I].
  unfold add_edge_key_kw. destruct (kwargs_ok _ b); cbn [on_res]; [|reflexivity]. rewrite add_edge_at_renamed by exact I. reflexivity.
Qed.
End Renaming.

(** Predicates which say the same of the renamed nodes keep the renamed nodes and edges; functions which only ask whether nodes are equal, so that any names will do. *)
Theorem C110_removals f g : injective f ->
  (forall p p' : edge_predicate, (forall u v a, p' (f u) (f v) a = p u v a) ->
     fst (remove_edges p' (renamed f g)) = renamed f (fst (remove_edges p g))
     /\ snd (remove_edges p' (renamed f g)) = snd (remove_edges p g)
     /\ filter_edges (renamed f g) p' = on_res (renamed f) (filter_edges g p))
  /\ (forall p p' : node_predicate, (forall n a, p' (f n) a = p n a) ->
     fst (remove_nodes p' (renamed f g)) = renamed f (fst (remove_nodes p g))
     /\ snd (remove_nodes p' (renamed f g)) = snd (remove_nodes p g))
  /\ fst (remove_leaves (renamed f g)) = renamed f (fst (remove_leaves g))
  /\ (forall as_view, largest_connected_component_subgraph (renamed f g) as_view = on_res (renamed f) (largest_connected_component_subgraph g as_view)).
Proof.
  intros I. split; [|split; [|split]].
  - intros p p' H. rewrite (remove_edges_renamed f I p p' g H). split; [reflexivity|]. split; [reflexivity|]. apply filter_edges_renamed; assumption.
  - intros p p' H. rewrite (remove_nodes_renamed f I p p' g H). split; reflexivity.
  - unfold remove_leaves. rewrite (remove_nodes_renamed f I (not_leaf g)); [reflexivity|]. intros n a. unfold not_leaf. rewrite degree_renamed by exact I. reflexivity.
  - intros as_view. apply lcc_subgraph_renamed, I.
Qed.
Print Assumptions C110_removals.

(** filter_nodes compares the two ends of an undirected edge *)
Theorem C110_filter_nodes f g : injective f -> g_dir g = true \/ keeps_order f ->
  (forall p p' : node_predicate, (forall n a, p' (f n) a = p n a) -> filter_nodes (renamed f g) p' = on_res (renamed f) (filter_nodes g p))
  /\ filter_leaves (renamed f g) = on_res (renamed f) (filter_leaves g).
Proof.
  intros I O. split; [intros p p'; apply filter_nodes_renamed; assumption|].
  apply filter_nodes_renamed; [exact I|exact O|]. intros n a. unfold not_leaf. rewrite degree_renamed by exact I. reflexivity.
Qed.
Print Assumptions C110_filter_nodes.

(** A triangle with a leaf and, apart, an edge. *)
Example C110_removals_ex :
  let g := ex_graph false false [0; 1; 2; 3; 4; 5]%Z [(0, 1, weight 3); (1, 2, weight 1); (2, 0, weight 2); (0, 3, weight 4); (4, 5, weight 5)]%Z in
  let heavy : edge_predicate := fun _ _ a => Ok (match dget (K "weight") a with Some (VKey (KInt z)) => (3 <=? z)%Z | _ => false end) in
  nodes (fst (remove_leaves (renamed wrapped g))) = [KObj 0; KObj 4; KObj 8]
  /\ map fst (edges_data (fst (remove_edges heavy (renamed wrapped g)))) = [(KObj 0, KObj 4); (KObj 0, KObj 12); (KObj 16, KObj 20)]
  /\ on_res nodes (largest_connected_component_subgraph (renamed wrapped g) true) = Ok [KObj 0; KObj 4; KObj 8; KObj 12]
  /\ on_res nodes (filter_leaves (renamed spread g)) = Ok [KInt 5; KInt 7; KInt 9]
  /\ filter_leaves (renamed wrapped g) = Err TypeError.
Proof. vm_compute. auto. Qed.
