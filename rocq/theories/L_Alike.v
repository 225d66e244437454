(** * Lemmas about graphs which differ only by attributes nobody reads *)
From Coq Require Import List ZArith Lia Bool QArith.
From Verif Require Import PyBase PyNum NxGraph L_Base M_UnionFind M_Traversal M_Graph M_Umst M_Disparity M_Sparse M_Learn M_Tri S_Renaming L_Renaming L_Renaming2 S_Alike.
Import ListNotations.
Close Scope Q_scope.

Lemma dget_shown names w a : In w names -> dget w (shown names a) = dget w a.
Proof.
  intros I. induction a as [|[k v] a IH]; [reflexivity|]. cbn [shown filter fst dget]. destruct (mem k names) eqn:M.
  - cbn [dget]. destruct (key_eqb w k); [reflexivity|exact IH].
  - destruct (key_eqb w k) eqn:E; [|exact IH]. apply key_eqb_eq in E. subst k. apply mem_In in I. congruence.
Qed.

Section Bare.
Variable names : list key.
Let bd (kd : dict attrs) : dict attrs := map (fun ka => (fst ka, shown names (snd ka))) kd.
Let bb (b : bundle) : bundle := mkB (b_src b) (b_dst b) (bd (b_data b)).
Definition sh (e : key * key * attrs) : key * key * attrs := (fst e, shown names (snd e)).

Lemma edge_data_bare g u v : edge_data (bare names g) u v = option_map bd (edge_data g u v).
Proof.
  unfold edge_data. cbn [bare g_dir g_adj]. change (map _ (g_adj g)) with (map bb (g_adj g)).
  induction (g_adj g) as [|b l IH]; [reflexivity|]. cbn [map List.find]. change (same_ends (g_dir g) u v (bb b)) with (same_ends (g_dir g) u v b).
  destruct (same_ends (g_dir g) u v b); [reflexivity|exact IH].
Qed.
Lemma has_edge_bare g u v : has_edge (bare names g) u v = has_edge g u v.
Proof. unfold has_edge. rewrite edge_data_bare. destruct (edge_data g u v); reflexivity. Qed.
Lemma adj_items_bare g n : adj_items (bare names g) n = map (fun mk => (fst mk, bd (snd mk))) (adj_items g n).
Proof.
  unfold adj_items. cbn [bare g_dir g_adj]. induction (g_adj g) as [|b l IH]; [reflexivity|]. cbn [map flat_map]. rewrite map_app. f_equal; [|exact IH].
  change (other_end (g_dir g) n (mkB _ _ _)) with (other_end (g_dir g) n b). destruct (other_end _ n b); reflexivity.
Qed.
Lemma pred_items_bare g n : pred_items (bare names g) n = map (fun mk => (fst mk, bd (snd mk))) (pred_items g n).
Proof.
  unfold pred_items. cbn [bare g_dir g_adj]. induction (g_adj g) as [|b l IH]; [reflexivity|]. cbn [map flat_map]. rewrite map_app. f_equal; [|exact IH].
  cbn [b_dst b_src b_data]. destruct (key_eqb _ n); reflexivity.
Qed.
Lemma nodes_bare g : nodes (bare names g) = nodes g.
Proof. unfold nodes, dkeys. cbn [bare g_nodes]. rewrite map_map. reflexivity. Qed.
Lemma order_bare g : order (bare names g) = order g.
Proof. unfold order. cbn. apply map_length. Qed.
Lemma neighbors_bare g n : neighbors (bare names g) n = neighbors g n.
Proof. unfold neighbors. rewrite adj_items_bare, map_map. reflexivity. Qed.
Lemma predecessors_bare g n : predecessors (bare names g) n = predecessors g n.
Proof. unfold predecessors. rewrite pred_items_bare, map_map. reflexivity. Qed.
Lemma weak_neighbors_bare g n : weak_neighbors (bare names g) n = weak_neighbors g n.
Proof. unfold weak_neighbors. rewrite neighbors_bare, predecessors_bare. reflexivity. Qed.
Lemma length_bd kd : List.length (bd kd) = List.length kd.
Proof. apply map_length. Qed.
Lemma degree_bare g n : degree (bare names g) n = degree g n.
Proof.
  unfold degree. change (g_dir (bare names g)) with (g_dir g). rewrite adj_items_bare, pred_items_bare, edge_data_bare, !map_map. cbn [snd].
  assert (E : forall l : list (key * dict attrs), map (fun x => List.length (bd (snd x))) l = map (fun mk => List.length (snd mk)) l)
    by (intros l; apply map_ext; intros; apply length_bd).
  rewrite !E. destruct (edge_data g n n) as [kd|]; cbn [option_map]; rewrite ?length_bd; reflexivity.
Qed.
Lemma pairs_from_bare g todo : forall seen, pairs_from (bare names g) seen todo = map (fun p => (fst p, bd (snd p))) (pairs_from g seen todo).
Proof.
  induction todo as [|n todo IH]; intros seen; [reflexivity|]. cbn [pairs_from]. rewrite map_app. f_equal; [|exact (IH (n :: seen))].
  rewrite adj_items_bare. rewrite (filter_map_renamed (fun mk => (fst mk, bd (snd mk))) _ (fun mk => g_dir g || negb (mem (fst mk) seen))) by reflexivity.
  rewrite !map_map. reflexivity.
Qed.
Lemma edges_keys_bare g : edges_keys (bare names g) = map (fun e => (fst e, shown names (snd e))) (edges_keys g).
Proof.
  unfold edges_keys, edge_pairs. rewrite nodes_bare, pairs_from_bare. induction (pairs_from g [] (nodes g)) as [|[[u v] kd] l IH]; [reflexivity|].
  cbn [map flat_map]. rewrite map_app. f_equal; [|exact IH]. cbn [fst snd]. unfold bd. rewrite !map_map. reflexivity.
Qed.
Lemma edges_data_bare g : edges_data (bare names g) = map sh (edges_data g).
Proof. unfold edges_data. rewrite edges_keys_bare, !map_map. apply map_ext. intros [[[u v] k] a]. reflexivity. Qed.
Lemma size_bare g : size (bare names g) = size g.
Proof. unfold size. rewrite edges_keys_bare. apply map_length. Qed.
Lemma edges_of_bare g n : edges_of (bare names g) n = map (fun e => (fst e, shown names (snd e))) (edges_of g n).
Proof.
  unfold edges_of. rewrite adj_items_bare. induction (adj_items g n) as [|[m kd] l IH]; [reflexivity|]. cbn [map flat_map]. rewrite map_app. f_equal; [|exact IH].
  cbn [fst snd]. unfold bd. rewrite !map_map. reflexivity.
Qed.

(** ** components *)
Lemma plain_bfs_ext fuel nb nb' : (forall n, nb' n = nb n) -> forall seen queue, plain_bfs fuel nb' seen queue = plain_bfs fuel nb seen queue.
Proof.
  intros H. induction fuel as [|fuel IH]; intros seen queue; [reflexivity|]. destruct queue as [|v queue]; [reflexivity|]. cbn [plain_bfs].
  destruct (mem v seen); [apply IH|]. rewrite H. apply IH.
Qed.
Lemma bfs_fuel_bare g : bfs_fuel (bare names g) = bfs_fuel g.
Proof. unfold bfs_fuel. rewrite nodes_bare. do 3 f_equal. apply map_ext. intros n. rewrite weak_neighbors_bare. reflexivity. Qed.
Lemma components_from_bare g todo : forall seen, components_from (bare names g) seen todo = components_from g seen todo.
Proof.
  induction todo as [|v todo IH]; intros seen; [reflexivity|]. cbn [components_from]. destruct (mem v seen); [apply IH|]. cbn zeta.
  rewrite bfs_fuel_bare, (plain_bfs_ext _ (weak_neighbors g) _ (weak_neighbors_bare g)), IH. reflexivity.
Qed.
Lemma connected_components_bare g : connected_components (bare names g) = connected_components g.
Proof. unfold connected_components. rewrite nodes_bare. apply components_from_bare. Qed.
Lemma largest_bare g : largest_connected_component (bare names g) = largest_connected_component g.
Proof. unfold largest_connected_component. rewrite order_bare, connected_components_bare. reflexivity. Qed.

Section Filter.
Variable ef : option edge_predicate.
Hypothesis EF : forall u v a, follows ef u v (shown names a) = follows ef u v a.

Lemma cc_visit_bare g n t : cc_visit (bare names g) ef n t = cc_visit g ef n t.
Proof.
  unfold cc_visit. rewrite edges_of_bare. revert t. induction (edges_of g n) as [|[[[u v] k] a] l IH]; intros t; [reflexivity|]. cbn [map foldM fst snd].
  rewrite EF. destruct (follows ef n v a) as [[|]|e]; cbn [bind]; [apply IH|apply IH|reflexivity].
Qed.
Lemma cc_loop_bare g fuel : forall size t, cc_loop fuel (bare names g) ef size t = cc_loop fuel g ef size t.
Proof.
  induction fuel as [|fuel IH]; intros size t; [reflexivity|]. cbn [cc_loop]. destruct (Nat.eqb (t_len t) 0); [reflexivity|].
  destruct (t_pop t) as [t' [[n1|i]|e]]; try reflexivity. rewrite cc_visit_bare. destruct (cc_visit g ef n1 t'); cbn [bind]; [apply IH|reflexivity].
Qed.
Lemma cc_from_bare g todo : forall t, cc_from (bare names g) ef todo t = cc_from g ef todo t.
Proof.
  induction todo as [|n todo IH]; intros t; [reflexivity|]. cbn [cc_from]. destruct (seen_everything t); [reflexivity|]. destruct (t_contains _ _); [apply IH|].
  rewrite order_bare, cc_loop_bare. destruct (cc_loop _ g ef 0 _) as [[sz t']|]; cbn [bind]; [|reflexivity]. rewrite IH. reflexivity.
Qed.
Lemma orders_bare g : connected_component_orders (bare names g) ef = connected_component_orders g ef.
Proof. unfold connected_component_orders. rewrite nodes_bare. apply cc_from_bare. Qed.
Lemma second_bare g : second_largest_connected_component_order (bare names g) ef = second_largest_connected_component_order g ef.
Proof. unfold second_largest_connected_component_order. rewrite orders_bare. reflexivity. Qed.
End Filter.

(** ** spanning trees *)
Definition sum_state (s : umst_state) : umst_state := mkUM (um_ds s) (um_weight s) (map sh (um_relevant s)) (map sh (um_out s)).

Lemma on_ds_bare {A} (m : sm dset_state A) : commutes sum_state (on_ds m) (on_ds m).
Proof. intros s. unfold on_ds. cbn [sum_state um_ds]. destruct (m (um_ds s)). reflexivity. Qed.
Lemma um_flush_bare l : commutes sum_state (um_flush l) (um_flush (map sh l)).
Proof.
  induction l as [|e l IH]; [apply commutes_ret|]. cbn [map um_flush]. apply commutes_bind.
  - intros s. unfold smodify, sum_state. cbn. rewrite map_app. reflexivity.
  - intros _. apply commutes_bind; [apply on_ds_bare|]. intros _. exact IH.
Qed.
Lemma um_bucket_bare lib w : commutes sum_state (um_bucket lib w) (um_bucket lib w).
Proof.
  intros s. unfold um_bucket. cbn [sum_state um_weight um_relevant].
  destruct (match um_weight s with None => true | Some c => n_ltb (NFloat (weight_epsilon lib)) (n_sub lib c w) end); [|reflexivity].
  apply (commutes_bind sum_state _ _ _ _ (um_flush_bare (um_relevant s))). intros _ s'. reflexivity.
Qed.
Definition shw (x : pynum * edge3) : pynum * edge3 := (fst x, sh (snd x)).
Lemma um_loop_bare lib l : commutes sum_state (um_loop lib l) (um_loop lib (map shw l)).
Proof.
  induction l as [|[w e] l IH]; [apply commutes_ret|]. cbn [map um_loop]. apply commutes_bind; [|intros _; exact IH].
  unfold shw, um_edge. cbn [fst snd]. apply commutes_bind; [apply um_bucket_bare|]. intros _. apply commutes_bind; [apply on_ds_bare|].
  intros [|]; [apply commutes_ret|]. intros s. unfold smodify, sum_state. cbn. rewrite map_app. reflexivity.
Qed.
Lemma insert_weight_bare x l : insert_weight (shw x) (map shw l) = map shw (insert_weight x l).
Proof. induction l as [|y l IH]; [reflexivity|]. cbn [map insert_weight]. cbn [shw fst]. destruct (n_leb (fst y) (fst x)); [reflexivity|]. cbn [map]. rewrite <- IH. reflexivity. Qed.
Lemma sort_weights_bare l : sort_weights (map shw l) = map shw (sort_weights l).
Proof. induction l as [|x l IH]; [reflexivity|]. cbn [map sort_weights fold_right]. unfold sort_weights in IH. rewrite IH. apply insert_weight_bare. Qed.
Lemma umst_bare lib pf g w : In w names ->
  union_of_maximum_spanning_trees lib pf (bare names g) w = on_res (map sh) (union_of_maximum_spanning_trees lib pf g w).
Proof.
  intros I. unfold union_of_maximum_spanning_trees, umst_run. rewrite size_bare. destruct (Nat.eqb (size g) 0); [reflexivity|].
  rewrite edges_data_bare. rewrite (mapM_renamed sh shw (fun e => let* x := weight_of w (snd e) in Ok (x, e))).
  - destruct (mapM _ (edges_data g)) as [l|]; cbn [on_res]; [|reflexivity]. rewrite order_bare. destruct (make_ds pf (order g)) as [ds|] eqn:E; [|reflexivity].
    change (mkUM ds None [] []) with (sum_state (mkUM ds None [] [])) at 1. rewrite sort_weights_bare, um_loop_bare.
    destruct (um_loop lib (sort_weights l) _) as [s [u|e]]; cbn [fst snd]; [|reflexivity]. cbn [on_res sum_state um_out um_relevant]. rewrite map_app. reflexivity.
  - intros e. unfold weight_of. cbn [sh snd]. rewrite dget_shown by exact I. destruct (match dget w (snd e) with Some v => as_number v | None => Ok (NInt 1) end); reflexivity.
Qed.

(** ** disparity *)
Lemma foldM_same {A B S} (h : A -> B) (m : S -> A -> res S) (m' : S -> B -> res S) l : (forall s a, m' s (h a) = m s a) -> forall s, foldM m' (map h l) s = foldM m l s.
Proof. intros H. induction l as [|a l IH]; intros s; [reflexivity|]. cbn [map foldM]. rewrite H. destruct (m s a); cbn [bind]; [apply IH|reflexivity]. Qed.
Lemma weight_or_one_bare w kd : In w names -> weight_or_one w (bd kd) = weight_or_one w kd.
Proof.
  intros I. unfold weight_or_one. replace (dget (KInt 0) (bd kd)) with (option_map (shown names) (dget (KInt 0) kd)).
  - destruct (dget (KInt 0) kd) as [a|]; cbn [option_map]; [|reflexivity]. rewrite dget_shown by exact I. reflexivity.
  - induction kd as [|[k a] kd IH]; [reflexivity|]. cbn [bd map dget fst snd]. destruct (key_eqb (KInt 0) k); [reflexivity|exact IH].
Qed.
Lemma weighted_degree_bare lib g w n : In w names -> weighted_degree lib (bare names g) w n = weighted_degree lib g w n.
Proof.
  intros I. unfold weighted_degree. rewrite adj_items_bare, edge_data_bare.
  rewrite (foldM_same (fun mk => (fst mk, bd (snd mk))) (fun acc mk => let* x := weight_or_one w (snd mk) in Ok (n_add lib acc x)))
    by (intros s a; cbn [snd]; rewrite weight_or_one_bare by exact I; reflexivity).
  destruct (foldM _ (adj_items g n) (NInt 0)); cbn [bind]; [|reflexivity]. destruct (edge_data g n n) as [kd|]; cbn [option_map]; [|reflexivity].
  rewrite weight_or_one_bare by exact I. reflexivity.
Qed.
Lemma edges_weight_bare g w n : In w names -> edges_weight (bare names g) w n = edges_weight g w n.
Proof. intros I. unfold edges_weight. rewrite edges_of_bare, map_map. apply map_ext. intros [[[u v] k] a]. cbn [fst snd]. rewrite dget_shown by exact I. reflexivity. Qed.
Lemma foldM_ext' {A S} (m m' : S -> A -> res S) l : (forall s a, m' s a = m s a) -> forall s, foldM m' l s = foldM m l s.
Proof. intros H s. rewrite <- (map_id l) at 1. apply foldM_same, H. Qed.
Lemma mapM_ext' {A B} (m m' : A -> res B) l : (forall a, m' a = m a) -> mapM m' l = mapM m l.
Proof. intros H. induction l as [|a l IH]; [reflexivity|]. cbn [mapM]. rewrite H, IH. reflexivity. Qed.
Lemma disparity_bare lib g w rev : In w names -> edge_disparity lib (bare names g) w rev = edge_disparity lib g w rev.
Proof.
  intros I. unfold edge_disparity. change (g_dir (bare names g)) with (g_dir g). change (g_multi (bare names g)) with (g_multi g). destruct (_ || _); [reflexivity|].
  rewrite nodes_bare. rewrite (mapM_ext' (fun n => let* x := weighted_degree lib g w n in Ok (n, x))) by (intros; rewrite weighted_degree_bare by exact I; reflexivity).
  destruct (mapM _ (nodes g)) as [wd|]; cbn [bind]; [|reflexivity]. apply foldM_ext'. intros d n. rewrite edges_weight_bare by exact I. apply foldM_ext'.
  intros d' [t x]. unfold disparity_edge. rewrite !degree_bare. reflexivity.
Qed.

(** ** sparsifiers *)
Lemma filterM_bare (p p' : edge3 -> res bool) l : (forall e, p' (sh e) = p e) -> filterM p' (map sh l) = on_res (map sh) (filterM p l).
Proof.
  intros H. induction l as [|e l IH]; [reflexivity|]. cbn [map filterM]. rewrite H. destruct (p e) as [b|]; cbn [bind on_res]; [|reflexivity].
  rewrite IH. destruct (filterM p l); cbn [bind on_res]; [|reflexivity]. destruct b; reflexivity.
Qed.
Definition reads_same (p p' : edge_predicate) : Prop := forall u v a, p' u v (shown names a) = p u v a.
Definition same_factory (F : factory) g : Prop :=
  match F g, F (bare names g) with Ok p, Ok p' => reads_same p p' | Err e, Err e' => e = e' | _, _ => False end.

Lemma decorate_bare lib pf F g : In (K "weight") names -> same_factory F g -> same_factory (decorate lib pf (Some F)) g.
Proof.
  intros I H. unfold same_factory, decorate in *. destruct (F g) as [p|e], (F (bare names g)) as [p'|e']; try contradiction; cbn [bind]; [|exact H].
  rewrite umst_bare by exact I. destruct (union_of_maximum_spanning_trees lib pf g (K "weight")) as [t|]; cbn [bind on_res]; [|reflexivity].
  intros u v a. rewrite H. replace (map fst (map sh t)) with (map fst t); [reflexivity|]. rewrite map_map. reflexivity.
Qed.
Lemma sparsifier_bare F g : same_factory F g ->
  relevant_edges (mkSP (Some F) None None) (bare names g) = on_res (map sh) (relevant_edges (mkSP (Some F) None None) g)
  /\ redundant_edges (mkSP (Some F) None None) (bare names g) = on_res (map sh) (redundant_edges (mkSP (Some F) None None) g).
Proof.
  intros H. unfold relevant_edges, redundant_edges, sp_predicate. cbn [sp_relevant sp_redundant sp_factory]. unfold same_factory in H.
  destruct (F g) as [p|e], (F (bare names g)) as [p'|e']; try contradiction; cbn [bind on_res]; [|subst; split; reflexivity].
  rewrite edges_data_bare. split; apply filterM_bare; intros [[u v] a]; cbn [sh fst snd]; rewrite H; reflexivity.
Qed.
Lemma made_bare lib pf F g keep sp : (keep = true -> In (K "weight") names) -> same_factory F g -> make_sparsifier lib pf (Some F) None None keep = Ok sp ->
  relevant_edges sp (bare names g) = on_res (map sh) (relevant_edges sp g) /\ redundant_edges sp (bare names g) = on_res (map sh) (redundant_edges sp g).
Proof.
  intros I H E. cbn in E. apply (f_equal (fun r => match r with Ok s => s | Err _ => sp end)) in E. subst sp.
  destruct keep; apply sparsifier_bare; [apply decorate_bare; auto|exact H].
Qed.
Lemma threshold_factory_bare t w reverse g : In w names -> same_factory (fun _ => Ok (threshold_predicate t w reverse)) g.
Proof. intros I u v a. unfold threshold_predicate. rewrite dget_shown by exact I. reflexivity. Qed.
Lemma backbone_factory_bare lib alpha w g : In w names -> same_factory (backbone_factory lib alpha w) g.
Proof. intros I. unfold same_factory, backbone_factory. rewrite disparity_bare by exact I. destruct (edge_disparity lib g w false) as [d|]; cbn [bind]; [intros u v a|]; reflexivity. Qed.

(** ** the learner *)
Lemma largest_order_bare g : largest_connected_component_order (bare names g) = largest_connected_component_order g.
Proof. unfold largest_connected_component_order. rewrite order_bare, orders_bare by reflexivity. reflexivity. Qed.
Lemma learner_bare fuel lib g start rate m w : In w names ->
  floatsam_threshold_learner fuel lib (bare names g) start rate m w = floatsam_threshold_learner fuel lib g start rate m w.
Proof.
  intros I. unfold floatsam_threshold_learner. rewrite size_bare. destruct (Nat.eqb (size g) 0); [reflexivity|].
  replace (drifter_order lib (bare names g) m) with (drifter_order lib g m) by (unfold drifter_order; rewrite largest_order_bare; reflexivity).
  destruct (drifter_order lib g m) as [d|]; cbn [bind]; [|reflexivity]. generalize 0 at 1 2. revert start.
  induction fuel as [|fuel IH]; intros start n; [reflexivity|]. cbn [floatsam_loop]. cbn zeta.
  rewrite second_bare by (intros u v a; unfold follows, edge_filter; rewrite dget_shown by exact I; reflexivity).
  destruct (second_largest_connected_component_order g _) as [c|]; cbn [bind]; [|reflexivity].
  destruct (match c with Some c0 => (d <=? Z.of_nat c0)%Z | None => false end); [reflexivity|]. rewrite IH. reflexivity.
Qed.

(** ** triangles *)
Lemma dset_bd k a d : bd (dset k a d) = dset k (shown names a) (bd d).
Proof. induction d as [|[k' a'] d IH]; [reflexivity|]. cbn [bd dset map fst snd]. destruct (key_eqb k k'); [reflexivity|]. cbn [map]. f_equal. exact IH. Qed.
Lemma dupdate_bd d e : bd (dupdate d e) = dupdate (bd d) (bd e).
Proof.
  unfold dupdate. revert d. induction e as [|[k a] e IH]; intros d; [reflexivity|]. cbn [fold_left]. rewrite IH, dset_bd. reflexivity.
Qed.
Lemma merge_bundle_bare b l : map bb (merge_bundle b l) = merge_bundle (bb b) (map bb l).
Proof.
  induction l as [|c l IH]; [reflexivity|]. cbn [merge_bundle map]. change (same_ends false (b_src (bb b)) (b_dst (bb b)) (bb c)) with (same_ends false (b_src b) (b_dst b) c).
  destruct (same_ends false (b_src b) (b_dst b) c); cbn [map]; [|rewrite IH; reflexivity]. f_equal. unfold bb. cbn [b_src b_dst b_data]. rewrite dupdate_bd. reflexivity.
Qed.
Lemma to_undirected_bare g : to_undirected (bare names g) = bare names (to_undirected g).
Proof.
  unfold to_undirected. change (g_dir (bare names g)) with (g_dir g). destruct (g_dir g); [|reflexivity]. unfold bare. cbn [g_dir g_multi g_attr g_nodes g_adj]. f_equal.
  change (fold_left (fun acc b => merge_bundle b acc) (map bb (g_adj g)) [] = map bb (fold_left (fun acc b => merge_bundle b acc) (g_adj g) [])).
  change (@nil bundle) with (map bb []) at 1. generalize (@nil bundle). induction (g_adj g) as [|b l IH]; intros acc; [reflexivity|]. cbn [map fold_left].
  rewrite <- merge_bundle_bare. apply IH.
Qed.
Lemma edge_list_bare g : edge_list (bare names g) = edge_list g.
Proof. unfold edge_list. rewrite edges_data_bare, map_map. reflexivity. Qed.

(** views read in the same way *)
Definition same_view (a b : view) : Prop :=
  v_nodes a = v_nodes b /\ (forall n, v_neighbors a n = v_neighbors b n) /\ (forall n, v_degree a n = v_degree b n) /\ v_edges a = v_edges b.
Lemma view_edges_bare g nb nb' todo : (forall n, nb' n = nb n) -> forall seen, view_edges (bare names g) nb' seen todo = view_edges g nb seen todo.
Proof.
  intros H. induction todo as [|n todo IH]; intros seen; [reflexivity|]. cbn [view_edges]. rewrite H, IH. f_equal. apply flat_map_ext. intros m.
  rewrite edge_data_bare. destruct (edge_data g n m); cbn [option_map]; rewrite ?length_bd; reflexivity.
Qed.
Lemma view_bare set_order g : same_view (undirected_view set_order (bare names g)) (undirected_view set_order g).
Proof.
  unfold undirected_view. change (g_dir (bare names g)) with (g_dir g). destruct (g_dir g).
  - unfold same_view. cbn [v_nodes v_neighbors v_degree v_edges]. rewrite nodes_bare, to_undirected_bare. split; [reflexivity|].
    split; [intros; rewrite neighbors_bare; reflexivity|]. split.
    + intros n. rewrite degree_bare, edge_data_bare. change (g_multi (bare names g)) with (g_multi g). destruct (edge_data g n n); cbn [option_map]; rewrite ?length_bd; reflexivity.
    + apply view_edges_bare. intros; rewrite neighbors_bare; reflexivity.
  - unfold same_view. cbn [v_nodes v_neighbors v_degree v_edges]. rewrite nodes_bare, edge_list_bare. repeat split; intros; [apply neighbors_bare|apply degree_bare].
Qed.
Lemma sorted_nodes_same a b : same_view a b -> sorted_nodes a = sorted_nodes b.
Proof.
  intros (N & _ & D & _). unfold sorted_nodes. rewrite N. rewrite (filter_ext _ (fun n => 1 <? v_degree b n)) by (intros; rewrite D; reflexivity).
  induction (filter _ (v_nodes b)) as [|n l IH]; [reflexivity|]. cbn [fold_right]. rewrite IH. generalize (fold_right (insert_degree (v_degree b)) [] l).
  intros m. induction m as [|x m IHm]; [reflexivity|]. cbn [insert_degree]. rewrite !D, IHm. reflexivity.
Qed.
Lemma triangles_same a b : same_view a b -> triangles_of a = triangles_of b.
Proof.
  intros V. unfold triangles_of. cbn zeta. rewrite (sorted_nodes_same _ _ V). do 2 f_equal. unfold adjacencies. rewrite (sorted_nodes_same _ _ V).
  destruct V as (_ & N & D & _). generalize (@nil (key * list key)) as d. induction (sorted_nodes b) as [|n l IH]; intros d; [reflexivity|]. cbn [fold_left].
  replace (adjacency a n) with (adjacency b n); [apply IH|]. unfold adjacency. rewrite N. apply filter_ext. intros m. rewrite D. reflexivity.
Qed.
Lemma triangles_bare set_order g : triangles set_order (bare names g) = triangles set_order g.
Proof. apply triangles_same, view_bare. Qed.
Lemma strength_bare set_order g full : triangular_strength set_order (bare names g) full = triangular_strength set_order g full.
Proof. unfold triangular_strength. rewrite triangles_bare, edge_list_bare. reflexivity. Qed.
Lemma naive_bare set_order g full : naive_triangular_strength set_order (bare names g) full = naive_triangular_strength set_order g full.
Proof.
  unfold naive_triangular_strength. cbn zeta. destruct (view_bare set_order g) as (N & NB & _ & E). rewrite E.
  replace (neighborhoods (undirected_view set_order (bare names g))) with (neighborhoods (undirected_view set_order g)); [reflexivity|].
  unfold neighborhoods. rewrite N. clear N E. generalize (@nil (key * list key)) as d. induction (v_nodes (undirected_view set_order g)) as [|n l IH]; intros d; [reflexivity|].
  cbn [fold_left]. rewrite IH. unfold neighborhood. rewrite NB. reflexivity.
Qed.
End Bare.
