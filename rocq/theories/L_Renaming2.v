(** * Lemmas about renamings which keep the order: disparity, projections *)
From Coq Require Import List ZArith Lia Bool QArith.
From Verif Require Import PyBase PyNum NxGraph L_Base M_UnionFind M_Traversal M_Graph M_Umst M_Disparity M_Sparse M_Proj S_Renaming L_Renaming.
Import ListNotations.
Close Scope Q_scope.

Section Building.
Variable f : key -> key.
Hypothesis I : injective f.

Lemma foldM_renamed {A B S T} (r : S -> T) (h : A -> B) (m : S -> A -> res S) (m' : T -> B -> res T) l :
  (forall s a, m' (r s) (h a) = on_res r (m s a)) -> forall s, foldM m' (map h l) (r s) = on_res r (foldM m l s).
Proof.
  intros H. induction l as [|a l IH]; intros s; [reflexivity|]. cbn [map foldM]. rewrite H. destruct (m s a); cbn [on_res bind]; [apply IH|reflexivity].
Qed.

Lemma add_node_renamed g n a : add_node (renamed f g) (f n) a = renamed f (add_node g n a).
Proof.
  unfold add_node, node_data. cbn [renamed g_nodes]. change (map _ (g_nodes g)) with (map (on_key f) (g_nodes g)). rewrite (dget_renamed f I), (dset_renamed f I). reflexivity.
Qed.
Lemma add_node_kw_renamed g n a : add_node_kw (renamed f g) (f n) a = on_res (renamed f) (add_node_kw g n a).
Proof. unfold add_node_kw. destruct (kwargs_ok _ a); [|reflexivity]. rewrite add_node_renamed. reflexivity. Qed.
Lemma ensure_node_renamed g n : ensure_node (renamed f g) (f n) = renamed f (ensure_node g n).
Proof.
  unfold ensure_node, has_node. cbn [renamed g_nodes]. change (map _ (g_nodes g)) with (map (on_key f) (g_nodes g)). rewrite (dmem_renamed f I). destruct (dmem n (g_nodes g)); [reflexivity|].
  unfold renamed. cbn. rewrite map_app. reflexivity.
Qed.
Lemma set_bundle_renamed dir u v k a l : set_bundle dir (f u) (f v) k a (map (fun b => mkB (f (b_src b)) (f (b_dst b)) (b_data b)) l)
  = map (fun b => mkB (f (b_src b)) (f (b_dst b)) (b_data b)) (set_bundle dir u v k a l).
Proof.
  induction l as [|b l IH]; [reflexivity|]. cbn [map set_bundle]. rewrite (same_ends_renamed f I). destruct (same_ends dir u v b); [reflexivity|]. cbn [map]. rewrite IH. reflexivity.
Qed.
Lemma add_edge_at_renamed g u v k a : add_edge_at (renamed f g) (f u) (f v) k a = renamed f (add_edge_at g u v k a).
Proof.
  unfold add_edge_at. rewrite !ensure_node_renamed. cbn [renamed g_dir g_multi g_attr g_nodes g_adj]. rewrite set_bundle_renamed. reflexivity.
Qed.
Lemma add_edge_renamed g u v a : add_edge (renamed f g) (f u) (f v) a = renamed f (add_edge g u v a).
Proof.
  unfold add_edge, new_edge_key. rewrite (edge_data_renamed f I), add_edge_at_renamed. reflexivity.
Qed.
Lemma add_edge_kw_renamed g u v a : add_edge_kw (renamed f g) (f u) (f v) a = on_res (renamed f) (add_edge_kw g u v a).
Proof.
  unfold add_edge_kw. cbn [renamed g_multi]. change (mkG _ _ _ _ _) with (renamed f g). destruct (kwargs_ok _ a); [|reflexivity]. destruct (g_multi g); [|rewrite add_edge_renamed; reflexivity].
  destruct (dget (K "key") a) as [[| | |k]|]; cbn [on_res]; rewrite ?add_edge_renamed, ?add_edge_at_renamed; reflexivity.
Qed.
Lemma create_empty_copy_renamed g : create_empty_copy (renamed f g) = renamed f (create_empty_copy g).
Proof. reflexivity. Qed.
Lemma filter_edges_renamed g (p p' : edge_predicate) : (forall u v a, p' (f u) (f v) a = p u v a) ->
  filter_edges (renamed f g) p' = on_res (renamed f) (filter_edges g p).
Proof.
  intros H. unfold filter_edges. rewrite (edges_data_renamed f I), create_empty_copy_renamed. apply foldM_renamed. intros s [[u v] a]. cbn.
  rewrite H. destruct (p u v a) as [[|]|]; cbn; [apply add_edge_kw_renamed|reflexivity|reflexivity].
Qed.
End Building.

Section Ordered.
Variable f : key -> key.
Hypothesis O : keeps_order f.

Local Lemma I : injective f. Proof. exact (proj1 O). Qed.
Lemma key_gt_renamed a b : key_gt (f a) (f b) = key_gt a b.
Proof. apply O. Qed.

(** ** edge_disparity *)
Lemma weighted_degree_renamed lib g w n : weighted_degree lib (renamed f g) w (f n) = weighted_degree lib g w n.
Proof.
  unfold weighted_degree. rewrite (adj_items_renamed f I), (edge_data_renamed f I).
  pose proof (foldM_renamed (fun x : pynum => x) (on_key f) (fun acc mk => let* x := weight_or_one w (snd mk) in Ok (n_add lib acc x))
    (fun acc mk => let* x := weight_or_one w (snd mk) in Ok (n_add lib acc x)) (adj_items g n)) as E.
  rewrite E; [|intros s [m kd]; cbn; destruct (weight_or_one w kd); reflexivity]. destruct (foldM _ (adj_items g n) (NInt 0)); reflexivity.
Qed.
Lemma pset_renamed {A} p (v : A) d : pset (f (fst p), f (snd p)) v (map (on_pair f) d) = map (on_pair f) (pset p v d).
Proof.
  induction d as [|[q w] d IH]; [reflexivity|]. cbn [map pset on_pair fst snd].
  replace (pair_eqb (f (fst p), f (snd p)) (f (fst q), f (snd q))) with (pair_eqb p q) by (unfold pair_eqb; cbn; rewrite !(key_eqb_renamed f I); reflexivity).
  destruct (pair_eqb p q); [reflexivity|]. cbn [map]. rewrite IH. reflexivity.
Qed.
Lemma edges_weight_renamed g w n : edges_weight (renamed f g) w (f n) = map (on_key f) (edges_weight g w n).
Proof. unfold edges_weight. rewrite (edges_of_renamed f I), !map_map. apply map_ext. intros [[[u v] k] a]. reflexivity. Qed.
Lemma disparity_edge_renamed lib g rev wd n d tw :
  disparity_edge lib (renamed f g) rev (map (on_key f) wd) (f n) (map (on_pair f) d) (on_key f tw) = on_res (map (on_pair f)) (disparity_edge lib g rev wd n d tw).
Proof.
  destruct tw as [t w]. change (on_key f (t, w)) with (f t, w). unfold disparity_edge. rewrite key_gt_renamed. destruct (key_gt n t) as [[|]|]; cbn [bind on_res]; try reflexivity.
  rewrite !(dget_renamed f I). destruct (dget n wd) as [x|]; [|reflexivity]. destruct (dget t wd) as [y|]; [|reflexivity].
  destruct (div_weight lib w x); cbn [bind on_res]; [|reflexivity]. destruct (div_weight lib w y); cbn [bind on_res]; [|reflexivity].
  rewrite !(degree_renamed f I), <- pset_renamed. reflexivity.
Qed.
Lemma edge_disparity_renamed lib g w rev : edge_disparity lib (renamed f g) w rev = on_res (map (on_pair f)) (edge_disparity lib g w rev).
Proof.
  unfold edge_disparity. cbn [renamed g_dir g_multi]. change (mkG _ _ _ _ _) with (renamed f g). destruct (_ || _); [reflexivity|].
  rewrite (nodes_renamed f). rewrite (mapM_renamed f (on_key f) (fun n => let* x := weighted_degree lib g w n in Ok (n, x))).
  - destruct (mapM _ (nodes g)) as [wd|]; cbn [on_res bind]; [|reflexivity].
    apply (foldM_renamed (map (on_pair f)) f _ _ (nodes g)) with (s := []). intros d n. rewrite edges_weight_renamed. apply foldM_renamed. intros. apply disparity_edge_renamed.
  - intros n. rewrite weighted_degree_renamed. destruct (weighted_degree lib g w n); reflexivity.
Qed.

(** ** monopartite_projection *)
Definition on_part (p : part) : part := match p with ByValue v => ByValue v | ByCollection h l => ByCollection h (map f l) end.

Lemma in_part_renamed p attr n a : in_part (on_part p) attr (f n) a = in_part p attr n a.
Proof. destruct p as [v|[|] l]; cbn; try reflexivity. apply (mem_renamed f I). Qed.
Lemma same_part_renamed p attr n a : same_part (on_part p) attr (f n) a = same_part p attr n a.
Proof. destruct p as [v|[|] l]; cbn; try reflexivity. apply (mem_renamed f I). Qed.
Lemma items_renamed g n : items (renamed f g) (f n) = map (on_key f) (items g n).
Proof. unfold items. rewrite (adj_items_renamed f I), !map_map. reflexivity. Qed.
Lemma accumulated_renamed lib m g p attr w chk n : accumulated lib m (renamed f g) (on_part p) attr w chk (f n) = accumulated lib m g p attr w chk n.
Proof.
  unfold accumulated. rewrite items_renamed.
  erewrite (foldM_renamed (fun x : pynum => x) (on_key f)); [instantiate (1 := fun acc tta => if chk && same_part p attr (fst tta) (snd tta) then Err TypeError else accumulate lib m acc (get_weight w (snd tta))); destruct (foldM _ _ _); reflexivity|].
  intros s [t a]. cbn [on_key fst snd]. rewrite same_part_renamed. destruct (_ && _); [reflexivity|]. destruct (accumulate _ _ _ _); reflexivity.
Qed.
Lemma add_norm_renamed lib m norms n x : add_norm lib m (map (on_key f) norms) (f n) x = map (on_key f) (add_norm lib m norms n x).
Proof. unfold add_norm. destruct (should_keep_norm m x); [apply (dset_renamed f I)|reflexivity]. Qed.
Lemma intersect_renamed lib m d t a b : intersect lib m (map (on_key f) d) (f t) a b = on_res (map (on_key f)) (intersect lib m d t a b).
Proof.
  unfold intersect. destruct (intersection_weight lib m a b); cbn [bind on_res]; [|reflexivity]. rewrite (dget_renamed f I), (dset_renamed f I). reflexivity.
Qed.
Lemma intersections_renamed lib m g w n : intersections_of lib m (renamed f g) w (f n) = on_res (map (on_key f)) (intersections_of lib m g w n).
Proof.
  unfold intersections_of. rewrite items_renamed. apply (foldM_renamed (map (on_key f)) (on_key f)) with (s := []). intros d [t a]. cbn [on_key fst snd].
  rewrite items_renamed. apply foldM_renamed. intros d' [n2 a2]. cbn [on_key fst snd]. rewrite (key_eqb_renamed f I). destruct (key_eqb n2 n); [reflexivity|].
  rewrite key_gt_renamed. destruct (key_gt n n2) as [[|]|]; cbn [bind on_res]; try reflexivity. apply intersect_renamed.
Qed.
Lemma metric_neighbors_renamed lib m norms x d : metric_neighbors lib m (map (on_key f) norms) x (map (on_key f) d)
  = on_res (map (on_key f)) (metric_neighbors lib m norms x d).
Proof.
  unfold metric_neighbors. apply mapM_renamed. intros [n i]. cbn [on_key fst snd]. rewrite (dget_renamed f I). destruct (dget n norms) as [y|]; [|reflexivity].
  destruct (compute_metric lib m i x y); reflexivity.
Qed.
Lemma project_node_renamed lib m g w thr norms h n :
  project_node lib m (renamed f g) w thr (map (on_key f) norms) (renamed f h) (f n) = on_res (renamed f) (project_node lib m g w thr norms h n).
Proof.
  unfold project_node. rewrite (dget_renamed f I). destruct (dget n norms) as [x|]; [|reflexivity]. rewrite intersections_renamed.
  destruct (intersections_of lib m g w n) as [d|]; cbn [on_res bind]; [|reflexivity]. rewrite metric_neighbors_renamed.
  destruct (metric_neighbors lib m norms x d) as [l|]; cbn [on_res bind]; [|reflexivity]. f_equal.
  revert h. induction l as [|[t y] l IH]; intros h; [reflexivity|]. cbn [map fold_left on_key fst snd].
  destruct (match thr with Some q => q_ltb (value y) q | None => false end); [apply IH|]. rewrite (add_edge_renamed f I). apply IH.
Qed.
Lemma projection_renamed lib g p attr w name chk thr :
  monopartite_projection lib (renamed f g) (on_part p) attr w name chk thr = on_res (renamed f) (monopartite_projection lib g p attr w name chk thr).
Proof.
  unfold monopartite_projection. destruct (instantiate_online_metric name) as [m|]; [|reflexivity]. cbn [bind].
  destruct (check_threshold thr) as [t|]; [|reflexivity]. cbn [bind]. rewrite order_renamed. destruct (Nat.eqb (order g) 0); [reflexivity|].
  change (g_nodes (renamed f g)) with (map (on_key f) (g_nodes g)).
  pose proof (foldM_renamed (fun s : dict pynum * graph * bool => (map (on_key f) (fst (fst s)), renamed f (snd (fst s)), snd s)) (on_key f)
    (norms_step lib m g p attr w chk) (norms_step lib m (renamed f g) (on_part p) attr w chk) (g_nodes g)) as E.
  specialize (fun H => E H ([], empty_graph false false, false)). cbn [fst snd map] in E.
  change (renamed f (empty_graph false false)) with (empty_graph false false) in E.
  match goal with |- context [foldM (norms_step lib m (renamed f g) ?a ?b ?c ?d) ?l ?s] =>
    match type of E with _ -> _ = ?r => replace (foldM (norms_step lib m (renamed f g) a b c d) l s) with r; [|symmetry; apply E] end end.
  - destruct (foldM _ (g_nodes g) _) as [[[norms h] ex]|]; cbn [on_res bind fst snd]; [|reflexivity]. destruct ex; [|reflexivity].
    rewrite dkeys_renamed. apply foldM_renamed. intros. apply project_node_renamed.
  - intros [[norms h] ex] [n a]. unfold norms_step. cbn [on_key fst snd]. rewrite in_part_renamed. destruct (in_part p attr n a); [|reflexivity].
    rewrite accumulated_renamed. destruct (accumulated lib m g p attr w chk n); cbn [bind on_res]; [|reflexivity].
    rewrite (add_node_kw_renamed f I). destruct (add_node_kw h n _); cbn [bind on_res fst snd]; [|reflexivity]. rewrite add_norm_renamed. reflexivity.
Qed.
End Ordered.
