(** * Projections of multigraphs and of graphs without weights *)
From Coq Require Import List ZArith QArith Lia Bool.
From Verif Require Import PyBase PyNum S_Num L_Num NxGraph L_Base L_Nx L_Nx2 M_Traversal M_Proj S_Proj L_Proj L_Proj2 L_Proj3 L_Proj4 L_Proj5.
Import ListNotations.
Close Scope Q_scope.

(** ** the simple graph which a multigraph looks like *)
Definition view_bundle (b : bundle) : bundle :=
  mkB (b_src b) (b_dst b) [(KInt 0, map (fun ka => (fst ka, attributes_object)) (b_data b))].
Definition simple_view (g : graph) : graph := mkG (g_dir g) false (g_attr g) (g_nodes g) (map view_bundle (g_adj g)).

Lemma other_end_view dir n b : other_end dir n (view_bundle b) = other_end dir n b.
Proof. reflexivity. Qed.

Lemma items_view g n : g_multi g = true -> items (simple_view g) n = items g n.
Proof.
  intros M. unfold items, adj_items, simple_view. cbn [g_multi g_dir g_adj]. rewrite M.
  induction (g_adj g) as [|b l IH]; [reflexivity|]. cbn [map flat_map]. rewrite !map_app. f_equal; [|exact IH].
  rewrite other_end_view. destruct (other_end (g_dir g) n b); reflexivity.
Qed.

Lemma projection_view lib g p attr wattr name chk thr : g_multi g = true ->
  monopartite_projection lib (simple_view g) p attr wattr name chk thr = monopartite_projection lib g p attr wattr name chk thr.
Proof.
  intros M. unfold monopartite_projection. destruct (instantiate_online_metric name) as [m|]; [|reflexivity]. cbn [bind].
  destruct (check_threshold thr) as [t|]; [|reflexivity]. cbn [bind].
  change (order (simple_view g)) with (order g). change (g_nodes (simple_view g)) with (g_nodes g).
  destruct (Nat.eqb (order g) 0); [reflexivity|].
  rewrite (foldM_ext (norms_step lib m (simple_view g) p attr wattr chk) (norms_step lib m g p attr wattr chk)).
  - destruct (foldM _ _ _) as [[[norms h] ex]|]; [|reflexivity]. cbn [bind]. destruct ex; [|reflexivity].
    apply foldM_ext. intros h' n _. unfold project_node. destruct (dget n norms); [|reflexivity].
    replace (intersections_of lib m (simple_view g) wattr n) with (intersections_of lib m g wattr n); [reflexivity|].
    unfold intersections_of. rewrite items_view by exact M. apply foldM_ext. intros i tta _. rewrite items_view by exact M. reflexivity.
  - intros [[norms h] ex] na _. unfold norms_step, accumulated. rewrite items_view by exact M. reflexivity.
Qed.

Lemma find_map {A B} (f : A -> B) q (p : A -> bool) l : (forall a, q (f a) = p a) -> find q (map f l) = option_map f (find p l).
Proof.
  intros H. induction l as [|a l IH]; [reflexivity|]. cbn [map find]. rewrite H. destruct (p a); [reflexivity|exact IH].
Qed.

Lemma edge_data_view g u v : edge_data (simple_view g) u v
  = option_map (fun kd => [(KInt 0, map (fun ka : key * attrs => (fst ka, attributes_object)) kd)]) (edge_data g u v).
Proof.
  unfold edge_data. cbn [simple_view g_dir g_adj]. rewrite (find_map view_bundle _ (same_ends (g_dir g) u v)) by reflexivity.
  destruct (find _ _); reflexivity.
Qed.
Lemma has_edge_view g u v : has_edge (simple_view g) u v = has_edge g u v.
Proof. unfold has_edge. rewrite edge_data_view. destruct (edge_data g u v); reflexivity. Qed.
Lemma edge_attrs_view g u v a : edge_attrs (simple_view g) u v (KInt 0) = Some a <->
  exists kd, edge_data g u v = Some kd /\ a = map (fun ka : key * attrs => (fst ka, attributes_object)) kd.
Proof.
  unfold edge_attrs. rewrite edge_data_view. destruct (edge_data g u v) as [kd|]; cbn.
  - split; [intros E; inversion E; eauto|intros (? & E & ->); inversion E; reflexivity].
  - split; [discriminate|intros (? & E & _); discriminate].
Qed.

Lemma WF_view g : WF g -> WF (simple_view g).
Proof.
  intros W. split; cbn [simple_view g_adj g_attr g_dir]; unfold nodes; cbn [g_nodes]; try apply W.
  - intros b I. apply in_map_iff in I as (c & <- & I). apply (wf_ends g W c I).
  - intros b I. apply in_map_iff in I as (c & <- & I). discriminate.
  - intros b I. apply in_map_iff in I as (c & <- & I). repeat constructor. intros [].
  - intros b k a I Ia. apply in_map_iff in I as (c & <- & I). destruct Ia as [Ia|[]]. inversion Ia; subst.
    unfold dkeys. rewrite map_map. apply (wf_keys g W c I).
  - intros _ b I. apply in_map_iff in I as (c & <- & I). eexists. reflexivity.
  - pose proof (wf_distinct g W) as F. induction F as [|b l H F IH]; cbn [map]; constructor; [|exact IH].
    apply Forall_forall. intros c I. apply in_map_iff in I as (c' & <- & I). rewrite Forall_forall in H. exact (H c' I).
Qed.

Lemma kept_view g p attr n : kept (simple_view g) p attr n <-> kept g p attr n.
Proof. reflexivity. Qed.

Lemma unmarked_view g p attr : p <> ByValue VNone -> p <> ByValue attributes_object -> unmarked (simple_view g) p attr.
Proof.
  intros N1 N2 v -> u t a _ E K. apply edge_attrs_view in E as (kd & _ & ->). cbn [keeps] in K.
  destruct K as [(w & D & V)|(_ & ->)]; [|congruence].
  assert (w = attributes_object).
  { clear - D. induction kd as [|[k a] l IH]; [discriminate|]. cbn [map dget fst] in D. destruct (key_eqb attr k); [inversion D; reflexivity|auto]. }
  subst w. apply N2. f_equal. unfold val_eqb, attributes_object in V. destruct v as [|[|]|q|[z|s|i]]; try discriminate.
  destruct i; [reflexivity|discriminate].
Qed.

(** ** graphs without weights *)
Lemma unweighted_run lib g p attr wattr m chk t :
  (weighted m = true -> forall u tta, In tta (items g u) -> dget wattr (snd tta) = None) ->
  (let* s := foldM (norms_step lib m g p attr wattr chk) (g_nodes g) ([], empty_graph false false, false) in
   let '(norms, h, ex) := s in
   if ex then foldM (project_node lib m g wattr t norms) (dkeys norms) h else Err TypeError)
  = (let* s := foldM (norms_step lib (without_weights m) g p attr wattr chk) (g_nodes g) ([], empty_graph false false, false) in
     let '(norms, h, ex) := s in
     if ex then foldM (project_node lib (without_weights m) g wattr t norms) (dkeys norms) h else Err TypeError).
Proof.
  intros NW. destruct (weighted m) eqn:Wm; [|destruct m; try discriminate; reflexivity].
  specialize (NW eq_refl).
  assert (GW : forall u tta, In tta (items g u) -> get_weight wattr (snd tta) = VInt 1).
  { intros u tta I. unfold get_weight. rewrite (NW u tta I). reflexivity. }
  rewrite (foldM_ext (norms_step lib m g p attr wattr chk) (norms_step lib (without_weights m) g p attr wattr chk)).
  - destruct (foldM _ _ _) as [[[norms h] ex]|]; [|reflexivity]. cbn [bind]. destruct ex; [|reflexivity].
    apply foldM_ext. intros h' n _. unfold project_node. destruct (dget n norms) as [norm1|]; [|reflexivity].
    replace (intersections_of lib (without_weights m) g wattr n) with (intersections_of lib m g wattr n).
    + destruct (intersections_of lib m g wattr n) as [i|]; [|reflexivity]. cbn [bind]. destruct m; try discriminate; reflexivity.
    + unfold intersections_of. apply foldM_ext. intros i tta It. apply foldM_ext. intros i' n2a In2.
      destruct (key_eqb (fst n2a) n); [reflexivity|]. destruct (key_gt n (fst n2a)) as [b|]; [|reflexivity]. cbn [bind].
      destruct b; [reflexivity|]. unfold intersect. rewrite (GW _ _ It), (GW _ _ In2). destruct m; try discriminate; reflexivity.
  - intros [[norms h] ex] na _. unfold norms_step. destruct (in_part _ _ _ _); [|reflexivity].
    replace (accumulated lib (without_weights m) g p attr wattr chk (fst na)) with (accumulated lib m g p attr wattr chk (fst na)).
    + destruct (accumulated _ _ _ _ _ _ _ _); [|reflexivity]. cbn [bind]. destruct (add_node_kw _ _ _); [|reflexivity].
      cbn [bind]. destruct m; try discriminate; reflexivity.
    + unfold accumulated. apply foldM_ext. intros s tta It. destruct (_ && _); [reflexivity|]. rewrite (GW _ _ It).
      destruct m; try discriminate; reflexivity.
Qed.
