(** * Lemmas about renamings: learner, sparsifiers, triangles *)
From Coq Require Import List ZArith Lia Bool QArith.
From Verif Require Import PyBase PyNum NxGraph L_Base M_UnionFind M_Utils M_Traversal M_Graph M_Umst M_Disparity M_Sparse M_Learn M_Tri S_Renaming L_Renaming L_Renaming2.
Import ListNotations.
Close Scope Q_scope.

Section Learner.
Variable f : key -> key.
Hypothesis I : injective f.

Lemma floatsam_loop_renamed fuel lib g rate m w : forall n t,
  floatsam_loop fuel lib (renamed f g) rate m w n t = floatsam_loop fuel lib g rate m w n t.
Proof.
  induction fuel as [|fuel IH]; intros n t; [reflexivity|]. cbn [floatsam_loop]. cbn zeta.
  rewrite (second_renamed f I (Some (edge_filter w (n_add lib t rate))) (Some (edge_filter w (n_add lib t rate)))) by reflexivity.
  destruct (second_largest_connected_component_order g _) as [o|]; cbn [bind]; [|reflexivity].
  destruct (match o with Some c => (m <=? Z.of_nat c)%Z | None => false end); [reflexivity|].
  rewrite IH. reflexivity.
Qed.
Lemma learner_renamed fuel lib g start rate m w :
  floatsam_threshold_learner fuel lib (renamed f g) start rate m w = floatsam_threshold_learner fuel lib g start rate m w.
Proof.
  unfold floatsam_threshold_learner. rewrite (size_renamed f I). destruct (Nat.eqb (size g) 0); [reflexivity|].
  replace (drifter_order lib (renamed f g) m) with (drifter_order lib g m).
  - destruct (drifter_order lib g m); cbn [bind]; [apply floatsam_loop_renamed|reflexivity].
  - unfold drifter_order, largest_connected_component_order. rewrite order_renamed, (orders_renamed f I None None) by reflexivity. reflexivity.
Qed.

(** ** sparsifiers *)
Definition same_answers (p p' : res edge_predicate) : Prop :=
  match p, p' with Ok p, Ok p' => forall u v a, p' (f u) (f v) a = p u v a | Err e, Err e' => e = e' | _, _ => False end.

Lemma pmem_renamed u v l : pmem (f u, f v) (map fst (map (on_edge f) l)) = pmem (u, v) (map fst l).
Proof.
  unfold pmem. induction l as [|[[x y] a] l IH]; [reflexivity|]. cbn [map existsb]. rewrite IH. unfold pair_eqb. cbn. rewrite !(key_eqb_renamed f I). reflexivity.
Qed.
Lemma decorate_renamed lib pf F F' g : same_answers (F g) (F' (renamed f g)) ->
  same_answers (decorate lib pf (Some F) g) (decorate lib pf (Some F') (renamed f g)).
Proof.
  intros H. unfold decorate. destruct (F g) as [p|e], (F' (renamed f g)) as [p'|e']; cbn in H |- *; try contradiction; [|exact H].
  rewrite (umst_renamed f I). destruct (union_of_maximum_spanning_trees lib pf g (K "weight")) as [l|]; cbn; [|reflexivity].
  intros u v a. rewrite H. destruct (p u v a); [|reflexivity]. cbn. rewrite pmem_renamed. reflexivity.
Qed.
Lemma filterM_renamed {A B} (h : A -> B) (p : A -> res bool) p' l : (forall a, p' (h a) = p a) -> filterM p' (map h l) = on_res (map h) (filterM p l).
Proof.
  intros H. induction l as [|a l IH]; [reflexivity|]. cbn [map filterM]. rewrite H. destruct (p a) as [b|]; cbn [bind on_res]; [|reflexivity].
  rewrite IH. destruct (filterM p l); cbn [bind on_res]; [|reflexivity]. destruct b; reflexivity.
Qed.
Lemma sparsified_renamed lib pf F F' g kc : same_answers (F g) (F' (renamed f g)) ->
  (let* sp := make_sparsifier lib pf (Some F') None None kc in sparsifier_filter sp (renamed f g))
  = on_res (renamed f) (let* sp := make_sparsifier lib pf (Some F) None None kc in sparsifier_filter sp g).
Proof.
  intros H.
  assert (D : same_answers ((if kc then decorate lib pf (Some F) else F) g) ((if kc then decorate lib pf (Some F') else F') (renamed f g))).
  { destruct kc; [apply decorate_renamed; exact H|exact H]. }
  assert (E : forall p p', same_answers p p' ->
    (let* l := (let* p := p' in filterM (fun e => let '(u, v, a) := e in p u v a) (edges_data (renamed f g))) in
     foldM (fun filtered e => let '(u, v, a) := e in add_edge_kw filtered u v a) l (create_empty_copy (renamed f g)))
    = on_res (renamed f) (let* l := (let* p := p in filterM (fun e => let '(u, v, a) := e in p u v a) (edges_data g)) in
     foldM (fun filtered e => let '(u, v, a) := e in add_edge_kw filtered u v a) l (create_empty_copy g))).
  { intros [p|e] [p'|e'] S; cbn in S; try contradiction; [|subst; reflexivity]. cbn [bind]. rewrite (edges_data_renamed f I).
    rewrite (filterM_renamed (on_edge f) (fun e => let '(u, v, a) := e in p u v a)) by (intros [[u v] a]; apply S).
    destruct (filterM _ (edges_data g)) as [l|]; cbn [bind on_res]; [|reflexivity]. rewrite create_empty_copy_renamed. apply foldM_renamed. intros s [[u v] a].
    apply (add_edge_kw_renamed f I). }
  destruct kc; exact (E _ _ D).
Qed.
Lemma threshold_renamed lib pf g t w rev kc :
  global_threshold_sparsification lib pf (renamed f g) t w rev kc = on_res (renamed f) (global_threshold_sparsification lib pf g t w rev kc).
Proof. unfold global_threshold_sparsification, global_threshold_sparsifier. apply sparsified_renamed. intros u v a. reflexivity. Qed.

(** ** triangles of undirected graphs *)
Definition on_triangle (t : triangle) : triangle := let '(u, v, w) := t in (f u, f v, f w).
Definition on_adj (l : list key) : list key := map f l.
Definition radj (d : dict (list key)) : dict (list key) := map (fun x => (f (fst x), map f (snd x))) d.

Lemma radj_get k d : dget (f k) (radj d) = option_map (map f) (dget k d).
Proof. induction d as [|[k' l] d IH]; [reflexivity|]. cbn. rewrite (key_eqb_renamed f I). destruct (key_eqb k k'); [reflexivity|exact IH]. Qed.
Lemma radj_set k l d : dset (f k) (map f l) (radj d) = radj (dset k l d).
Proof. induction d as [|[k' l'] d IH]; [reflexivity|]. cbn. rewrite (key_eqb_renamed f I). destruct (key_eqb k k'); [reflexivity|]. cbn. f_equal. exact IH. Qed.
Lemma remove_last_renamed x l : remove_last (f x) (map f l) = option_map (map f) (remove_last x l).
Proof.
  induction l as [|y l IH]; [reflexivity|]. cbn [map remove_last]. rewrite IH. destruct (remove_last x l); [reflexivity|]. cbn [option_map].
  rewrite (key_eqb_renamed f I). destruct (key_eqb y x); reflexivity.
Qed.
Definition tri_commutes (m m' : sm (dict (list key)) (list triangle)) : Prop :=
  forall s, m' (radj s) = (radj (fst (m s)), on_res (map on_triangle) (snd (m s))).
Lemma visit_marked_renamed n m marked : tri_commutes (visit_marked n m marked) (visit_marked (f n) (f m) (map f marked)).
Proof.
  intros s. unfold visit_marked. rewrite radj_get. destruct (dget m s) as [l|]; cbn [option_map]; [|reflexivity].
  rewrite remove_last_renamed. destruct (remove_last n l) as [l'|]; cbn [option_map]; [|reflexivity]. rewrite radj_set. cbn [fst snd on_res]. do 2 f_equal.
  rewrite (filter_map_renamed f _ (fun nn => negb (key_eqb nn n) && mem nn marked)).
  - rewrite !map_map. reflexivity.
  - intros a. rewrite (key_eqb_renamed f I), (mem_renamed f I). reflexivity.
Qed.
Lemma tri_bind m m' k k' : tri_commutes m m' -> (forall l, tri_commutes (k l) (k' (map on_triangle l))) -> tri_commutes (sbind m k) (sbind m' k').
Proof. intros H Hk s. unfold sbind. rewrite H. destruct (m s) as [s' [l|e]]; cbn [fst snd on_res]; [apply Hk|reflexivity]. Qed.
Lemma tri_ret l l' : l' = map on_triangle l -> tri_commutes (sret l) (sret l').
Proof. intros -> s. reflexivity. Qed.
Lemma empty_marked_renamed n marked : tri_commutes (empty_marked n marked) (empty_marked (f n) (map f marked)).
Proof.
  induction marked as [|m marked IH]; [apply tri_ret; reflexivity|]. cbn [map empty_marked]. apply tri_bind; [apply visit_marked_renamed|].
  intros l. apply tri_bind; [exact IH|]. intros l'. apply tri_ret. rewrite map_app. reflexivity.
Qed.
Lemma mark_renamed l : mark (map f l) = map f (mark l).
Proof.
  unfold mark. rewrite map_rev. f_equal.
  assert (E : forall d, fold_left (fun d n => dset n true d) (map f l) (map (on_key f) d) = map (on_key f) (fold_left (fun d n => dset n true d) l d)).
  { induction l as [|n l IH]; intros d; [reflexivity|]. cbn [map fold_left]. rewrite (dset_renamed f I). apply IH. }
  specialize (E []). cbn [map] in E. rewrite E. apply dkeys_renamed.
Qed.
Lemma tri_read n (k k' : list key -> sm (dict (list key)) (list triangle)) : (forall l, tri_commutes (k l) (k' (map f l))) ->
  tri_commutes (sbind (sread (fun adj => match dget n adj with Some l => Ok l | None => Err KeyError end)) k)
               (sbind (sread (fun adj => match dget (f n) adj with Some l => Ok l | None => Err KeyError end)) k').
Proof.
  intros H s. unfold sbind, sread. rewrite radj_get. destruct (dget n s) as [l|]; cbn [option_map]; [apply H|reflexivity].
Qed.
Lemma triangles_from_renamed todo : tri_commutes (triangles_from todo) (triangles_from (map f todo)).
Proof.
  induction todo as [|n todo IH]; [apply tri_ret; reflexivity|]. cbn [map triangles_from]. apply tri_read. intros l. rewrite mark_renamed.
  apply tri_bind; [apply empty_marked_renamed|]. intros l1. apply tri_bind; [exact IH|]. intros l2. apply tri_ret. rewrite map_app. reflexivity.
Qed.

Section View.
Variables (v v' : view).
Hypothesis Vn : v_nodes v' = map f (v_nodes v).
Hypothesis Vb : forall n, v_neighbors v' (f n) = map f (v_neighbors v n).
Hypothesis Vd : forall n, v_degree v' (f n) = v_degree v n.

Lemma insert_degree_renamed n l : insert_degree (v_degree v') (f n) (map f l) = map f (insert_degree (v_degree v) n l).
Proof. induction l as [|m l IH]; [reflexivity|]. cbn [map insert_degree]. rewrite !Vd. destruct (_ <=? _); [reflexivity|]. cbn [map]. rewrite IH. reflexivity. Qed.
Lemma sorted_nodes_renamed : sorted_nodes v' = map f (sorted_nodes v).
Proof.
  unfold sorted_nodes. rewrite Vn, (filter_map_renamed f _ (fun n => 1 <? v_degree v n)) by (intros; rewrite Vd; reflexivity).
  induction (filter _ (v_nodes v)) as [|n l IH]; [reflexivity|]. cbn [map fold_right]. rewrite IH. apply insert_degree_renamed.
Qed.
Lemma adjacency_renamed n : adjacency v' (f n) = map f (adjacency v n).
Proof.
  unfold adjacency. rewrite Vb. apply filter_map_renamed. intros a. rewrite (key_eqb_renamed f I), Vd. reflexivity.
Qed.
Lemma adjacencies_renamed : adjacencies v' = radj (adjacencies v).
Proof.
  unfold adjacencies. rewrite sorted_nodes_renamed.
  assert (E : forall l d, fold_left (fun d n => dset n (adjacency v' n) d) (map f l) (radj d) = radj (fold_left (fun d n => dset n (adjacency v n) d) l d)).
  { induction l as [|n l IH]; intros d; [reflexivity|]. cbn [map fold_left]. rewrite adjacency_renamed, radj_set. apply IH. }
  exact (E (sorted_nodes v) []).
Qed.
Lemma triangles_of_renamed : triangles_of v' = on_res (map on_triangle) (triangles_of v).
Proof.
  unfold triangles_of. rewrite sorted_nodes_renamed, map_length, firstn_map, adjacencies_renamed, triangles_from_renamed. reflexivity.
Qed.
End View.

Lemma triangles_renamed so g : g_dir g = false -> triangles so (renamed f g) = on_res (map on_triangle) (triangles so g).
Proof.
  intros D. unfold triangles. apply triangles_of_renamed; unfold undirected_view; cbn [renamed g_dir]; rewrite D; cbn [v_nodes v_neighbors v_degree].
  - apply nodes_renamed.
  - intros n. apply (neighbors_renamed f I).
  - intros n. apply (degree_renamed f I).
Qed.
End Learner.

Section Ordered.
Variable f : key -> key.
Hypothesis O : keeps_order f.
Let I : injective f := proj1 O.

Lemma pget_renamed {A} p (d : pdict A) : pget (f (fst p), f (snd p)) (map (on_pair f) d) = pget p d.
Proof.
  induction d as [|[q w] d IH]; [reflexivity|]. cbn [map pget on_pair fst snd].
  replace (pair_eqb (f (fst p), f (snd p)) (f (fst q), f (snd q))) with (pair_eqb p q) by (unfold pair_eqb; cbn; rewrite !(key_eqb_renamed f I); reflexivity).
  rewrite IH. reflexivity.
Qed.
Lemma pget2 {A} u v (d : pdict A) : pget (f u, f v) (map (on_pair f) d) = pget (u, v) d.
Proof. exact (pget_renamed (u, v) d). Qed.
Lemma pset2 {A} u v (x : A) d : pset (f u, f v) x (map (on_pair f) d) = map (on_pair f) (pset (u, v) x d).
Proof. exact (pset_renamed f O (u, v) x d). Qed.
Lemma backbone_renamed lib pf g alpha w kc :
  multiscale_backbone lib pf (renamed f g) alpha w kc = on_res (renamed f) (multiscale_backbone lib pf g alpha w kc).
Proof.
  unfold multiscale_backbone, multiscale_backbone_sparsifier. apply (sparsified_renamed f I). unfold backbone_factory. rewrite (edge_disparity_renamed f O).
  destruct (edge_disparity lib g w false) as [d|]; cbn; [|reflexivity]. intros u v a. rewrite (key_gt_renamed f O). destruct (key_gt u v) as [[|]|]; cbn; [| |reflexivity].
  - rewrite pget2. reflexivity.
  - rewrite pget2. reflexivity.
Qed.

Lemma count_pair_renamed u v c : count_pair (f u) (f v) (map (on_pair f) c) = on_res (map (on_pair f)) (count_pair u v c).
Proof.
  unfold count_pair. rewrite (proj2 O u v). destruct (key_lt u v) as [[|]|]; cbn; [| |reflexivity]; unfold increment.
  - rewrite pget2, pset2. reflexivity.
  - rewrite pget2, pset2. reflexivity.
Qed.
Lemma strength_renamed so g full : g_dir g = false ->
  triangular_strength so (renamed f g) full = on_res (map (on_pair f)) (triangular_strength so g full).
Proof.
  intros D. unfold triangular_strength.
  assert (Z : (if full then foldM zero_edge (edge_list (renamed f g)) [] else Ok []) = on_res (map (on_pair f) : pdict nat -> pdict nat) (if full then foldM zero_edge (edge_list g) [] else Ok [])).
  { destruct full; [|reflexivity]. replace (edge_list (renamed f g)) with (map (fun uv => (f (fst uv), f (snd uv))) (edge_list g)).
    - apply (foldM_renamed (map (on_pair f)) (fun uv => (f (fst uv), f (snd uv)))) with (s := []). intros c [u v]. unfold zero_edge. cbn [fst snd]. rewrite (key_gt_renamed f O).
      destruct (key_gt u v) as [[|]|]; cbn; [| |reflexivity]; f_equal; [exact (pset_renamed f O (v, u) 0 c)|exact (pset_renamed f O (u, v) 0 c)].
    - unfold edge_list. rewrite (edges_data_renamed f I), !map_map. reflexivity. }
  rewrite Z. destruct (if full then foldM zero_edge (edge_list g) [] else Ok []) as [c|]; cbn [on_res bind]; [|reflexivity].
  rewrite (triangles_renamed f I so g D). destruct (triangles so g) as [l|]; cbn [on_res bind]; [|reflexivity].
  apply foldM_renamed. intros s [[x y] z]. cbn [on_triangle count_triangle]. rewrite count_pair_renamed. destruct (count_pair x y s) as [d|]; cbn [on_res bind]; [|reflexivity].
  rewrite count_pair_renamed. destruct (count_pair x z d); cbn [on_res bind]; [|reflexivity]. apply count_pair_renamed.
Qed.
End Ordered.
