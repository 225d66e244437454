(** * Lemmas about renamings *)
From Coq Require Import List ZArith Lia Bool QArith.
From Verif Require Import PyBase PyNum NxGraph L_Base M_UnionFind M_Traversal M_Graph M_Umst M_Disparity M_Proj S_Renaming.
Import ListNotations.
Close Scope Q_scope.

Section Rename.
Variable f : key -> key.
Hypothesis I : injective f.

Lemma key_eqb_renamed a b : key_eqb (f a) (f b) = key_eqb a b.
Proof.
  destruct (key_eqb a b) eqn:E; [apply key_eqb_eq in E; subst; apply key_eqb_refl|].
  destruct (key_eqb (f a) (f b)) eqn:E'; [|reflexivity]. apply key_eqb_eq, I in E'. subst. rewrite key_eqb_refl in E. discriminate.
Qed.
Lemma mem_renamed a l : mem (f a) (map f l) = mem a l.
Proof. induction l as [|b l IH]; [reflexivity|]. cbn. rewrite key_eqb_renamed. unfold mem in IH. rewrite IH. reflexivity. Qed.
Lemma dget_renamed {A} k (d : dict A) : dget (f k) (map (on_key f) d) = dget k d.
Proof. induction d as [|[k' v] d IH]; [reflexivity|]. cbn. rewrite key_eqb_renamed, IH. reflexivity. Qed.
Lemma dset_renamed {A} k v (d : dict A) : dset (f k) v (map (on_key f) d) = map (on_key f) (dset k v d).
Proof. induction d as [|[k' v'] d IH]; [reflexivity|]. cbn. rewrite key_eqb_renamed. destruct (key_eqb k k'); [reflexivity|]. cbn. rewrite IH. reflexivity. Qed.
Lemma dkeys_renamed {A} (d : dict A) : dkeys (map (on_key f) d) = map f (dkeys d).
Proof. unfold dkeys. rewrite !map_map. reflexivity. Qed.
Lemma dmem_renamed {A} k (d : dict A) : dmem (f k) (map (on_key f) d) = dmem k d.
Proof. unfold dmem. rewrite dkeys_renamed. apply mem_renamed. Qed.

Let rb (b : bundle) : bundle := mkB (f (b_src b)) (f (b_dst b)) (b_data b).

Lemma same_ends_renamed dir u v b : same_ends dir (f u) (f v) (rb b) = same_ends dir u v b.
Proof. unfold same_ends. cbn. rewrite !key_eqb_renamed. reflexivity. Qed.
Lemma find_renamed dir u v l : List.find (same_ends dir (f u) (f v)) (map rb l) = option_map rb (List.find (same_ends dir u v) l).
Proof. induction l as [|b l IH]; [reflexivity|]. cbn [map List.find]. rewrite same_ends_renamed. destruct (same_ends dir u v b); [reflexivity|exact IH]. Qed.
Lemma edge_data_renamed g u v : edge_data (renamed f g) (f u) (f v) = edge_data g u v.
Proof. unfold edge_data. cbn [renamed g_dir g_adj]. rewrite find_renamed. destruct (List.find _ _); reflexivity. Qed.
Lemma has_edge_renamed g u v : has_edge (renamed f g) (f u) (f v) = has_edge g u v.
Proof. unfold has_edge. rewrite edge_data_renamed. reflexivity. Qed.
Lemma other_end_renamed dir n b : other_end dir (f n) (rb b) = option_map f (other_end dir n b).
Proof. unfold other_end. cbn. rewrite !key_eqb_renamed. destruct (key_eqb _ _); [reflexivity|]. destruct (_ && _); reflexivity. Qed.
Lemma adj_items_renamed g n : adj_items (renamed f g) (f n) = map (on_key f) (adj_items g n).
Proof.
  unfold adj_items. cbn [renamed g_dir g_adj]. induction (g_adj g) as [|b l IH]; [reflexivity|]. cbn [map flat_map]. rewrite map_app. f_equal; [|exact IH].
  change (mkB _ _ _) with (rb b). rewrite other_end_renamed. destruct (other_end _ n b); reflexivity.
Qed.
Lemma pred_items_renamed g n : pred_items (renamed f g) (f n) = map (on_key f) (pred_items g n).
Proof.
  unfold pred_items. cbn [renamed g_dir g_adj]. induction (g_adj g) as [|b l IH]; [reflexivity|]. cbn [map flat_map]. rewrite map_app. f_equal; [|exact IH].
  cbn [b_dst b_src b_data]. rewrite key_eqb_renamed. destruct (key_eqb _ n); reflexivity.
Qed.
Lemma nodes_renamed g : nodes (renamed f g) = map f (nodes g).
Proof. apply dkeys_renamed. Qed.
Lemma order_renamed g : order (renamed f g) = order g.
Proof. unfold order. cbn. apply map_length. Qed.
Lemma neighbors_renamed g n : neighbors (renamed f g) (f n) = map f (neighbors g n).
Proof. unfold neighbors. rewrite adj_items_renamed, !map_map. reflexivity. Qed.
Lemma predecessors_renamed g n : predecessors (renamed f g) (f n) = map f (predecessors g n).
Proof. unfold predecessors. rewrite pred_items_renamed, !map_map. reflexivity. Qed.
Lemma weak_neighbors_renamed g n : weak_neighbors (renamed f g) (f n) = map f (weak_neighbors g n).
Proof. unfold weak_neighbors. cbn [renamed g_dir]. rewrite neighbors_renamed, predecessors_renamed. destruct (g_dir g); [rewrite map_app|]; reflexivity. Qed.
Lemma degree_renamed g n : degree (renamed f g) (f n) = degree g n.
Proof.
  unfold degree. cbn [renamed g_dir]. rewrite adj_items_renamed, pred_items_renamed, !map_map. change (mkG _ _ _ _ _) with (renamed f g). rewrite edge_data_renamed. reflexivity.
Qed.

Lemma filter_map_renamed {A B} (h : A -> B) p q l : (forall a, p (h a) = q a) -> filter p (map h l) = map h (filter q l).
Proof. intros H. induction l as [|a l IH]; [reflexivity|]. cbn. rewrite H. destruct (q a); cbn; rewrite IH; reflexivity. Qed.

Lemma pairs_from_renamed g todo : forall seen, pairs_from (renamed f g) (map f seen) (map f todo) = map (on_pair f) (pairs_from g seen todo).
Proof.
  induction todo as [|n todo IH]; intros seen; [reflexivity|]. cbn [map pairs_from]. rewrite map_app. f_equal; [|exact (IH (n :: seen))].
  rewrite adj_items_renamed. rewrite (filter_map_renamed (on_key f) _ (fun mk => g_dir g || negb (mem (fst mk) seen))).
  - rewrite !map_map. reflexivity.
  - intros [m kd]. cbn [on_key fst renamed g_dir]. rewrite mem_renamed. reflexivity.
Qed.
Lemma edge_pairs_renamed g : edge_pairs (renamed f g) = map (on_pair f) (edge_pairs g).
Proof. unfold edge_pairs. rewrite nodes_renamed. exact (pairs_from_renamed g (nodes g) []). Qed.
Lemma edges_keys_renamed g : edges_keys (renamed f g) = map (fun e => let '(u, v, k, a) := e in (f u, f v, k, a)) (edges_keys g).
Proof.
  unfold edges_keys. rewrite edge_pairs_renamed. induction (edge_pairs g) as [|[[u v] kd] l IH]; [reflexivity|]. cbn [map flat_map]. rewrite map_app. f_equal; [|exact IH].
  cbn. rewrite map_map. reflexivity.
Qed.
Lemma edges_data_renamed g : edges_data (renamed f g) = map (on_edge f) (edges_data g).
Proof. unfold edges_data. rewrite edges_keys_renamed, !map_map. apply map_ext. intros [[[u v] k] a]. reflexivity. Qed.
Lemma size_renamed g : size (renamed f g) = size g.
Proof. unfold size. rewrite edges_keys_renamed. apply map_length. Qed.
Lemma edges_of_renamed g n : edges_of (renamed f g) (f n) = map (fun e => let '(u, v, k, a) := e in (f u, f v, k, a)) (edges_of g n).
Proof.
  unfold edges_of. rewrite adj_items_renamed. induction (adj_items g n) as [|[m kd] l IH]; [reflexivity|]. cbn [map flat_map]. rewrite map_app. f_equal; [|exact IH].
  cbn. rewrite map_map. reflexivity.
Qed.

(** ** components *)
Lemma plain_bfs_renamed fuel nb nb' : (forall n, nb' (f n) = map f (nb n)) -> forall seen queue,
  plain_bfs fuel nb' (map f seen) (map f queue) = map f (plain_bfs fuel nb seen queue).
Proof.
  intros H. induction fuel as [|fuel IH]; intros seen queue; [reflexivity|]. destruct queue as [|v queue]; [reflexivity|]. cbn [map plain_bfs].
  rewrite mem_renamed. destruct (mem v seen); [apply IH|]. rewrite H. rewrite <- IH, !map_app. reflexivity.
Qed.
Lemma bfs_fuel_renamed g : bfs_fuel (renamed f g) = bfs_fuel g.
Proof.
  unfold bfs_fuel. rewrite nodes_renamed, map_map. do 3 f_equal. apply map_ext. intros n. rewrite weak_neighbors_renamed. apply map_length.
Qed.
Lemma components_from_renamed g todo : forall seen, components_from (renamed f g) (map f seen) (map f todo) = map (map f) (components_from g seen todo).
Proof.
  induction todo as [|v todo IH]; intros seen; [reflexivity|]. cbn [map components_from]. rewrite mem_renamed. destruct (mem v seen); [apply IH|].
  cbn zeta. rewrite bfs_fuel_renamed. pose proof (plain_bfs_renamed (bfs_fuel g) (weak_neighbors g) (weak_neighbors (renamed f g)) (weak_neighbors_renamed g) [] [v]) as E.
  cbn [map] in E. rewrite E. cbn [map]. f_equal. rewrite <- IH, map_app. reflexivity.
Qed.
Lemma connected_components_renamed g : connected_components (renamed f g) = map (map f) (connected_components g).
Proof. unfold connected_components. rewrite nodes_renamed. exact (components_from_renamed g (nodes g) []). Qed.

Lemma lcc_loop_renamed comps : forall largest n, lcc_loop (option_map (map f) largest) n (map (map f) comps) = option_map (map f) (lcc_loop largest n comps).
Proof.
  induction comps as [|c comps IH]; intros largest n; [reflexivity|]. cbn [map lcc_loop]. cbn zeta.
  assert (E : match option_map (map f) largest with None => map f c | Some l => if List.length l <? List.length (map f c) then map f c else l end
            = map f (match largest with None => c | Some l => if List.length l <? List.length c then c else l end)).
  { destruct largest as [l|]; cbn [option_map]; [|reflexivity]. rewrite !map_length. destruct (Nat.ltb (List.length l) (List.length c)); reflexivity. }
  rewrite E, map_length. destruct (_ <? _)%Z; [reflexivity|]. apply (IH (Some _)).
Qed.
Lemma largest_renamed g : largest_connected_component (renamed f g) = option_map (map f) (largest_connected_component g).
Proof. unfold largest_connected_component. rewrite order_renamed, connected_components_renamed. exact (lcc_loop_renamed _ None _). Qed.

Lemma remove_nodes_from_renamed g l : remove_nodes_from (renamed f g) (map f l) = renamed f (remove_nodes_from g l).
Proof.
  unfold remove_nodes_from, renamed. cbn [g_dir g_multi g_attr g_nodes g_adj]. f_equal.
  - apply filter_map_renamed. intros [n a]. cbn. rewrite mem_renamed. reflexivity.
  - apply filter_map_renamed. intros b. cbn. rewrite !mem_renamed. reflexivity.
Qed.
Lemma crop_renamed g : crop_to_largest_connected_component (renamed f g)
  = (renamed f (fst (crop_to_largest_connected_component g)), snd (crop_to_largest_connected_component g)).
Proof.
  unfold crop_to_largest_connected_component. rewrite largest_renamed. destruct (largest_connected_component g) as [c|]; cbn [option_map fst snd]; [|reflexivity].
  rewrite nodes_renamed. rewrite (filter_map_renamed f _ (fun n => negb (mem n c))) by (intros; rewrite mem_renamed; reflexivity).
  rewrite remove_nodes_from_renamed. reflexivity.
Qed.

(** ** connected_component_orders *)
Definition rt {T} (t : trav T) : trav T :=
  mkT (map f (t_graph t)) (map (fun x => match x with inl k => inl (f k) | inr i => inr i end) (t_items t)) (map f (t_seen t)).

Lemma set_add_renamed k l : set_add (f k) (map f l) = map f (set_add k l).
Proof. unfold set_add. rewrite mem_renamed. destruct (mem k l); [reflexivity|]. rewrite map_app. reflexivity. Qed.
Lemma t_append_renamed {T} n (t : trav T) : fst (t_append (f n) None (rt t)) = rt (fst (t_append n None t)).
Proof.
  unfold t_append. cbn [rt t_seen]. rewrite set_add_renamed, !map_length. destruct (Nat.eqb _ _); unfold rt; cbn [fst t_graph t_items t_seen]; [reflexivity|].
  rewrite map_app. reflexivity.
Qed.
Lemma t_pop_renamed {T} (t : trav T) : t_pop (rt t)
  = (rt (fst (t_pop t)), on_res (fun x => match x with inl k => inl (f k) | inr i => inr i end) (snd (t_pop t))).
Proof.
  unfold t_pop. cbn [rt t_items]. rewrite <- map_rev. destruct (rev (t_items t)) as [|x r]; [reflexivity|]. cbn [map fst snd on_res].
  unfold rt. cbn [t_graph t_items t_seen]. rewrite map_rev. reflexivity.
Qed.

Section Filter.
Variables (ef ef' : option edge_predicate).
Hypothesis EF : forall u v a, follows ef' (f u) (f v) a = follows ef u v a.

Lemma cc_visit_renamed g n t : cc_visit (renamed f g) ef' (f n) (rt t) = on_res rt (cc_visit g ef n t).
Proof.
  unfold cc_visit. rewrite edges_of_renamed. revert t. induction (edges_of g n) as [|[[[u v] k] a] l IH]; intros t; [reflexivity|]. cbn [map foldM].
  rewrite EF. destruct (follows ef n v a) as [b|e]; cbn [bind]; [|reflexivity]. destruct b; [|apply IH]. rewrite t_append_renamed. apply IH.
Qed.
Lemma cc_loop_renamed g fuel : forall size t, cc_loop fuel (renamed f g) ef' size (rt t) = on_res (fun x => (fst x, rt (snd x))) (cc_loop fuel g ef size t).
Proof.
  assert (L : forall t : trav unit, t_len (rt t) = t_len t) by (intros t; unfold t_len; cbn; apply map_length).
  induction fuel as [|fuel IH]; intros size t; cbn [cc_loop]; rewrite L; destruct (Nat.eqb (t_len t) 0); try reflexivity.
  rewrite t_pop_renamed. destruct (t_pop t) as [t' [[n1|i]|e]]; cbn [fst snd on_res]; try reflexivity.
  rewrite cc_visit_renamed. destruct (cc_visit g ef n1 t'); cbn [on_res bind]; [apply IH|reflexivity].
Qed.
Lemma cc_from_renamed g todo : forall t, cc_from (renamed f g) ef' (map f todo) (rt t) = cc_from g ef todo t.
Proof.
  induction todo as [|n todo IH]; intros t; [reflexivity|]. cbn [map cc_from].
  replace (seen_everything (rt t)) with (seen_everything t) by (unfold seen_everything; cbn; rewrite !map_length; reflexivity).
  destruct (seen_everything t); [reflexivity|]. unfold t_contains. cbn [rt t_seen]. rewrite mem_renamed. destruct (mem n (t_seen t)); [apply IH|].
  change (mkT _ _ _) with (rt t). rewrite order_renamed, t_append_renamed, cc_loop_renamed. destruct (cc_loop _ g ef 0 _) as [[sz t']|]; cbn [on_res bind fst snd]; [|reflexivity].
  rewrite IH. reflexivity.
Qed.
Lemma orders_renamed g : connected_component_orders (renamed f g) ef' = connected_component_orders g ef.
Proof. unfold connected_component_orders. rewrite nodes_renamed. exact (cc_from_renamed g (nodes g) (t_make (nodes g))). Qed.
Lemma second_renamed g : second_largest_connected_component_order (renamed f g) ef' = second_largest_connected_component_order g ef.
Proof. unfold second_largest_connected_component_order. rewrite orders_renamed. reflexivity. Qed.
End Filter.

(** ** union_of_maximum_spanning_trees *)
Definition rreg (r : register) : register := mkReg (counter r) (map (on_key f) (index r)).
Definition rds (s : dset_state) : dset_state := mkDS (ds_uf s) (rreg (ds_reg s)).
Definition rum (s : umst_state) : umst_state := mkUM (rds (um_ds s)) (um_weight s) (map (on_edge f) (um_relevant s)) (map (on_edge f) (um_out s)).

Definition commutes {S A} (r : S -> S) (m m' : sm S A) : Prop := forall s, m' (r s) = (r (fst (m s)), snd (m s)).

Lemma commutes_bind {S A B} (r : S -> S) (m m' : sm S A) (k k' : A -> sm S B) : commutes r m m' -> (forall a, commutes r (k a) (k' a)) ->
  commutes r (sbind m k) (sbind m' k').
Proof.
  intros H K s. unfold sbind. rewrite H. destruct (m s) as [s' [a|e]]; cbn [fst snd]; [apply K|reflexivity].
Qed.
Lemma commutes_ret {S A} (r : S -> S) (a : A) : commutes r (sret a) (sret a).
Proof. intros s. reflexivity. Qed.

Lemma ds_id_renamed x : commutes rds (ds_id x) (ds_id (f x)).
Proof.
  intros s. unfold ds_id, getitem. cbn [rds ds_reg rreg index]. rewrite dget_renamed. destruct (dget x (index (ds_reg s))); [reflexivity|].
  rewrite dset_renamed. reflexivity.
Qed.
Lemma ds_lift_renamed {A} (m : sm uf A) : commutes rds (ds_lift m) (ds_lift m).
Proof. intros s. unfold ds_lift. cbn [rds ds_uf]. destruct (m (ds_uf s)). reflexivity. Qed.
Lemma ds_union_renamed x y : commutes rds (ds_union x y) (ds_union (f x) (f y)).
Proof. unfold ds_union. apply commutes_bind; [apply ds_id_renamed|]. intros i. apply commutes_bind; [apply ds_id_renamed|]. intros j. apply ds_lift_renamed. Qed.
Lemma ds_find_renamed x : commutes rds (ds_find x) (ds_find (f x)).
Proof. unfold ds_find. apply commutes_bind; [apply ds_id_renamed|]. intros i s. reflexivity. Qed.
Lemma ds_same_renamed x y : commutes rds (ds_same x y) (ds_same (f x) (f y)).
Proof. unfold ds_same. apply commutes_bind; [apply ds_find_renamed|]. intros i. apply commutes_bind; [apply ds_find_renamed|]. intros j. apply commutes_ret. Qed.

Lemma on_ds_renamed {A} (m m' : sm dset_state A) : commutes rds m m' -> commutes rum (on_ds m) (on_ds m').
Proof. intros H s. unfold on_ds. cbn [rum um_ds]. rewrite H. destruct (m (um_ds s)). reflexivity. Qed.
Lemma um_flush_renamed l : commutes rum (um_flush l) (um_flush (map (on_edge f) l)).
Proof.
  induction l as [|e l IH]; [apply commutes_ret|]. cbn [map um_flush]. apply commutes_bind.
  - intros s. unfold smodify, rum. cbn. rewrite map_app. reflexivity.
  - intros _. apply commutes_bind; [apply on_ds_renamed, ds_union_renamed|]. intros _. exact IH.
Qed.
Lemma um_bucket_renamed lib w : commutes rum (um_bucket lib w) (um_bucket lib w).
Proof.
  intros s. unfold um_bucket. cbn [rum um_weight um_relevant].
  destruct (match um_weight s with None => true | Some c => n_ltb (NFloat (weight_epsilon lib)) (n_sub lib c w) end); [|reflexivity].
  apply (commutes_bind rum _ _ _ _ (um_flush_renamed (um_relevant s))). intros _ s'. reflexivity.
Qed.
Lemma um_edge_renamed lib w e : commutes rum (um_edge lib (w, e)) (um_edge lib (w, on_edge f e)).
Proof.
  unfold um_edge. apply commutes_bind; [apply um_bucket_renamed|]. intros _. apply commutes_bind; [apply on_ds_renamed, ds_same_renamed|].
  intros [|]; [apply commutes_ret|]. intros s. unfold smodify, rum. cbn. rewrite map_app. reflexivity.
Qed.
Definition on_weighted (x : pynum * edge3) : pynum * edge3 := (fst x, on_edge f (snd x)).
Lemma um_loop_renamed lib l : commutes rum (um_loop lib l) (um_loop lib (map on_weighted l)).
Proof.
  induction l as [|[w e] l IH]; [apply commutes_ret|]. cbn [map um_loop]. apply commutes_bind; [apply um_edge_renamed|]. intros _. exact IH.
Qed.
Lemma insert_weight_renamed x l : insert_weight (on_weighted x) (map on_weighted l) = map on_weighted (insert_weight x l).
Proof. induction l as [|y l IH]; [reflexivity|]. cbn [map insert_weight]. cbn [on_weighted fst]. destruct (n_leb (fst y) (fst x)); [reflexivity|]. cbn [map]. rewrite <- IH. reflexivity. Qed.
Lemma sort_weights_renamed l : sort_weights (map on_weighted l) = map on_weighted (sort_weights l).
Proof. induction l as [|x l IH]; [reflexivity|]. cbn [map sort_weights fold_right]. unfold sort_weights in IH. rewrite IH. apply insert_weight_renamed. Qed.

Lemma mapM_renamed {A B C D} (h : A -> C) (h' : B -> D) (m : A -> res B) (m' : C -> res D) l : (forall a, m' (h a) = on_res h' (m a)) ->
  mapM m' (map h l) = on_res (map h') (mapM m l).
Proof.
  intros H. induction l as [|a l IH]; [reflexivity|]. cbn [map mapM]. rewrite H. destruct (m a); cbn [on_res bind]; [|reflexivity].
  rewrite IH. destruct (mapM m l); reflexivity.
Qed.

Lemma umst_renamed lib pf g w : union_of_maximum_spanning_trees lib pf (renamed f g) w = on_res (map (on_edge f)) (union_of_maximum_spanning_trees lib pf g w).
Proof.
  unfold union_of_maximum_spanning_trees, umst_run. rewrite size_renamed. destruct (Nat.eqb (size g) 0); [reflexivity|].
  rewrite edges_data_renamed. rewrite (mapM_renamed (on_edge f) on_weighted (fun e => let* x := weight_of w (snd e) in Ok (x, e))).
  - destruct (mapM _ (edges_data g)) as [l|]; cbn [on_res]; [|reflexivity]. rewrite order_renamed. destruct (make_ds pf (order g)) as [ds|] eqn:E; [|reflexivity].
    assert (R : mkUM ds None [] [] = rum (mkUM ds None [] [])).
    { unfold make_ds in E. destruct (make pf (order g)); [|discriminate]. inversion E. reflexivity. }
    rewrite R at 1. rewrite sort_weights_renamed, um_loop_renamed. destruct (um_loop lib (sort_weights l) _) as [s [u|e]]; cbn [fst snd]; [|reflexivity].
    cbn [on_res rum um_out um_relevant]. rewrite map_app. reflexivity.
  - intros e. cbn. destruct (weight_of w (snd e)); reflexivity.
Qed.
End Rename.
