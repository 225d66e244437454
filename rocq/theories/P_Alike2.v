(** * C111: the graphs which the sparsifiers make of graphs which differ only by attributes nobody reads *)
From Coq Require Import List ZArith Bool QArith.
From Verif Require Import PyBase PyNum NxGraph L_Base L_Nx S_Graph L_Graph M_UnionFind M_Graph M_Umst M_Disparity M_Sparse S_Renaming S_Alike L_Alike P_Graph P_Sparse.
Import ListNotations.
Close Scope Q_scope.

Lemma shown_dset names k v d : shown names (dset k v d) = if mem k names then dset k v (shown names d) else shown names d.
Proof.
  unfold shown. induction d as [|[k' v'] d IH]; cbn [dset filter fst]; [destruct (mem k names); reflexivity|].
  destruct (key_eqb k k') eqn:E.
  - apply key_eqb_eq in E. subst k'. cbn [filter fst]. destruct (mem k names); cbn [dset]; [rewrite key_eqb_refl|]; reflexivity.
  - cbn [filter fst]. rewrite IH. destruct (mem k names), (mem k' names); cbn [dset]; rewrite ?E; reflexivity.
Qed.
Lemma shown_dupdate names d e : shown names (dupdate d e) = dupdate (shown names d) (shown names e).
Proof.
  unfold dupdate. revert d. induction e as [|[k v] e IH]; intros d; [reflexivity|]. cbn [fold_left fst snd]. rewrite IH, shown_dset. unfold shown at 4.
  cbn [filter fst]. destruct (mem k names); reflexivity.
Qed.

Definition bare_b (names : list key) (b : bundle) : bundle := mkB (b_src b) (b_dst b) (map (fun ka => (fst ka, shown names (snd ka))) (b_data b)).

Lemma dset_bare names k a (d : dict attrs) : map (fun ka => (fst ka, shown names (snd ka))) (dset k a d) = dset k (shown names a) (map (fun ka => (fst ka, shown names (snd ka))) d).
Proof. induction d as [|[k' a'] d IH]; [reflexivity|]. cbn [dset map fst snd]. destruct (key_eqb k k'); [reflexivity|]. cbn [map fst snd]. f_equal. exact IH. Qed.
Lemma dget_bare names k (d : dict attrs) : dget k (map (fun ka => (fst ka, shown names (snd ka))) d) = option_map (shown names) (dget k d).
Proof. induction d as [|[k' a'] d IH]; [reflexivity|]. cbn [map dget fst snd]. destruct (key_eqb k k'); [reflexivity|exact IH]. Qed.

Lemma set_bundle_bare names dir u v k a l : map (bare_b names) (set_bundle dir u v k a l) = set_bundle dir u v k (shown names a) (map (bare_b names) l).
Proof.
  induction l as [|b l IH].
  - cbn [set_bundle map]. unfold bare_b at 1. cbn [b_src b_dst b_data map fst snd]. rewrite shown_dupdate. reflexivity.
  - cbn [set_bundle map]. change (same_ends dir u v (bare_b names b)) with (same_ends dir u v b). destruct (same_ends dir u v b); cbn [map]; [|rewrite IH; reflexivity].
    f_equal. unfold bare_b. cbn [b_src b_dst b_data]. rewrite dset_bare, shown_dupdate, dget_bare. destruct (dget k (b_data b)); reflexivity.
Qed.
Lemma ensure_node_bare names g n : bare names (ensure_node g n) = ensure_node (bare names g) n.
Proof.
  unfold ensure_node. replace (has_node (bare names g) n) with (has_node g n).
  - destruct (has_node g n); [reflexivity|]. unfold bare. cbn [g_dir g_multi g_attr g_nodes g_adj]. rewrite map_app. reflexivity.
  - apply eq_true_iff_eq. rewrite !has_node_In, nodes_bare. tauto.
Qed.
Lemma add_edge_bare names g u v a : bare names (add_edge g u v a) = add_edge (bare names g) u v (shown names a).
Proof.
  unfold add_edge. replace (new_edge_key (bare names g) u v) with (new_edge_key g u v).
  - unfold add_edge_at. rewrite <- !ensure_node_bare. change (g_multi (bare names g)) with (g_multi g). set (m := ensure_node (ensure_node g u) v).
    unfold bare. cbn [g_dir g_multi g_attr g_nodes g_adj]. f_equal. apply (set_bundle_bare names).
  - unfold new_edge_key. rewrite (edge_data_bare names). destruct (edge_data g u v) as [d|]; cbn [option_map]; [|reflexivity]. unfold dkeys. rewrite map_length, map_map. reflexivity.
Qed.
Lemma add_edge_kind g u v a : g_multi (add_edge g u v a) = g_multi g.
Proof. unfold add_edge, add_edge_at, ensure_node. destruct (has_node g u); destruct (has_node _ v); reflexivity. Qed.

Lemma filter_added g l : edge_names g -> incl l (edges_data g) -> forall m, g_multi m = g_multi g ->
  foldM (fun m e => let '(u, v, a) := e in add_edge_kw m u v a) l m = Ok (fold_left (fun m e => add_edge m (fst (fst e)) (snd (fst e)) (snd e)) l m).
Proof.
  intros N. induction l as [|[[u v] a] l IH]; intros I m M; [reflexivity|]. cbn [foldM fold_left fst snd].
  assert (J : In (u, v, a) (edges_data g)) by (apply I; left; reflexivity). unfold add_edge_kw. rewrite M.
  replace (kwargs_ok (edge_reserved (g_multi g)) a) with true by (symmetry; apply kwargs_ok_iff; intros k H; destruct (N u v a k J H) as (A & B & _); split; assumption).
  assert (E : (if g_multi g then match dget (K "key") a with None => Ok (add_edge m u v a) | Some VNone => Ok (add_edge m u v (dremove [K "key"] a))
               | Some (VKey k) => Ok (add_edge_at m u v k (dremove [K "key"] a)) | Some _ => Err TypeError end else Ok (add_edge m u v a)) = Ok (add_edge m u v a)).
  { destruct (g_multi g) eqn:Q; [|reflexivity]. destruct (dget (K "key") a) as [x|] eqn:D; [|reflexivity]. exfalso. apply dget_Some_In in D.
    refine (proj2 (proj2 (N u v a (K "key") J _)) Q eq_refl). change (K "key") with (fst (K "key", x)). apply in_map. exact D. }
  rewrite E. cbn [bind]. apply IH; [|rewrite add_edge_kind; exact M]. intros x H. apply I. right. exact H.
Qed.

Lemma drop_pair_bare names dir multi u v l : map (bare_b names) (drop_pair dir multi u v l) = drop_pair dir multi u v (map (bare_b names) l).
Proof.
  induction l as [|b l IH]; [reflexivity|]. cbn [drop_pair map]. change (same_ends dir u v (bare_b names b)) with (same_ends dir u v b).
  destruct (same_ends dir u v b); [|cbn [map]; rewrite IH; reflexivity]. destruct multi; [|reflexivity]. cbn [bare_b b_data b_src b_dst].
  replace (removelast (map _ (b_data b))) with (map (fun ka : key * attrs => (fst ka, shown names (snd ka))) (removelast (b_data b))).
  - destruct (removelast (b_data b)); reflexivity.
  - induction (b_data b) as [|x [|y d] IHd]; [reflexivity|reflexivity|]. cbn [removelast map] in *. f_equal. exact IHd.
Qed.
Lemma remove_edges_bare names g l : bare names (remove_edges_from g l) = remove_edges_from (bare names g) l.
Proof.
  unfold remove_edges_from, bare. cbn [g_dir g_multi g_attr g_nodes g_adj]. f_equal. change (map _ ?x) with (map (bare_b names) x).
  generalize (g_adj g). induction l as [|[u v] l IH]; intros acc; [reflexivity|]. cbn [fold_left fst snd]. rewrite IH, drop_pair_bare. reflexivity.
Qed.

(** what the two sparsifiers read *)
Lemma made_read lib pf t alpha w reverse (keep_connected : bool) sp x : let names := if keep_connected then [w; K "weight"] else [w] in
  global_threshold_sparsifier lib pf t w reverse keep_connected = Ok sp \/ multiscale_backbone_sparsifier lib pf alpha w keep_connected = Ok sp ->
  relevant_edges sp (bare names x) = on_res (map (sh names)) (relevant_edges sp x) /\ redundant_edges sp (bare names x) = on_res (map (sh names)) (redundant_edges sp x).
Proof.
  intros names M. assert (I : In w names) by (unfold names; destruct keep_connected; left; reflexivity).
  assert (J : keep_connected = true -> In (K "weight") names) by (unfold names; intros ->; right; left; reflexivity).
  destruct M as [M|M]; [refine (made_bare names lib pf _ x _ sp J (threshold_factory_bare names t w reverse x I) M)
                       |refine (made_bare names lib pf _ x _ sp J (backbone_factory_bare names lib alpha w x I) M)].
Qed.
Lemma made_edges lib pf t alpha w reverse (keep_connected : bool) sp x l :
  global_threshold_sparsifier lib pf t w reverse keep_connected = Ok sp \/ multiscale_backbone_sparsifier lib pf alpha w keep_connected = Ok sp ->
  relevant_edges sp x = Ok l -> incl l (edges_data x).
Proof.
  intros M R. assert (N : sp_relevant sp = None) by (destruct M as [M|M]; cbn in M; inversion M; reflexivity).
  unfold relevant_edges in R. rewrite N in R. destruct (sp_predicate sp x) as [p|]; cbn [bind] in R; [|discriminate].
  apply filterM_Ok_inv in R as (_ & ->). intros e H. apply filter_In in H. apply H.
Qed.

(** What a sparsifier returns for the two graphs has the same nodes and edges, with the same values of those attributes, or is the same exception. *)
Theorem C111_sparsified lib pf t alpha w reverse (keep_connected : bool) sp g h : let names := if keep_connected then [w; K "weight"] else [w] in
  alike names g h -> edge_names g -> edge_names h ->
  global_threshold_sparsifier lib pf t w reverse keep_connected = Ok sp \/ multiscale_backbone_sparsifier lib pf alpha w keep_connected = Ok sp ->
  match sparsifier_filter sp g, sparsifier_filter sp h with
  | Ok g', Ok h' => alike names g' h'
  | Err e, Err e' => e = e'
  | _, _ => False
  end.
Proof.
  intros names A N N' M.
  assert (F : forall x, edge_names x -> on_res (bare names) (sparsifier_filter sp x)
    = on_res (fun l => fold_left (fun m e => add_edge m (fst (fst e)) (snd (fst e)) (snd e)) l (create_empty_copy (bare names x))) (relevant_edges sp (bare names x))).
  { intros x Nx. assert (E : relevant_edges sp (bare names x) = on_res (map (sh names)) (relevant_edges sp x)) by exact (proj1 (made_read lib pf t alpha w reverse keep_connected sp x M)). rewrite E. clear E. unfold sparsifier_filter.
    destruct (relevant_edges sp x) as [l|] eqn:R; cbn [bind on_res]; [|reflexivity].
    rewrite (filter_added x l Nx (made_edges lib pf t alpha w reverse keep_connected sp x l M R) (create_empty_copy x) eq_refl). cbn [on_res]. f_equal.
    change (create_empty_copy (bare names x)) with (bare names (create_empty_copy x)). generalize (create_empty_copy x).
    clear R. induction l as [|[[u v] a] l IH]; intros m; [reflexivity|]. cbn [map fold_left fst snd sh]. rewrite IH, add_edge_bare. reflexivity. }
  pose proof (F g N) as G. rewrite A, <- (F h N') in G. unfold alike.
  destruct (sparsifier_filter sp g), (sparsifier_filter sp h); cbn [on_res] in G; try discriminate.
  - apply (f_equal (fun r => match r with Ok y => y | Err _ => bare names g end)) in G. exact G.
  - apply (f_equal (fun r => match r with Ok _ => e | Err y => y end)) in G. exact G.
Qed.
Print Assumptions C111_sparsified.

(** The same for remove, which changes the graph in place, whatever the names of the attributes. *)
Theorem C111_removed lib pf t alpha w reverse (keep_connected : bool) sp g h : let names := if keep_connected then [w; K "weight"] else [w] in
  alike names g h ->
  global_threshold_sparsifier lib pf t w reverse keep_connected = Ok sp \/ multiscale_backbone_sparsifier lib pf alpha w keep_connected = Ok sp ->
  alike names (fst (sparsifier_remove sp g)) (fst (sparsifier_remove sp h)) /\ snd (sparsifier_remove sp g) = snd (sparsifier_remove sp h).
Proof.
  intros names A M.
  assert (F : forall x, sparsifier_remove sp (bare names x) = (bare names (fst (sparsifier_remove sp x)), snd (sparsifier_remove sp x))).
  { intros x. unfold sparsifier_remove, sbind, sread. assert (E : redundant_edges sp (bare names x) = on_res (map (sh names)) (redundant_edges sp x)) by exact (proj2 (made_read lib pf t alpha w reverse keep_connected sp x M)). rewrite E. clear E.
    destruct (redundant_edges sp x) as [l|]; cbn [on_res]; [|reflexivity]. change (g_multi (bare names x)) with (g_multi x).
    destruct (g_multi x).
    - replace (existsb (fun e => has_edge (bare names x) (fst (fst e)) (snd (fst e))) (map (sh names) l)) with (existsb (fun e : key * key * attrs => has_edge x (fst (fst e)) (snd (fst e))) l).
      + cbn beta iota zeta. match goal with |- context [existsb ?f l] => destruct (existsb f l); reflexivity end.
      + induction l as [|e l IH]; [reflexivity|]. cbn [map existsb sh fst]. rewrite has_edge_bare, IH. reflexivity.
    - cbn [fst snd]. rewrite remove_edges_bare, map_map. reflexivity. }
  pose proof (F g) as G. rewrite A, (F h) in G. symmetry in G. split; [exact (f_equal fst G)|exact (f_equal snd G)].
Qed.
Print Assumptions C111_removed.

(** the edges of a result *)
Definition shown_edges (r : res graph) : res (list (key * key * attrs)) := match r with Ok g => Ok (edges_data g) | Err e => Err e end.

(** Edges of other colours: the same edges are kept. *)
Example C111_sparsified_ex :
  let e c x := [(K "color", VStr c); (K "w", VInt x)] in
  let g c d := ex_graph false false [0; 1; 2]%Z [(0, 1, e c 1); (1, 2, e d 2); (0, 2, e d 3)]%Z in
  (alike [K "w"] (g "red"%string "blue"%string) (g "blue"%string "green"%string))
  /\ g "red"%string "blue"%string <> g "blue"%string "green"%string
  /\ match global_threshold_sparsifier lib64 Long64 2 (K "w") false false with
     | Ok sp => (shown_edges (sparsifier_filter sp (g "red"%string "blue"%string)), shown_edges (sparsifier_filter sp (g "blue"%string "green"%string)))
     | Err e => (Err e, Err e)
     end = (Ok [(KInt 0, KInt 2, e "blue"%string 3); (KInt 1, KInt 2, e "blue"%string 2)]%Z, Ok [(KInt 0, KInt 2, e "green"%string 3); (KInt 1, KInt 2, e "green"%string 2)]%Z).
Proof. split; [reflexivity|]. split; [discriminate|vm_compute; reflexivity]. Qed.
