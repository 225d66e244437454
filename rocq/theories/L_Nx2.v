(** * Lemmas about the networkx model: adding, removing, rebuilding *)
From Coq Require Import Lia Sorted Permutation.
From Verif Require Import NxGraph L_Base L_Utils L_Nx.

(** ** the pairs (u, v) and (x, y) are the same *)
Definition jn (dir : bool) (u v x y : key) : bool := same_ends dir u v (mkB x y []).

Lemma jn_iff dir u v x y : jn dir u v x y = true <-> (x = u /\ y = v) \/ (dir = false /\ x = v /\ y = u).
Proof. unfold jn. rewrite same_ends_iff. reflexivity. Qed.

Lemma jn_sym dir u v x y : jn dir u v x y = jn dir x y u v.
Proof.
  destruct (jn dir x y u v) eqn:E.
  - apply jn_iff in E. apply jn_iff. intuition congruence.
  - destruct (jn dir u v x y) eqn:F; [|reflexivity]. rewrite <- E. apply jn_iff in F. symmetry.
    apply jn_iff. intuition congruence.
Qed.

Lemma jn_refl dir u v : jn dir u v u v = true.
Proof. apply jn_iff. tauto. Qed.

Lemma jn_same dir u v x y b : jn dir u v x y = true -> same_ends dir x y b = same_ends dir u v b.
Proof.
  intros H. apply jn_iff in H. destruct H as [[-> ->]|(-> & -> & ->)]; [reflexivity|apply same_ends_sym].
Qed.

Lemma jn_diff dir u v x y b : jn dir u v x y = false -> same_ends dir u v b = true -> same_ends dir x y b = false.
Proof.
  intros H S. destruct (same_ends dir x y b) eqn:E; [|reflexivity]. rewrite <- H. symmetry.
  apply jn_iff. apply same_ends_iff in S, E. intuition congruence.
Qed.

Lemma same_ends_jn dir u v b : same_ends dir u v b = jn dir u v (b_src b) (b_dst b).
Proof. reflexivity. Qed.

(** ** nodes *)
Lemma nodes_add_node g n a : nodes (add_node g n a) = if has_node g n then nodes g else nodes g ++ [n].
Proof. apply dkeys_dset. Qed.

Lemma In_nodes_add_node g n a m : In m (nodes (add_node g n a)) <-> m = n \/ In m (nodes g).
Proof. apply In_dkeys_dset. Qed.

Lemma node_data_add_node g n a m : node_data (add_node g n a) m =
  if key_eqb m n then Some (dupdate (match node_data g n with Some o => o | None => [] end) a) else node_data g m.
Proof. apply dget_dset. Qed.

Lemma adj_add_node g n a : g_adj (add_node g n a) = g_adj g.
Proof. reflexivity. Qed.

Lemma edge_data_add_node g n a u v : edge_data (add_node g n a) u v = edge_data g u v.
Proof. reflexivity. Qed.

Lemma WF_adj_nodes g (nd : dict attrs) : WF g -> NoDup (dkeys nd) ->
  (forall n a, In (n, a) nd -> NoDup (dkeys a)) ->
  (forall b, In b (g_adj g) -> In (b_src b) (dkeys nd) /\ In (b_dst b) (dkeys nd)) ->
  WF (mkG (g_dir g) (g_multi g) (g_attr g) nd (g_adj g)).
Proof.
  intros W N A E. constructor; cbn; try assumption.
  - apply (wf_gattr g W).
  - apply (wf_ne g W).
  - apply (wf_keys g W).
  - apply (wf_eattrs g W).
  - apply (wf_simple g W).
  - apply (wf_distinct g W).
Qed.

Lemma In_dset {A} k (v : A) d x : In x (dset k v d) -> x = (k, v) \/ In x d.
Proof.
  induction d as [|[k0 v0] d IH]; cbn.
  - intros [<-|[]]; tauto.
  - keq k k0; cbn.
    + intros [<-|H]; [tauto|tauto].
    + intros [<-|H]; [tauto|]. apply IH in H. tauto.
Qed.

Lemma WF_add_node g n a : WF g -> WF (add_node g n a).
Proof.
  intros W. unfold add_node. apply WF_adj_nodes; [assumption| | |].
  - apply NoDup_dset, (wf_nodes g W).
  - intros m x I. apply In_dset in I. destruct I as [I|I]; [|eapply wf_nattrs; eassumption].
    inversion I; subst. apply NoDup_dupdate. destruct (node_data g n) as [o|] eqn:E; [|constructor].
    eapply node_data_attrs; eassumption.
  - intros b Hb. apply (wf_ends g W) in Hb. unfold nodes in Hb. rewrite !In_dkeys_dset. tauto.
Qed.

Lemma nodes_ensure g n : nodes (ensure_node g n) = if has_node g n then nodes g else nodes g ++ [n].
Proof. unfold ensure_node. destruct (has_node g n); [reflexivity|]. unfold nodes. cbn. unfold dkeys. rewrite map_app. reflexivity. Qed.

Lemma In_nodes_ensure g n m : In m (nodes (ensure_node g n)) <-> m = n \/ In m (nodes g).
Proof.
  rewrite nodes_ensure. destruct (has_node g n) eqn:E.
  - apply has_node_In in E. intuition congruence.
  - rewrite in_app_iff. simpl. intuition congruence.
Qed.

Lemma ensure_present g n : In n (nodes g) -> ensure_node g n = g.
Proof. intros H. unfold ensure_node. apply has_node_In in H. rewrite H. reflexivity. Qed.

Lemma node_data_ensure g n m : node_data (ensure_node g n) m =
  match node_data g m with Some a => Some a | None => if key_eqb m n then Some [] else None end.
Proof.
  unfold ensure_node. destruct (has_node g n) eqn:E.
  - destruct (node_data g m) eqn:F; [reflexivity|]. keq m n; [|reflexivity].
    apply has_node_In, node_data_In in E. destruct E. congruence.
  - unfold node_data. cbn. rewrite dget_app. cbn. reflexivity.
Qed.

Lemma adj_ensure g n : g_adj (ensure_node g n) = g_adj g.
Proof. unfold ensure_node. destruct (has_node g n); reflexivity. Qed.
Lemma dir_ensure g n : g_dir (ensure_node g n) = g_dir g.
Proof. unfold ensure_node. destruct (has_node g n); reflexivity. Qed.
Lemma multi_ensure g n : g_multi (ensure_node g n) = g_multi g.
Proof. unfold ensure_node. destruct (has_node g n); reflexivity. Qed.
Lemma attr_ensure g n : g_attr (ensure_node g n) = g_attr g.
Proof. unfold ensure_node. destruct (has_node g n); reflexivity. Qed.

Lemma WF_ensure g n : WF g -> WF (ensure_node g n).
Proof.
  intros W. unfold ensure_node. destruct (has_node g n) eqn:E; [assumption|].
  apply has_node_nIn in E. apply WF_adj_nodes; [assumption| | |].
  - unfold dkeys. rewrite map_app. apply NoDup_snoc; [apply (wf_nodes g W)|assumption].
  - intros m a I. apply in_app_iff in I. destruct I as [I|[I|[]]]; [eapply wf_nattrs; eassumption|].
    inversion I. constructor.
  - intros b Hb. apply (wf_ends g W) in Hb. unfold nodes, dkeys in *. rewrite !map_app, !in_app_iff. tauto.
Qed.

(** ** adding an edge *)
Definition set_data (k : key) (a : attrs) (old : option (dict attrs)) : dict attrs :=
  match old with
  | None => [(k, dupdate [] a)]
  | Some kd => dset k (dupdate (match dget k kd with Some o => o | None => [] end) a) kd
  end.

Lemma find_set_bundle dir u v k a l x y :
  option_map b_data (find (same_ends dir x y) (set_bundle dir u v k a l)) =
  if jn dir u v x y then Some (set_data k a (option_map b_data (find (same_ends dir x y) l)))
  else option_map b_data (find (same_ends dir x y) l).
Proof.
  destruct (jn dir u v x y) eqn:J.
  - induction l as [|b l IH]; cbn [set_bundle find].
    + rewrite same_ends_jn. cbn [b_src b_dst]. rewrite jn_sym, J. reflexivity.
    + rewrite (jn_same _ _ _ _ _ b J). destruct (same_ends dir u v b) eqn:E.
      * cbn [find]. replace (same_ends dir x y (mkB _ _ _)) with (same_ends dir x y b) by reflexivity.
        rewrite (jn_same _ _ _ _ _ b J), E. reflexivity.
      * cbn [find]. rewrite (jn_same _ _ _ _ _ b J), E. exact IH.
  - induction l as [|b l IH]; cbn [set_bundle find].
    + rewrite same_ends_jn. cbn [b_src b_dst]. rewrite jn_sym, J. reflexivity.
    + destruct (same_ends dir u v b) eqn:E.
      * cbn [find]. replace (same_ends dir x y (mkB _ _ _)) with (same_ends dir x y b) by reflexivity.
        rewrite (jn_diff _ _ _ _ _ _ J E). reflexivity.
      * cbn [find]. destruct (same_ends dir x y b); [reflexivity|exact IH].
Qed.

Lemma edge_data_add_edge_at g u v k a x y :
  edge_data (add_edge_at g u v k a) x y =
  if jn (g_dir g) u v x y then Some (set_data k a (edge_data g x y)) else edge_data g x y.
Proof.
  unfold add_edge_at, edge_data. cbn [g_dir g_adj]. rewrite !dir_ensure, !adj_ensure.
  apply find_set_bundle.
Qed.

Lemma nodes_add_edge_at g u v k a : nodes (add_edge_at g u v k a) = nodes (ensure_node (ensure_node g u) v).
Proof. reflexivity. Qed.

Lemma In_nodes_add_edge_at g u v k a m : In m (nodes (add_edge_at g u v k a)) <-> m = u \/ m = v \/ In m (nodes g).
Proof. rewrite nodes_add_edge_at, !In_nodes_ensure. tauto. Qed.

Lemma node_data_add_edge_at g u v k a m : node_data (add_edge_at g u v k a) m =
  match node_data g m with
  | Some a => Some a
  | None => if key_eqb m u || key_eqb m v then Some [] else None
  end.
Proof.
  change (node_data (add_edge_at g u v k a) m) with (node_data (ensure_node (ensure_node g u) v) m).
  rewrite !node_data_ensure. destruct (node_data g m); [reflexivity|].
  keq m u; [reflexivity|]. reflexivity.
Qed.

Lemma dir_add_edge_at g u v k a : g_dir (add_edge_at g u v k a) = g_dir g.
Proof. unfold add_edge_at. cbn. rewrite !dir_ensure. reflexivity. Qed.
Lemma multi_add_edge_at g u v k a : g_multi (add_edge_at g u v k a) = g_multi g.
Proof. unfold add_edge_at. cbn. rewrite !multi_ensure. reflexivity. Qed.
Lemma attr_add_edge_at g u v k a : g_attr (add_edge_at g u v k a) = g_attr g.
Proof. unfold add_edge_at. cbn. rewrite !attr_ensure. reflexivity. Qed.

Lemma set_bundle_In dir u v k a l b : In b (set_bundle dir u v k a l) ->
  In b l \/ (b_src b = u /\ b_dst b = v /\ b_data b = set_data k a None)
  \/ exists c, In c l /\ b_src b = b_src c /\ b_dst b = b_dst c /\ same_ends dir u v c = true
               /\ b_data b = set_data k a (Some (b_data c)).
Proof.
  induction l as [|c l IH]; cbn [set_bundle].
  - intros [<-|[]]. right; left. repeat split.
  - destruct (same_ends dir u v c) eqn:E.
    + intros [<-|H]; [|left; right; assumption]. right; right. exists c. repeat split; [left; reflexivity|assumption].
    + intros [<-|H]; [left; left; reflexivity|]. destruct (IH H) as [H'|[H'|(c' & H' & H2)]].
      * left; right; assumption.
      * right; left; assumption.
      * right; right. exists c'. split; [right; assumption|assumption].
Qed.

Lemma set_bundle_apart dir u v k a l b :
  (jn dir u v (b_src b) (b_dst b) = false) -> Forall (apart dir b) l -> Forall (apart dir b) (set_bundle dir u v k a l).
Proof.
  intros J F. rewrite Forall_forall in *. intros c Hc. apply set_bundle_In in Hc as [Hc|[(E1 & E2 & _)|(d & Hd & E1 & E2 & _)]].
  - auto.
  - unfold apart. rewrite same_ends_jn, E1, E2, jn_sym. exact J.
  - specialize (F d Hd). unfold apart in *. rewrite same_ends_jn in *. rewrite E1, E2. exact F.
Qed.

Lemma set_bundle_FOP dir u v k a l : ForallOrdPairs (apart dir) l -> ForallOrdPairs (apart dir) (set_bundle dir u v k a l).
Proof.
  induction 1 as [|b l H F IH]; cbn [set_bundle]; [constructor; constructor|].
  destruct (same_ends dir u v b) eqn:E.
  - constructor; [|assumption]. exact H.
  - constructor; [|exact IH]. apply set_bundle_apart; [|exact H]. exact E.
Qed.

Lemma set_data_ok multi k a old :
  (forall kd, old = Some kd -> data_ok multi kd) -> (multi = false -> k = KInt 0) ->
  data_ok multi (set_data k a old).
Proof.
  intros O M. destruct old as [kd|]; cbn [set_data].
  - destruct (O kd eq_refl) as (A & B & C & D). split; [|split; [|split]].
    + destruct kd as [|[k0 v0] kd]; [congruence|]. cbn. keq k k0; discriminate.
    + apply NoDup_dset; assumption.
    + intros k' x I. apply In_dset in I. destruct I as [I|I]; [|eapply C; eassumption].
      inversion I; subst. apply NoDup_dupdate. destruct (dget k kd) eqn:E; [|constructor].
      apply dget_Some_In in E. eapply C; eassumption.
    + intros ->. specialize (M eq_refl). destruct (D eq_refl) as (x & ->). subst k. cbn. eauto.
  - split; [discriminate|]. split; [repeat constructor; simpl; tauto|]. split.
    + intros k' x [I|[]]. inversion I; subst. apply NoDup_dupdate. constructor.
    + intros ->. rewrite M by reflexivity. eauto.
Qed.

Lemma WF_add_edge_at g u v k a : WF g -> (g_multi g = false -> k = KInt 0) -> WF (add_edge_at g u v k a).
Proof.
  intros W M. set (g1 := ensure_node (ensure_node g u) v).
  assert (W1 : WF g1) by (apply WF_ensure, WF_ensure, W).
  assert (M1 : g_multi g1 = g_multi g) by (unfold g1; rewrite !multi_ensure; reflexivity).
  assert (U : In u (nodes g1) /\ In v (nodes g1)).
  { unfold g1. rewrite !In_nodes_ensure. tauto. }
  assert (D : forall b, In b (set_bundle (g_dir g1) u v k a (g_adj g1)) ->
     data_ok (g_multi g1) (b_data b) /\ In (b_src b) (nodes g1) /\ In (b_dst b) (nodes g1)).
  { intros b Hb. apply set_bundle_In in Hb as [Hb|[(E1 & E2 & E3)|(c & Hc & E1 & E2 & _ & E3)]].
    - split; [apply WF_data; assumption|apply (wf_ends g1 W1 b Hb)].
    - rewrite E1, E2, E3. split; [|assumption]. apply set_data_ok; [discriminate|rewrite M1; assumption].
    - rewrite E1, E2, E3. split; [|apply (wf_ends g1 W1 c Hc)]. apply set_data_ok; [|rewrite M1; assumption].
      intros kd E; inversion E; subst. apply WF_data; assumption. }
  unfold add_edge_at. fold g1. constructor; cbn [nodes g_nodes g_attr g_adj g_multi g_dir].
  - apply (wf_nodes g1 W1).
  - apply (wf_nattrs g1 W1).
  - apply (wf_gattr g1 W1).
  - intros b Hb. apply D in Hb. unfold nodes in *. cbn. tauto.
  - intros b Hb. apply D in Hb. destruct Hb as ((X & _) & _). exact X.
  - intros b Hb. apply D in Hb. destruct Hb as ((_ & X & _) & _). exact X.
  - intros b x y Hb. apply D in Hb. destruct Hb as ((_ & _ & X & _) & _). apply X.
  - intros MM b Hb. apply D in Hb. destruct Hb as ((_ & _ & _ & X) & _). auto.
  - apply set_bundle_FOP, (wf_distinct g1 W1).
Qed.

Lemma WF_add_edge g u v a : WF g -> WF (add_edge g u v a).
Proof.
  intros W. unfold add_edge. apply WF_add_edge_at; [assumption|]. intros M. rewrite M. reflexivity.
Qed.

(** *** keyword variants *)
Lemma add_node_kw_Ok g n a h : add_node_kw g n a = Ok h <-> kwargs_ok node_reserved a = true /\ h = add_node g n a.
Proof.
  unfold add_node_kw. destruct (kwargs_ok node_reserved a); split; try discriminate.
  - intros H; inversion H; auto.
  - intros [_ ->]; reflexivity.
  - intros [H _]; discriminate.
Qed.

(** attribute names which add_edge takes as they are *)
Definition edge_names_ok (multi : bool) (a : attrs) : bool :=
  kwargs_ok (edge_reserved multi) a && (negb multi || negb (mem (K "key") (dkeys a))).

Lemma add_edge_kw_Ok g u v a : edge_names_ok (g_multi g) a = true -> add_edge_kw g u v a = Ok (add_edge g u v a).
Proof.
  unfold edge_names_ok, add_edge_kw. rewrite andb_true_iff. intros [-> H].
  destruct (g_multi g); [|reflexivity]. cbn in H. apply negb_true_iff, mem_nIn in H.
  apply dget_None in H. rewrite H. reflexivity.
Qed.

Lemma add_edge_kw_simple g u v a : g_multi g = false ->
  add_edge_kw g u v a = if kwargs_ok (edge_reserved false) a then Ok (add_edge g u v a) else Err TypeError.
Proof. intros M. unfold add_edge_kw. rewrite M. reflexivity. Qed.

(** ** removing nodes *)
Lemma nodes_remove g ns : nodes (remove_nodes_from g ns) = filter (fun n => negb (mem n ns)) (nodes g).
Proof. unfold nodes, remove_nodes_from, dkeys. cbn. rewrite filter_map. reflexivity. Qed.

Lemma node_data_remove g ns n : node_data (remove_nodes_from g ns) n = if mem n ns then None else node_data g n.
Proof.
  unfold node_data, remove_nodes_from. cbn. rewrite (dget_filter_keys (fun k => negb (mem k ns))).
  destruct (mem n ns); reflexivity.
Qed.

Definition both (p : key -> bool) (u v : key) : bool := p u && p v.
Definition induced (p : key -> bool) (g : graph) : graph :=
  mkG (g_dir g) (g_multi g) (g_attr g) (filter (fun na => p (fst na)) (g_nodes g))
    (filter (fun b => p (b_src b) && p (b_dst b)) (g_adj g)).

Lemma remove_nodes_induced g ns : remove_nodes_from g ns = induced (fun n => negb (mem n ns)) g.
Proof. reflexivity. Qed.
Lemma subgraph_induced g ns : subgraph g ns = induced (fun n => mem n ns) g.
Proof. reflexivity. Qed.

Lemma nodes_induced p g : nodes (induced p g) = filter p (nodes g).
Proof. unfold nodes, induced, dkeys. cbn. rewrite filter_map. reflexivity. Qed.

Lemma node_data_induced p g n : node_data (induced p g) n = if p n then node_data g n else None.
Proof. unfold node_data, induced. cbn. apply dget_filter_keys. Qed.

Lemma find_filter_adj dir (p : key -> bool) l u v :
  find (same_ends dir u v) (filter (fun b => p (b_src b) && p (b_dst b)) l) =
  if p u && p v then find (same_ends dir u v) l else None.
Proof.
  induction l as [|b l IH]; cbn [filter find]; [destruct (p u && p v); reflexivity|].
  destruct (same_ends dir u v b) eqn:E.
  - assert (P : p (b_src b) && p (b_dst b) = p u && p v).
    { apply same_ends_iff in E. destruct E as [[-> ->]|(_ & -> & ->)]; [reflexivity|apply andb_comm]. }
    rewrite P. destruct (p u && p v); [cbn [find]; rewrite E; reflexivity|exact IH].
  - destruct (p (b_src b) && p (b_dst b)); [cbn [find]; rewrite E|]; exact IH.
Qed.

Lemma edge_data_induced p g u v : edge_data (induced p g) u v = if p u && p v then edge_data g u v else None.
Proof.
  unfold edge_data, induced. cbn [g_dir g_adj]. rewrite find_filter_adj. destruct (p u && p v); reflexivity.
Qed.

Lemma WF_induced p g : WF g -> WF (induced p g).
Proof.
  intros W. constructor; unfold induced; cbn [g_dir g_multi g_attr g_nodes g_adj].
  - change (NoDup (nodes (induced p g))). rewrite nodes_induced. apply NoDup_filter, (wf_nodes g W).
  - intros n a I. apply filter_In in I. eapply wf_nattrs; [eassumption|apply I].
  - apply (wf_gattr g W).
  - intros b Hb. apply filter_In in Hb as (Hb & P). apply andb_true_iff in P.
    change (In (b_src b) (nodes (induced p g)) /\ In (b_dst b) (nodes (induced p g))).
    rewrite nodes_induced, !filter_In. apply (wf_ends g W) in Hb. tauto.
  - intros b Hb. apply filter_In in Hb. apply (wf_ne g W), Hb.
  - intros b Hb. apply filter_In in Hb. apply (wf_keys g W), Hb.
  - intros b k a Hb. apply filter_In in Hb. apply (wf_eattrs g W), Hb.
  - intros M b Hb. apply filter_In in Hb. apply (wf_simple g W M), Hb.
  - apply FOP_filter, (wf_distinct g W).
Qed.

(** the listed edges of an induced subgraph *)
Lemma adj_items_induced p g n : p n = true ->
  adj_items (induced p g) n = filter (fun mk => p (fst mk)) (adj_items g n).
Proof.
  intros P. unfold adj_items, induced. cbn [g_dir g_adj].
  induction (g_adj g) as [|b l IH]; [reflexivity|]. cbn [flat_map filter].
  rewrite filter_app, <- IH. clear IH.
  destruct (other_end (g_dir g) n b) as [m|] eqn:E.
  - assert (PE : p (b_src b) && p (b_dst b) = p m).
    { apply other_end_iff, same_ends_iff in E. destruct E as [[-> ->]|(_ & -> & ->)]; rewrite P; [reflexivity|apply andb_true_r]. }
    rewrite PE. cbn [filter fst]. destruct (p m); [|reflexivity]. cbn [flat_map]. rewrite E. reflexivity.
  - cbn [filter app]. destruct (p (b_src b) && p (b_dst b)); [|reflexivity]. cbn [flat_map]. rewrite E. reflexivity.
Qed.

Lemma pairs_from_induced p g : forall todo seen,
  pairs_from (induced p g) (filter p seen) (filter p todo) =
  filter (fun e => p (fst (fst e)) && p (snd (fst e))) (pairs_from g seen todo).
Proof.
  induction todo as [|n todo IH]; intros seen; [reflexivity|]. cbn [filter pairs_from].
  rewrite filter_app, <- IH. cbn [filter]. destruct (p n) eqn:P.
  - cbn [pairs_from]. f_equal. rewrite adj_items_induced by assumption. cbn [induced g_dir].
    rewrite filter_map. cbn [fst snd]. f_equal. rewrite !filter_filter. apply filter_ext_in'.
    intros [m kd] _. cbn [fst]. rewrite P. cbn [andb].
    destruct (p m) eqn:Pm; [|rewrite andb_false_r; reflexivity]. rewrite andb_true_r. cbn [andb].
    f_equal. f_equal. destruct (mem_spec m seen) as [I|I], (mem_spec m (filter p seen)) as [J|J]; try reflexivity.
    + exfalso. apply J, filter_In. tauto.
    + exfalso. apply filter_In in J. tauto.
  - rewrite (filter_none _ (map _ _)); [reflexivity|]. intros x Hx. apply in_map_iff in Hx as (y & <- & _).
    cbn. rewrite P. reflexivity.
Qed.

Lemma edge_pairs_induced p g :
  edge_pairs (induced p g) = filter (fun e => p (fst (fst e)) && p (snd (fst e))) (edge_pairs g).
Proof. unfold edge_pairs. rewrite nodes_induced. apply (pairs_from_induced p g (nodes g) []). Qed.

Lemma edges_keys_induced p g :
  edges_keys (induced p g) = filter (fun e => p (fst (fst (fst e))) && p (snd (fst (fst e)))) (edges_keys g).
Proof.
  unfold edges_keys. rewrite edge_pairs_induced. induction (edge_pairs g) as [|[[u v] kd] l IH]; [reflexivity|].
  cbn [filter flat_map fst snd]. rewrite filter_app, <- IH. destruct (p u && p v) eqn:P.
  - cbn [flat_map fst snd]. f_equal. symmetry. apply filter_all. intros x Hx.
    apply in_map_iff in Hx as (y & <- & _). exact P.
  - rewrite (filter_none _ (map _ _)); [reflexivity|]. intros x Hx. apply in_map_iff in Hx as (y & <- & _).
    exact P.
Qed.

(** ** removing pairs of a simple graph *)
Lemma drop_pair_simple dir u v l : ForallOrdPairs (apart dir) l ->
  drop_pair dir false u v l = filter (fun b => negb (same_ends dir u v b)) l.
Proof.
  induction 1 as [|b l H F IH]; [reflexivity|]. cbn [drop_pair filter].
  destruct (same_ends dir u v b) eqn:E; cbn [negb].
  - symmetry. apply filter_all. intros c Hc. rewrite Forall_forall in H. specialize (H c Hc).
    unfold apart in H. apply negb_true_iff. destruct (same_ends dir u v c) eqn:E2; [|reflexivity].
    rewrite (same_ends_trans _ _ _ _ _ E E2) in H. discriminate.
  - f_equal. exact IH.
Qed.

Lemma drop_pairs_simple dir es : forall l, ForallOrdPairs (apart dir) l ->
  fold_left (fun acc uv => drop_pair dir false (fst uv) (snd uv) acc) es l
  = filter (fun b => negb (existsb (fun uv => same_ends dir (fst uv) (snd uv) b) es)) l.
Proof.
  induction es as [|[u v] es IH]; intros l F; cbn [fold_left existsb].
  - symmetry. apply filter_all. reflexivity.
  - rewrite drop_pair_simple by assumption. rewrite IH by (apply FOP_filter; assumption).
    rewrite filter_filter. apply filter_ext_in'. intros b _. cbn [fst snd]. rewrite negb_orb. reflexivity.
Qed.

Definition listed (dir : bool) (es : list (key * key)) (x y : key) : bool :=
  existsb (fun uv => jn dir (fst uv) (snd uv) x y) es.

Lemma listed_iff dir es x y : listed dir es x y = true <-> In (x, y) es \/ (dir = false /\ In (y, x) es).
Proof.
  unfold listed. rewrite existsb_exists. split.
  - intros ([u v] & I & J). apply jn_iff in J. cbn in J. destruct J as [[-> ->]|(D & -> & ->)]; tauto.
  - intros [I|[D I]]; [exists (x, y)|exists (y, x)]; (split; [assumption|]); apply jn_iff; cbn; tauto.
Qed.

Lemma remove_edges_simple g es : WF g -> g_multi g = false ->
  remove_edges_from g es = with_adj g (filter (fun b => negb (listed (g_dir g) es (b_src b) (b_dst b))) (g_adj g)).
Proof.
  intros W M. unfold remove_edges_from, with_adj. rewrite M.
  rewrite drop_pairs_simple by apply (wf_distinct g W). reflexivity.
Qed.

Lemma edge_pairs_remove_edges g es : WF g -> g_multi g = false ->
  edge_pairs (remove_edges_from g es) =
  filter (fun e => negb (listed (g_dir g) es (fst (fst e)) (snd (fst e)))) (edge_pairs g).
Proof.
  intros W M. rewrite remove_edges_simple by assumption.
  apply (edge_pairs_filter g (fun x y => negb (listed (g_dir g) es x y))).
  intros D u v. f_equal. apply Bool.eq_iff_eq_true. rewrite !listed_iff. tauto.
Qed.

Lemma WF_remove_edges g es : WF g -> g_multi g = false -> WF (remove_edges_from g es).
Proof.
  intros W M. rewrite remove_edges_simple by assumption. 
  apply (WF_filter_adj g (fun x y => negb (listed (g_dir g) es x y)) W).
Qed.

Lemma edge_data_remove_edges g es u v : WF g -> g_multi g = false ->
  edge_data (remove_edges_from g es) u v = if listed (g_dir g) es u v then None else edge_data g u v.
Proof.
  intros W M. rewrite remove_edges_simple by assumption.
  rewrite (filter_as_rewrite (fun x y => negb (listed (g_dir g) es x y))).
  rewrite edge_data_rewrite; [|assumption|].
  - destruct (edge_data g u v), (listed (g_dir g) es u v); reflexivity.
  - intros D x y kd. replace (listed (g_dir g) es y x) with (listed (g_dir g) es x y); [reflexivity|].
    apply Bool.eq_iff_eq_true. rewrite !listed_iff. tauto.
Qed.

(** ** rebuilding a graph edge by edge *)
Fixpoint number (z : Z) (l : list attrs) : dict attrs :=
  match l with [] => [] | a :: l' => (KInt z, a) :: number (z + 1) l' end.

Definition add_all (l : list (key * key * attrs)) (g : graph) : graph :=
  fold_left (fun g e => add_edge g (fst (fst e)) (snd (fst e)) (snd e)) l g.

Lemma add_all_app l1 l2 g : add_all (l1 ++ l2) g = add_all l2 (add_all l1 g).
Proof. apply fold_left_app. Qed.

Lemma dkeys_number z l k : In k (dkeys (number z l)) -> exists i, k = KInt i /\ (z <= i < z + Z.of_nat (List.length l))%Z.
Proof.
  revert z. induction l as [|a l IH]; intros z; cbn; [tauto|]. intros [<-|H].
  - exists z. split; [reflexivity|lia].
  - apply IH in H as (i & -> & H). exists i. split; [reflexivity|lia].
Qed.

Lemma NoDup_number z l : NoDup (dkeys (number z l)).
Proof.
  revert z. induction l as [|a l IH]; intros z; cbn; constructor; [|apply IH].
  intros H. apply dkeys_number in H as (i & E & H). inversion E; subst. lia.
Qed.

Lemma length_number z l : List.length (number z l) = List.length l.
Proof. revert z. induction l; intros; cbn; [reflexivity|]. f_equal. auto. Qed.

Lemma number_snoc z l a : number z (l ++ [a]) = number z l ++ [(KInt (z + Z.of_nat (List.length l)), a)].
Proof.
  revert z. induction l as [|b l IH]; intros z; cbn [app number List.length].
  - rewrite Z.add_0_r. reflexivity.
  - rewrite IH. cbn [app]. replace (z + 1 + Z.of_nat (List.length l))%Z with (z + Z.of_nat (S (List.length l)))%Z by lia.
    reflexivity.
Qed.

Lemma map_snd_number z l : map snd (number z l) = l.
Proof. revert z. induction l; intros; cbn; [reflexivity|]. f_equal. auto. Qed.

Lemma first_unused_fresh fuel k ks : ~ In (KInt k) ks -> first_unused fuel k ks = k.
Proof.
  intros H. destruct fuel; [reflexivity|]. cbn. apply mem_nIn in H. rewrite H. reflexivity.
Qed.

Lemma set_bundle_last dir u v k a l kd : (forall b, In b l -> same_ends dir u v b = false) ->
  set_bundle dir u v k a (l ++ [mkB u v kd]) = l ++ [mkB u v (set_data k a (Some kd))].
Proof.
  induction l as [|b l IH]; intros H; cbn [app set_bundle].
  - replace (same_ends dir u v (mkB u v kd)) with true by (symmetry; apply same_ends_iff; cbn; tauto). reflexivity.
  - rewrite (H b (or_introl eq_refl)). f_equal. apply IH. intros; apply H; right; assumption.
Qed.

Lemma set_bundle_new dir u v k a l : (forall b, In b l -> same_ends dir u v b = false) ->
  set_bundle dir u v k a l = l ++ [mkB u v [(k, dupdate [] a)]].
Proof.
  induction l as [|b l IH]; intros H; cbn [app set_bundle]; [reflexivity|].
  rewrite (H b (or_introl eq_refl)). f_equal. apply IH. intros; apply H; right; assumption.
Qed.

Lemma find_last dir u v l b : (forall b, In b l -> same_ends dir u v b = false) -> same_ends dir u v b = true ->
  find (same_ends dir u v) (l ++ [b]) = Some b.
Proof.
  intros H S. rewrite find_app. rewrite (proj2 (find_none_iff _ l) H). cbn. rewrite S. reflexivity.
Qed.

(** one group of parallel edges *)
Lemma add_group g u v l : l <> [] -> In u (nodes g) -> In v (nodes g) ->
  (g_multi g = false -> List.length l = 1) ->
  Forall (fun a : attrs => NoDup (dkeys a)) l ->
  (forall b, In b (g_adj g) -> same_ends (g_dir g) u v b = false) ->
  add_all (map (fun a => (u, v, a)) l) g = with_adj g (g_adj g ++ [mkB u v (number 0 l)]).
Proof.
  intros NE U V M A F.
  assert (FIRST : forall a, NoDup (dkeys a) -> add_edge g u v a = with_adj g (g_adj g ++ [mkB u v [(KInt 0, a)]])).
  { intros a N. unfold add_edge, add_edge_at. rewrite !ensure_present by (rewrite ?ensure_present; assumption).
    unfold with_adj. f_equal. rewrite set_bundle_new by assumption. rewrite dupdate_nil by assumption.
    destruct (g_multi g); [|reflexivity]. unfold new_edge_key, edge_data.
    rewrite (proj2 (find_none_iff _ (g_adj g)) F). reflexivity. }
  destruct l as [|a0 l]; [congruence|]. inversion A; subst. cbn [map]. unfold add_all. cbn [fold_left fst snd].
  rewrite FIRST by assumption. destruct (g_multi g) eqn:MU.
  - assert (G : forall l pre, Forall (fun a : attrs => NoDup (dkeys a)) l -> pre <> [] ->
       fold_left (fun g e => add_edge g (fst (fst e)) (snd (fst e)) (snd e)) (map (fun a => (u, v, a)) l)
         (with_adj g (g_adj g ++ [mkB u v (number 0 pre)]))
       = with_adj g (g_adj g ++ [mkB u v (number 0 (pre ++ l))])).
    { clear -U V MU F. induction l as [|a l IH]; intros pre A P; cbn [map fold_left].
      - rewrite app_nil_r. reflexivity.
      - inversion A; subst. cbn [fst snd].
        assert (STEP : add_edge (with_adj g (g_adj g ++ [mkB u v (number 0 pre)])) u v a
           = with_adj g (g_adj g ++ [mkB u v (number 0 (pre ++ [a]))])).
        { unfold add_edge, add_edge_at. cbn [with_adj g_multi]. rewrite MU.
          rewrite !ensure_present by (rewrite ?ensure_present; assumption).
          unfold with_adj. cbn [g_dir g_multi g_attr g_nodes g_adj]. f_equal.
          rewrite set_bundle_last by assumption. do 2 f_equal. f_equal.
          unfold new_edge_key, edge_data. cbn [g_dir g_adj]. rewrite find_last.
          2: assumption. 2: apply same_ends_iff; cbn; tauto.
          cbn [option_map b_data]. rewrite length_number.
          assert (NI : ~ In (KInt (Z.of_nat (List.length pre))) (dkeys (number 0 pre))).
          { intros H. apply dkeys_number in H as (i & E & H). inversion E; subst. lia. }
          rewrite first_unused_fresh by assumption. cbn [set_data].
          rewrite number_snoc, Z.add_0_l.
          rewrite (proj2 (dget_None _ _) NI). rewrite dset_notin by assumption.
          rewrite dupdate_nil by assumption. reflexivity. }
        rewrite STEP, IH; [|assumption|destruct pre; discriminate]. rewrite <- app_assoc. reflexivity. }
    change [(KInt 0, a0)] with (number 0 [a0]). rewrite G by (assumption || discriminate). reflexivity.
  - specialize (M eq_refl). destruct l; [reflexivity|discriminate].
Qed.

(** rebuilding group by group: [P] lists pairs with the attributes of their edges *)
Definition group_edges (p : key * key * list attrs) : list (key * key * attrs) :=
  map (fun a => (fst (fst p), snd (fst p), a)) (snd p).
Definition group_bundle (p : key * key * list attrs) : bundle :=
  mkB (fst (fst p)) (snd (fst p)) (number 0 (snd p)).

Definition group_ok (g : graph) (p : key * key * list attrs) : Prop :=
  snd p <> [] /\ In (fst (fst p)) (nodes g) /\ In (snd (fst p)) (nodes g)
  /\ (g_multi g = false -> List.length (snd p) = 1)
  /\ Forall (fun a : attrs => NoDup (dkeys a)) (snd p).

Lemma add_groups g P : Forall (group_ok g) P ->
  ForallOrdPairs (apart (g_dir g)) (g_adj g ++ map group_bundle P) ->
  add_all (flat_map group_edges P) g = with_adj g (g_adj g ++ map group_bundle P).
Proof.
  revert g. induction P as [|[[u v] l] P IH]; intros g A F; cbn [flat_map map].
  - cbn. unfold with_adj. rewrite app_nil_r. destruct g; reflexivity.
  - inversion A; subst. destruct H1 as (B1 & B2 & B3 & B4 & B5). cbn [fst snd] in *.
    rewrite add_all_app. unfold group_edges at 2. cbn [fst snd].
    rewrite add_group; try assumption.
    + rewrite IH.
      * unfold with_adj. cbn [g_dir g_multi g_attr g_nodes g_adj]. rewrite <- app_assoc. reflexivity.
      * exact H2.
      * cbn [with_adj g_dir g_adj]. rewrite <- app_assoc. exact F.
    + intros b Hb. apply FOP_app in F as (_ & _ & F). specialize (F b (group_bundle (u, v, l)) Hb (or_introl eq_refl)).
      apply apart_sym in F. exact F.
Qed.

Lemma canonical_map_eq dir N l l' : l = l' -> canonical dir N l -> canonical dir N l'.
Proof. intros ->. auto. Qed.

(** the edges listed for a graph rebuilt from groups in node order *)
Lemma edges_data_groups g P : WF g -> Forall (group_ok g) P ->
  ForallOrdPairs (apart (g_dir g)) (map group_bundle P) ->
  canonical (g_dir g) (nodes g) (map fst P) ->
  WF (add_all (flat_map group_edges P) (create_empty_copy g)) /\
  edge_pairs (add_all (flat_map group_edges P) (create_empty_copy g))
    = map (fun p => (fst p, number 0 (snd p))) P /\
  edges_data (add_all (flat_map group_edges P) (create_empty_copy g)) = flat_map group_edges P /\
  g_nodes (add_all (flat_map group_edges P) (create_empty_copy g)) = g_nodes g /\
  g_attr (add_all (flat_map group_edges P) (create_empty_copy g)) = g_attr g /\
  g_dir (add_all (flat_map group_edges P) (create_empty_copy g)) = g_dir g /\
  g_multi (add_all (flat_map group_edges P) (create_empty_copy g)) = g_multi g.
Proof.
  intros W A F C. rewrite add_groups.
  2: { rewrite Forall_forall in *. intros p Hp. apply A in Hp. exact Hp. }
  2: exact F.
  set (h := with_adj _ _).
  assert (EP : edge_pairs h = map pair_of (map group_bundle P)).
  { apply (edge_pairs_canonical h); [apply (wf_nodes g W)| |exact F].
    unfold h. cbn [with_adj create_empty_copy g_adj g_dir app]. 
    eapply canonical_map_eq; [|exact C]. rewrite map_map. apply map_ext. intros [[x y] l]. reflexivity. }
  split; [|split; [|split; [|repeat split]]].
  - constructor; unfold h; cbn [with_adj create_empty_copy g_adj g_dir app g_multi g_nodes g_attr].
    + apply (wf_nodes g W).
    + apply (wf_nattrs g W).
    + apply (wf_gattr g W).
    + intros b Hb. apply in_map_iff in Hb as (p & <- & Hp). rewrite Forall_forall in A. apply A in Hp.
      destruct Hp as (_ & X & Y & _). split; assumption.
    + intros b Hb. apply in_map_iff in Hb as (p & <- & Hp). rewrite Forall_forall in A. apply A in Hp.
      destruct Hp as (X & _). cbn. destruct (snd p); [congruence|discriminate].
    + intros b Hb. apply in_map_iff in Hb as (p & <- & Hp). apply NoDup_number.
    + intros b k a Hb I. apply in_map_iff in Hb as (p & <- & Hp). rewrite Forall_forall in A. apply A in Hp.
      destruct Hp as (_ & _ & _ & _ & X). rewrite Forall_forall in X. apply X. cbn in I.
      rewrite <- (map_snd_number 0 (snd p)). apply (in_map snd) in I. exact I.
    + intros M b Hb. apply in_map_iff in Hb as (p & <- & Hp). rewrite Forall_forall in A. apply A in Hp.
      destruct Hp as (_ & _ & _ & X & _). specialize (X M). cbn. destruct (snd p) as [|a [|]]; try discriminate.
      exists a. reflexivity.
    + exact F.
  - rewrite EP, map_map. apply map_ext. intros [[x y] l]. reflexivity.
  - rewrite edges_data_pairs, EP. clear. induction P as [|[[u v] l] P IH]; [reflexivity|].
    cbn [map flat_map]. rewrite IH. f_equal. unfold data_of, pair_of, group_bundle, group_edges. cbn.
    transitivity (map (fun a => (u, v, a)) (map snd (number 0 l))); [rewrite map_map; reflexivity|].
    rewrite map_snd_number. reflexivity.
Qed.

(** any filter of the listed edges, as groups *)
Definition keep_group (p : key * key * attrs -> bool) (e : key * key * dict attrs) : list (key * key * list attrs) :=
  match filter (fun a => p (fst (fst e), snd (fst e), a)) (map snd (snd e)) with
  | [] => []
  | l => [(fst (fst e), snd (fst e), l)]
  end.

Lemma keep_groups_edges p l : flat_map group_edges (flat_map (keep_group p) l) = filter p (flat_map data_of l).
Proof.
  induction l as [|[[u v] kd] l IH]; [reflexivity|]. cbn [flat_map]. rewrite flat_map_app, IH, filter_app. f_equal.
  unfold keep_group, data_of. cbn [fst snd].
  transitivity (map (fun a => (u, v, a)) (filter (fun a => p (u, v, a)) (map snd kd))).
  - destruct (filter (fun a => p (u, v, a)) (map snd kd)) eqn:E; [reflexivity|]. cbn [flat_map]. rewrite app_nil_r. reflexivity.
  - rewrite <- (map_map snd (fun a => (u, v, a))). symmetry. apply filter_map.
Qed.

Lemma keep_group_In p x l : In x (flat_map (keep_group p) l) ->
  exists e, In e l /\ fst x = fst e /\ snd x <> [] /\ incl (snd x) (map snd (snd e))
            /\ List.length (snd x) <= List.length (snd e).
Proof.
  rewrite in_flat_map. intros (e & He & H). exists e. split; [assumption|]. unfold keep_group in H.
  destruct (filter _ _) as [|a r] eqn:E; [contradiction|]. destruct H as [<-|[]]. cbn [fst snd].
  split; [destruct e as [[? ?] ?]; reflexivity|]. split; [discriminate|]. rewrite <- E. split.
  - intros y Hy. apply filter_In in Hy. tauto.
  - etransitivity; [apply filter_len|]. rewrite map_length. lia.
Qed.

Lemma keep_group_sublist p l : exists f, map fst (flat_map (keep_group p) l) = map fst (filter f l).
Proof.
  exists (fun e => match keep_group p e with [] => false | _ => true end).
  induction l as [|e l IH]; [reflexivity|]. cbn [flat_map filter]. rewrite map_app, IH.
  unfold keep_group at 1 3.
  destruct (filter (fun a => p (fst (fst e), snd (fst e), a)) (map snd (snd e))) eqn:E; [reflexivity|].
  cbn. destruct e as [[? ?] ?]. reflexivity.
Qed.

Lemma canonical_filter_pairs dir N f (l : list (key * key * dict attrs)) :
  canonical dir N (map fst l) -> canonical dir N (map fst (filter f l)).
Proof.
  intros [S F]. split.
  - induction l as [|x l IH]; [constructor|]. cbn in *. inversion S; subst. inversion F; subst.
    destruct (f x); [|auto]. cbn. constructor; [auto|].
    rewrite Forall_forall in *. intros y Hy. apply H2. apply in_map_iff in Hy as (z & <- & Hz).
    apply filter_In in Hz. apply in_map, Hz.
  - rewrite Forall_forall in *. intros y Hy. apply F. apply in_map_iff in Hy as (z & <- & Hz).
    apply filter_In in Hz. apply in_map, Hz.
Qed.

Lemma edges_apart g : WF g -> ForallOrdPairs (fun e f => jn (g_dir g) (fst e) (snd e) (fst f) (snd f) = false) (edges g).
Proof.
  intros W. pose proof (edges_NoDup g W) as N. pose proof (fun u v => edges_oriented g u v W) as O.
  assert (I : incl (edges g) (edges g)) by apply incl_refl. revert N I. generalize (edges g) at 1 2 4 as l.
  induction l as [|[u v] l IH]; intros N I; constructor; inversion N; subst.
  - apply Forall_forall. intros [x y] H. cbn. destruct (jn (g_dir g) u v x y) eqn:J; [|reflexivity].
    apply jn_iff in J. destruct J as [[-> ->]|(D & -> & ->)]; [contradiction|].
    assert (u = v).
    { apply O; [assumption|apply I; left; reflexivity|apply I; right; assumption]. }
    subst. contradiction.
  - apply IH; [assumption|]. intros z Hz. apply I. right; assumption.
Qed.

Lemma rebuild_filter g p : WF g ->
  let h := add_all (filter p (edges_data g)) (create_empty_copy g) in
  WF h /\ edges_data h = filter p (edges_data g) /\ g_nodes h = g_nodes g /\ g_attr h = g_attr g
  /\ g_dir h = g_dir g /\ g_multi h = g_multi g
  /\ incl (edges h) (edges g).
Proof.
  intros W. cbn zeta.
  assert (EQ : filter p (edges_data g) = flat_map group_edges (flat_map (keep_group p) (edge_pairs g)))
    by (rewrite edges_data_pairs, keep_groups_edges; reflexivity).
  rewrite EQ.
  destruct (edges_data_groups g (flat_map (keep_group p) (edge_pairs g))) as (H1 & H2 & H3 & H4 & H5 & H6 & H7).
  - assumption.
  - apply Forall_forall. intros x Hx. apply keep_group_In in Hx as ([[u v] kd] & He & E1 & E2 & E3 & E4).
    apply edge_pairs_data in He; [|assumption]. unfold group_ok. rewrite E1. cbn [fst snd] in *.
    destruct (edge_data_nodes g u v kd W He). repeat split; try assumption.
    + intros M. destruct (edge_data_simple g u v kd W M He) as (a & ->). cbn in E4.
      destruct (snd x) as [|a' [|]]; [congruence|reflexivity|cbn in E4; lia].
    + apply Forall_forall. intros a Ha. apply E3 in Ha. apply in_map_iff in Ha as ([k a'] & E & Ha). cbn in E; subst a'.
      eapply edge_data_attrs; eassumption.
  - destruct (keep_group_sublist p (edge_pairs g)) as (f & E).
    assert (G : ForallOrdPairs (fun e f => jn (g_dir g) (fst e) (snd e) (fst f) (snd f) = false)
                  (map fst (flat_map (keep_group p) (edge_pairs g)))).
    { rewrite E. pose proof (edges_apart g W) as A. unfold edges in A. clear -A.
      induction (edge_pairs g) as [|x l IH]; [constructor|]. cbn in *. inversion A; subst.
      destruct (f x); [|auto]. cbn. constructor; [|auto]. rewrite Forall_forall in *. intros y Hy. apply H1.
      apply in_map_iff in Hy as (z & <- & Hz). apply filter_In in Hz. apply in_map, Hz. }
    clear -G. induction (flat_map (keep_group p) (edge_pairs g)) as [|x l IH]; [constructor|].
    cbn in *. inversion G; subst. constructor; [|auto]. rewrite Forall_forall in *. intros y Hy.
    apply in_map_iff in Hy as (z & <- & Hz). apply (in_map fst), H1 in Hz. exact Hz.
  - destruct (keep_group_sublist p (edge_pairs g)) as (f & ->). apply canonical_filter_pairs, edges_canonical, W.
  - split; [assumption|]. split; [assumption|]. split; [assumption|]. split; [assumption|]. split; [assumption|].
    split; [assumption|]. intros e He. unfold edges in He. rewrite H2, map_map in He.
    apply in_map_iff in He as (x & <- & Hx). apply keep_group_In in Hx as (y & Hy & E & _). rewrite E.
    cbn [fst]. apply in_map. assumption.
Qed.
