(** * Lemmas about the model of graph.py: filter_nodes and leaves *)
From Coq Require Import Lia.
From Verif Require Import PyBase NxGraph M_UnionFind M_Traversal M_Graph S_Partition S_Graph L_Base L_Utils L_Nx L_Nx2 L_Graph.

Lemma dset_same {A} k (v : A) d : dget k d = Some v -> dset k v d = d.
Proof.
  induction d as [|[k0 v0] d IH]; cbn; [discriminate|]. keq k k0; [congruence|]. intros H. f_equal. auto.
Qed.

Lemma dupdate_same {A} (e d : dict A) : (forall k v, In (k, v) e -> dget k d = Some v) -> dupdate d e = d.
Proof.
  unfold dupdate. revert d. induction e as [|[k v] e IH]; intros d H; [reflexivity|]. cbn.
  rewrite dset_same by (apply H; left; reflexivity). apply IH. intros; apply H; right; assumption.
Qed.

Lemma dupdate_self {A} (d : dict A) : NoDup (dkeys d) -> dupdate d d = d.
Proof. intros N. apply dupdate_same. intros k v I. apply dget_In; assumption. Qed.

Lemma edges_of_In g u v k a n : WF g -> In (u, v, k, a) (edges_of g n) <-> u = n /\ edge_attrs g n v k = Some a.
Proof.
  intros W. unfold edges_of. rewrite in_flat_map. split.
  - intros ([m kd] & I & H). apply in_map_iff in H as ([k' a'] & E & H). cbn in E. inversion E; subst.
    split; [reflexivity|]. apply adj_items_In in I; [|assumption]. unfold edge_attrs. rewrite I.
    apply dget_In; [eapply edge_data_keys; eassumption|assumption].
  - intros [-> E]. unfold edge_attrs in E. destruct (edge_data g n v) as [kd|] eqn:D; [|discriminate].
    exists (v, kd). split; [apply adj_items_In; assumption|]. apply in_map_iff. exists (k, a). split; [reflexivity|].
    apply dget_Some_In. assumption.
Qed.

Lemma edge_attrs_add_edge_at g u v k a x y k' :
  edge_attrs (add_edge_at g u v k a) x y k' =
  if jn (g_dir g) u v x y && key_eqb k' k
  then Some (dupdate (match edge_attrs g x y k with Some o => o | None => [] end) a)
  else edge_attrs g x y k'.
Proof.
  unfold edge_attrs. rewrite edge_data_add_edge_at. destruct (jn (g_dir g) u v x y); [|reflexivity].
  cbn [andb]. destruct (edge_data g x y) as [kd|]; cbn [set_data].
  - rewrite dget_dset. destruct (key_eqb k' k); reflexivity.
  - cbn [dget]. destruct (key_eqb k' k); reflexivity.
Qed.

Lemma edge_attrs_simple_key g u v k a : WF g -> g_multi g = false -> edge_attrs g u v k = Some a -> k = KInt 0.
Proof.
  intros W M E. unfold edge_attrs in E. destruct (edge_data g u v) as [kd|] eqn:D; [|discriminate].
  destruct (edge_data_simple g u v kd W M D) as (b & ->). cbn in E. destruct (key_eqb_spec k (KInt 0)); [assumption|discriminate].
Qed.

Lemma edge_attrs_jn g u v x y k : jn (g_dir g) u v x y = true -> edge_attrs g x y k = edge_attrs g u v k.
Proof.
  intros J. apply jn_iff in J. destruct J as [[-> ->]|(D & -> & ->)]; [reflexivity|].
  apply edge_attrs_sym. assumption.
Qed.

(** ** graphs in construction, all of whose nodes and edges come from [g] and satisfy [P] *)
Record part_of (g : graph) (P : key -> bool) (h : graph) : Prop := {
  po_wf : WF h;
  po_kind : same_kind g h;
  po_attr : g_attr h = g_attr g;
  po_node : forall n b, node_data h n = Some b -> P n = true /\ exists a, node_data g n = Some a /\ (b = [] \/ b = a);
  po_edge : forall u v k a, edge_attrs h u v k = Some a -> P u = true /\ P v = true /\ edge_attrs g u v k = Some a;
  po_loop : g_dir g = false -> forall u k, edge_attrs h u u k = None
}.

Record grows (g h h' : graph) : Prop := {
  gr_node : forall n a, node_data g n = Some a -> node_data h n = Some a -> node_data h' n = Some a;
  gr_edge : forall u v k a, edge_attrs h u v k = Some a -> edge_attrs h' u v k = Some a
}.

Lemma grows_refl g h : grows g h h.
Proof. split; auto. Qed.
Lemma grows_trans g h h' h'' : grows g h h' -> grows g h' h'' -> grows g h h''.
Proof. intros [A B] [C D]. split; auto. Qed.

Lemma part_add_node g P h n a : WF g -> part_of g P h -> P n = true -> node_data g n = Some a ->
  part_of g P (add_node h n a) /\ grows g h (add_node h n a) /\ node_data (add_node h n a) n = Some a.
Proof.
  intros W H Pn Hn. pose proof (node_data_attrs g n a W Hn) as ND.
  assert (U : dupdate (match node_data h n with Some o => o | None => [] end) a = a).
  { destruct (node_data h n) as [b|] eqn:E; [|apply dupdate_nil; assumption].
    apply (po_node g P h H) in E as (_ & a' & Ha & [->| ->]); [apply dupdate_nil; assumption|].
    rewrite Ha in Hn. inversion Hn; subst. apply dupdate_self. assumption. }
  split; [|split].
  - constructor.
    + apply WF_add_node, (po_wf g P h H).
    + exact (po_kind g P h H).
    + exact (po_attr g P h H).
    + intros m b. rewrite node_data_add_node, U. keq m n.
      * intros E; inversion E; subst. split; [assumption|]. exists b. tauto.
      * apply (po_node g P h H).
    + intros u v k b E. apply (po_edge g P h H). exact E.
    + exact (po_loop g P h H).
  - split.
    + intros m b Hm E. rewrite node_data_add_node, U. destruct (key_eqb_spec m n); [subst m; rewrite Hn in Hm; exact Hm|assumption].
    + intros u v k b E. exact E.
  - rewrite node_data_add_node, U, key_eqb_refl. reflexivity.
Qed.

Lemma part_add_edge g P h u v k a : WF g -> part_of g P h -> P u = true -> P v = true ->
  edge_attrs g u v k = Some a -> g_dir g = true \/ u <> v ->
  part_of g P (add_edge_at h u v k a) /\ grows g h (add_edge_at h u v k a)
  /\ edge_attrs (add_edge_at h u v k a) u v k = Some a.
Proof.
  intros W H Pu Pv He NL. pose proof (edge_attrs_nodup g u v k a W He) as ND.
  destruct (po_kind g P h H) as [KD KM].
  assert (U : forall x y, jn (g_dir h) u v x y = true ->
     dupdate (match edge_attrs h x y k with Some o => o | None => [] end) a = a).
  { intros x y J. destruct (edge_attrs h x y k) as [b|] eqn:E; [|apply dupdate_nil; assumption].
    apply (po_edge g P h H) in E as (_ & _ & E). rewrite <- KD in J. rewrite (edge_attrs_jn g u v x y k J), He in E.
    inversion E; subst. apply dupdate_self. assumption. }
  assert (NN : In u (nodes g) /\ In v (nodes g)).
  { unfold edge_attrs in He. destruct (edge_data g u v) eqn:D; [|discriminate]. eapply edge_data_nodes; eassumption. }
  split; [|split].
  - constructor.
    + apply WF_add_edge_at; [apply (po_wf g P h H)|]. intros M. eapply edge_attrs_simple_key; [exact W|congruence|eassumption].
    + split; [rewrite dir_add_edge_at; assumption|rewrite multi_add_edge_at; assumption].
    + rewrite attr_add_edge_at. apply (po_attr g P h H).
    + intros m b. rewrite node_data_add_edge_at. destruct (node_data h m) eqn:E.
      * intros X; inversion X; subst. apply (po_node g P h H). assumption.
      * destruct (key_eqb m u || key_eqb m v) eqn:C; [|discriminate]. intros X; inversion X; subst.
        apply orb_true_iff in C. rewrite !key_eqb_eq in C.
        assert (I : In m (nodes g)) by (destruct C as [-> | ->]; tauto).
        split; [destruct C as [-> | ->]; assumption|].
        apply node_data_In in I as (c & I). exists c. tauto.
    + intros x y k' b. rewrite edge_attrs_add_edge_at. destruct (jn (g_dir h) u v x y && key_eqb k' k) eqn:C.
      * apply andb_true_iff in C as [J C]. apply key_eqb_eq in C. subst k'. rewrite U by assumption.
        intros X; inversion X; subst. rewrite <- KD in J. rewrite (edge_attrs_jn g u v x y k J).
        apply jn_iff in J. destruct J as [[-> ->]|(_ & -> & ->)]; tauto.
      * apply (po_edge g P h H).
    + intros D x k'. rewrite edge_attrs_add_edge_at. destruct (jn (g_dir h) u v x x) eqn:J.
      * apply jn_iff in J. destruct NL as [NL|NL]; [congruence|]. intuition congruence.
      * apply (po_loop g P h H). assumption.
  - split.
    + intros m b Hm E. rewrite node_data_add_edge_at, E. reflexivity.
    + intros x y k' b E. rewrite edge_attrs_add_edge_at. destruct (jn (g_dir h) u v x y && key_eqb k' k) eqn:C; [|assumption].
      apply andb_true_iff in C as [J C]. apply key_eqb_eq in C. subst k'. rewrite U by assumption.
      apply (po_edge g P h H) in E as (_ & _ & E). rewrite <- KD in J. rewrite (edge_attrs_jn g u v x y k J) in E. rewrite He in E. exact E.
  - rewrite edge_attrs_add_edge_at, jn_refl, key_eqb_refl. cbn. rewrite U by apply jn_refl. reflexivity.
Qed.

(** ** filter_nodes *)
Definition oriented (g : graph) (u v : key) : bool :=
  g_dir g || match key_gt u v with Ok b => b | Err _ => false end.

Lemma comparable_lt l a b : comparable l -> In a l -> In b l -> exists r, key_lt a b = Ok r.
Proof.
  intros [C|C] Ha Hb; destruct (C a Ha) as (x & ->); destruct (C b Hb) as (y & ->); cbn; eauto.
Qed.

Lemma key_gt_neq u v : key_gt u v = Ok true -> u <> v.
Proof. intros H ->. apply key_lt_irrefl in H. discriminate. Qed.

Section FilterNodes.
Variables (g : graph) (f : node_predicate) (p : key -> attrs -> bool).
Hypothesis W : WF g.
Hypothesis T : node_test g f p.
Hypothesis EN : fit_edges g p.
Hypothesis NN : fit_nodes g p.
Hypothesis CMP : fit_order g p.

Let P := accepted g p.

Lemma fn_test v : In v (nodes g) -> test_node g f v = Ok (P v).
Proof.
  intros H. unfold test_node, P, accepted. apply node_data_In in H as (a & H). rewrite H. apply T.
  apply dget_Some_In. assumption.
Qed.

Lemma fn_edge h u v k a : part_of g P h -> P u = true -> edge_attrs g u v k = Some a ->
  exists h', filter_nodes_edge g f h (u, v, k, a) = Ok h' /\ part_of g P h' /\ grows g h h'
             /\ (oriented g u v = true -> P v = true -> edge_attrs h' u v k = Some a)
             /\ (oriented g u v = false -> h' = h).
Proof.
  intros H Pu He.
  assert (NE : In u (nodes g) /\ In v (nodes g)).
  { unfold edge_attrs in He. destruct (edge_data g u v) eqn:D; [|discriminate]. eapply edge_data_nodes; eassumption. }
  unfold filter_nodes_edge, oriented.
  assert (O : exists o, (if g_dir g then Ok true else key_gt u v) = Ok o
              /\ o = (g_dir g || match key_gt u v with Ok b => b | Err _ => false end)).
  { destruct (g_dir g) eqn:D; [exists true; split; reflexivity|].
    destruct (CMP D u v Pu) as (r & R); [eapply edge_attrs_has; eassumption|]. unfold key_gt.
    exists r. rewrite R. split; reflexivity. }
  destruct O as (o & -> & OE). rewrite <- OE. cbn [bind]. destruct o.
  - rewrite fn_test by tauto. cbn [bind]. destruct (P v) eqn:Pv.
    + assert (NL : g_dir g = true \/ u <> v).
      { destruct (g_dir g); [tauto|right]. cbn in OE. intros ->. destruct (key_gt v v) as [[]|] eqn:KG; try discriminate.
        apply key_gt_neq in KG. congruence. }
      destruct (part_add_edge g P h u v k a W H Pu Pv He NL) as (A & B & C).
      exists (add_edge_at h u v k a). split; [|split; [assumption|split; [assumption|split; [tauto|discriminate]]]].
      assert (NK : edge_names_ok (g_multi g) a = true).
      { apply edge_names_ok_iff. intros x Ix. exact (EN u v k a x He Pu Pv NL Ix). }
      destruct (po_kind g P h H) as [KD KM].
      destruct (g_multi g) eqn:M.
      * unfold add_edge_key_kw. replace (kwargs_ok (K "key" :: edge_reserved true) a) with true; [reflexivity|].
        symmetry. apply kwargs_ok_iff. intros x Hx. rewrite edge_names_ok_iff in NK. destruct (NK x Hx) as (S & R & K).
        split; [assumption|]. intros [E|E]; [apply K; [reflexivity|congruence]|contradiction].
      * rewrite add_edge_kw_Ok by (rewrite <- KM; exact NK). unfold add_edge. rewrite <- KM.
        rewrite (edge_attrs_simple_key g u v k a W M He). reflexivity.
    + exists h. split; [reflexivity|]. split; [assumption|]. split; [apply grows_refl|]. split; [discriminate|reflexivity].
  - cbn [bind]. exists h. split; [reflexivity|]. split; [assumption|]. split; [apply grows_refl|]. split; [discriminate|reflexivity].
Qed.

Lemma fn_edges n : P n = true -> forall es h, part_of g P h ->
  (forall u v k a, In (u, v, k, a) es -> u = n /\ edge_attrs g n v k = Some a) ->
  exists h', foldM (filter_nodes_edge g f) es h = Ok h' /\ part_of g P h' /\ grows g h h'
    /\ (forall v k a, In (n, v, k, a) es -> oriented g n v = true -> P v = true -> edge_attrs h' n v k = Some a).
Proof.
  intros Pn. induction es as [|[[[u v] k] a] es IH]; intros h H E.
  - exists h. split; [reflexivity|]. split; [assumption|]. split; [apply grows_refl|]. contradiction.
  - cbn [foldM]. destruct (E u v k a (or_introl eq_refl)) as [-> He].
    destruct (fn_edge h n v k a H Pn He) as (h1 & -> & H1 & G1 & A1 & _). cbn [bind].
    destruct (IH h1 H1) as (h2 & -> & H2 & G2 & A2).
    { intros; apply E; right; assumption. }
    exists h2. split; [reflexivity|]. split; [assumption|]. split; [eapply grows_trans; eassumption|].
    intros v' k' a' [I|I] O Pv; [|auto]. inversion I; subst. apply (gr_edge _ _ _ G2). auto.
Qed.

Lemma fn_step h n a : part_of g P h -> In (n, a) (g_nodes g) ->
  exists h', filter_nodes_step g f h (n, a) = Ok h' /\ part_of g P h' /\ grows g h h'
    /\ (P n = true -> node_data h' n = Some a
        /\ forall v k b, edge_attrs g n v k = Some b -> oriented g n v = true -> P v = true -> edge_attrs h' n v k = Some b).
Proof.
  intros H I. unfold filter_nodes_step. rewrite (T n a I). cbn [bind].
  assert (D : node_data g n = Some a) by (apply dget_In; [apply (wf_nodes g W)|assumption]).
  assert (PE : P n = p n a) by (unfold P, accepted; rewrite D; reflexivity).
  destruct (p n a) eqn:Pn.
  - unfold add_node_kw. replace (kwargs_ok node_reserved a) with true.
    2: { symmetry. apply kwargs_ok_iff. intros k Hk. apply (NN n a k I Pn Hk). }
    cbn [bind]. destruct (part_add_node g P h n a W H PE D) as (H1 & G1 & A1).
    destruct (fn_edges n PE (edges_of g n) _ H1) as (h2 & E2 & H2 & G2 & A2).
    { intros u v k b J. apply edges_of_In in J; assumption. }
    exists h2. split; [exact E2|]. split; [assumption|]. split; [eapply grows_trans; eassumption|].
    intros _. split; [apply (gr_node _ _ _ G2); assumption|].
    intros v k b He O Pv. apply A2; try assumption. apply edges_of_In; tauto.
  - exists h. split; [reflexivity|]. split; [assumption|]. split; [apply grows_refl|]. congruence.
Qed.

Lemma fn_steps : forall l h, part_of g P h -> incl l (g_nodes g) ->
  exists h', foldM (filter_nodes_step g f) l h = Ok h' /\ part_of g P h' /\ grows g h h'
    /\ forall n a, In (n, a) l -> P n = true -> node_data h' n = Some a
        /\ forall v k b, edge_attrs g n v k = Some b -> oriented g n v = true -> P v = true -> edge_attrs h' n v k = Some b.
Proof.
  induction l as [|[n a] l IH]; intros h H I.
  - exists h. split; [reflexivity|]. split; [assumption|]. split; [apply grows_refl|]. contradiction.
  - cbn [foldM]. destruct (fn_step h n a H (I _ (or_introl eq_refl))) as (h1 & -> & H1 & G1 & A1). cbn [bind].
    destruct (IH h1 H1) as (h2 & E2 & H2 & G2 & A2). { intros x Hx; apply I; right; assumption. }
    exists h2. split; [exact E2|]. split; [assumption|]. split; [eapply grows_trans; eassumption|].
    intros m b [J|J] Pm; [|auto]. inversion J; subst. destruct (A1 Pm) as [X Y]. split.
    + apply (gr_node _ _ _ G2); [|assumption].
      apply dget_In; [apply (wf_nodes g W)|apply I; left; reflexivity].
    + intros v k c He O Pv. apply (gr_edge _ _ _ G2). auto.
Qed.

Lemma filter_nodes_spec : graph_names g -> exists h, filter_nodes g f = Ok h /\ WF h /\ same_kind g h /\ g_attr h = g_attr g
  /\ (forall n, node_data h n = if P n then node_data g n else None)
  /\ (forall u v k, edge_attrs h u v k =
        if P u && P v && (g_dir g || negb (key_eqb u v)) then edge_attrs g u v k else None).
Proof.
  intros GN. unfold filter_nodes, create_null_copy.
  rewrite new_graph_plain by exact GN.
  cbn [bind]. rewrite dupdate_nil by apply (wf_gattr g W).
  set (h0 := mkG _ _ _ _ _).
  assert (H0 : part_of g P h0).
  { constructor.
    - constructor; cbn; try constructor; try contradiction. apply (wf_gattr g W).
    - split; reflexivity.
    - reflexivity.
    - discriminate.
    - discriminate.
    - reflexivity. }
  destruct (fn_steps (g_nodes g) h0 H0 (incl_refl _)) as (h & -> & H & _ & A).
  exists h. split; [reflexivity|]. split; [apply (po_wf g P h H)|]. split; [apply (po_kind g P h H)|].
  split; [apply (po_attr g P h H)|]. split.
  - intros n. destruct (P n) eqn:Pn.
    + destruct (node_data g n) as [a|] eqn:D; [|unfold P, accepted in Pn; rewrite D in Pn; discriminate].
      apply (A n a); [apply dget_Some_In; assumption|assumption].
    + destruct (node_data h n) eqn:E; [|reflexivity]. apply (po_node g P h H) in E. destruct E; congruence.
  - intros u v k. destruct (P u && P v && (g_dir g || negb (key_eqb u v))) eqn:C.
    + apply andb_true_iff in C as [C L]. apply andb_true_iff in C as [Pu Pv].
      destruct (edge_attrs g u v k) as [a|] eqn:E.
      * assert (ND : forall n, P n = true -> exists b, In (n, b) (g_nodes g)).
        { intros n Pn. unfold P, accepted in Pn. destruct (node_data g n) as [b|] eqn:D; [|discriminate].
          exists b. apply dget_Some_In. assumption. }
        destruct (oriented g u v) eqn:O.
        { destruct (ND u Pu) as (b & Hb). destruct (A u b Hb Pu) as [_ X]. auto. }
        unfold oriented in O. apply orb_false_iff in O as [D O]. rewrite D in L. cbn in L.
        assert (NE : In u (nodes g) /\ In v (nodes g)).
        { unfold edge_attrs in E. destruct (edge_data g u v) eqn:DD; [|discriminate]. eapply edge_data_nodes; eassumption. }
        destruct (CMP D u v Pu) as (r & R); [eapply edge_attrs_has; eassumption|].
        destruct (CMP D v u Pv) as (s & S); [rewrite has_edge_sym by exact D; eapply edge_attrs_has; eassumption|].
        unfold key_gt in O. rewrite R in O. subst r.
        destruct s.
        -- destruct (ND v Pv) as (b & Hb). destruct (A v b Hb Pv) as [_ X].
           assert (Dh : g_dir h = false) by (destruct (po_kind g P h H); congruence).
           rewrite (edge_attrs_sym h u v k Dh). apply X; try assumption.
           ++ rewrite edge_attrs_sym by assumption. assumption.
           ++ unfold oriented, key_gt. rewrite S, orb_true_r. reflexivity.
        -- pose proof (key_lt_total u v S R). subst v. rewrite key_eqb_refl in L. discriminate.
      * destruct (edge_attrs h u v k) eqn:EH; [|reflexivity]. apply (po_edge g P h H) in EH. destruct EH as (_ & _ & EH). congruence.
    + destruct (edge_attrs h u v k) eqn:EH; [|reflexivity]. exfalso.
      pose proof EH as EH'. apply (po_edge g P h H) in EH. destruct EH as (Pu & Pv & EH).
      rewrite Pu, Pv in C. cbn in C. apply orb_false_iff in C as [D L]. apply negb_false_iff, key_eqb_eq in L. subst v.
      rewrite (po_loop g P h H D) in EH'. discriminate.
Qed.
End FilterNodes.

Lemma names_fit g p : WF g -> edge_names g -> node_names g -> (g_dir g = false -> comparable (nodes g)) ->
  fit_edges g p /\ fit_nodes g p /\ fit_order g p.
Proof.
  intros W EN NN C. split; [|split].
  - intros u v k a x E _ _ _ Ix. destruct (edge_attrs_edges_data g u v k a W E) as [I|[_ I]]; eapply EN; eassumption.
  - intros n a k I _ Ik. eapply NN; eassumption.
  - intros D u v _ E. unfold has_edge in E. destruct (edge_data g u v) eqn:ED; [|discriminate]. apply edge_data_nodes in ED as [E1 E2]; [|exact W]. eapply comparable_lt; [apply C; exact D|assumption..].
Qed.

(** ** sums over the listed pairs *)
Definition orient3 (es : list (key * key)) (e : key * key * dict attrs) : key * key * dict attrs :=
  (orient es (fst e), snd e).

Lemma FOP_NoDup dir l : ForallOrdPairs (apart dir) l -> NoDup (map ends l).
Proof.
  induction 1 as [|b l F O IH]; cbn; constructor; [|assumption].
  intros I. apply in_map_iff in I as (c & E & I). rewrite Forall_forall in F. apply F in I.
  unfold apart in I. unfold ends in E. inversion E as [[E1 E2]]. rewrite same_ends_jn, E1, E2, jn_refl in I. discriminate.
Qed.

Lemma NoDup_fst {A B} (l : list (A * B)) : NoDup (map fst l) -> NoDup l.
Proof. apply NoDup_map_inv. Qed.

Lemma orient3_perm g : WF g ->
  Permutation.Permutation (map (orient3 (map ends (g_adj g))) (edge_pairs g)) (map pair_of (g_adj g)).
Proof.
  intros W. pose proof (FOP_NoDup _ _ (wf_distinct g W)) as NE.
  assert (OR : forall e, In e (edge_pairs g) -> In (orient3 (map ends (g_adj g)) e) (map pair_of (g_adj g))).
  { intros [[u v] kd] H. apply edge_pairs_data in H; [|assumption]. apply edge_data_Some in H; [|assumption].
    destruct H as (b & Hb & S & E). unfold orient3, orient. cbn [fst snd].
    apply in_map_iff. exists b. split; [|assumption]. unfold pair_of.
    apply same_ends_iff in S. destruct (in_dec pair_eq_dec (u, v) (map ends (g_adj g))) as [i|i].
    - apply in_map_iff in i as (c & Ec & Hc). unfold ends in Ec. inversion Ec; subst.
      assert (c = b). { apply (bundle_unique g (b_src c) (b_dst c)); try assumption; [apply same_ends_self|].
        apply same_ends_iff. tauto. }
      subst. reflexivity.
    - destruct S as [[<- <-]|(D & <- & <-)].
      + exfalso. apply i. apply in_map_iff. exists b. split; [reflexivity|assumption].
      + cbn. rewrite E. reflexivity. }
  apply Permutation.NoDup_Permutation_bis.
  - apply NoDup_map_inj; [|apply NoDup_fst, (edges_NoDup g W)].
    intros [[u v] kd] [[x y] kd'] H H' E. unfold orient3 in E. cbn [fst snd] in E. inversion E as [[E1 E2]]. subst kd'.
    assert (I1 : In (u, v) (edges g)) by (apply (in_map fst) in H; exact H).
    assert (I2 : In (x, y) (edges g)) by (apply (in_map fst) in H'; exact H').
    unfold orient in E1. destruct (in_dec pair_eq_dec (u, v) _) as [i|i], (in_dec pair_eq_dec (x, y) _) as [j|j]; cbn in E1.
    + congruence.
    + apply OR in H'. unfold orient3, orient in H'. cbn in H'. destruct (in_dec pair_eq_dec (x, y) _); [contradiction|].
      destruct (g_dir g) eqn:D.
      * exfalso. apply j. apply edges_In in I2; [|assumption]. destruct I2 as [I2 _]. unfold has_edge in I2.
        destruct (edge_data g x y) as [q|] eqn:Eq; [|discriminate]. apply edge_data_Some in Eq; [|assumption].
        destruct Eq as (b & Hb & S & _). apply same_ends_iff in S. destruct S as [[<- <-]|[S _]]; [|congruence].
        apply in_map_iff. exists b. split; [reflexivity|assumption].
      * inversion E1; subst. assert (y = x) by (apply (edges_oriented g y x W D); assumption). congruence.
    + destruct (g_dir g) eqn:D.
      * exfalso. apply i. apply edges_In in I1; [|assumption]. destruct I1 as [I1 _]. unfold has_edge in I1.
        destruct (edge_data g u v) as [q|] eqn:Eq; [|discriminate]. apply edge_data_Some in Eq; [|assumption].
        destruct Eq as (b & Hb & S & _). apply same_ends_iff in S. destruct S as [[<- <-]|[S _]]; [|congruence].
        apply in_map_iff. exists b. split; [reflexivity|assumption].
      * inversion E1; subst. assert (y = x) by (apply (edges_oriented g y x W D); assumption). congruence.
    + congruence.
  - rewrite !map_length.
    (* every bundle is listed *)
    assert (L : List.length (g_adj g) <= List.length (edge_pairs g)).
    { replace (List.length (g_adj g)) with (List.length (map (fun b => orient (edges g) (ends b)) (g_adj g))) by apply map_length.
      replace (List.length (edge_pairs g)) with (List.length (edges g)) by apply map_length.
      assert (LE : forall b, In b (g_adj g) -> has_edge g (b_src b) (b_dst b) = true).
      { intros b Hb. unfold has_edge. assert (E : edge_data g (b_src b) (b_dst b) = Some (b_data b)).
        { apply edge_data_Some; [assumption|]. exists b. repeat split; [assumption|apply same_ends_self]. }
        rewrite E. reflexivity. }
      apply NoDup_incl_length.
      - apply NoDup_map_inj; [|apply NoDup_map_inv in NE; assumption]. intros b c Hb Hc E.
        apply (bundle_unique g (b_src b) (b_dst b) b c W Hb Hc); [apply same_ends_self|].
        pose proof (LE b Hb) as Xb. pose proof (LE c Hc) as Xc.
        apply has_edge_edges in Xb, Xc; try assumption. unfold orient, ends in E. cbn [fst snd] in E.
        apply same_ends_iff.
        destruct (in_dec pair_eq_dec (b_src b, b_dst b) (edges g)) as [i|i],
                 (in_dec pair_eq_dec (b_src c, b_dst c) (edges g)) as [j|j]; inversion E; intuition congruence.
      - intros q Hq. apply in_map_iff in Hq as (b & <- & Hb). pose proof (LE b Hb) as Xb.
        apply has_edge_edges in Xb; [|assumption]. unfold orient, ends. cbn [fst snd].
        destruct (in_dec pair_eq_dec (b_src b, b_dst b) (edges g)); tauto. }
    exact L.
  - intros x Hx. apply in_map_iff in Hx as (e & <- & He). apply OR. assumption.
Qed.

Lemma sum_nat_perm l l' : Permutation.Permutation l l' -> sum_nat l = sum_nat l'.
Proof. unfold sum_nat. induction 1; cbn; lia. Qed.

Lemma sum_pairs_adj g (F : key -> key -> dict attrs -> nat) : WF g ->
  (g_dir g = false -> forall u v kd, F u v kd = F v u kd) ->
  sum_nat (map (fun e => F (fst (fst e)) (snd (fst e)) (snd e)) (edge_pairs g))
  = sum_nat (map (fun b => F (b_src b) (b_dst b) (b_data b)) (g_adj g)).
Proof.
  intros W Sy. pose proof (orient3_perm g W) as PM.
  apply (Permutation.Permutation_map (fun e => F (fst (fst e)) (snd (fst e)) (snd e))) in PM.
  apply sum_nat_perm in PM. rewrite !map_map in PM. cbn [fst snd pair_of] in PM.
  etransitivity; [|exact PM]. f_equal. apply map_ext_in. intros [[u v] kd] H. unfold orient3, orient. cbn [fst snd].
  destruct (in_dec pair_eq_dec (u, v) (map ends (g_adj g))) as [i|i]; [reflexivity|]. cbn.
  destruct (g_dir g) eqn:D; [|apply Sy; reflexivity]. exfalso. apply i.
  apply edge_pairs_data in H; [|assumption]. apply edge_data_Some in H; [|assumption].
  destruct H as (b & Hb & S & _). apply same_ends_iff in S. destruct S as [[<- <-]|[S _]]; [|congruence].
  apply in_map_iff. exists b. split; [reflexivity|assumption].
Qed.

Definition kron (a b : key) : nat := if key_eqb a b then 1 else 0.

Lemma edge_ends_pairs g n : edge_ends g n =
  sum_nat (map (fun e => (kron (fst (fst e)) n + kron (snd (fst e)) n) * List.length (snd e)) (edge_pairs g)).
Proof.
  unfold edge_ends. rewrite edges_data_pairs. induction (edge_pairs g) as [|[[u v] kd] l IH]; [reflexivity|].
  cbn [flat_map map fst snd]. rewrite map_app. unfold sum_nat in *. rewrite sum_nat_app, IH. cbn [fold_right].
  f_equal. clear IH. unfold data_of. rewrite map_map. cbn [fst snd]. unfold kron.
  induction kd as [|x kd IH]; cbn [map fold_right List.length]; [lia|]. rewrite IH. lia.
Qed.

Lemma sum_flat_map {A B} (f : A -> list B) (h : B -> nat) l :
  sum_nat (map h (flat_map f l)) = sum_nat (map (fun a => sum_nat (map h (f a))) l).
Proof.
  unfold sum_nat. induction l as [|a l IH]; [reflexivity|]. cbn [flat_map map fold_right]. rewrite map_app, sum_nat_app, IH. reflexivity.
Qed.

Lemma sum_ext {A} (f h : A -> nat) l : (forall a, In a l -> f a = h a) -> sum_nat (map f l) = sum_nat (map h l).
Proof. intros H. f_equal. apply map_ext_in. assumption. Qed.

Lemma sum_add {A} (f h : A -> nat) l : sum_nat (map (fun a => f a + h a) l) = sum_nat (map f l) + sum_nat (map h l).
Proof. unfold sum_nat in *. induction l as [|a l IH]; cbn in *; [reflexivity|]. lia. Qed.

Lemma sum_loop g n : WF g ->
  match edge_data g n n with Some kd => List.length kd | None => 0 end =
  sum_nat (map (fun b => kron (b_src b) n * kron (b_dst b) n * List.length (b_data b)) (g_adj g)).
Proof.
  intros W. pose proof (wf_distinct g W) as F. unfold edge_data. revert F. generalize (g_dir g) as dir.
  intros dir F. induction F as [|b l H F IH]; [reflexivity|]. cbn [List.find map]. unfold sum_nat in *. cbn [fold_right].
  rewrite <- IH. clear IH. assert (E : same_ends dir n n b = key_eqb (b_src b) n && key_eqb (b_dst b) n).
  { unfold same_ends. destruct dir; cbn; [apply orb_false_r|]. 
    destruct (key_eqb (b_src b) n && key_eqb (b_dst b) n); reflexivity. }
  destruct (same_ends dir n n b) eqn:S.
  - symmetry in E. apply andb_true_iff in E as [E1 E2]. unfold kron. rewrite E1, E2. cbn [option_map].
    assert (NF : List.find (same_ends dir n n) l = None).
    { apply find_none_iff. intros c Hc. destruct (same_ends dir n n c) eqn:E3; [|reflexivity].
      rewrite Forall_forall in H. specialize (H c Hc). unfold apart in H.
      rewrite (same_ends_trans _ _ _ _ _ S E3) in H. discriminate. }
    rewrite NF. cbn. lia.
  - unfold kron. destruct (key_eqb (b_src b) n), (key_eqb (b_dst b) n); try discriminate; cbn; lia.
Qed.

Lemma degree_edge_ends g n : WF g -> degree g n = edge_ends g n.
Proof.
  intros W. rewrite edge_ends_pairs.
  transitivity (sum_nat (map (fun b => (kron (b_src b) n + kron (b_dst b) n) * List.length (b_data b)) (g_adj g)));
    [|symmetry; apply (sum_pairs_adj g (fun u v kd => (kron u n + kron v n) * List.length kd) W);
      intros _ u v kd; rewrite (Nat.add_comm (kron u n)); reflexivity].
  unfold degree. destruct (g_dir g) eqn:D.
  - unfold adj_items, pred_items. rewrite !sum_flat_map, <- sum_add. apply sum_ext. intros b _.
    rewrite D. unfold other_end, kron. cbn [negb andb]. destruct (key_eqb (b_src b) n), (key_eqb (b_dst b) n); cbn; lia.
  - rewrite sum_loop by assumption. unfold adj_items. rewrite sum_flat_map, <- sum_add. apply sum_ext. intros b _.
    rewrite D. unfold other_end, kron. cbn [negb andb]. destruct (key_eqb (b_src b) n), (key_eqb (b_dst b) n); cbn; lia.
Qed.

(** ** leaves *)
Lemma not_leaf_test g : WF g -> node_test g (not_leaf g) (fun n _ => negb (Nat.eqb (edge_ends g n) 1)).
Proof. intros W n a _. unfold not_leaf. rewrite degree_edge_ends by assumption. reflexivity. Qed.

Lemma accepted_not_leaf g n : In n (nodes g) ->
  accepted g (fun n _ => negb (Nat.eqb (edge_ends g n) 1)) n = negb (Nat.eqb (edge_ends g n) 1).
Proof. intros H. unfold accepted. apply node_data_In in H as (a & ->). reflexivity. Qed.
