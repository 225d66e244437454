(** * The dictionaries of networkx and the bundles of [NxGraph] say the same *)
From Coq Require Import Lia.
From Verif Require Import NxGraph NxDicts L_Base L_Utils L_Nx L_Nx2 L_Graph L_Graph2 L_Frame.

(** ** dicts made from a function *)
Definition table {A} (f : key -> A) (N : list key) : dict A := map (fun n => (n, f n)) N.

Lemma dkeys_table {A} (f : key -> A) N : dkeys (table f N) = N.
Proof. unfold table, dkeys. rewrite map_map. apply map_id. Qed.

Lemma table_ext {A} (f h : key -> A) N : (forall n, In n N -> f n = h n) -> table f N = table h N.
Proof. intros H. apply map_ext_in. intros n I. now rewrite H. Qed.

Lemma dget_table {A} (f : key -> A) N n : dget n (table f N) = if mem n N then Some (f n) else None.
Proof. apply dget_map_keys. Qed.

Lemma getitem_table {A} (f : key -> A) N n : In n N -> getitem (table f N) n = Ok (f n).
Proof. intros I. unfold getitem. rewrite dget_table. apply mem_In in I. now rewrite I. Qed.

Lemma dset_table {A} (f : key -> A) N u x : NoDup N -> In u N ->
  dset u x (table f N) = table (fun n => if key_eqb u n then x else f n) N.
Proof.
  induction N as [|n N IH]; intros ND I; [destruct I|]. inversion ND as [|? ? X ND']; subst.
  cbn [table map dset]. fold (table f N). destruct (key_eqb u n) eqn:E.
  - apply key_eqb_eq in E as <-. f_equal. apply table_ext. intros m Im.
    destruct (key_eqb u m) eqn:E; [|reflexivity]. apply key_eqb_eq in E as <-. contradiction.
  - f_equal. destruct I as [->|I]; [rewrite key_eqb_refl in E; discriminate|]. now apply IH.
Qed.

Lemma dset_table_new {A} (f : key -> A) N u x : ~ In u N ->
  dset u x (table f N) = table f N ++ [(u, x)].
Proof. intros X. apply dset_notin. now rewrite dkeys_table. Qed.

Lemma table_snoc {A} (f : key -> A) N u : table f (N ++ [u]) = table f N ++ [(u, f u)].
Proof. apply map_app. Qed.

Lemma delitem_table {A} (f : key -> A) N n : In n N ->
  delitem (table f N) n = Ok (table f (filter (fun m => negb (mem m [n])) N)).
Proof.
  intros I. unfold delitem, dmem. rewrite dkeys_table. apply mem_In in I. rewrite I. f_equal.
  unfold dremove, table. clear I. induction N as [|m N IH]; [reflexivity|]. cbn [map filter].
  destruct (negb (mem m [n])) eqn:E; cbn [fst]; rewrite E; cbn [map]; now rewrite IH.
Qed.

Lemma setitem2_table (f : key -> dict nat) N u v r : NoDup N -> In u N ->
  setitem2 (table f N) u v r = Ok (table (fun n => if key_eqb u n then dset v r (f n) else f n) N).
Proof.
  intros ND I. unfold setitem2. rewrite getitem_table by assumption. cbn [bind].
  rewrite dset_table by assumption. f_equal. apply table_ext. intros n _.
  destruct (key_eqb u n) eqn:E; [|reflexivity]. apply key_eqb_eq in E. now subst.
Qed.

Lemma delitem2_table (f : key -> dict nat) N u v : NoDup N -> In u N -> In v (dkeys (f u)) ->
  delitem2 (table f N) u v = Ok (table (fun n => if key_eqb u n then dremove [v] (f n) else f n) N).
Proof.
  intros ND I Iv. unfold delitem2. rewrite getitem_table by assumption. cbn [bind].
  unfold delitem, dmem. apply mem_In in Iv. rewrite Iv. cbn [bind].
  rewrite dset_table by assumption. f_equal. apply table_ext. intros n _.
  destruct (key_eqb u n) eqn:E; [|reflexivity]. apply key_eqb_eq in E. now subst.
Qed.

Lemma fold_del N n : NoDup N -> forall ks (f : key -> dict nat), NoDup ks -> incl ks N ->
  (forall u, In u ks -> In n (dkeys (f u))) ->
  foldM (fun acc u => delitem2 acc u n) ks (table f N)
  = Ok (table (fun m => if mem m ks then dremove [n] (f m) else f m) N).
Proof.
  intros ND. induction ks as [|u ks IH]; intros f NK Sub H; cbn [foldM].
  - f_equal.
  - inversion NK as [|? ? X NK']; subst.
    rewrite delitem2_table; [|assumption|apply Sub; now left|apply H; now left]. cbn [bind].
    rewrite IH; [|assumption|intros x Ix; apply Sub; now right|].
    + f_equal. apply table_ext. intros m Im. cbn [mem existsb]. fold (mem m ks).
      destruct (key_eqb m u) eqn:E.
      * apply key_eqb_eq in E as ->. rewrite key_eqb_refl. cbn [orb].
        apply mem_nIn in X. now rewrite X.
      * cbn [orb]. destruct (key_eqb u m) eqn:E2; [|reflexivity].
        apply key_eqb_eq in E2 as ->. rewrite key_eqb_refl in E. discriminate.
    + intros x Ix. destruct (key_eqb u x) eqn:E; [|apply H; now right].
      apply key_eqb_eq in E as ->. contradiction.
Qed.

(** ** the adjacency of a list of referenced bundles *)
Definition refs (dir : bool) (L : list (nat * bundle)) (n : key) : dict nat :=
  flat_map (fun rb => match other_end dir n (snd rb) with Some m => [(m, fst rb)] | None => [] end) L.

Definition prefs (L : list (nat * bundle)) (n : key) : dict nat :=
  flat_map (fun rb => if key_eqb (b_dst (snd rb)) n then [(b_src (snd rb), fst rb)] else []) L.

Definition sought (dir : bool) (u v : key) (rb : nat * bundle) : bool := same_ends dir u v (snd rb).

Lemma dget_refs dir L u v : dget v (refs dir L u) = option_map fst (find (sought dir u v) L).
Proof.
  induction L as [|[r b] L IH]; [reflexivity|]. unfold refs in *. cbn [flat_map find snd fst].
  unfold sought at 1. cbn [snd]. rewrite dget_app, IH. destruct (other_end dir u b) as [m|] eqn:E.
  - cbn [dget]. destruct (key_eqb v m) eqn:V.
    + apply key_eqb_eq in V as ->. apply other_end_iff in E. now rewrite E.
    + destruct (same_ends dir u v b) eqn:X; [|reflexivity].
      apply other_end_iff in X. rewrite E in X. injection X as ->. rewrite key_eqb_refl in V. discriminate.
  - cbn [dget]. destruct (same_ends dir u v b) eqn:X; [|reflexivity].
    apply other_end_iff in X. congruence.
Qed.

Lemma dget_prefs L u v : dget u (prefs L v) = option_map fst (find (sought true u v) L).
Proof.
  induction L as [|[r b] L IH]; [reflexivity|]. unfold prefs in *. cbn [flat_map find snd fst].
  unfold sought at 1. cbn [snd]. rewrite dget_app, IH. unfold same_ends. cbn [negb andb]. rewrite orb_false_r.
  destruct (key_eqb (b_dst b) v) eqn:D; cbn [dget].
  - rewrite andb_true_r. destruct (key_eqb u (b_src b)) eqn:V.
    + apply key_eqb_eq in V as ->. now rewrite key_eqb_refl.
    + destruct (key_eqb (b_src b) u) eqn:W; [|reflexivity].
      apply key_eqb_eq in W as <-. rewrite key_eqb_refl in V. discriminate.
  - now rewrite andb_false_r.
Qed.

Lemma find_snd dir u v L : option_map snd (find (sought dir u v) L) = find (same_ends dir u v) (map snd L).
Proof.
  induction L as [|[r b] L IH]; [reflexivity|]. cbn [find map snd]. unfold sought at 1. cbn [snd].
  destruct (same_ends dir u v b); [reflexivity|assumption].
Qed.

Lemma refs_app dir L1 L2 n : refs dir (L1 ++ L2) n = refs dir L1 n ++ refs dir L2 n.
Proof. apply flat_map_app. Qed.

Lemma prefs_app L1 L2 n : prefs (L1 ++ L2) n = prefs L1 n ++ prefs L2 n.
Proof. apply flat_map_app. Qed.

Record Rep (d : dgraph) (g : graph) (L : list (nat * bundle)) : Prop := {
  rep_dir : d_dir d = g_dir g;
  rep_multi : d_multi d = g_multi g;
  rep_attr : d_graph d = g_attr g;
  rep_node : d_node d = g_nodes g;
  rep_succ : d_succ d = table (refs (g_dir g) L) (nodes g);
  rep_pred : d_pred d = if g_dir g then table (prefs L) (nodes g) else [];
  rep_adj : map snd L = g_adj g;
  rep_refs : NoDup (map fst L);
  rep_heap : forall r b, In (r, b) L -> nth_error (d_heap d) r = Some (b_data b)
}.

(** [refs] of the referenced bundles, when the references are not looked at *)
Lemma refs_keys dir L n : dkeys (refs dir L n) = flat_map (fun b => match other_end dir n b with Some m => [m] | None => [] end) (map snd L).
Proof.
  unfold refs, dkeys. induction L as [|[r b] L IH]; [reflexivity|]. cbn [flat_map map snd fst].
  rewrite map_app, IH. now destruct (other_end dir n b).
Qed.

Lemma neighbors_flat g n : neighbors g n = flat_map (fun b => match other_end (g_dir g) n b with Some m => [m] | None => [] end) (g_adj g).
Proof.
  unfold neighbors, adj_items. induction (g_adj g) as [|b l IH]; [reflexivity|]. cbn [flat_map].
  rewrite map_app, IH. now destruct (other_end (g_dir g) n b).
Qed.

Lemma prefs_keys L n : dkeys (prefs L n) = flat_map (fun b => if key_eqb (b_dst b) n then [b_src b] else []) (map snd L).
Proof.
  unfold prefs, dkeys. induction L as [|[r b] L IH]; [reflexivity|]. cbn [flat_map map snd fst].
  rewrite map_app, IH. now destruct (key_eqb (b_dst b) n).
Qed.

Lemma predecessors_flat g n : predecessors g n = flat_map (fun b => if key_eqb (b_dst b) n then [b_src b] else []) (g_adj g).
Proof.
  unfold predecessors, pred_items. induction (g_adj g) as [|b l IH]; [reflexivity|]. cbn [flat_map].
  rewrite map_app, IH. now destruct (key_eqb (b_dst b) n).
Qed.

Section Reading.
  Context (d : dgraph) (g : graph) (L : list (nat * bundle)) (HR : Rep d g L) (HW : WF g).

  Lemma deref_In r b : In (r, b) L -> deref d r = b_data b.
  Proof. intros I. unfold deref. apply nth_error_nth. now apply (rep_heap _ _ _ HR). Qed.

  Lemma deref_items n : map (fun mr => (fst mr, deref d (snd mr))) (refs (g_dir g) L n) = adj_items g n.
  Proof.
    unfold adj_items. rewrite <- (rep_adj _ _ _ HR). unfold refs.
    assert (H : forall M, incl M L -> map (fun mr => (fst mr, deref d (snd mr)))
      (flat_map (fun rb => match other_end (g_dir g) n (snd rb) with Some m => [(m, fst rb)] | None => [] end) M)
      = flat_map (fun b => match other_end (g_dir g) n b with Some m => [(m, b_data b)] | None => [] end) (map snd M)).
    { induction M as [|[r b] M IH]; intros Sub; [reflexivity|]. cbn [flat_map map snd fst].
      rewrite map_app, IH by (intros x Ix; apply Sub; now right). f_equal.
      destruct (other_end (g_dir g) n b); [|reflexivity]. cbn [map fst snd].
      rewrite (deref_In r b); [reflexivity|apply Sub; now left]. }
    apply H, incl_refl.
  Qed.

  Lemma deref_preds n : map (fun mr => (fst mr, deref d (snd mr))) (prefs L n) = pred_items g n.
  Proof.
    unfold pred_items. rewrite <- (rep_adj _ _ _ HR). unfold prefs.
    assert (H : forall M, incl M L -> map (fun mr => (fst mr, deref d (snd mr)))
      (flat_map (fun rb => if key_eqb (b_dst (snd rb)) n then [(b_src (snd rb), fst rb)] else []) M)
      = flat_map (fun b => if key_eqb (b_dst b) n then [(b_src b, b_data b)] else []) (map snd M)).
    { induction M as [|[r b] M IH]; intros Sub; [reflexivity|]. cbn [flat_map map snd fst].
      rewrite map_app, IH by (intros x Ix; apply Sub; now right). f_equal.
      destruct (key_eqb (b_dst b) n); [|reflexivity]. cbn [map fst snd].
      rewrite (deref_In r b); [reflexivity|apply Sub; now left]. }
    apply H, incl_refl.
  Qed.

  Lemma no_refs n : ~ In n (nodes g) -> refs (g_dir g) L n = [].
  Proof.
    intros X. destruct (refs (g_dir g) L n) as [|[m r] l] eqn:E; [reflexivity|exfalso].
    assert (Y : dget m (refs (g_dir g) L n) = Some r) by (rewrite E; cbn; now rewrite key_eqb_refl).
    rewrite dget_refs in Y. destruct (find (sought (g_dir g) n m) L) as [[r' b]|] eqn:F; [|discriminate].
    apply find_some in F as [I S]. unfold sought in S. cbn [snd] in S.
    assert (Ib : In b (g_adj g)) by (rewrite <- (rep_adj _ _ _ HR); apply in_map_iff; exists (r', b); auto).
    destruct (wf_ends g HW b Ib) as [A B]. apply same_ends_iff in S.
    destruct S as [[<- _]|[_ [_ <-]]]; contradiction.
  Qed.

  Lemma no_prefs n : ~ In n (nodes g) -> prefs L n = [].
  Proof.
    intros X. unfold prefs.
    assert (H : forall M, incl M L -> flat_map (fun rb => if key_eqb (b_dst (snd rb)) n then [(b_src (snd rb), fst rb)] else []) M = []).
    { induction M as [|[r b] M IH]; intros Sub; [reflexivity|]. cbn [flat_map snd fst].
      rewrite IH by (intros x Ix; apply Sub; now right).
      destruct (key_eqb (b_dst b) n) eqn:E; [|reflexivity]. apply key_eqb_eq in E as <-. exfalso. apply X.
      assert (Ib : In b (g_adj g)) by (rewrite <- (rep_adj _ _ _ HR); apply in_map_iff; exists (r, b); split; [reflexivity|apply Sub; now left]).
      apply (wf_ends g HW b Ib). }
    apply H, incl_refl.
  Qed.

  Lemma succ_get n : dget n (d_succ d) = if has_node g n then Some (refs (g_dir g) L n) else None.
  Proof. rewrite (rep_succ _ _ _ HR), dget_table. reflexivity. Qed.

  Lemma pred_get n : g_dir g = true -> dget n (d_pred d) = if has_node g n then Some (prefs L n) else None.
  Proof. intros D. rewrite (rep_pred _ _ _ HR), D, dget_table. reflexivity. Qed.

  Lemma succ_nbrs n : match dget n (d_succ d) with Some nb => nb | None => [] end = refs (g_dir g) L n.
  Proof.
    rewrite succ_get. destruct (has_node g n) eqn:E; [reflexivity|].
    symmetry. apply no_refs. now apply has_node_nIn.
  Qed.

  Lemma pred_nbrs n : g_dir g = true -> match dget n (d_pred d) with Some nb => nb | None => [] end = prefs L n.
  Proof.
    intros D. rewrite pred_get by assumption. destruct (has_node g n) eqn:E; [reflexivity|].
    symmetry. apply no_prefs. now apply has_node_nIn.
  Qed.

  Lemma sought_data u v : option_map (deref d) (dget v (refs (g_dir g) L u)) = edge_data g u v.
  Proof.
    rewrite dget_refs. unfold edge_data. rewrite <- (rep_adj _ _ _ HR), <- find_snd.
    destruct (find (sought (g_dir g) u v) L) as [[r b]|] eqn:F; [|reflexivity].
    cbn [option_map fst snd]. apply find_some in F as [I _]. now rewrite (deref_In r b).
  Qed.

  Lemma read_edge_data u v : d_edge_data d u v = edge_data g u v.
  Proof.
    unfold d_edge_data. rewrite <- sought_data, <- succ_nbrs. now destruct (dget u (d_succ d)).
  Qed.

  Lemma read_has_edge u v : d_has_edge d u v = has_edge g u v.
  Proof.
    assert (E : d_has_edge d u v = dmem v (refs (g_dir g) L u)).
    { unfold d_has_edge. rewrite <- succ_nbrs. now destruct (dget u (d_succ d)). }
    rewrite E. unfold has_edge. rewrite <- sought_data. unfold dmem.
    destruct (dget v (refs (g_dir g) L u)) as [r|] eqn:F.
    - apply dget_Some_key in F. apply mem_In in F. now rewrite F.
    - apply dget_None in F. apply mem_nIn in F. now rewrite F.
  Qed.

  Lemma read_neighbors n : d_neighbors d n = neighbors g n.
  Proof.
    assert (E : d_neighbors d n = dkeys (refs (g_dir g) L n)).
    { unfold d_neighbors. rewrite <- succ_nbrs. now destruct (dget n (d_succ d)). }
    rewrite E, refs_keys, neighbors_flat. now rewrite (rep_adj _ _ _ HR).
  Qed.

  Lemma read_predecessors n : g_dir g = true -> d_predecessors d n = predecessors g n.
  Proof.
    intros D. assert (E : d_predecessors d n = dkeys (prefs L n)).
    { unfold d_predecessors. rewrite <- pred_nbrs by assumption. now destruct (dget n (d_pred d)). }
    rewrite E, prefs_keys, predecessors_flat. now rewrite (rep_adj _ _ _ HR).
  Qed.

  Lemma step_edges seen n :
    flat_map (fun mr => if d_dir d || negb (mem (fst mr) seen)
                        then map (fun ka => (n, fst mr, fst ka, snd ka)) (deref d (snd mr)) else [])
      (refs (g_dir g) L n)
    = flat_map (fun p => map (fun ka => (fst (fst p), snd (fst p), fst ka, snd ka)) (snd p))
        (map (fun mk => (n, fst mk, snd mk))
           (filter (fun mk => g_dir g || negb (mem (fst mk) seen)) (adj_items g n))).
  Proof.
    rewrite <- deref_items, (rep_dir _ _ _ HR). induction (refs (g_dir g) L n) as [|[m r] l IH]; [reflexivity|].
    cbn [flat_map map filter fst snd]. destruct (g_dir g || negb (mem m seen)); cbn [flat_map map fst snd app];
      now rewrite IH.
  Qed.

  Lemma read_edges_from N : forall seen, d_edges_from d seen (table (refs (g_dir g) L) N)
    = flat_map (fun p => map (fun ka => (fst (fst p), snd (fst p), fst ka, snd ka)) (snd p)) (pairs_from g seen N).
  Proof.
    induction N as [|n N IH]; intros seen; [reflexivity|]. cbn [table map d_edges_from pairs_from].
    rewrite flat_map_app. fold (table (refs (g_dir g) L) N). now rewrite IH, step_edges.
  Qed.

  Lemma read_edges_keys : d_edges_keys d = edges_keys g.
  Proof. unfold d_edges_keys. rewrite (rep_succ _ _ _ HR). apply read_edges_from. Qed.

  Lemma read_edges_of n : d_edges_of d n = edges_of g n.
  Proof.
    assert (E : d_edges_of d n = d_edges_from d [] [(n, refs (g_dir g) L n)]).
    { unfold d_edges_of. rewrite <- succ_nbrs. now destruct (dget n (d_succ d)). }
    rewrite E. cbn [d_edges_from]. rewrite step_edges, app_nil_r. unfold edges_of.
    induction (adj_items g n) as [|mk l IH]; [reflexivity|]. cbn [filter].
    replace (g_dir g || negb (mem (fst mk) [])) with true by (change (mem (fst mk) []) with false; now destruct (g_dir g)).
    cbn [map flat_map fst snd]. now rewrite IH.
  Qed.

  Lemma count_items (l : dict nat) : d_count d l = sum_nat (map (fun mk => List.length (snd mk)) (map (fun mr => (fst mr, deref d (snd mr))) l)).
  Proof. unfold d_count. now rewrite map_map. Qed.

  Lemma read_degree n : d_degree d n = degree g n.
  Proof.
    unfold d_degree, degree. rewrite succ_nbrs, (rep_dir _ _ _ HR). destruct (g_dir g) eqn:D.
    - rewrite pred_nbrs, !count_items, <- D, deref_items, deref_preds by assumption. reflexivity.
    - rewrite count_items, <- D, deref_items. f_equal. rewrite <- sought_data.
      now destruct (dget n (refs (g_dir g) L n)).
  Qed.
End Reading.
