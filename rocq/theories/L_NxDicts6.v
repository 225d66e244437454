(** * Every well-formed graph can be built by a sequence of calls *)
From Coq Require Import Lia.
From Verif Require Import NxGraph NxDicts S_Nx L_Base L_Utils L_Nx L_Nx2 L_Graph L_Graph2 L_Frame L_Json L_Sparse L_NxDicts L_NxDicts2 L_NxDicts3 L_NxDicts4 L_NxDicts5.

Lemma foldM_calls l1 l2 g h : foldM call_model l1 g = Ok h -> foldM call_model (l1 ++ l2) g = foldM call_model l2 h.
Proof.
  revert g. induction l1 as [|c l1 IH]; intros g E; cbn [foldM app] in *; [now injection E as ->|].
  destruct (call_model g c) as [g1|]; [|discriminate]. cbn [bind] in *. now apply IH.
Qed.

Definition node_calls (l : dict attrs) : list call := map (fun na => AddNode (fst na) (snd na)) l.

Lemma node_calls_run l : forall g, foldM call_model (node_calls l) g = Ok (fold_left (fun h na => add_node h (fst na) (snd na)) l g).
Proof. induction l as [|[n a] l IH]; intros g; cbn [node_calls map foldM call_model fst snd bind fold_left]; [reflexivity|apply IH]. Qed.

Definition bundle_calls (multi : bool) (b : bundle) : list call :=
  map (fun ka => if multi then AddEdgeKey (b_src b) (b_dst b) (fst ka) (snd ka) else AddEdge (b_src b) (b_dst b) (snd ka)) (b_data b).

Lemma with_adj_twice g l l' : with_adj (with_adj g l) l' = with_adj g l'.
Proof. reflexivity. Qed.

Lemma add_at_present g u v k a : In u (nodes g) -> In v (nodes g) ->
  add_edge_at g u v k a = with_adj g (set_bundle (g_dir g) u v k a (g_adj g)).
Proof. intros A B. rewrite add_edge_with. now rewrite !ensure_present by (rewrite ?ensure_present; assumption). Qed.

Lemma set_data_new k a (done : dict attrs) : ~ In k (dkeys done) -> NoDup (dkeys a) -> set_data k a (Some done) = done ++ [(k, a)].
Proof.
  intros X N. unfold set_data. rewrite (proj2 (dget_None k done) X), dset_notin by assumption. now rewrite dupdate_nil.
Qed.

(** one more key in the last bundle *)
Lemma run_keys g l u v : g_multi g = true -> In u (nodes g) -> In v (nodes g) ->
  (forall b, In b l -> same_ends (g_dir g) u v b = false) -> forall kd done : dict attrs,
  NoDup (dkeys (done ++ kd)) -> (forall k a, In (k, a) kd -> NoDup (dkeys a)) ->
  foldM call_model (map (fun ka => AddEdgeKey u v (fst ka) (snd ka)) kd) (with_adj g (l ++ [mkB u v done]))
  = Ok (with_adj g (l ++ [mkB u v (done ++ kd)])).
Proof.
  intros M Iu Iv Out. induction kd as [|[k a] kd IH]; intros done ND NA; cbn [map foldM].
  - now rewrite app_nil_r.
  - cbn [call_model fst snd]. cbn [with_adj g_multi]. rewrite M. cbn [bind].
    rewrite add_at_present by assumption. cbn [with_adj g_dir g_adj]. rewrite set_bundle_last by assumption.
    assert (X : ~ In k (dkeys done)).
    { unfold dkeys in ND. rewrite map_app in ND. cbn [map fst] in ND. apply NoDup_remove_2 in ND. intros I. apply ND. apply in_or_app. now left. }
    rewrite set_data_new by (try assumption; apply (NA k a); now left).
    match goal with |- context [with_adj ?h (l ++ ?z)] => change (with_adj h (l ++ z)) with (with_adj g (l ++ z)) end.
    rewrite IH.
    + now rewrite <- app_assoc.
    + now rewrite <- app_assoc.
    + intros k' a' I. apply (NA k' a'). now right.
Qed.

Lemma run_bundle g l b : WF g -> (forall c, In c l -> same_ends (g_dir g) (b_src b) (b_dst b) c = false) -> In b (g_adj g) ->
  foldM call_model (bundle_calls (g_multi g) b) (with_adj g l) = Ok (with_adj g (l ++ [b])).
Proof.
  intros W Out I. destruct (wf_ends g W b I) as [Iu Iv]. destruct b as [u v kd]. cbn [b_src b_dst] in *. unfold bundle_calls. cbn [b_src b_dst b_data].
  destruct (g_multi g) eqn:M.
  - pose proof (wf_keys g W _ I) as ND. pose proof (fun k a => wf_eattrs g W _ k a I) as NA. pose proof (wf_ne g W _ I) as NE. cbn [b_data] in *.
    destruct kd as [|[k a] kd]; [contradiction|]. cbn [map foldM call_model fst snd]. cbn [with_adj g_multi]. rewrite M. cbn [bind].
    rewrite add_at_present by assumption. cbn [with_adj g_dir g_adj]. rewrite set_bundle_new by assumption.
    rewrite dupdate_nil by (apply (NA k a); now left). 
    match goal with |- context [with_adj ?h (l ++ ?z)] => change (with_adj h (l ++ z)) with (with_adj g (l ++ z)) end. rewrite run_keys; try assumption; [reflexivity|].
    intros k' a' J. apply (NA k' a'). now right.
  - destruct (wf_simple g W M _ I) as (a & E). cbn [b_data] in E. subst kd. cbn [map foldM call_model fst snd bind].
    unfold add_edge. cbn [with_adj g_multi]. rewrite M. rewrite add_at_present by assumption. cbn [with_adj g_dir g_adj]. rewrite set_bundle_new by assumption.
    rewrite dupdate_nil; [reflexivity|]. apply (wf_eattrs g W _ (KInt 0) a I). now left.
Qed.

Lemma run_bundles g : WF g -> forall l done, g_adj g = done ++ l ->
  foldM call_model (flat_map (bundle_calls (g_multi g)) l) (with_adj g done) = Ok g.
Proof.
  intros W. induction l as [|b l IH]; intros done E; cbn [flat_map].
  - rewrite app_nil_r in E. subst done. now destruct g.
  - rewrite (foldM_calls _ _ _ (with_adj g (done ++ [b]))).
    + apply IH. now rewrite <- app_assoc.
    + apply run_bundle; [assumption| |rewrite E; apply in_or_app; right; now left].
      intros c I. pose proof (wf_distinct g W) as FO. rewrite E in FO. apply FOP_app in FO as (_ & _ & X).
      specialize (X c b I (or_introl eq_refl)). now apply apart_sym in X.
Qed.

Definition recipe (g : graph) : list call :=
  (node_calls (g_nodes g) ++ [SetGraph (g_attr g)]) ++ flat_map (bundle_calls (g_multi g)) (g_adj g).

Lemma recipe_run g : WF g -> foldM call_model (recipe g) (empty_graph (g_dir g) (g_multi g)) = Ok g.
Proof.
  intros W. unfold recipe. rewrite (foldM_calls _ _ _ (with_adj g [])).
  - now apply run_bundles.
  - rewrite (foldM_calls _ _ _ (mkG (g_dir g) (g_multi g) [] (g_nodes g) [])).
    + cbn [foldM call_model bind g_dir g_multi g_attr g_nodes g_adj]. rewrite dupdate_nil by apply (wf_gattr g W). reflexivity.
    + rewrite node_calls_run, fold_nodes; [reflexivity|apply (wf_nodes g W)|apply (wf_nattrs g W)].
Qed.
