(** * C110: disparities and backbones with any comparable names *)
From Coq Require Import List ZArith Lia Bool QArith Qminmax.
From Verif Require Import PyBase PyNum S_Num L_Num NxGraph L_Base L_Nx L_Nx2 M_UnionFind M_Utils M_Traversal M_Graph S_Graph L_Graph M_Umst M_Disparity M_Sparse S_Sparse L_Sparse
  L_Disparity M_Learn M_Tri M_Proj S_Renaming L_Renaming L_Renaming2 L_Renaming3 P_Graph P_Sparse.
Import ListNotations.
Close Scope Q_scope.

Section Any.
Variable f : key -> key.
Hypothesis I : injective f.

Lemma nodup_keys_renamed l : nodup_keys (map f l) = nodup_keys l.
Proof. induction l as [|k l IH]; [reflexivity|]. cbn [map nodup_keys]. rewrite (mem_renamed f I), IH. reflexivity. Qed.
Lemma forallb_map' {A B} (h : A -> B) p q l : (forall a, p (h a) = q a) -> forallb p (map h l) = forallb q l.
Proof. intros H. induction l as [|a l IH]; [reflexivity|]. cbn. rewrite H, IH. reflexivity. Qed.
Lemma wf_renamed g : wf (renamed f g) = wf g.
Proof.
  unfold wf. rewrite nodes_renamed, nodup_keys_renamed. change (g_attr (renamed f g)) with (g_attr g). change (g_dir (renamed f g)) with (g_dir g).
  cbn [renamed g_nodes g_adj]. change (mkG _ _ _ _ _) with (renamed f g).
  rewrite (forallb_map' (fun na : key * attrs => (f (fst na), snd na)) _ (fun na => nodup_keys (dkeys (snd na)))) by reflexivity.
  rewrite (forallb_map' (fun b => mkB (f (b_src b)) (f (b_dst b)) (b_data b)) _ (bundle_ok g)).
  - f_equal. induction (g_adj g) as [|b l IH]; [reflexivity|]. cbn [map distinct_ends b_src b_dst]. rewrite IH. do 2 f_equal. clear IH.
    induction l as [|c l IHl]; [reflexivity|]. cbn [map existsb]. rewrite IHl. f_equal. apply (same_ends_renamed f I).
  - intros b. unfold bundle_ok, has_node. cbn [b_src b_dst b_data renamed g_nodes g_multi]. change (map _ (g_nodes g)) with (map (on_key f) (g_nodes g)).
    rewrite !(dmem_renamed f I). reflexivity.
Qed.
Lemma WF_renamed g : WF g -> WF (renamed f g).
Proof. intros W. apply wf_WF. rewrite wf_renamed. apply wf_WF, W. Qed.

Lemma edge_renamed_inv g u v a : In (u, v, a) (edges_data (renamed f g)) -> exists x y, u = f x /\ v = f y /\ In (x, y, a) (edges_data g).
Proof. rewrite (edges_data_renamed f I), in_map_iff. intros ([[x y] b] & E & J). inversion E; subst. exists x, y. auto. Qed.
Lemma positive_renamed attr g : positive_weights attr g -> positive_weights attr (renamed f g).
Proof. intros P u v a J. apply edge_renamed_inv in J as (x & y & _ & _ & J). exact (P x y a J). Qed.
Lemma floats_renamed lib attr g : float_weights lib attr g -> float_weights lib attr (renamed f g).
Proof. intros P u v a w J. apply edge_renamed_inv in J as (x & y & _ & _ & J). exact (P x y a w J). Qed.

Lemma degree_of_renamed lib g w n : weighted_degree lib (renamed f g) w (f n) = weighted_degree lib g w n.
Proof.
  unfold weighted_degree. rewrite (adj_items_renamed f I), (edge_data_renamed f I).
  pose proof (foldM_renamed (fun x : pynum => x) (on_key f) (fun acc mk => let* x := weight_or_one w (snd mk) in Ok (n_add lib acc x))
    (fun acc mk => let* x := weight_or_one w (snd mk) in Ok (n_add lib acc x)) (adj_items g n)) as E.
  rewrite E; [|intros s [m kd]; cbn; destruct (weight_or_one w kd); reflexivity]. destruct (foldM _ (adj_items g n) (NInt 0)); reflexivity.
Qed.
Lemma score_renamed lib attr g reverse u v : score_of (renamed f g) attr lib reverse (f u) (f v) = score_of g attr lib reverse u v.
Proof.
  unfold score_of. rewrite !(degree_renamed f I). unfold share, wd, link_num, edge_attrs. rewrite !(edge_data_renamed f I), !degree_of_renamed. reflexivity.
Qed.

Lemma filterM_renamed_In {A B} (h : A -> B) (p : A -> res bool) p' l : (forall a, In a l -> p' (h a) = p a) -> filterM p' (map h l) = on_res (map h) (filterM p l).
Proof.
  induction l as [|a l IH]; intros H; [reflexivity|]. cbn [map filterM]. rewrite H by (left; reflexivity). destruct (p a) as [b|]; cbn [bind on_res]; [|reflexivity].
  rewrite IH by (intros; apply H; right; assumption). destruct (filterM p l); cbn [bind on_res]; [|reflexivity]. destruct b; reflexivity.
Qed.

(** factories which give the same answers for the edges of the graph *)
Definition same_on_edges (g : graph) (p p' : res edge_predicate) : Prop :=
  match p, p' with Ok p, Ok p' => forall u v a, In (u, v, a) (edges_data g) -> p' (f u) (f v) a = p u v a | Err e, Err e' => e = e' | _, _ => False end.
Lemma sparsified_on_edges lib pf F F' g kc : same_on_edges g (F g) (F' (renamed f g)) ->
  (let* sp := make_sparsifier lib pf (Some F') None None kc in sparsifier_filter sp (renamed f g))
  = on_res (renamed f) (let* sp := make_sparsifier lib pf (Some F) None None kc in sparsifier_filter sp g).
Proof.
  intros H.
  assert (D : same_on_edges g ((if kc then decorate lib pf (Some F) else F) g) ((if kc then decorate lib pf (Some F') else F') (renamed f g))).
  { destruct kc; [|exact H]. unfold decorate. destruct (F g) as [p|e], (F' (renamed f g)) as [p'|e']; cbn in H |- *; try contradiction; [|exact H].
    rewrite (umst_renamed f I). destruct (union_of_maximum_spanning_trees lib pf g (K "weight")) as [l|]; cbn; [|reflexivity].
    intros u v a J. rewrite H by exact J. destruct (p u v a); [|reflexivity]. cbn. rewrite (pmem_renamed f I). reflexivity. }
  assert (E : forall p p', same_on_edges g p p' ->
    (let* l := (let* p := p' in filterM (fun e => let '(u, v, a) := e in p u v a) (edges_data (renamed f g))) in
     foldM (fun filtered e => let '(u, v, a) := e in add_edge_kw filtered u v a) l (create_empty_copy (renamed f g)))
    = on_res (renamed f) (let* l := (let* p := p in filterM (fun e => let '(u, v, a) := e in p u v a) (edges_data g)) in
     foldM (fun filtered e => let '(u, v, a) := e in add_edge_kw filtered u v a) l (create_empty_copy g))).
  { intros [p|e] [p'|e'] S; cbn in S; try contradiction; [|subst; reflexivity]. cbn [bind]. rewrite (edges_data_renamed f I).
    rewrite (filterM_renamed_In (S_Renaming.on_edge f) (fun e => let '(u, v, a) := e in p u v a)) by (intros [[u v] a] J; apply S, J).
    destruct (filterM _ (edges_data g)) as [l|]; cbn [bind on_res]; [|reflexivity]. rewrite create_empty_copy_renamed. apply foldM_renamed. intros s [[u v] a].
    apply (add_edge_kw_renamed f I). }
  destruct kc; exact (E _ _ D).
Qed.
End Any.

Lemma either_way g a b : linked_comparable g -> has_edge g a b = true -> g_dir g = false -> smaller_first a b \/ smaller_first b a.
Proof.
  intros C H D. destruct (C a b H) as ([|] & G); [right; right; exact G|]. assert (H' : has_edge g b a = true) by (rewrite has_edge_sym; assumption).
  destruct (C b a H') as ([|] & G'); [left; right; exact G'|]. left. left. exact (gt_antisym a b G G').
Qed.
Lemma score_swap g attr lib reverse u v : (score_of g attr lib reverse u v == score_of g attr lib reverse v u)%Q.
Proof. unfold score_of, disparity_score. destruct reverse; [apply Q.max_comm|apply Q.min_comm]. Qed.

(** Nodes which can be compared get other names which can be compared, in any order: each edge has the same score, under the
    pair which has the smaller end first, and the backbones are the same. *)
Theorem C110_any_names f lib pf g alpha attr reverse keep_connected : injective f -> sound lib -> float_weights lib attr g ->
  WF g -> g_multi g = false -> g_dir g = false -> positive_weights attr g -> comparable (nodes g) -> comparable (map f (nodes g)) ->
  (exists d d', edge_disparity lib g attr reverse = Ok d /\ edge_disparity lib (renamed f g) attr reverse = Ok d'
     /\ NoDup (map fst d) /\ NoDup (map fst d')
     /\ (forall u v x, In (u, v, x) d -> exists x', (In (f u, f v, x') d' \/ In (f v, f u, x') d') /\ (x' == x)%Q)
     /\ (forall u' v' x', In (u', v', x') d' -> exists u v x, In (u, v, x) d /\ (u' = f u /\ v' = f v \/ u' = f v /\ v' = f u) /\ (x == x')%Q))
  /\ multiscale_backbone lib pf (renamed f g) alpha attr keep_connected
     = on_res (renamed f) (multiscale_backbone lib pf g alpha attr keep_connected).
Proof.
  intros J SD FO W M D P C C'. pose proof (comparable_linked g W C) as CL. pose proof (WF_renamed f J g W) as W'.
  assert (CL' : linked_comparable (renamed f g)) by (apply comparable_linked; [exact W'|rewrite nodes_renamed; exact C']).
  pose proof (positive_renamed f J attr g P) as P'. pose proof (floats_renamed f J lib attr g FO) as FO'.
  split.
  - exists (entries g attr lib reverse), (entries (renamed f g) attr lib reverse).
    split; [apply edge_disparity_Ok; assumption|]. split; [apply edge_disparity_Ok; assumption|].
    split; [apply (entries_NoDup g attr W M)|]. split; [apply (entries_NoDup (renamed f g) attr W' M)|]. split.
    + intros u v x Hx. apply (entries_In g attr W M D lib CL) in Hx as (H & _ & ->).
      assert (H1 : has_edge (renamed f g) (f u) (f v) = true) by (rewrite (has_edge_renamed f J); exact H).
      assert (H2 : has_edge (renamed f g) (f v) (f u) = true) by (rewrite (has_edge_renamed f J), has_edge_sym by exact D; exact H).
      destruct (either_way _ _ _ CL' H1 D) as [S|S].
      * exists (score_of g attr lib reverse u v). split; [|reflexivity]. left. apply (entries_In (renamed f g) attr W' M D lib CL').
        rewrite (score_renamed f J). auto.
      * exists (score_of g attr lib reverse v u). split; [|apply score_swap]. right. apply (entries_In (renamed f g) attr W' M D lib CL').
        rewrite (score_renamed f J). auto.
    + intros u' v' x' Hx. apply (entries_In (renamed f g) attr W' M D lib CL') in Hx as (H & _ & ->).
      destruct (has_edge_nodes (renamed f g) W' u' v' H) as (N1 & N2). rewrite nodes_renamed in N1, N2.
      apply in_map_iff in N1 as (u & <- & _). apply in_map_iff in N2 as (v & <- & _). rewrite (has_edge_renamed f J) in H. rewrite (score_renamed f J).
      destruct (either_way _ _ _ CL H D) as [S|S].
      * exists u, v, (score_of g attr lib reverse u v). split; [apply (entries_In g attr W M D lib CL); auto|]. split; [auto|reflexivity].
      * exists v, u, (score_of g attr lib reverse v u). split; [apply (entries_In g attr W M D lib CL); rewrite has_edge_sym by exact D; auto|].
        split; [auto|apply score_swap].
  - unfold multiscale_backbone, multiscale_backbone_sparsifier. apply (sparsified_on_edges f J).
    destruct (backbone_test g attr W M D P lib SD FO CL alpha) as (p & -> & T). destruct (backbone_test (renamed f g) attr W' M D P' lib SD FO' CL' alpha) as (p' & -> & T').
    intros u v a K0. rewrite (T u v a K0). rewrite T'.
    + rewrite (score_renamed f J). reflexivity.
    + rewrite (edges_data_renamed f J). apply in_map_iff. exists (u, v, a). auto.
Qed.
Print Assumptions C110_any_names.

(** the ints change sign: the order of the nodes is reversed *)
Definition opposite (k : key) : key := match k with KInt z => KInt (- z) | _ => k end.
Lemma opposite_injective : injective opposite.
Proof.
  intros [a| |] [b| |] H; try discriminate H; try exact H. apply (f_equal (fun k => match k with KInt z => z | _ => 0%Z end)) in H. unfold opposite in H. f_equal. lia.
Qed.
Example C110_any_names_ex :
  ~ keeps_order opposite /\ comparable (nodes strengths) /\ comparable (map opposite (nodes strengths))
  /\ on_res edges (multiscale_backbone lib64 Long64 (renamed opposite strengths) (1 # 2)%Q (K "weight") false)
     = Ok [(KInt 0, KInt (-1)); (KInt 0, KInt (-2)); (KInt 0, KInt (-3)); (KInt (-2), KInt (-2)); (KInt (-2), KInt (-3))].
Proof.
  split; [intros (_ & O); specialize (O (KInt 0) (KInt 1)); discriminate O|]. split; [left; intros k H; cbn in H; destruct H as [<-|[<-|[<-|[<-|[]]]]]; eauto|].
  split; [left; intros k H; cbn in H; destruct H as [<-|[<-|[<-|[<-|[]]]]]; eauto|]. vm_compute. reflexivity.
Qed.
