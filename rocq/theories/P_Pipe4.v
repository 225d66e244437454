(** * C107: the threshold of a projection and the threshold of a sparsification *)
From Coq Require Import List Relations ZArith Lia Bool QArith Lqa.
From Verif Require Import PyBase PyNum NxGraph L_Base L_Nx L_Nx2 M_Utils M_UnionFind S_Partition L_Partition M_Traversal M_Graph S_Graph L_Graph L_Graph2 L_Comp L_Comp2 P_Graph
  M_Disparity M_Sparse S_Sparse L_Sparse P_Sparse M_Learn S_Num L_Num S_Learn L_Learn P_Learn P_Pipe3 M_Proj S_Proj L_Proj L_Proj2 L_Proj3 L_Proj4 L_Proj5 P_Proj.
Import ListNotations.
Close Scope Q_scope.

(** what the links of a projection look like *)
Lemma projection_kind lib g p attr wattr name chk thr h : WF g ->
  monopartite_projection lib g p attr wattr name chk thr = Ok h -> WF h /\ g_dir h = false /\ g_multi h = false.
Proof.
  intros W E. destruct (Nat.eq_dec (order g) 0) as [O|O].
  - unfold monopartite_projection in E. apply bind_Ok in E as (m & _ & E). apply bind_Ok in E as (t & _ & E). rewrite O in E.
    inversion E; subst h. split; [apply graph_WF; reflexivity|]. split; reflexivity.
  - destruct (projection_nodes lib g p attr wattr chk W name thr h O E) as (Wh & Dh & Mh & _). auto.
Qed.

Lemma projection_weighted lib g p attr wattr name chk thr h : WF g ->
  monopartite_projection lib g p attr wattr name chk thr = Ok h -> all_weighted h (K "weight").
Proof.
  intros W E u v k a H. destruct (projection_kind lib g p attr wattr name chk thr h W E) as (Wh & _ & Mh).
  rewrite (edge_attrs_simple_key h u v k a Wh Mh H) in H.
  destruct (projection_shape _ _ _ _ _ _ _ _ _ _ _ _ W E H) as (x & ->). rewrite stored_wlink. discriminate.
Qed.

Lemma projection_names lib g p attr wattr name chk thr h : WF g ->
  monopartite_projection lib g p attr wattr name chk thr = Ok h -> edge_names h.
Proof.
  intros W E u v a k I Ik. destruct (projection_kind lib g p attr wattr name chk thr h W E) as (Wh & _ & Mh).
  apply edges_data_In in I as (k0 & I). apply edges_keys_attrs in I; [|exact Wh].
  rewrite (edge_attrs_simple_key h u v k0 a Wh Mh I) in I.
  destruct (projection_shape _ _ _ _ _ _ _ _ _ _ _ _ W E I) as (x & ->). cbn in Ik. destruct Ik as [<-|[]].
  split; [eexists; reflexivity|]. rewrite Mh. split; [vm_compute; intuition discriminate|discriminate].
Qed.

(** the links of a sparsified simple graph *)
Lemma sparsified_links lib pf g t attr : WF g -> g_dir g = false -> g_multi g = false -> edge_names g -> all_weighted g attr ->
  exists h, global_threshold_sparsification lib pf g t attr false false = Ok h /\ WF h /\ same_but_edges g h
    /\ forall u v a, edge_attrs h u v (KInt 0) = Some a <-> edge_attrs g u v (KInt 0) = Some a /\ exists x, stored_weight attr a = Some x /\ (t <= x)%Q.
Proof.
  intros W D M N A. pose proof (weighted_listed g attr W A) as HL.
  destruct (threshold_components lib pf g t attr W N A) as (h & E & Wh & S & _).
  destruct (C29_threshold lib pf g t attr false W N HL) as (h' & keep & E' & _ & D' & Kp).
  assert (h' = h) by congruence. subst h'. exists h. split; [exact E|]. split; [exact Wh|]. split; [exact S|].
  assert (Dh : g_dir h = false) by (destruct S as ((S1 & _) & _); congruence).
  assert (Mh : g_multi h = false) by (destruct S as ((_ & S2) & _); congruence).
  assert (L : forall G u v a, WF G -> g_dir G = false -> g_multi G = false ->
    (edge_attrs G u v (KInt 0) = Some a <-> In (u, v, a) (edges_data G) \/ In (v, u, a) (edges_data G))).
  { intros G u v a WG DG MG. split.
    - intros H. apply edge_attrs_edges_data in H as [H|[_ H]]; auto.
    - assert (X : forall x y, In (x, y, a) (edges_data G) -> edge_attrs G x y (KInt 0) = Some a).
      { intros x y H. apply edges_data_In in H as (k & H). apply edges_keys_attrs in H; [|exact WG].
        rewrite (edge_attrs_simple_key G x y k a WG MG H) in H. exact H. }
      intros [H|H]; [apply X, H|rewrite edge_attrs_sym by exact DG; apply X, H]. }
  assert (F : forall u v a, In (u, v, a) (edges_data h) <-> In (u, v, a) (edges_data g) /\ exists x, stored_weight attr a = Some x /\ (t <= x)%Q).
  { intros u v a. rewrite D', filter_In. split.
    - intros [I K']. split; [exact I|]. destruct (HL u v a I) as (w & Ew). exists w. split; [exact Ew|]. apply (Kp u v a w Ew) in K'. exact K'.
    - intros (I & w & Ew & Lw). split; [exact I|]. apply (Kp u v a w Ew). exact Lw. }
  intros u v a. rewrite (L h u v a Wh Dh Mh), (L g u v a W D M), !F. tauto.
Qed.

(** C107: projecting with a threshold, or projecting and then sparsifying with it, is the same *)
Theorem C107_threshold lib pf g p attr wattr chk name thr t h : WF g -> num_of thr = Some t -> (0 < t)%Q ->
  monopartite_projection lib g p attr wattr name chk VNone = Ok h ->
  exists h1 h2, monopartite_projection lib g p attr wattr name chk thr = Ok h1
    /\ global_threshold_sparsification lib pf h t (K "weight") false false = Ok h2
    /\ same_but_edges h1 h2 /\ are_same_graphs h1 h2 true = true.
Proof.
  intros W Ht Pt E. pose proof (C46_threshold lib g p attr wattr chk name thr t W Ht Pt) as H. rewrite E in H.
  destruct H as (h1 & E1 & W1 & D1 & M1 & N1 & A1 & L1).
  destruct (projection_kind _ _ _ _ _ _ _ _ _ W E) as (Wh & Dh & Mh).
  destruct (sparsified_links lib pf h t (K "weight") Wh Dh Mh) as (h2 & E2 & W2 & S2 & L2).
  { exact (projection_names _ _ _ _ _ _ _ _ _ W E). }
  { exact (projection_weighted _ _ _ _ _ _ _ _ _ W E). }
  exists h1, h2. split; [exact E1|]. split; [exact E2|]. destruct S2 as ((S2 & S3) & S4 & S5).
  assert (SB : same_but_edges h1 h2) by (repeat split; congruence). split; [exact SB|].
  assert (EA : forall u v, edge_attrs h1 u v (KInt 0) = edge_attrs h2 u v (KInt 0)).
  { intros u v. destruct (edge_attrs h2 u v (KInt 0)) as [a|] eqn:Ea.
    - apply L1, L2, Ea.
    - destruct (edge_attrs h1 u v (KInt 0)) as [a|] eqn:Ea1; [|reflexivity]. apply L1, L2 in Ea1. congruence. }
  assert (R : forall a, same_attrs a a).
  { intros a k. destruct (dget k a) as [x|]; [|exact I]. apply val_eqb_refl. }
  apply C17_are_same_graphs_attributes; try assumption.
  - destruct SB as (SB & _). exact SB.
  - congruence.
  - split.
    + intros n. unfold node_data. replace (g_nodes h2) with (g_nodes h1) by congruence. destruct (dget n (g_nodes h1)); [apply R|exact I].
    + intros u v. rewrite EA. destruct (edge_attrs h2 u v (KInt 0)); [apply R|exact I].
Qed.
Print Assumptions C107_threshold.

(** a threshold learned on a projection can be given to a new projection: after two epochs or more, its second component has
    fewer nodes than the limit *)
Theorem C107_learned fuel lib g p attr wattr chk name h start rate o m t epochs : WF g ->
  monopartite_projection lib g p attr wattr name chk VNone = Ok h -> size h <> 0 -> drifter_limit (m_log lib) h o m ->
  floatsam_threshold_learner fuel lib h start rate o (K "weight") = Ok (t, epochs) -> (0 < value t)%Q -> 1 < List.length epochs ->
  exists h1 c, monopartite_projection lib g p attr wattr name chk (val_of t) = Ok h1
    /\ second_largest_connected_component_order h1 None = Ok c /\ forall n, c = Some n -> (Z.of_nat n < m)%Z.
Proof.
  intros W E NE DL F Pt Le. destruct (projection_kind _ _ _ _ _ _ _ _ _ W E) as (Wh & Dh & Mh).
  pose proof (projection_names _ _ _ _ _ _ _ _ _ W E) as Nh. pose proof (projection_weighted _ _ _ _ _ _ _ _ _ W E) as Ah.
  destruct (C104_learned_partial fuel lib Long64 h start rate o m (K "weight") t epochs Wh Dh Nh Ah NE DL F)
    as (h2 & _ & c & _ & E2 & S2 & Ec & Lc & _).
  assert (Ht : num_of (val_of t) = Some (value t)) by (destruct t; reflexivity).
  destruct (C107_threshold lib Long64 g p attr wattr chk name (val_of t) (value t) h W Ht Pt E) as (h1 & h2' & E1 & E2' & SB & SG).
  assert (h2' = h2) by congruence. subst h2'. exists h1, c. split; [exact E1|]. split; [|intros n; apply (Lc Le)].
  destruct (projection_kind _ _ _ _ _ _ _ _ _ W E1) as (W1 & D1 & M1).
  destruct (sparsified_links lib Long64 h (value t) (K "weight") Wh Dh Mh Nh Ah) as (h2' & E2'' & W2 & _ & _).
  assert (h2' = h2) by congruence. subst h2'.
  assert (D2 : g_dir h2 = false) by (destruct SB as ((SB & _) & _); congruence).
  destruct SB as (SK & _ & SN).
  apply (C17_are_same_graphs_attributes h1 h2 W1 W2 SK M1) in SG as (_ & SG).
  destruct (second_largest_spec h1 None (fun _ _ _ => true) W1 D1 (fun _ _ _ => eq_refl) (fun _ _ _ => eq_refl)) as (s1 & C1 & L1).
  destruct (second_largest_spec h2 None (fun _ _ _ => true) W2 D2 (fun _ _ _ => eq_refl) (fun _ _ _ => eq_refl)) as (s2 & C2 & L2).
  assert (C1' : class_sizes (nodes h2) (connected_by h2 (fun _ _ _ => true)) s1).
  { replace (nodes h2) with (nodes h1) by (unfold nodes; rewrite SN; reflexivity). eapply class_sizes_ext; [|exact C1].
    intros x y. unfold connected_by. split; apply rst_iff; intros u v (k & a & I & _); apply rst_step.
    - rewrite (edge_attrs_simple_key h1 u v k a W1 M1 I) in I. specialize (SG u v). rewrite I in SG.
      destruct (edge_attrs h2 u v (KInt 0)) as [b|] eqn:Eb; [|destruct SG]. exists (KInt 0), b. auto.
    - assert (M2 : g_multi h2 = false) by (destruct SK as (_ & SK); congruence).
      rewrite (edge_attrs_simple_key h2 u v k a W2 M2 I) in I. specialize (SG u v). rewrite I in SG.
      destruct (edge_attrs h1 u v (KInt 0)) as [b|] eqn:Eb; [|destruct SG]. exists (KInt 0), b. auto. }
  assert (s2 = s1) by (eapply class_sizes_unique; eassumption). subst s2.
  destruct L1 as [[Ll1 Y]|(m1 & G1 & Y)], L2 as [[Ll2 X]|(m2 & G2 & X)].
  - etransitivity; [exact Y|]. etransitivity; [|exact Ec]. symmetry. exact X.
  - apply second_greatest_length in G2. lia.
  - apply second_greatest_length in G1. lia.
  - rewrite <- (second_greatest_unique _ _ _ G1 G2) in X. etransitivity; [exact Y|]. etransitivity; [|exact Ec]. symmetry. exact X.
Qed.
Print Assumptions C107_learned.

(** two pairs of accounts which share two colors each, and one color between the pairs *)
Definition bridge : graph :=
  fold_left (fun g e => add_edge g (KInt (fst e)) (KInt (snd e)) [])
    [(0, 10); (1, 10); (0, 11); (1, 11); (2, 12); (3, 12); (2, 13); (3, 13); (1, 14); (2, 14)]%Z
    (account [0; 1; 2; 3]%Z (ex_graph false false [10; 11; 12; 13; 14]%Z [])).
Definition bridged (thr : val) : res graph := monopartite_projection lib64 bridge accounts (K "part") (K "weight") VNone true thr.
Example C107_ex : wf bridge = true
  /\ (let* h := bridged VNone in floatsam_threshold_learner 9 lib64 h (NInt 0) (NInt 1) (Some 2%Z) (K "weight"))
     = Ok (NInt 1, [mkEpoch 1 2 None (NInt 1); mkEpoch 2 2 (Some 2) (NInt 2)])
  /\ (let* h := bridged VNone in let* h1 := bridged (VInt 1) in let* h2 := global_threshold_sparsification lib64 Long64 h 1 (K "weight") false false in
      Ok (size h1, are_same_graphs h1 h2 true, second_largest_connected_component_order h1 None)) = Ok (3, true, Ok None)
  /\ (let* h := bridged VNone in let* h1 := bridged (VInt 2) in let* h2 := global_threshold_sparsification lib64 Long64 h 2 (K "weight") false false in
      Ok (size h1, are_same_graphs h1 h2 true, second_largest_connected_component_order h1 None)) = Ok (2, true, Ok (Some 2)).
Proof. vm_compute. auto 10. Qed.
