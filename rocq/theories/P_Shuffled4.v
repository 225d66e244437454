(** * C115: comparing and cropping graphs built in other orders *)
From Coq Require Import List ZArith Lia Bool Permutation Relations.
From Verif Require Import PyBase NxGraph L_Base L_Nx S_Graph L_Graph L_Graph2 M_Graph P_Graph S_Shuffled P_Shuffled P_Shuffled2.
Import ListNotations.

(** ** are_same_graphs does not see the order *)
Theorem C115_same_graphs g h check_attributes : WF g -> WF h -> shuffled g h -> g_multi g = false -> are_same_graphs g h check_attributes = true.
Proof.
  intros W W' S M. assert (Z : same_kind g h) by (split; [apply S|apply S]). destruct check_attributes.
  - apply C17_are_same_graphs_attributes; [exact W|exact W'|exact Z|exact M|]. destruct S as (_ & _ & N & E).
    split; [intros n; rewrite N|intros u v; rewrite E]; apply same_opt_refl.
  - apply C17_are_same_graphs; [exact W|exact W'|exact Z|exact M|]. split; [intros n; apply shuffled_nodes, S|intros u v; apply shuffled_edge; assumption].
Qed.
Print Assumptions C115_same_graphs.

(** ** removing and filtering nodes keep what was shuffled so *)
Lemma shuffled_node_test g h f p : WF g -> WF h -> shuffled g h -> node_test g f p -> node_test h f p.
Proof.
  intros W W' (_ & _ & N & _) T n a I. apply T. apply dget_Some_In. change (node_data g n = Some a). rewrite N. apply dget_In; [apply (wf_nodes h W')|exact I].
Qed.
Lemma induced_shuffled P P' g h g' h' : shuffled g h -> (forall n, P n = P' n) -> induced_by P g g' -> induced_by P' h h' -> shuffled g' h'.
Proof.
  intros (D & M & N & E) Q ((Dg & Mg) & _ & Ng & Eg) ((Dh & Mh) & _ & Nh & Eh). split; [congruence|]. split; [congruence|]. split.
  - intros n. rewrite Ng, Nh, Q, N. reflexivity.
  - intros u v k. rewrite Eg, Eh, !Q, E. reflexivity.
Qed.
Theorem C115_remove_nodes g h f p : WF g -> WF h -> shuffled g h -> node_test g f p ->
  exists g' h', remove_nodes f g = (g', Ok tt) /\ remove_nodes f h = (h', Ok tt) /\ shuffled g' h'.
Proof.
  intros W W' S T. destruct (C22_remove_nodes g f p W T) as (g' & E & _ & I).
  destruct (C22_remove_nodes h f p W' (shuffled_node_test g h f p W W' S T)) as (h' & E' & _ & I').
  exists g', h'. split; [exact E|]. split; [exact E'|]. eapply induced_shuffled; [exact S| |exact I|exact I'].
  intros n. cbn. destruct S as (_ & _ & N & _). rewrite N. reflexivity.
Qed.
Print Assumptions C115_remove_nodes.

Theorem C115_filter_nodes g h f p : WF g -> WF h -> shuffled g h -> node_test g f p ->
  edge_names g -> node_names g -> graph_names g -> edge_names h -> node_names h -> graph_names h -> (g_dir g = false -> comparable (nodes g)) ->
  exists g' h', filter_nodes g f = Ok g' /\ filter_nodes h f = Ok h' /\ shuffled g' h'.
Proof.
  intros W W' S T EN NN GN EN' NN' GN' C. assert (C' : g_dir h = false -> comparable (nodes h)).
  { intros D. rewrite <- (proj1 S) in D. destruct (C D) as [X|X]; [left|right]; intros k H; apply X, (shuffled_nodes g h k S), H. }
  destruct (C23_filter_nodes_partial g f p W T EN NN GN C) as (g' & E & _ & (Dg & Mg) & _ & Ng & Eg).
  destruct (C23_filter_nodes_partial h f p W' (shuffled_node_test g h f p W W' S T) EN' NN' GN' C') as (h' & E' & _ & (Dh & Mh) & _ & Nh & Eh).
  exists g', h'. split; [exact E|]. split; [exact E'|]. destruct S as (D & M & N & A).
  assert (Q : forall n, accepted g p n = accepted h p n) by (intros n; unfold accepted; rewrite N; reflexivity).
  split; [congruence|]. split; [congruence|]. split.
  - intros n. rewrite Ng, Nh, Q, N. reflexivity.
  - intros u v k. rewrite Eg, Eh, !Q, A, D. reflexivity.
Qed.
Print Assumptions C115_filter_nodes.

Lemma shuffled_parallels g h u v kd : WF g -> WF h -> shuffled g h -> edge_data g u v = Some kd ->
  exists kd', edge_data h u v = Some kd' /\ List.length kd' = List.length kd.
Proof.
  intros W W' S E. pose proof S as (_ & _ & _ & A). assert (H : has_edge h u v = true).
  { rewrite <- (shuffled_edge g h) by assumption. unfold has_edge. rewrite E. reflexivity. }
  unfold has_edge in H. destruct (edge_data h u v) as [kd'|] eqn:E'; [|discriminate]. exists kd'. split; [reflexivity|].
  rewrite <- (map_length fst kd), <- (map_length fst kd'). apply Permutation_length. apply NoDup_Permutation; [exact (edge_data_keys h u v kd' W' E')|exact (edge_data_keys g u v kd W E)|].
  assert (Q : forall k, dget k kd' = dget k kd). { intros k. specialize (A u v k). unfold edge_attrs in A. rewrite E, E' in A. symmetry. exact A. }
  assert (X : forall (d d' : dict attrs), NoDup (dkeys d) -> (forall k, dget k d = dget k d') -> forall k, In k (map fst d) -> In k (map fst d')).
  { intros d d' N Z k I. apply in_map_iff in I as ([k' a] & <- & I). cbn [fst]. apply dget_In in I; [|exact N]. rewrite Z in I. apply dget_Some_In in I. apply in_map_iff. exists (k', a). auto. }
  intros k. split; apply X; [exact (edge_data_keys h u v kd' W' E')|exact Q|exact (edge_data_keys g u v kd W E)|intros i; symmetry; apply Q].
Qed.
Lemma pred_items_NoDup g n : WF g -> g_dir g = true -> NoDup (map fst (pred_items g n)).
Proof.
  intros W D. unfold pred_items. pose proof (wf_distinct g W) as F. rewrite D in F. induction F as [|b l H F IH]; cbn [flat_map]; [constructor|].
  destruct (key_eqb (b_dst b) n) eqn:E; [|exact IH]. cbn [app map fst]. constructor; [|exact IH]. intros C. apply in_map_iff in C as ([m kd] & Q & C). cbn in Q. subst m.
  apply in_flat_map in C as (c & Hc & C). destruct (key_eqb (b_dst c) n) eqn:E'; [|contradiction]. destruct C as [C|[]]. inversion C as [[Q Z]].
  rewrite Forall_forall in H. specialize (H c Hc). unfold apart, same_ends in H. apply key_eqb_eq in E, E'. rewrite E, <- E', <- Q, !key_eqb_refl in H. discriminate.
Qed.
Lemma lengths_permuted (l l' : list (key * dict attrs)) : NoDup (map fst l) -> NoDup (map fst l') ->
  (forall m kd, In (m, kd) l -> exists kd', In (m, kd') l' /\ List.length kd' = List.length kd) ->
  (forall m kd, In (m, kd) l' -> exists kd', In (m, kd') l /\ List.length kd' = List.length kd) ->
  sum_nat (map (fun mk => List.length (snd mk)) l) = sum_nat (map (fun mk => List.length (snd mk)) l').
Proof.
  intros N N' A B. pose (short := fun mk : key * dict attrs => (fst mk, List.length (snd mk))).
  assert (Z : forall x : list (key * dict attrs), map (fun mk => List.length (snd mk)) x = map snd (map short x)) by (intros x; rewrite map_map; reflexivity).
  rewrite !Z. assert (P : Permutation (map short l) (map short l')).
  { apply NoDup_Permutation.
    - apply (NoDup_map_inv fst). rewrite map_map. exact N.
    - apply (NoDup_map_inv fst). rewrite map_map. exact N'.
    - intros [m i]. split; intros I; apply in_map_iff in I as ([m' kd] & Q & I); unfold short in Q; cbn in Q; inversion Q; subst;
        [apply A in I as (kd' & I & L)|apply B in I as (kd' & I & L)]; apply in_map_iff; exists (m, kd'); unfold short; cbn; rewrite L; auto. }
  apply (Permutation_map snd) in P. unfold sum_nat. induction P; cbn; try lia.
Qed.
Lemma shuffled_edge_ends g h n : WF g -> WF h -> shuffled g h -> edge_ends g n = edge_ends h n.
Proof.
  intros W W' S. pose proof (shuffled_sym g h S) as S'. rewrite <- !degree_edge_ends by assumption. unfold degree. pose proof S as (D & _). rewrite <- D.
  assert (O : sum_nat (map (fun mk => List.length (snd mk)) (adj_items g n)) = sum_nat (map (fun mk => List.length (snd mk)) (adj_items h n))).
  { apply lengths_permuted; [apply adj_items_NoDup, W|apply adj_items_NoDup, W'| |]; intros m kd I; apply adj_items_In in I; try assumption;
      [apply (shuffled_parallels g h n m kd W W' S) in I|apply (shuffled_parallels h g n m kd W' W S') in I]; destruct I as (kd' & I & L); exists kd'; (split; [apply adj_items_In; assumption|exact L]). }
  destruct (g_dir g) eqn:Q.
  - f_equal; [exact O|]. symmetry in D. apply lengths_permuted; [apply pred_items_NoDup; assumption|apply pred_items_NoDup; assumption| |]; intros m kd I; apply L_Comp.pred_items_In in I; try assumption;
      [apply (shuffled_parallels g h m n kd W W' S) in I|apply (shuffled_parallels h g m n kd W' W S') in I]; destruct I as (kd' & I & L); exists kd'; (split; [apply L_Comp.pred_items_In; assumption|exact L]).
  - f_equal; [exact O|]. destruct (edge_data g n n) as [kd|] eqn:E.
    + apply (shuffled_parallels g h n n kd W W' S) in E as (kd' & -> & ->). reflexivity.
    + destruct (edge_data h n n) as [kd'|] eqn:E'; [|reflexivity]. apply (shuffled_parallels h g n n kd' W' W S') in E' as (kd & E' & _). congruence.
Qed.
Theorem C115_leaves g h : WF g -> WF h -> shuffled g h ->
  exists g' h', remove_leaves g = (g', Ok tt) /\ remove_leaves h = (h', Ok tt) /\ shuffled g' h'.
Proof.
  intros W W' S. destruct (C24_remove_leaves g W) as (g' & E & _ & I). destruct (C24_remove_leaves h W') as (h' & E' & _ & I').
  exists g', h'. split; [exact E|]. split; [exact E'|]. eapply induced_shuffled; [exact S| |exact I|exact I'].
  intros n. cbn. rewrite (shuffled_edge_ends g h n W W' S). reflexivity.
Qed.
Print Assumptions C115_leaves.

(** ** removing edges of graphs which are not multigraphs; undirected edges may be met from their other end, so
    the test must not tell the ends apart *)
Lemma simple_attrs g u v a : WF g -> g_multi g = false ->
  (edge_attrs g u v (KInt 0) = Some a <-> In (u, v, a) (edges_data g) \/ g_dir g = false /\ In (v, u, a) (edges_data g)).
Proof.
  intros W M. split; [apply edge_attrs_edges_data, W|]. intros [I|(D & I)]; [apply edges_data_attrs; assumption|].
  rewrite edge_attrs_sym by exact D. apply edges_data_attrs; assumption.
Qed.
Lemma kept_attrs p g g' u v k a : WF g -> WF g' -> g_multi g = false -> same_but_edges g g' -> (g_dir g = false -> symmetric_test p) ->
  edges_data g' = filter (S_Graph.on_edge p) (edges_data g) ->
  (edge_attrs g' u v k = Some a <-> edge_attrs g u v k = Some a /\ p u v a = true).
Proof.
  intros W W' M ((D & M') & _) Y E. assert (Mh : g_multi g' = false) by congruence. destruct (key_eq_dec k (KInt 0)) as [->|K].
  - rewrite (simple_attrs g' u v a W' Mh), (simple_attrs g u v a W M), E, !filter_In. unfold S_Graph.on_edge. cbn [fst snd]. rewrite <- D. split.
    + intros [(I & Q)|(Z & I & Q)]; [auto|]. split; [auto|]. rewrite (Y Z). exact Q.
    + intros ([I|(Z & I)] & Q); [auto|]. right. rewrite (Y Z). auto.
  - split; [intros H; apply edge_attrs_simple_key in H; [contradiction|assumption..]|intros (H & _); apply edge_attrs_simple_key in H; [contradiction|assumption..]].
Qed.
Theorem C115_remove_edges g h f p : WF g -> WF h -> shuffled g h -> g_multi g = false -> (g_dir g = false -> symmetric_test p) ->
  edge_test g f p -> edge_test h f p ->
  exists g' h', remove_edges f g = (g', Ok tt) /\ remove_edges f h = (h', Ok tt) /\ shuffled g' h'.
Proof.
  intros W W' S M Y T T'. pose proof S as (D & MM & N & A). assert (M' : g_multi h = false) by congruence.
  destruct (C19_remove_edges g f p W M T) as (g' & E & Wg & B & F). destruct (C19_remove_edges h f p W' M' T') as (h' & E' & Wh & B' & F').
  exists g', h'. split; [exact E|]. split; [exact E'|]. assert (Y' : g_dir h = false -> symmetric_test p) by (rewrite <- D; exact Y).
  pose proof B as ((D1 & M1) & _ & N1). pose proof B' as ((D2 & M2) & _ & N2). split; [congruence|]. split; [congruence|]. split.
  - intros n. specialize (N n). unfold node_data in *. rewrite <- N1, <- N2. exact N.
  - intros u v k. destruct (edge_attrs g' u v k) as [a|] eqn:Q.
    + symmetry. apply (kept_attrs p h h' u v k a W' Wh M' B' Y' F'). rewrite <- A. apply (kept_attrs p g g' u v k a W Wg M B Y F), Q.
    + destruct (edge_attrs h' u v k) as [a|] eqn:Q'; [|reflexivity]. apply (kept_attrs p h h' u v k a W' Wh M' B' Y' F') in Q'. rewrite <- A in Q'.
      apply (kept_attrs p g g' u v k a W Wg M B Y F) in Q'. congruence.
Qed.
Print Assumptions C115_remove_edges.

(** a test which tells the ends apart sees the order of the nodes *)
Theorem C115_ends_refuted : exists g h f p, WF g /\ WF h /\ shuffled g h /\ g_multi g = false /\ edge_test g f p /\ edge_test h f p
  /\ size (fst (remove_edges f g)) = 1 /\ size (fst (remove_edges f h)) = 0.
Proof.
  pose (g := ex_graph false false [0; 1]%Z (P_Graph.plain [(0, 1)]%Z)). pose (h := ex_graph false false [1; 0]%Z (P_Graph.plain [(0, 1)]%Z)).
  assert (W : WF g) by (apply graph_WF; reflexivity). assert (W' : WF h) by (apply graph_WF; reflexivity).
  exists g, h, (fun u _ _ => Ok (key_eqb u (KInt 0))), (fun u _ _ => key_eqb u (KInt 0)). split; [exact W|]. split; [exact W'|].
  split; [apply reordered_shuffled; [exact W|exact W'|reflexivity|reflexivity|apply perm_swap|apply Permutation_refl]|].
  split; [reflexivity|]. split; [intros u v a _; reflexivity|]. split; [intros u v a _; reflexivity|]. split; reflexivity.
Qed.
Print Assumptions C115_ends_refuted.

(** A triangle with a pendant edge, in two orders. *)
Example C115_removed_ex :
  let g := ex_graph false false [0; 1; 2; 3]%Z [(0, 1, weight 1); (1, 2, weight 2); (2, 0, weight 3); (2, 3, weight 4)]%Z in
  let h := ex_graph false false [3; 2; 1; 0]%Z [(2, 3, weight 4); (0, 1, weight 1); (1, 2, weight 2); (2, 0, weight 3)]%Z in
  are_same_graphs g h true = true /\ g <> h
  /\ nodes (fst (remove_leaves g)) = ks [0; 1; 2]%Z /\ nodes (fst (remove_leaves h)) = ks [2; 1; 0]%Z
  /\ are_same_graphs (fst (remove_leaves g)) (fst (remove_leaves h)) true = true
  /\ are_same_graphs (fst (remove_nodes (fun n _ => Ok (negb (key_eqb n (KInt 0)))) g)) (fst (remove_nodes (fun n _ => Ok (negb (key_eqb n (KInt 0)))) h)) true = true
  /\ List.length (edges (fst (remove_edges (fun u v _ => Ok (key_eqb u (KInt 2) || key_eqb v (KInt 2))) h))) = 3.
Proof. intros g h. split; [vm_compute; reflexivity|]. split; [discriminate|]. vm_compute. auto. Qed.
