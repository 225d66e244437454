(** * C115: the order in which a graph was built *)
From Coq Require Import List ZArith Lia Bool Permutation QArith Qminmax Relations.
From Verif Require Import PyBase PyNum NxGraph L_Base L_Nx S_Partition L_Partition S_Graph L_Graph L_Graph2 L_Comp L_Comp2 M_UnionFind M_Graph M_Umst S_Sparse L_Disparity M_Disparity M_Sparse M_Tri S_Tri L_Tri P_Graph P_Tri P_Sparse S_Shuffled.
Import ListNotations.
Close Scope Q_scope.

Lemma shuffled_sym g h : shuffled g h -> shuffled h g.
Proof. intros (A & B & C & D). unfold shuffled. auto. Qed.
Lemma shuffled_nodes g h n : shuffled g h -> (In n (nodes g) <-> In n (nodes h)).
Proof.
  intros (_ & _ & N & _). split; intros H; apply node_data_In in H as (a & H); [rewrite N in H|rewrite <- N in H]; apply node_data_Some_In in H; exact H.
Qed.
Lemma shuffled_edge g h u v : WF g -> WF h -> shuffled g h -> has_edge g u v = has_edge h u v.
Proof.
  intros W W' (_ & _ & _ & E). apply eq_true_iff_eq. split; intros H; apply has_edge_some_attrs in H as (k & a & H); try assumption;
    [rewrite E in H|rewrite <- E in H]; apply edge_attrs_has in H; exact H.
Qed.
Lemma shuffled_linked g h u v : WF g -> WF h -> shuffled g h -> (linked g u v <-> linked h u v).
Proof. intros W W' S. unfold linked. rewrite !(shuffled_edge g h) by assumption. tauto. Qed.
Lemma shuffled_common g h u v w : WF g -> WF h -> shuffled g h -> (common g u v w <-> common h u v w).
Proof. intros W W' S. unfold common. rewrite !(shuffled_linked g h) by assumption. tauto. Qed.
Lemma shuffled_connected g h u v : WF g -> WF h -> shuffled g h -> connected g u v -> connected h u v.
Proof.
  intros W W' S C. unfold connected in *. induction C as [x y H|x|x y C IH|x y z C IH C' IH'].
  - apply rst_step. rewrite <- (shuffled_edge g h) by assumption. exact H.
  - apply rst_refl.
  - apply rst_sym, IH.
  - eapply rst_trans; eassumption.
Qed.

(** ** components: the same sets *)
Lemma shuffled_component g h c : WF g -> WF h -> shuffled g h -> is_component g c -> is_component h c.
Proof.
  intros W W' S (n & N & D & E). exists n. split; [apply (shuffled_nodes g h n S), N|]. split; [exact D|]. intros x. rewrite E, (shuffled_nodes g h x S).
  split; intros (H & C); (split; [exact H|]); [eapply shuffled_connected; [exact W|exact W'|exact S|exact C]|].
  eapply shuffled_connected; [exact W'|exact W|apply shuffled_sym; exact S|exact C].
Qed.
Theorem C115_components g h c : WF g -> WF h -> shuffled g h -> In c (connected_components g) ->
  exists d, In d (connected_components h) /\ Permutation c d.
Proof.
  intros W W' S H. apply components_is in H; [|exact W]. apply (shuffled_component g h c W W' S) in H. apply components_all in H as (d & I & _ & P); [|exact W'].
  exists d. split; assumption.
Qed.
Print Assumptions C115_components.

(** ** triangles: the same sets of three nodes; the strengths are the same *)
Lemma shuffled_triangle g h x y z : WF g -> WF h -> shuffled g h -> (is_triangle g x y z <-> is_triangle h x y z).
Proof. intros W W' S. unfold is_triangle. rewrite !(shuffled_linked g h) by assumption. tauto. Qed.
Theorem C115_triangles set_order set_order' g h : WF g -> WF h -> shuffled g h -> reorders set_order -> reorders set_order' ->
  exists l l', triangles set_order g = Ok l /\ triangles set_order' h = Ok l'
  /\ (forall t, In t l -> exists t', In t' l' /\ Permutation (corners t) (corners t'))
  /\ (forall t', In t' l' -> exists t, In t l /\ Permutation (corners t') (corners t)).
Proof.
  intros W W' S O O'. destruct (C40_triangles set_order g W O) as (l & E & A & B & _). destruct (C40_triangles set_order' h W' O') as (l' & E' & A' & B' & _).
  exists l, l'. split; [exact E|]. split; [exact E'|]. split.
  - intros [[x y] z] I. apply A, (shuffled_triangle g h x y z W W' S), B' in I. exact I.
  - intros [[x y] z] I. apply A', (shuffled_triangle g h x y z W W' S), B in I. exact I.
Qed.
Print Assumptions C115_triangles.

Theorem C115_strength set_order set_order' g h full : WF g -> WF h -> shuffled g h -> reorders set_order -> reorders set_order' -> comparable (nodes g) ->
  exists d d', triangular_strength set_order g full = Ok d /\ triangular_strength set_order' h full = Ok d'
  /\ Permutation d d'.
Proof.
  intros W W' S O O' C. assert (C' : comparable (nodes h)).
  { destruct C as [C|C]; [left|right]; intros k H; apply C, (shuffled_nodes g h k S), H. }
  destruct (C41_strength set_order g full W O C) as (d & E & N & K & V). destruct (C41_strength set_order' h full W' O' C') as (d' & E' & N' & K' & V').
  exists d, d'. split; [exact E|]. split; [exact E'|].
  assert (Q : forall u v, In (u, v) (map fst d) <-> In (u, v) (map fst d')).
  { intros u v. rewrite K, K', (shuffled_linked g h u v W W' S). assert (X : (exists w, common g u v w) <-> exists w, common h u v w).
    { split; intros (w & H); exists w; apply (shuffled_common g h u v w W W' S), H. } tauto. }
  assert (J : forall (x x' : list (key * key * nat)), (forall u v, In (u, v) (map fst x) <-> In (u, v) (map fst x')) ->
    (forall u v n m, In (u, v, n) x -> In (u, v, m) x' -> n = m) -> forall p, In p x -> In p x').
  { intros x x' A B [[u v] n] H. assert (I : In (u, v) (map fst x)) by (apply in_map_iff; exists (u, v, n); auto). apply A in I. apply in_map_iff in I as ([[u' v'] m] & F & I).
    cbn in F. inversion F; subst. rewrite (B u v n m H I). exact I. }
  assert (Y : forall u v n m, In (u, v, n) d -> In (u, v, m) d' -> n = m).
  { intros u v n m H H'. apply V in H. apply V' in H'. eapply has_size_unique; [exact H|]. eapply has_size_ext; [|exact H']. intros w. symmetry. apply (shuffled_common g h u v w W W' S). }
  apply NoDup_Permutation; [eapply NoDup_map_inv; exact N|eapply NoDup_map_inv; exact N'|]. intros p. split.
  - apply J; assumption.
  - apply J; [intros u v; symmetry; apply Q|]. intros u v n m H H'. symmetry. eapply Y; eassumption.
Qed.
Print Assumptions C115_strength.

(** ** disparities, in exact arithmetic *)
Lemma shuffled_permutation g h : WF g -> WF h -> shuffled g h -> Permutation (nodes g) (nodes h).
Proof. intros W W' S. apply NoDup_Permutation; [apply (wf_nodes g W)|apply (wf_nodes h W')|]. intros n. apply shuffled_nodes, S. Qed.
Lemma shuffled_weight attr g h u v : shuffled g h -> link_weight attr g u v = link_weight attr h u v.
Proof. intros (_ & _ & _ & E). unfold link_weight. rewrite E. reflexivity. Qed.
Lemma sum_q_permutation l l' : Permutation l l' -> (sum_q l == sum_q l')%Q.
Proof.
  intros P. induction P as [|x l l' P IH|x y l|l l' l'' P IH P' IH']; cbn; [reflexivity|rewrite IH; reflexivity|ring|rewrite IH; exact IH'].
Qed.
Lemma shuffled_strength attr g h u : WF g -> WF h -> shuffled g h -> (strength attr g u == strength attr h u)%Q.
Proof.
  intros W W' S. unfold strength. rewrite (shuffled_weight attr g h u u S). apply Qplus_comp; [|reflexivity].
  rewrite (map_ext _ _ (fun v => shuffled_weight attr g h u v S)). apply sum_q_permutation, Permutation_map, shuffled_permutation; assumption.
Qed.
Lemma simple_lengths g n : WF g -> g_multi g = false -> sum_nat (map (fun mk => List.length (snd mk)) (adj_items g n)) = List.length (adj_items g n).
Proof.
  intros W M. assert (H : forall mk, In mk (adj_items g n) -> List.length (snd mk) = 1).
  { intros [m kd] I. apply adj_items_In in I; [|exact W]. cbn [snd]. unfold edge_data in I. destruct (List.find _ (g_adj g)) as [b|] eqn:F; [|discriminate].
    apply find_some in F as (F & _). destruct (wf_simple g W M b F) as (a & E). cbn in I. inversion I. rewrite E. reflexivity. }
  transitivity (sum_nat (map (fun _ => 1) (adj_items g n))); [f_equal; apply map_ext_in; exact H|]. clear H. induction (adj_items g n) as [|x l IH]; [reflexivity|]. exact (f_equal S IH).
Qed.
Lemma shuffled_ends g h n : WF g -> WF h -> shuffled g h -> g_multi g = false -> g_dir g = false -> edge_ends g n = edge_ends h n.
Proof.
  intros W W' S M D. pose proof S as (SD & SM & _ & SE). rewrite <- !degree_edge_ends by assumption. unfold degree. rewrite <- SD, D.
  assert (L : forall x k, WF x -> g_multi x = false -> (match edge_data x k k with Some kd => List.length kd | None => 0 end) = if has_edge x k k then 1 else 0).
  { intros x k Wx Mx. unfold has_edge. destruct (edge_data x k k) as [kd|] eqn:E; [|reflexivity]. unfold edge_data in E. destruct (List.find _ (g_adj x)) as [b|] eqn:F; [|discriminate].
    apply find_some in F as (F & _). destruct (wf_simple x Wx Mx b F) as (a & Q). cbn in E. inversion E. rewrite Q. reflexivity. }
  rewrite !L, (shuffled_edge g h) by congruence. rewrite !simple_lengths by congruence. f_equal.
  rewrite <- (map_length fst (adj_items g n)), <- (map_length fst (adj_items h n)). apply Permutation_length. apply NoDup_Permutation; [apply adj_items_NoDup, W|apply adj_items_NoDup, W'|].
  intros m. change (In m (neighbors g n) <-> In m (neighbors h n)). rewrite !L_Comp.neighbors_In, (shuffled_edge g h) by assumption. tauto.
Qed.
Lemma shuffled_positive attr g h : WF g -> WF h -> shuffled g h -> positive_weights attr g -> positive_weights attr h.
Proof.
  intros W W' (D & _ & _ & E) P u v a H. apply edges_data_In in H as (k & H). apply edges_keys_attrs in H; [|exact W']. rewrite <- E in H.
  apply edge_attrs_edges_data in H as [H|(_ & H)]; [eapply P; exact H|eapply P; exact H|exact W].
Qed.
Theorem C115_disparity lib g h attr : exact lib -> WF g -> WF h -> shuffled g h -> g_multi g = false -> g_dir g = false -> positive_weights attr g -> comparable (nodes g) ->
  exists d d', edge_disparity lib g attr false = Ok d /\ edge_disparity lib h attr false = Ok d'
  /\ (forall p, In p (map fst d) <-> In p (map fst d')) /\ forall p x x', In (p, x) d -> In (p, x') d' -> (x == x')%Q.
Proof.
  intros X W W' S M D P C. pose proof S as (SD & SM & _ & _).
  assert (C' : comparable (nodes h)) by (destruct C as [C|C]; [left|right]; intros k H; apply C, (shuffled_nodes g h k S), H).
  destruct (C37_disparity lib g attr X W M D P C) as (d & E & _ & K & V).
  destruct (C37_disparity lib h attr X W' (eq_trans (eq_sym SM) M) (eq_trans (eq_sym SD) D) (shuffled_positive attr g h W W' S P) C') as (d' & E' & _ & K' & V').
  exists d, d'. split; [exact E|]. split; [exact E'|]. split.
  - intros [u v]. rewrite K, K', (shuffled_edge g h u v W W' S). tauto.
  - intros [u v] x x' H H'. apply V in H as (H & _). apply V' in H' as (H' & _). rewrite H, H'.
    rewrite !(shuffled_weight attr g h _ _ S), !(shuffled_ends g h _ W W' S M D), !(shuffled_strength attr g h _ W W' S). reflexivity.
Qed.
Print Assumptions C115_disparity.

(** ** thresholds: the same edges are kept, in either direction when undirected *)
Theorem C115_threshold lib pf g h t attr reverse : WF g -> WF h -> shuffled g h -> edge_names g -> edge_names h ->
  (forall u v a, In (u, v, a) (edges_data g) -> exists w, stored_weight attr a = Some w) ->
  exists g' h', global_threshold_sparsification lib pf g t attr reverse false = Ok g' /\ global_threshold_sparsification lib pf h t attr reverse false = Ok h'
  /\ same_nodes_attrs g' h'
  /\ forall u v a, In (u, v, a) (edges_data g') -> In (u, v, a) (edges_data h') \/ g_dir g = false /\ In (v, u, a) (edges_data h').
Proof.
  intros W W' S N N' A. pose proof S as (SD & _ & SN & SE).
  assert (I : forall x y u v a, WF x -> WF y -> shuffled x y -> In (u, v, a) (edges_data x) -> In (u, v, a) (edges_data y) \/ g_dir y = false /\ In (v, u, a) (edges_data y)).
  { intros x y u v a Wx Wy (_ & _ & _ & E) H. apply edges_data_In in H as (k & H). apply edges_keys_attrs in H; [|exact Wx]. rewrite E in H. eapply edge_attrs_edges_data; eassumption. }
  assert (A' : forall u v a, In (u, v, a) (edges_data h) -> exists w, stored_weight attr a = Some w).
  { intros u v a H. apply (I h g) in H as [H|(_ & H)]; [eapply A; exact H|eapply A; exact H|exact W'|exact W|apply shuffled_sym, S]. }
  destruct (C29_threshold lib pf g t attr reverse W N A) as (g' & keep & E & (_ & _ & B) & F & Q).
  destruct (C29_threshold lib pf h t attr reverse W' N' A') as (h' & keep' & E' & (_ & _ & B') & F' & Q').
  exists g', h'. split; [exact E|]. split; [exact E'|]. split; [intros n; unfold node_data; rewrite <- B, <- B'; apply SN|].
  intros u v a H. rewrite F in H. rewrite F'. apply filter_In in H as (H & G). destruct (A u v a H) as (w & Y). apply (Q u v a w Y) in G.
  rewrite SD. destruct (I g h u v a W W' S H) as [J|(J & J')]; [left|right; split; [exact J|]]; apply filter_In; (split; [assumption|]); eapply Q'; eassumption.
Qed.
Print Assumptions C115_threshold.
