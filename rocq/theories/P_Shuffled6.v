(** * C115: backbones of graphs built in other orders *)
From Coq Require Import List ZArith Lia Bool Permutation QArith Qminmax.
From Verif Require Import PyBase PyNum NxGraph L_Base L_Nx S_Graph L_Graph L_Graph2 M_UnionFind M_Graph S_Num L_Num M_Disparity L_Disparity M_Sparse S_Sparse L_Sparse P_Graph P_Sparse S_Shuffled P_Shuffled P_Shuffled2 P_Shuffled4.
Import ListNotations.
Close Scope Q_scope.

Lemma kept_shuffled p g h g' h' : WF g -> WF h -> WF g' -> WF h' -> shuffled g h -> g_multi g = false -> (g_dir g = false -> symmetric_test p) ->
  same_but_edges g g' -> same_but_edges h h' ->
  edges_data g' = filter (S_Graph.on_edge p) (edges_data g) -> edges_data h' = filter (S_Graph.on_edge p) (edges_data h) -> shuffled g' h'.
Proof.
  intros W W' Wg Wh S M Y B B' F F'. pose proof S as (D & MM & N & A). assert (M' : g_multi h = false) by congruence.
  assert (Y' : g_dir h = false -> symmetric_test p) by (rewrite <- D; exact Y).
  pose proof B as ((D1 & M1) & _ & N1). pose proof B' as ((D2 & M2) & _ & N2). split; [congruence|]. split; [congruence|]. split.
  - intros n. specialize (N n). unfold node_data in *. rewrite <- N1, <- N2. exact N.
  - intros u v k. destruct (edge_attrs g' u v k) as [a|] eqn:Q.
    + symmetry. apply (kept_attrs p h h' u v k a W' Wh M' B' Y' F'). rewrite <- A. apply (kept_attrs p g g' u v k a W Wg M B Y F), Q.
    + destruct (edge_attrs h' u v k) as [a|] eqn:Q'; [|reflexivity]. apply (kept_attrs p h h' u v k a W' Wh M' B' Y' F') in Q'. rewrite <- A in Q'.
      apply (kept_attrs p g g' u v k a W Wg M B Y F) in Q'. congruence.
Qed.

Definition score (attr : key) (g : graph) (u v : key) : Q :=
  Qmin ((1 - link_weight attr g u v / strength attr g u) ^ (Z.of_nat (edge_ends g u) - 1))
       ((1 - link_weight attr g v u / strength attr g v) ^ (Z.of_nat (edge_ends g v) - 1)).
Lemma score_sym attr g u v : (score attr g u v == score attr g v u)%Q.
Proof. unfold score. apply Q.min_comm. Qed.
Lemma score_shuffled attr g h u v : WF g -> WF h -> shuffled g h -> (score attr g u v == score attr h u v)%Q.
Proof.
  intros W W' S. unfold score. rewrite !(shuffled_weight attr g h _ _ S), !(shuffled_edge_ends g h _ W W' S), !(shuffled_strength attr g h _ W W' S). reflexivity.
Qed.
Lemma backbone_kept lib pf g alpha attr : exact lib -> WF g -> g_multi g = false -> g_dir g = false -> edge_names g -> positive_weights attr g -> comparable (nodes g) ->
  exists g', multiscale_backbone lib pf g alpha attr false = Ok g' /\ WF g' /\ same_but_edges g g'
  /\ edges_data g' = filter (S_Graph.on_edge (fun u v _ => Qle_bool (score attr g u v) alpha)) (edges_data g).
Proof.
  intros X W M D N P C. destruct (C37_disparity lib g attr X W M D P C) as (d & E & _ & _ & V).
  destruct (C36_backbone lib pf g alpha attr d (exact_sound lib X) (exact_floats lib attr g X) W M D N P C E) as (g' & keep & F & B & G & K).
  exists g'. split; [exact F|]. split; [|split; [exact B|]].
  - destruct (backbone_test g attr W M D P lib (exact_sound lib X) (exact_floats lib attr g X) (comparable_linked g W C) alpha) as (p & Ep & T).
    unfold multiscale_backbone, multiscale_backbone_sparsifier in F. destruct (make_sparsifier _ _ _ _ _) as [sp|] eqn:Z; [|discriminate]. cbn [bind] in F. apply make_predicate in Z. subst sp.
    destruct (partition_test (mkSP (Some (backbone_factory lib alpha attr)) None None) g eq_refl eq_refl p _ Ep T) as (R & _).
    destruct (sparsifier_filter_spec _ g _ W N R) as (h & Eh & Wh & _). rewrite Eh in F. inversion F; subst. exact Wh.
  - rewrite G. apply filter_ext_in. intros [[u v] a] I. unfold S_Graph.on_edge. cbn [fst snd]. apply eq_true_iff_eq.
    destruct (K u v a I) as (x & J & Q). rewrite Q, Qle_bool_iff. assert (Z : (x == score attr g u v)%Q).
    { destruct J as [J|J]; apply V in J as (J & _); [exact J|]. rewrite score_sym. exact J. } rewrite Z. tauto.
Qed.

(** ** multiscale_backbone, in exact arithmetic: the same backbone, in another order *)
Theorem C115_backbone lib pf g h alpha attr : exact lib -> WF g -> WF h -> shuffled g h -> g_multi g = false -> g_dir g = false ->
  edge_names g -> edge_names h -> positive_weights attr g -> comparable (nodes g) ->
  exists g' h', multiscale_backbone lib pf g alpha attr false = Ok g' /\ multiscale_backbone lib pf h alpha attr false = Ok h' /\ shuffled g' h'.
Proof.
  intros X W W' S M D N N' P C. pose proof S as (SD & SM & _).
  assert (C' : comparable (nodes h)) by (destruct C as [C|C]; [left|right]; intros k H; apply C, (shuffled_nodes g h k S), H).
  destruct (backbone_kept lib pf g alpha attr X W M D N P C) as (g' & E & Wg & B & F).
  destruct (backbone_kept lib pf h alpha attr X W' (eq_trans (eq_sym SM) M) (eq_trans (eq_sym SD) D) N' (shuffled_positive attr g h W W' S P) C') as (h' & E' & Wh & B' & F').
  exists g', h'. split; [exact E|]. split; [exact E'|].
  apply (kept_shuffled (fun u v _ => Qle_bool (score attr g u v) alpha) g h g' h' W W' Wg Wh S M); [|exact B|exact B'|exact F|].
  - intros _ u v a. apply eq_true_iff_eq. rewrite !Qle_bool_iff, (score_sym attr g u v). tauto.
  - rewrite F'. apply filter_ext. intros [[u v] a]. unfold S_Graph.on_edge. cbn [fst snd]. apply eq_true_iff_eq. rewrite !Qle_bool_iff, (score_shuffled attr g h u v W W' S). tauto.
Qed.
Print Assumptions C115_backbone.

(** A triangle with a pendant edge, in two orders: one edge is in both backbones. *)
Example C115_backbone_ex :
  let g := ex_graph false false [0; 1; 2; 3]%Z [(0, 1, weight 1); (1, 2, weight 2); (2, 0, weight 9); (2, 3, weight 1)]%Z in
  let h := ex_graph false false [3; 2; 1; 0]%Z [(2, 3, weight 1); (0, 1, weight 1); (1, 2, weight 2); (2, 0, weight 9)]%Z in
  are_same_graphs g h true = true /\ g <> h
  /\ match multiscale_backbone exact_lib Long64 g (1 # 4) (K "weight") false with Ok x => edges x | Err _ => [] end = [(KInt 0, KInt 2)]
  /\ match multiscale_backbone exact_lib Long64 h (1 # 4) (K "weight") false with Ok x => edges x | Err _ => [] end = [(KInt 2, KInt 0)].
Proof. intros g h. split; [vm_compute; reflexivity|]. split; [discriminate|]. split; vm_compute; reflexivity. Qed.
