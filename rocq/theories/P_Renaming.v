(** * C110: other names for the nodes give the same results, with the other names *)
From Coq Require Import List ZArith Lia Bool QArith.
From Verif Require Import PyBase PyNum NxGraph L_Base L_Nx M_UnionFind M_Utils M_Traversal M_Graph M_Umst M_Disparity M_Sparse M_Learn M_Tri M_Proj
  S_Renaming L_Renaming L_Renaming2 L_Renaming3 L_Renaming4 P_Graph P_Proj.
Import ListNotations.
Close Scope Q_scope.

(** ** functions which only ask whether nodes are equal: any names will do *)

Theorem C110_components f g : injective f ->
  connected_components (renamed f g) = map (map f) (connected_components g)
  /\ largest_connected_component (renamed f g) = option_map (map f) (largest_connected_component g)
  /\ fst (crop_to_largest_connected_component (renamed f g)) = renamed f (fst (crop_to_largest_connected_component g))
  /\ (forall p p' : option edge_predicate, (forall u v a, follows p' (f u) (f v) a = follows p u v a) ->
        connected_component_orders (renamed f g) p' = connected_component_orders g p
        /\ second_largest_connected_component_order (renamed f g) p' = second_largest_connected_component_order g p).
Proof.
  intros I. split; [apply connected_components_renamed, I|]. split; [apply largest_renamed, I|]. split; [rewrite (crop_renamed f I); reflexivity|].
  intros p p' H. split; [apply orders_renamed; assumption|apply second_renamed; assumption].
Qed.
Print Assumptions C110_components.

Theorem C110_spanning_trees f lib pf g w : injective f ->
  union_of_maximum_spanning_trees lib pf (renamed f g) w = on_res (map (on_edge f)) (union_of_maximum_spanning_trees lib pf g w).
Proof. intros I. apply umst_renamed, I. Qed.
Print Assumptions C110_spanning_trees.

Theorem C110_threshold f lib pf g t w reverse keep_connected : injective f ->
  global_threshold_sparsification lib pf (renamed f g) t w reverse keep_connected
  = on_res (renamed f) (global_threshold_sparsification lib pf g t w reverse keep_connected).
Proof. intros I. apply threshold_renamed, I. Qed.
Print Assumptions C110_threshold.

Theorem C110_learner f fuel lib g start rate m w : injective f ->
  floatsam_threshold_learner fuel lib (renamed f g) start rate m w = floatsam_threshold_learner fuel lib g start rate m w.
Proof. intros I. apply learner_renamed, I. Qed.
Print Assumptions C110_learner.

(** on undirected graphs, where the order of sets does not matter *)
Theorem C110_triangles f set_order g : injective f -> g_dir g = false ->
  triangles set_order (renamed f g) = on_res (map (fun t => let '(u, v, w) := t in (f u, f v, f w))) (triangles set_order g).
Proof. intros I D. exact (triangles_renamed f I set_order g D). Qed.
Print Assumptions C110_triangles.

Theorem C110_self_similarity f lib g depth : injective f ->
  self_similarity_projection lib (renamed f g) depth = on_res (renamed f) (self_similarity_projection lib g depth).
Proof. intros I. apply self_similarity_renamed, I. Qed.
Print Assumptions C110_self_similarity.

(** ** functions which compare nodes: names compared like the nodes *)

Theorem C110_disparity f lib pf g w reverse alpha keep_connected : keeps_order f ->
  edge_disparity lib (renamed f g) w reverse = on_res (map (on_pair f)) (edge_disparity lib g w reverse)
  /\ multiscale_backbone lib pf (renamed f g) alpha w keep_connected = on_res (renamed f) (multiscale_backbone lib pf g alpha w keep_connected).
Proof. intros O. split; [apply edge_disparity_renamed, O|apply backbone_renamed, O]. Qed.
Print Assumptions C110_disparity.

Theorem C110_strength f set_order g full : keeps_order f -> g_dir g = false ->
  triangular_strength set_order (renamed f g) full = on_res (map (on_pair f)) (triangular_strength set_order g full).
Proof. intros O D. apply strength_renamed; assumption. Qed.
Print Assumptions C110_strength.

(** the nodes of a part given as a collection are renamed too *)
Theorem C110_projection f lib g p attr w name chk thr : keeps_order f ->
  monopartite_projection lib (renamed f g) match p with ByValue v => ByValue v | ByCollection h l => ByCollection h (map f l) end attr w name chk thr
  = on_res (renamed f) (monopartite_projection lib g p attr w name chk thr).
Proof. intros O. exact (projection_renamed f O lib g p attr w name chk thr). Qed.
Print Assumptions C110_projection.

(** the ints 0 and 1 exchange their names *)
Definition exchange (k : key) : key := match k with KInt 0 => KInt 1 | KInt 1 => KInt 0 | _ => k end.
Lemma exchange_injective : injective exchange.
Proof.
  assert (E : forall k, exchange (exchange k) = k) by (intros [[|[p|p|]|p]| |]; reflexivity). intros a b H. rewrite <- (E a), <- (E b), H. reflexivity.
Qed.
(** ints become opaque objects *)
Definition wrapped (k : key) : key :=
  match k with
  | KInt (Zpos p) => KObj (4 * Pos.to_nat p) | KInt Z0 => KObj 0 | KInt (Zneg p) => KObj (4 * Pos.to_nat p + 1)
  | KObj n => KObj (4 * n + 2) | KStr s => KStr s
  end.
Lemma wrapped_injective : injective wrapped.
Proof.
  intros [[|p|p]| |n] [[|q|q]| |m] H; cbn [wrapped] in H; try discriminate H; try (injection H as H; lia || (subst; reflexivity)); try reflexivity.
  - injection H as H. do 2 f_equal. apply Pos2Nat.inj. lia.
  - injection H as H. do 2 f_equal. apply Pos2Nat.inj. lia.
  - injection H as H. f_equal. lia.
Qed.

(** With any other names, projections of directed graphs differ: the link from 0 to 1 goes towards the larger node. *)
Theorem C110_names_matter_refuted : exists f g l h h', injective f /\ WF g
  /\ monopartite_projection lib64 g (ByCollection false l) (K "part") (K "weight") VNone true VNone = Ok h
  /\ monopartite_projection lib64 (renamed f g) (ByCollection false (map f l)) (K "part") (K "weight") VNone true VNone = Ok h'
  /\ size h = 1 /\ size h' = 0.
Proof.
  exists exchange, (ex_graph true false [0; 1; 8; 9]%Z (P_Graph.plain [(0, 8); (8, 1); (1, 9)]%Z)), [KInt 0; KInt 1]. eexists. eexists.
  split; [exact exchange_injective|]. split; [apply graph_WF; reflexivity|]. split; [vm_compute; reflexivity|]. split; [vm_compute; reflexivity|].
  split; vm_compute; reflexivity.
Qed.
Print Assumptions C110_names_matter_refuted.

(** and names which cannot be compared make edge_disparity raise *)
Theorem C110_comparable_names_refuted : exists f g d, injective f /\ WF g /\ g_dir g = false
  /\ edge_disparity lib64 g (K "weight") false = Ok d /\ edge_disparity lib64 (renamed f g) (K "weight") false = Err TypeError.
Proof.
  exists wrapped, (ex_graph false false [0; 1]%Z [(0, 1, weight 3)]%Z). eexists.
  split; [exact wrapped_injective|]. split; [apply graph_WF; reflexivity|]. split; [reflexivity|]. split; vm_compute; reflexivity.
Qed.
Print Assumptions C110_comparable_names_refuted.

(** ints doubled and increased: an order-preserving renaming *)
Definition spread (k : key) : key := match k with KInt z => KInt (2 * z + 5) | _ => k end.
Lemma spread_keeps_order : keeps_order spread.
Proof.
  split.
  - intros [a| |] [b| |] H; try discriminate H; try exact H.
    apply (f_equal (fun k => match k with KInt z => z | _ => 0%Z end)) in H. unfold spread in H. f_equal. lia.
  - intros [a| |] [b| |]; try reflexivity. cbn [spread key_lt]. f_equal. destruct (a <? b)%Z eqn:E; [apply Z.ltb_lt|apply Z.ltb_ge]; [apply Z.ltb_lt in E|apply Z.ltb_ge in E]; lia.
Qed.

Example C110_ex :
  let g := ex_graph false false [0; 1; 2; 3]%Z [(0, 1, weight 3); (1, 2, weight 1); (2, 0, weight 2)]%Z in
  connected_components (renamed wrapped g) = [[KObj 0; KObj 4; KObj 8]; [KObj 12]]
  /\ match edge_disparity lib64 (renamed spread g) (K "weight") false with Ok d => map fst d | Err _ => [] end
     = [(KInt 5, KInt 7); (KInt 5, KInt 9); (KInt 7, KInt 9)]
  /\ triangles (fun l => l) (renamed wrapped g) = Ok [(KObj 0, KObj 8, KObj 4)].
Proof. vm_compute. auto. Qed.
