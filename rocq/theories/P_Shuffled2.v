(** * C115: what depends on the order in which a graph was built *)
From Coq Require Import List ZArith Lia Bool Permutation QArith.
From Verif Require Import PyBase PyNum NxGraph L_Base L_Nx S_Graph L_Graph M_UnionFind M_Graph M_Umst S_Sparse M_Disparity M_Sparse M_Tri S_Tri P_Graph P_Sparse S_Shuffled P_Shuffled.
Import ListNotations.
Close Scope Q_scope.

(** ** what depends on the order *)

(** the same nodes and the same edges inserted in another order *)
Lemma reordered_shuffled g h : WF g -> WF h -> g_dir g = g_dir h -> g_multi g = g_multi h ->
  Permutation (g_nodes g) (g_nodes h) -> Permutation (g_adj g) (g_adj h) -> shuffled g h.
Proof.
  intros W W' D M N' A'. assert (N : forall x, In x (g_nodes g) <-> In x (g_nodes h)) by (intros x; split; apply Permutation_in; [exact N'|apply Permutation_sym, N']).
  assert (A : forall b, In b (g_adj g) <-> In b (g_adj h)) by (intros b; split; apply Permutation_in; [exact A'|apply Permutation_sym, A']). clear N' A'. split; [exact D|]. split; [exact M|]. split.
  - assert (H : forall x y n a, WF x -> WF y -> (forall p, In p (g_nodes x) -> In p (g_nodes y)) -> node_data x n = Some a -> node_data y n = Some a).
    { intros x y n a Wx Wy I E. apply dget_In; [apply (wf_nodes y Wy)|]. apply I, dget_Some_In, E. }
    intros n. destruct (node_data g n) as [a|] eqn:E; [symmetry; apply (H g h n a W W'); [intros p; apply N|exact E]|].
    destruct (node_data h n) as [a|] eqn:F; [|reflexivity]. rewrite (H h g n a W' W) in E; [discriminate|intros p; apply N|exact F].
  - assert (H : forall x y u v kd, WF x -> WF y -> g_dir x = g_dir y -> (forall p, In p (g_adj x) -> In p (g_adj y)) -> edge_data x u v = Some kd -> edge_data y u v = Some kd).
    { intros x y u v kd Wx Wy Q I E. apply edge_data_Some in E as (b & B & S & T); [|exact Wx]. apply edge_data_Some; [exact Wy|]. exists b. rewrite <- Q. auto. }
    intros u v k. unfold edge_attrs. replace (edge_data h u v) with (edge_data g u v); [reflexivity|].
    destruct (edge_data g u v) as [a|] eqn:E; [symmetry; apply (H g h u v a W W' D); [intros p; apply A|exact E]|].
    destruct (edge_data h u v) as [a|] eqn:F; [|reflexivity]. rewrite (H h g u v a W' W (eq_sym D)) in E; [discriminate|intros p; apply A|exact F].
Qed.

(** largest_connected_component: components of sizes 3, 1, 4 and of sizes 4, 3, 1 *)
Theorem C115_largest_refuted : exists g h c d, WF g /\ WF h /\ shuffled g h
  /\ largest_connected_component g = Some c /\ largest_connected_component h = Some d /\ List.length c <> List.length d.
Proof.
  pose (build := fun ns => ex_graph false false ns (P_Graph.plain [(0, 1); (1, 2); (4, 5); (5, 6); (6, 7)]%Z)).
  exists (build [0; 1; 2; 3; 4; 5; 6; 7]%Z), (build [4; 5; 6; 7; 0; 1; 2; 3]%Z), (ks [0; 1; 2]%Z), (ks [4; 5; 6; 7]%Z).
  assert (W : WF (build [0; 1; 2; 3; 4; 5; 6; 7]%Z)) by (apply graph_WF; reflexivity). assert (W' : WF (build [4; 5; 6; 7; 0; 1; 2; 3]%Z)) by (apply graph_WF; reflexivity).
  split; [exact W|]. split; [exact W'|]. split; [apply reordered_shuffled; [exact W|exact W'|reflexivity|reflexivity|exact (Permutation_app_comm (map (fun z => (KInt z, [] : attrs)) [0; 1; 2; 3]%Z) (map (fun z => (KInt z, [])) [4; 5; 6; 7]%Z))|apply Permutation_refl]|].
  split; [vm_compute; reflexivity|]. split; [vm_compute; reflexivity|]. cbn. lia.
Qed.
Print Assumptions C115_largest_refuted.

(** edge_disparity with binary64 weights: (2^53 + 1) + 1 and (1 + 1) + 2^53 round differently *)
Theorem C115_rounding_refuted : exists g h d d' p x x', WF g /\ WF h /\ shuffled g h /\ g_dir g = false /\ g_multi g = false
  /\ positive_weights (K "weight") g /\ float_weights lib64 (K "weight") g
  /\ edge_disparity lib64 g (K "weight") false = Ok d /\ edge_disparity lib64 h (K "weight") false = Ok d'
  /\ In (p, x) d /\ In (p, x') d' /\ ~ (x == x')%Q.
Proof.
  pose (e := fun z => [(K "weight", VFloat (inject_Z z))]).
  set (g := ex_graph false false [0; 1; 2; 3]%Z [(0, 1, e (2 ^ 53)%Z); (0, 2, e 1%Z); (0, 3, e 1%Z)]%Z).
  set (h := ex_graph false false [0; 1; 2; 3]%Z [(0, 2, e 1%Z); (0, 3, e 1%Z); (0, 1, e (2 ^ 53)%Z)]%Z).
  assert (W : WF g) by (apply graph_WF; reflexivity). assert (W' : WF h) by (apply graph_WF; reflexivity).
  exists g, h.
  let d := eval vm_compute in (edge_disparity lib64 g (K "weight") false) in match d with Ok ?d => exists d end.
  let d := eval vm_compute in (edge_disparity lib64 h (K "weight") false) in match d with Ok ?d => exists d end.
  eexists (KInt 0, KInt 1), _, _.
  split; [exact W|]. split; [exact W'|]. split; [apply reordered_shuffled; [exact W|exact W'|reflexivity|reflexivity|apply Permutation_refl|exact (Permutation_app_comm (firstn 1 (g_adj g)) (skipn 1 (g_adj g)))]|].
  split; [reflexivity|]. split; [reflexivity|].
  split; [intros u v a I; vm_compute in I; destruct I as [I|[I|[I|[]]]]; inversion I; subst; eexists; split; reflexivity|].
  split.
  { assert (F : forallb (fun x : edge3 => match dget (K "weight") (snd x) with Some (VFloat q) => q_eqb (round64 q) q | _ => false end) (edges_data g) = true) by (vm_compute; reflexivity).
    rewrite forallb_forall in F. intros u v a w I E q ->. specialize (F _ I). cbn [snd] in F. rewrite E in F. apply Qeq_bool_iff. exact F. }
  split; [vm_compute; reflexivity|]. split; [vm_compute; reflexivity|].
  split; [left; reflexivity|]. split; [right; right; left; reflexivity|]. intros E. vm_compute in E. discriminate.
Qed.
Print Assumptions C115_rounding_refuted.

(** A triangle and an edge, inserted in two orders. *)
Example C115_ex :
  let g := ex_graph false false [0; 1; 2; 3; 4]%Z [(0, 1, weight 1); (1, 2, weight 2); (2, 0, weight 3); (3, 4, weight 4)]%Z in
  let h := ex_graph false false [3; 4; 0; 1; 2]%Z [(3, 4, weight 4); (0, 1, weight 1); (1, 2, weight 2); (2, 0, weight 3)]%Z in
  shuffled g h /\ g <> h
  /\ connected_components g = [ks [0; 1; 2]; ks [3; 4]]%Z /\ connected_components h = [ks [3; 4]; ks [0; 1; 2]]%Z
  /\ triangular_strength (fun l => l) g true = Ok [(KInt 0, KInt 1, 1); (KInt 0, KInt 2, 1); (KInt 1, KInt 2, 1); (KInt 3, KInt 4, 0)]
  /\ triangular_strength (fun l => l) h true = Ok [(KInt 3, KInt 4, 0); (KInt 0, KInt 1, 1); (KInt 0, KInt 2, 1); (KInt 1, KInt 2, 1)].
Proof.
  intros g h. split.
  - apply reordered_shuffled; [apply graph_WF; reflexivity|apply graph_WF; reflexivity|reflexivity|reflexivity|
      exact (Permutation_app_comm (map (fun z => (KInt z, [] : attrs)) [0; 1; 2]%Z) (map (fun z => (KInt z, [])) [3; 4]%Z))|
      exact (Permutation_app_comm (firstn 3 (g_adj g)) (skipn 3 (g_adj g)))].
  - split; [discriminate|]. vm_compute. auto.
Qed.
