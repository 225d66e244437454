(** * C99: wrong arguments are refused with a TypeError *)
From Coq Require Import QArith Lia.
From Verif Require Import PyBase PyNum NxGraph M_UnionFind M_Graph M_Umst M_Disparity M_Tri M_Proj M_Learn M_Sparse M_Json M_Shim M_Tabular
  M_Check S_Check S_Ieee P_Graph P_Sparse.
Close Scope Q_scope.

Lemma not_graph : forall a, ~ is_a_graph a -> exists v, a = AOther v.
Proof. intros [g | v] H; [destruct H; exists g; reflexivity | exists v; reflexivity]. Qed.

Lemma not_function : forall A (f : fn A), ~ is_a_function f -> exists v, f = NotFn v.
Proof. intros A [f | v] H; [destruct H; exists f; reflexivity | exists v; reflexivity]. Qed.

Lemma instantiate_ok : forall lib pf s, exists sp, instantiate lib pf s = Ok sp.
Proof. intros lib pf [t w r [|] | alpha w [|]]; eexists; reflexivity. Qed.

Lemma wrong_run : forall e r, wrong r -> run e r = (subject r, Err (refusal r)).
Proof.
  intros e r [Ha | Hf].
  - apply not_graph in Ha. destruct Ha as [v Ha].
    destruct r; cbn [subject] in *; subst a; try reflexivity.
    all: try (destruct p; reflexivity).
    + destruct full; reflexivity.
    + cbn [run refusal]. unfold call_flag. destruct (instantiate_ok (s_lib e) (s_pf e) s) as [sp ->].
      destruct s as [t w rev [|] | alpha w [|]], full, relevant; reflexivity.
    + cbn [run refusal]. unfold call_sparsification. destruct (instantiate_ok (s_lib e) (s_pf e) s) as [sp ->]. reflexivity.
    + cbn [run refusal]. unfold call_nodes_dataframe, check_pandas. destruct (pd s); reflexivity.
    + cbn [run refusal]. unfold call_edges_dataframe, check_pandas. destruct (pd s); reflexivity.
    + cbn [run refusal]. unfold call_dataframes, call_nodes_dataframe, check_pandas. destruct (pd s); reflexivity.
  - destruct r; try contradiction.
    + apply not_graph in Hf. destruct Hf as [v ->]. destruct a; reflexivity.
    + apply not_graph in Hf. destruct Hf as [v ->]. destruct a; reflexivity.
    + apply not_graph in Hf. destruct Hf as [v ->]. destruct a; reflexivity.
    + apply not_function in Hf. destruct Hf as [v ->]. destruct a; reflexivity.
    + apply not_function in Hf. destruct Hf as [v ->]. destruct a; reflexivity.
    + apply not_function in Hf. destruct Hf as [v ->]. destruct a; reflexivity.
    + apply not_function in Hf. destruct Hf as [v ->]. destruct a; reflexivity.
    + destruct f as [f|]; [|contradiction]. apply not_function in Hf. destruct Hf as [v ->]. destruct a; reflexivity.
    + destruct f as [f|]; [|contradiction]. apply not_function in Hf. destruct Hf as [v ->]. destruct a; reflexivity.
    + destruct on_epoch as [f|]; [|contradiction]. apply not_function in Hf. destruct Hf as [v ->]. destruct a; reflexivity.
Qed.

Lemma refusal_unchecked : forall r, refusal r = TypeError <-> ~ unchecked r.
Proof.
  intros r; destruct r; cbn [refusal unchecked]; try (split; [intros H; congruence || tauto | tauto]).
  - destruct full; split; try congruence; intros H; destruct H; reflexivity.
  - destruct s as [t w rev [|] | alpha w k]; [tauto | | tauto]. destruct full; split; try congruence; intros H; destruct H; reflexivity.
  - destruct (pd s); split; try congruence; intros H; destruct H; reflexivity.
  - destruct (pd s); split; try congruence; intros H; destruct H; reflexivity.
  - destruct (pd s); split; try congruence; intros H; destruct H; reflexivity.
Qed.

(** Every call with a wrong argument which is not one of the [unchecked] ones raises TypeError, and leaves the graph as it was. *)
Theorem C99_refused_partial : forall e r, wrong r -> ~ unchecked r -> run e r = (subject r, Err TypeError).
Proof. intros e r Hw Hu. rewrite (wrong_run e r Hw). apply refusal_unchecked in Hu. rewrite Hu. reflexivity. Qed.
Print Assumptions C99_refused_partial.

(** Exactly: a wrong call always raises and leaves the graph as it was; the exception is TypeError except for the [unchecked]
    calls. *)
Theorem C99_exact : forall e r, wrong r ->
  run e r = (subject r, Err (refusal r)) /\ (run e r = (subject r, Err TypeError) <-> ~ unchecked r).
Proof.
  intros e r Hw. split; [apply wrong_run; exact Hw|]. rewrite (wrong_run e r Hw), <- refusal_unchecked.
  split; congruence.
Qed.
Print Assumptions C99_exact.

Lemma other_wrong : forall v, ~ is_a_graph (AOther v).
Proof. intros v [g E]. discriminate E. Qed.

(** The claim is false for triangular_strength, write_graphology_json, flags, and tables without pandas. *)
Theorem C99_any_call_refuted : forall e, exists r1 r2 r3 r4,
  (wrong r1 /\ r1 = RStrength (AOther VNone) true /\ run e r1 = (AOther VNone, Err AttributeError))
  /\ (wrong r2 /\ r2 = RWrite (AOther (VStr "graph.json")) false false /\ run e r2 = (AOther (VStr "graph.json"), Err AttributeError))
  /\ (wrong r3 /\ r3 = RFlag true (GlobalThreshold (1 # 2) (K "weight") false false) (AOther (VInt 3)) (K "relevant") true
      /\ run e r3 = (AOther (VInt 3), Err AttributeError))
  /\ (wrong r4 /\ r4 = RNodesFrame (import_shim false) (AOther VNone) None /\ run e r4 = (AOther VNone, Err MissingPandasException)).
Proof.
  intros e. exists (RStrength (AOther VNone) true), (RWrite (AOther (VStr "graph.json")) false false),
    (RFlag true (GlobalThreshold (1 # 2) (K "weight") false false) (AOther (VInt 3)) (K "relevant") true),
    (RNodesFrame (import_shim false) (AOther VNone) None).
  split; [|split; [|split]]; (split; [left; apply other_wrong | split; reflexivity]).
Qed.
Print Assumptions C99_any_call_refuted.

(** The predicate made by [call_factory] is that of the instance: same exception, or none *)
Lemma factory_same : forall lib pf s sp g, instantiate lib pf s = Ok sp ->
  call_factory lib pf s (AGraph g) = (let* _ := sp_predicate sp g in Ok tt).
Proof.
  intros lib pf s sp g Hi.
  destruct s as [t w rev [|] | alpha w [|]]; inversion Hi; subst; clear Hi; unfold call_factory, call_umst, call_edge_disparity, sp_predicate;
    cbn [check_graph is_graph methods bind sp_factory decorate backbone_factory]; try reflexivity.
  - unfold decorate; cbn [bind]. destruct (union_of_maximum_spanning_trees lib pf g (K "weight")); reflexivity.
  - unfold decorate, backbone_factory. destruct (edge_disparity lib g w false); cbn [bind]; [|reflexivity].
    destruct (union_of_maximum_spanning_trees lib pf g (K "weight")); reflexivity.
  - unfold backbone_factory. destruct (edge_disparity lib g w false); reflexivity.
Qed.

Lemma flag_same : forall relevant lib pf s sp g attr full, instantiate lib pf s = Ok sp ->
  call_flag relevant lib pf s (AGraph g) attr full
  = mutated ((if relevant then flag_relevant_edges sp attr full else flag_redundant_edges sp attr full) g).
Proof.
  intros relevant lib pf s sp g attr full Hi. unfold call_flag. rewrite Hi. unfold mutating_call.
  assert (Hout : forall x : graph * res unit, (let (g', r) := x in (AGraph g', r)) = mutated x)
    by (intros [g' [[] | e]]; reflexivity).
  destruct full.
  - rewrite (factory_same lib pf s sp g Hi). cbn [methods].
    destruct (sp_predicate sp g) as [p | e] eqn:Ep; cbn [bind]; [apply Hout|].
    destruct relevant; unfold flag_relevant_edges, flag_redundant_edges, flag_with, sread, sbind; rewrite Ep; reflexivity.
  - destruct relevant; cbn [call_relevant_edges call_redundant_edges check_graph is_graph bind methods]; apply Hout.
Qed.

Lemma null_copy_first : forall g p, (let* _ := create_null_copy g in filter_nodes g p) = filter_nodes g p.
Proof. intros g p. unfold filter_nodes. destruct (create_null_copy g); reflexivity. Qed.

(** The checks change nothing to right calls: they are the functions of the other models. *)
Theorem C99_right_calls : forall e g,
  call_largest_connected_component (AGraph g) = Ok (largest_connected_component g)
  /\ call_crop (AGraph g) = mutated (crop_to_largest_connected_component g)
  /\ (forall v, call_subgraph (AGraph g) v = largest_connected_component_subgraph g v)
  /\ (forall h c, call_are_same_graphs (AGraph g) (AGraph h) c = Ok (are_same_graphs g h c))
  /\ (forall p, call_remove_edges (AGraph g) (Fn p) = mutated (remove_edges p g))
  /\ (forall p, call_filter_edges (AGraph g) (Fn p) = filter_edges g p)
  /\ (forall p, call_remove_nodes (AGraph g) (Fn p) = mutated (remove_nodes p g))
  /\ (forall p, call_filter_nodes (AGraph g) (Fn p) = filter_nodes g p)
  /\ call_remove_leaves (AGraph g) = mutated (remove_leaves g)
  /\ call_filter_leaves (AGraph g) = filter_leaves g
  /\ call_largest_connected_component_order (AGraph g) = largest_connected_component_order g
  /\ (forall p, call_second_largest (AGraph g) (Some (Fn p)) = second_largest_connected_component_order g (Some p))
  /\ call_second_largest (AGraph g) None = second_largest_connected_component_order g None
  /\ (forall w rev, call_edge_disparity (s_lib e) (AGraph g) w rev = edge_disparity (s_lib e) g w rev)
  /\ (forall full, call_strength (s_order e) (AGraph g) full = triangular_strength (s_order e) g full)
  /\ (forall full, call_naive_strength (s_order e) (AGraph g) full = naive_triangular_strength (s_order e) g full)
  /\ (forall p pa w m c t, call_projection (s_lib e) (AGraph g) p pa w m c t = monopartite_projection (s_lib e) g p pa w m c t)
  /\ (forall d, call_self_similarity (s_lib e) (AGraph g) d = self_similarity_projection (s_lib e) g d)
  /\ (forall a r d w, call_learner (s_fuel e) (s_lib e) (AGraph g) a r d w None = floatsam_threshold_learner (s_fuel e) (s_lib e) g a r d w)
  /\ (forall a r d w f, call_learner (s_fuel e) (s_lib e) (AGraph g) a r d w (Some (Fn f)) = floatsam_threshold_learner (s_fuel e) (s_lib e) g a r d w)
  /\ (forall sp, call_filter sp (AGraph g) = sparsifier_filter sp g)
  /\ (forall sp, call_remove sp (AGraph g) = mutated (sparsifier_remove sp g))
  /\ (forall t w rev k, call_sparsification (s_lib e) (s_pf e) (GlobalThreshold t w rev k) (AGraph g)
                        = global_threshold_sparsification (s_lib e) (s_pf e) g t w rev k)
  /\ (forall alpha w k, call_sparsification (s_lib e) (s_pf e) (Backbone alpha w k) (AGraph g)
                        = multiscale_backbone (s_lib e) (s_pf e) g alpha w k)
  /\ (forall s sp attr full, instantiate (s_lib e) (s_pf e) s = Ok sp ->
         call_flag true (s_lib e) (s_pf e) s (AGraph g) attr full = mutated (flag_relevant_edges sp attr full g)
         /\ call_flag false (s_lib e) (s_pf e) s (AGraph g) attr full = mutated (flag_redundant_edges sp attr full g))
  /\ (forall m i, call_write (s_repr e) (AGraph g) m i = write_graphology_json (s_repr e) g m i)
  /\ (forall s c sc tc sd td, call_dataframes s (s_nan e) (AGraph g) c sc tc sd td = graph_to_dataframes s (s_nan e) g c sc tc sd td).
Proof.
  intros e g.
  assert (Hout : forall x : graph * res unit, (let (g', r) := x in (AGraph g', r)) = mutated x)
    by (intros [g' [[] | er]]; reflexivity).
  split; [reflexivity|].
  split; [apply Hout|].
  split; [reflexivity|].
  split; [intros h c; unfold call_are_same_graphs, call_have_same_nodes, call_have_same_edges, are_same_graphs; cbn [methods bind];
          destruct (have_same_nodes g h c); reflexivity|].
  split; [intros p; apply Hout|].
  split; [reflexivity|].
  split; [intros p; apply Hout|].
  split; [intros p; apply (null_copy_first g p)|].
  split; [apply Hout|].
  split; [apply (null_copy_first g (not_leaf g))|].
  split; [unfold call_largest_connected_component_order, largest_connected_component_order; cbn [methods bind];
          destruct (Nat.eqb (order g) 0); reflexivity|].
  do 3 (split; [reflexivity|]).
  split; [intros [|]; reflexivity|].
  do 6 (split; [reflexivity|]).
  split; [intros sp; apply Hout|].
  do 2 (split; [reflexivity|]).
  split; [intros s sp attr full Hi; split; exact (flag_same _ _ _ s sp g attr full Hi)|].
  split; [reflexivity|].
  intros s c sc tc sd td. unfold call_dataframes, call_nodes_dataframe, call_edges_dataframe, graph_to_dataframes.
  cbn [check_graph is_graph methods bind]. unfold check_pandas.
  destruct (pd s) eqn:Ep; cbn [bind]; [reflexivity|].
  unfold graph_to_nodes_dataframe, check_pandas. rewrite Ep. reflexivity.
Qed.
Print Assumptions C99_right_calls.

(** The functions which return generators check their arguments on call, and right calls return whatever the graph is:
    its own exceptions are raised by the iteration. *)
Theorem C99_generators : forall e a,
  (~ is_a_graph a -> forall f w sp,
     call_connected_component_orders a f = Err TypeError /\ call_umst (s_lib e) (s_pf e) a w = Err TypeError
     /\ call_triangles (s_order e) a = Err TypeError /\ call_relevant_edges sp a = Err TypeError /\ call_redundant_edges sp a = Err TypeError)
  /\ (forall g f w sp, a = AGraph g ->
       exists i1 i2 i3 i4 i5,
         call_connected_component_orders a (Some (Fn f)) = Ok i1 /\ i1 tt = connected_component_orders g (Some f)
         /\ call_umst (s_lib e) (s_pf e) a w = Ok i2 /\ i2 tt = union_of_maximum_spanning_trees (s_lib e) (s_pf e) g w
         /\ call_triangles (s_order e) a = Ok i3 /\ i3 tt = triangles (s_order e) g
         /\ call_relevant_edges sp a = Ok i4 /\ i4 tt = relevant_edges sp g
         /\ call_redundant_edges sp a = Ok i5 /\ i5 tt = redundant_edges sp g).
Proof.
  intros e a. split.
  - intros Ha f w sp. apply not_graph in Ha. destruct Ha as [v ->]. do 4 (split; [reflexivity|]). reflexivity.
  - intros g f w sp ->. do 5 eexists. do 9 (split; [reflexivity|]). reflexivity.
Qed.
Print Assumptions C99_generators.

(** ** Examples *)

Definition ex_env : surroundings := mkEnv lib64 Long64 (fun l => l) (fun _ => "?"%string) VNone 100.
Definition words : graph :=
  ex_graph false false [0; 1; 2]%Z [(0, 1, [(K "weight", VStr "heavy")]); (1, 2, [(K "weight", VInt 2)])]%Z.

(** None as graph; a predicate which is a string: the graph stays; a string as filter; a string as on_epoch *)
Example C99_ex_hyps :
  let r1 := RFilterLeaves (AOther VNone) in
  let r2 := RRemoveEdges (AGraph simple_pairs) (NotFn (VStr "weight")) in
  let r3 := ROrders (AGraph simple_pairs) (Some (NotFn (VInt 1))) in
  let r4 := RLearner (AGraph simple_pairs) (NInt 0) (NInt 1) None (K "weight") (Some (NotFn (VStr "print"))) in
  (wrong r1 /\ ~ unchecked r1) /\ (wrong r2 /\ ~ unchecked r2) /\ (wrong r3 /\ ~ unchecked r3) /\ (wrong r4 /\ ~ unchecked r4).
Proof.
  cbn zeta. split; [|split; [|split]]; (split; [|exact (fun H => H)]).
  - left. intros [g E]. discriminate E.
  - right. intros [f E]. discriminate E.
  - right. intros [f E]. discriminate E.
  - right. intros [f E]. discriminate E.
Qed.

Example C99_ex :
  let shown r := match run ex_env r with (AGraph g, x) => (map fst (edges_data g), x) | (AOther _, x) => ([], x) end in
  let all := map fst (edges_data simple_pairs) in
  shown (RFilterLeaves (AOther VNone)) = ([], Err TypeError)
  /\ shown (RRemoveEdges (AGraph simple_pairs) (NotFn (VStr "weight"))) = (all, Err TypeError)
  /\ shown (RRemoveEdges (AGraph simple_pairs) (Fn (fun u v _ => Ok (key_eqb u v)))) = ([(KInt 2, KInt 2)], Ok tt)
  /\ shown (ROrders (AGraph simple_pairs) (Some (NotFn (VInt 1)))) = (all, Err TypeError)
  /\ shown (RStrength (AOther VNone) false) = ([], Err TypeError)
  /\ shown (RStrength (AOther VNone) true) = ([], Err AttributeError)
  /\ shown (RFlag false (Backbone (1 # 2) (K "weight") false) (AOther VNone) (K "flag") true) = ([], Err TypeError)
  /\ shown (RFlag false (GlobalThreshold (1 # 2) (K "weight") false true) (AOther VNone) (K "flag") true) = ([], Err TypeError)
  /\ shown (RFlag false (GlobalThreshold (1 # 2) (K "weight") false false) (AOther VNone) (K "flag") true) = ([], Err AttributeError)
  /\ shown (RNodesFrame (import_shim true) (AOther VNone) None) = ([], Err TypeError)
  /\ shown (RNodesFrame (import_shim false) (AOther VNone) None) = ([], Err MissingPandasException).
Proof. vm_compute. do 10 (split; [reflexivity|]). reflexivity. Qed.

(** The call returns, the iteration raises *)
Example C99_ex_generators :
  match call_umst lib64 Long64 (AGraph words) (K "weight") with
  | Ok it => it tt = Err TypeError
  | Err _ => False
  end.
Proof. vm_compute. reflexivity. Qed.
