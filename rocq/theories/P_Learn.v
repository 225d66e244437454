(** * C72, C73, C79, C80, C87: floatsam_threshold_learner *)
From Coq Require Import List Relations ZArith Lia Bool QArith Lqa.
From Verif Require Import PyBase PyNum NxGraph L_Base L_Nx L_Nx2 S_Partition M_Traversal M_Graph S_Graph L_Graph L_Comp L_Comp2 P_Graph
  S_Sparse M_Learn S_Num L_Num S_Learn L_Learn.
Import ListNotations.
Close Scope Q_scope.

(** ** C72 the last threshold before a component drifts away

    Thresholds are computed by Python's addition, rounded when floats are involved. *)
Theorem C72_threshold_undirected_partial fuel lib g start rate o m attr t epochs :
  WF g -> g_dir g = false -> all_weighted g attr -> size g <> 0 -> drifter_limit (m_log lib) g o m ->
  floatsam_threshold_learner fuel lib g start rate o attr = Ok (t, epochs) ->
  exists k, t = reached lib start rate k /\ least (fun k => drifts g (kept_at lib start rate attr (S k)) m) k.
Proof.
  intros W D AW NE DL E. rewrite (learner_loop lib g attr start rate o m W D NE DL) in E.
  apply loop_ok in E as (k & A & _ & B & _); [|assumption..]. exists k. split; assumption.
Qed.
Print Assumptions C72_threshold_undirected_partial.

(** with exact arithmetic: the starting threshold plus a number of rates *)
Theorem C72_exact fuel lib g start rate o m attr t epochs :
  WF g -> g_dir g = false -> all_weighted g attr -> size g <> 0 -> drifter_limit (m_log lib) g o m -> exact lib ->
  floatsam_threshold_learner fuel lib g start rate o attr = Ok (t, epochs) ->
  exists k, (value t == after (value start) (value rate) k)%Q
    /\ least (fun k => drifts g (at_least attr (after (value start) (value rate) (S k))) m) k.
Proof.
  intros W D AW NE DL X E. apply C72_threshold_undirected_partial with (m := m) in E as (k & -> & L1 & L2); [|assumption..].
  exists k. split; [apply reached_exact; assumption|]. split.
  - exact (drifts_Qeq g attr m _ _ (reached_exact lib start rate (S k) X) L1).
  - intros j Hj H. apply (L2 j Hj). exact (drifts_Qeq g attr m _ _ (Qeq_sym _ _ (reached_exact lib start rate (S j) X)) H).
Qed.
Print Assumptions C72_exact.

(** it returns if there is such a number, with as many epochs, and never raises *)
Theorem C72_returns fuel lib g start rate o m attr k :
  WF g -> g_dir g = false -> all_weighted g attr -> size g <> 0 -> drifter_limit (m_log lib) g o m ->
  least (fun k => drifts g (kept_at lib start rate attr (S k)) m) k -> k < fuel ->
  exists epochs, floatsam_threshold_learner fuel lib g start rate o attr = Ok (reached lib start rate k, epochs)
    /\ List.length epochs = S k.
Proof.
  intros W D AW NE DL L Hk. rewrite (learner_loop lib g attr start rate o m W D NE DL).
  destruct (loop_total lib g attr rate m W D AW fuel 0 start k Hk (proj1 L)) as ([t ep] & E). exists ep.
  pose proof E as E'. apply loop_ok in E' as (k' & A & B & [C1 C2] & _); [|assumption..].
  assert (k' = k) as <-; [|rewrite E, A; tauto]. destruct L as [L1 L2]. destruct (Nat.lt_trichotomy k k') as [H|[H|H]]; [|congruence|].
  - destruct (C2 _ H L1).
  - destruct (L2 _ H C1).
Qed.
Print Assumptions C72_returns.

Theorem C72_no_exception fuel lib g start rate o attr e :
  WF g -> g_dir g = false -> all_weighted g attr ->
  floatsam_threshold_learner fuel lib g start rate o attr = Err e -> e = OutOfFuel.
Proof.
  intros W D AW E. destruct (Nat.eq_dec (size g) 0) as [H|NE].
  - unfold floatsam_threshold_learner in E. rewrite H in E. discriminate.
  - destruct (drifter_order lib g o) as [m|x] eqn:DO.
    + apply drifter_order_spec in DO; [|assumption|assumption|apply size_nodes; assumption].
      rewrite (learner_loop lib g attr start rate o m W D NE DO) in E. apply loop_err in E; assumption.
    + destruct o as [m|]; [discriminate|]. exfalso. cbn in DO.
      destruct (largest_order_spec g W D) as [[N _]|(s & n & _ & _ & EL)]; [apply size_nodes in N; [contradiction|assumption]|].
      rewrite EL in DO. discriminate.
Qed.
Print Assumptions C72_no_exception.

(** without edges, the starting threshold *)
Theorem C72_no_edges fuel lib g start rate o attr : size g = 0 ->
  floatsam_threshold_learner fuel lib g start rate o attr = Ok (start, []).
Proof. intros H. unfold floatsam_threshold_learner. rewrite H. reflexivity. Qed.
Print Assumptions C72_no_edges.

(** false on directed graphs, where components are computed by following outgoing edges (C12) *)
Definition backwards := ex_graph true false [0; 1]%Z [(1, 0, weight 5)]%Z.
Theorem C72_directed_refuted : exists g attr start rate m, WF g /\ all_weighted g attr /\ size g <> 0
  /\ forall lib fuel, exists t epochs, floatsam_threshold_learner (S fuel) lib g start rate (Some m) attr = Ok (t, epochs)
    /\ ~ exists k, t = reached lib start rate k /\ least (fun k => drifts g (kept_at lib start rate attr (S k)) m) k.
Proof.
  assert (W : WF backwards) by (apply graph_WF; reflexivity).
  exists backwards, (K "weight"), (NInt 0), (NInt 1), 1%Z. split; [exact W|]. split; [|split].
  - intros u v k a H. revert u v k a H. apply (edges_forall backwards (fun a => stored_weight (K "weight") a <> None) W).
    constructor; [discriminate|constructor].
  - discriminate.
  - intros lib fuel. exists (NInt 0). eexists. split; [reflexivity|]. intros (k & Ek & [(s & c & C & S & _) _]).
    rewrite reached_int in Ek. inversion Ek as [E0]. assert (k = 0) as -> by lia.
    apply second_greatest_length in S. apply (one_class_length _ _ _ (KInt 0)) in C; [lia| | |].
    + intros; apply rst_sym; assumption.
    + intros; eapply rst_trans; eassumption.
    + intros x [<- |[<- |[]]]; [apply rst_refl|]. apply rst_sym, rst_step. exists (KInt 0), (weight 5). split; reflexivity.
Qed.
Print Assumptions C72_directed_refuted.

(** two triangles joined by a light edge *)
Definition barbell := ex_graph false false [0; 1; 2; 3; 4; 5]%Z
  [(0, 1, weight 4); (1, 2, weight 4); (0, 2, weight 3); (2, 3, weight 1); (3, 4, weight 4); (4, 5, weight 4); (3, 5, weight 5)]%Z.
(** binary64; log 6 = 1.79... *)
Definition log6 : libm := mkLib round64 (m_pow lib64) sqrt64 (fun _ => 179 # 100)%Q.
Lemma barbell_WF : WF barbell. Proof. apply graph_WF. vm_compute. reflexivity. Qed.
Lemma barbell_weighted : all_weighted barbell (K "weight").
Proof.
  intros u v k a H. revert u v k a H. apply (edges_forall barbell (fun a => stored_weight (K "weight") a <> None) barbell_WF).
  let x := eval vm_compute in (edges_data barbell) in replace (edges_data barbell) with x by (vm_compute; reflexivity).
  repeat constructor; discriminate.
Qed.
Example C72_ex : WF barbell /\ g_dir barbell = false /\ all_weighted barbell (K "weight") /\ size barbell <> 0
  /\ floatsam_threshold_learner 10 log6 barbell (NFloat 0) (NFloat (1 # 2)) (Some 3%Z) (K "weight")
     = Ok (NFloat 1, [mkEpoch 1 3 None (NFloat (1 # 2)); mkEpoch 2 3 None (NFloat 1); mkEpoch 3 3 (Some 3) (NFloat (3 # 2))])
  (* int(log(6)) = 1 *)
  /\ floatsam_threshold_learner 10 log6 barbell (NFloat 0) (NFloat (1 # 2)) None (K "weight")
     = Ok (NFloat 1, [mkEpoch 1 1 None (NFloat (1 # 2)); mkEpoch 2 1 None (NFloat 1); mkEpoch 3 1 (Some 3) (NFloat (3 # 2))])
  (* ten times 0.1 is less than 1 *)
  /\ match floatsam_threshold_learner 20 log6 barbell (NFloat 0) (NFloat (round64 (1 # 10))) (Some 3%Z) (K "weight") with
     | Ok (NFloat t, epochs) => (q_ltb t 1, List.length epochs) | _ => (false, 0) end = (true, 11).
Proof.
  split; [exact barbell_WF|]. split; [reflexivity|]. split; [exact barbell_weighted|]. vm_compute. split; [discriminate|]. repeat split; reflexivity.
Qed.

(** ** C73 termination *)

(** exactly when some threshold makes a component drift *)
Theorem C73_terminates_iff lib g start rate o m attr :
  WF g -> g_dir g = false -> all_weighted g attr -> size g <> 0 -> drifter_limit (m_log lib) g o m ->
  (exists fuel r, floatsam_threshold_learner fuel lib g start rate o attr = Ok r)
  <-> exists k, drifts g (kept_at lib start rate attr (S k)) m.
Proof. intros W D AW NE DL. exact (learner_returns lib g attr start rate o m W D AW NE DL). Qed.
Print Assumptions C73_terminates_iff.

(** proved with a positive rate when a single node counts as drifting, in exact arithmetic or on ints.  Missing: orders
    of 2 and more, and floats; see the refutations *)
Theorem C73_terminates_partial lib g start rate o m attr :
  WF g -> g_dir g = false -> all_weighted g attr -> 2 <= order g -> (0 < value rate)%Q ->
  exact lib \/ (exists a r, start = NInt a /\ rate = NInt r) ->
  drifter_limit (m_log lib) g o m -> (m <= 1)%Z ->
  exists fuel r, floatsam_threshold_learner fuel lib g start rate o attr = Ok r.
Proof.
  intros W D AW O R X DL M. destruct (Nat.eq_dec (size g) 0) as [NE|NE].
  - exists 0. unfold floatsam_threshold_learner. rewrite NE. cbn. eauto.
  - apply (learner_returns lib g attr start rate o m W D AW NE DL).
    assert (RA : forall k, (value (reached lib start rate k) == after (value start) (value rate) k)%Q).
    { intros k. destruct X as [X|(a & r & -> & ->)]; [apply reached_exact; assumption|].
      rewrite reached_int. unfold after. cbn [value]. rewrite inject_Z_plus, inject_Z_mult. reflexivity. }
    destruct (weights_bounded g attr W) as (B & HB). destruct (archimedes (value start) (value rate) B R) as (k & Hk). exists k.
    apply above_drifts; try assumption; [|tauto]. intros u v key a w H Hw. apply (HB _ _ _ _ _ H) in Hw. specialize (Hk (S k) ltac:(lia)).
    rewrite <- RA in Hk. lra.
Qed.
Print Assumptions C73_terminates_partial.

(** with binary64 floats, when the rate is not too small compared with the weights *)
Theorem C73_binary64_partial lib g start rate o m attr :
  WF g -> g_dir g = false -> all_weighted g attr -> 2 <= order g -> m_round lib = round64 ->
  (0 <= value start)%Q -> (0 < value rate)%Q -> representable round64 (value rate) ->
  (forall u v k a w, edge_attrs g u v k = Some a -> stored_weight attr a = Some w -> (w < value rate * inject_Z (2 ^ 53 - 1))%Q) ->
  drifter_limit (m_log lib) g o m -> (m <= 1)%Z ->
  exists fuel r, floatsam_threshold_learner fuel lib g start rate o attr = Ok r.
Proof.
  intros W D AW O X P0 P RR HW DL M. destruct (Nat.eq_dec (size g) 0) as [NE|NE].
  - exists 0. unfold floatsam_threshold_learner. rewrite NE. cbn. eauto.
  - apply (learner_returns lib g attr start rate o m W D AW NE DL).
    destruct (weights_below g attr (value rate * inject_Z (2 ^ 53 - 1)) W HW) as (B & HB & LB).
    destruct (reached_over lib start rate B X) as (k & Hk); [lra| |].
    + intros k Hk. apply reached_moves; try assumption. change 9007199254740991%Q with (inject_Z (2 ^ 53 - 1)). lra.
    + exists k. apply above_drifts; try assumption; [|tauto]. intros u v key a w H Hw. apply (HB _ _ _ _ _ H) in Hw. lra.
Qed.
Print Assumptions C73_binary64_partial.

(** once the rate does not change the threshold, nothing happens any more *)
Theorem C73_stuck lib g start rate o m attr :
  WF g -> g_dir g = false -> all_weighted g attr -> size g <> 0 -> drifter_limit (m_log lib) g o m ->
  n_add lib start rate = start ->
  (forall fuel, exists e, floatsam_threshold_learner (S fuel) lib g start rate o attr = Ok (start, [e]))
  \/ forall fuel, floatsam_threshold_learner fuel lib g start rate o attr = Err OutOfFuel.
Proof.
  intros W D AW NE DL ST. assert (RS : forall k, reached lib start rate k = start).
  { induction k as [|k IH]; [reflexivity|]. rewrite reached_next, IH. exact ST. }
  destruct (epoch_spec g attr W D AW m start) as (s & c & E & _ & _ & V). destruct (verdict m c) eqn:Ec.
  - left. intros fuel. rewrite (learner_loop lib g attr start rate o m W D NE DL). cbn [floatsam_loop]. rewrite ST, E. cbn [bind].
    fold (verdict m c). rewrite Ec. eauto.
  - right. apply (learner_diverges lib g attr start rate o m W D AW NE DL). intros k HD. unfold kept_at in HD. rewrite RS in HD.
    apply V in HD. discriminate.
Qed.
Print Assumptions C73_stuck.

(** the edge is heavier than 2^53 + 1, which is not a float: the threshold stays at 2^53 *)
Definition heavy := ex_graph false false [0; 1]%Z [(0, 1, [(K "weight", VFloat 9007199254740994)])]%Z.
Theorem C73_rounding_refuted : exists g, WF g /\ g_dir g = false /\ all_weighted g (K "weight") /\ order g = 2
  /\ forall lib fuel, m_round lib = round64 ->
     floatsam_threshold_learner fuel lib g (NFloat 9007199254740992) (NFloat 1) (Some 1%Z) (K "weight") = Err OutOfFuel.
Proof.
  assert (W : WF heavy) by (apply graph_WF; vm_compute; reflexivity). exists heavy.
  assert (AW : all_weighted heavy (K "weight")).
  { intros u v k a H. revert u v k a H. apply (edges_forall heavy (fun a => stored_weight (K "weight") a <> None) W).
    constructor; [discriminate|constructor]. }
  split; [exact W|]. split; [reflexivity|]. split; [exact AW|]. split; [reflexivity|]. intros lib fuel X.
  assert (ST : n_add lib (NFloat 9007199254740992) (NFloat 1) = NFloat 9007199254740992).
  { cbn [n_add to_float]. rewrite X. vm_compute. reflexivity. }
  destruct (C73_stuck lib heavy (NFloat 9007199254740992) (NFloat 1) (Some 1%Z) 1%Z (K "weight") W eq_refl AW ltac:(discriminate) eq_refl ST) as [H|H]; [|apply H].
  exfalso. destruct (H 0) as (e & He). unfold floatsam_threshold_learner in He. change (Nat.eqb (size heavy) 0) with false in He. cbn [floatsam_loop drifter_order bind] in He. rewrite ST in He. vm_compute in He. discriminate.
Qed.
Print Assumptions C73_rounding_refuted.

(** with a rate which is not negative and a greater order, it is now or never: no use waiting once the threshold
    exceeds every weight *)
Theorem C73_last_chance lib g start rate o m attr K :
  WF g -> g_dir g = false -> all_weighted g attr -> size g <> 0 -> sound lib -> (0 <= value rate)%Q ->
  drifter_limit (m_log lib) g o m -> (2 <= m)%Z ->
  (forall u v k a w, edge_attrs g u v k = Some a -> stored_weight attr a = Some w -> (w < value (reached lib start rate (S K)))%Q) ->
  (exists fuel r, floatsam_threshold_learner fuel lib g start rate o attr = Ok r)
  <-> exists k, k < K /\ drifts g (kept_at lib start rate attr (S k)) m.
Proof.
  intros W D AW NE [SR _] R DL M HK. rewrite (learner_returns lib g attr start rate o m W D AW NE DL). split; [|intros (k & _ & H); exists k; exact H].
  intros (k & H). exists k. split; [|assumption]. destruct (Nat.lt_ge_cases k K) as [L|G]; [assumption|]. exfalso.
  apply above_drifts in H; try assumption; [lia|]. intros u v key a w E Ew. apply (HK _ _ _ _ _ E) in Ew.
  eapply Qlt_le_trans; [exact Ew|]. apply reached_up; assumption.
Qed.
Print Assumptions C73_last_chance.

(** no result for any number of epochs when the order is more than half the nodes *)
Theorem C73_diverges lib g start rate o m attr :
  WF g -> g_dir g = false -> all_weighted g attr -> size g <> 0 ->
  drifter_limit (m_log lib) g o m -> (Z.of_nat (order g) < 2 * m)%Z ->
  forall fuel, floatsam_threshold_learner fuel lib g start rate o attr = Err OutOfFuel.
Proof.
  intros W D AW NE DL M. apply (learner_diverges lib g attr start rate o m W D AW NE DL).
  intros k (s & c & C & S & L). apply drifts_half with (c := c) in C; [lia|assumption..| |assumption]. intros; reflexivity.
Qed.
Print Assumptions C73_diverges.

(** The learner with its default parameters, on a complete graph with equal weights: it falls apart
    into single nodes at once, and int(log(8)) = 2.  No other starting threshold and rate help. *)
Definition clique8 := ex_graph false false [0; 1; 2; 3; 4; 5; 6; 7]%Z
  (flat_map (fun i => map (fun j => (i, j, weight 1)) (filter (fun j => (i <? j)%Z) [0; 1; 2; 3; 4; 5; 6; 7]%Z)) [0; 1; 2; 3; 4; 5; 6; 7]%Z).
Lemma clique8_WF : WF clique8. Proof. apply graph_WF. vm_compute. reflexivity. Qed.
Lemma clique8_weights : forall u v k a, edge_attrs clique8 u v k = Some a -> a = weight 1.
Proof.
  apply (edges_forall clique8 (fun a => a = weight 1) clique8_WF).
  let x := eval vm_compute in (edges_data clique8) in replace (edges_data clique8) with x by (vm_compute; reflexivity).
  repeat constructor.
Qed.

Theorem C73_terminates_refuted : exists g, WF g /\ g_dir g = false /\ all_weighted g (K "weight")
  /\ forall lib, (2 <= m_log lib 8)%Q ->
     forall start rate fuel, floatsam_threshold_learner fuel lib g start rate None (K "weight") = Err OutOfFuel.
Proof.
  exists clique8. split; [exact clique8_WF|]. split; [reflexivity|].
  assert (AW : all_weighted clique8 (K "weight")). { intros u v k a H. apply clique8_weights in H. rewrite H. discriminate. }
  split; [exact AW|]. intros lib HL start rate.
  assert (DL : drifter_order lib clique8 None = Ok (int_of (m_log lib 8))).
  { unfold drifter_order. replace (largest_connected_component_order clique8) with (Ok (Some 8)) by (vm_compute; reflexivity). reflexivity. }
  assert (NE : size clique8 <> 0) by (vm_compute; discriminate).
  apply drifter_order_spec in DL; [|exact clique8_WF|reflexivity|apply size_nodes; exact NE].
  assert (M : (2 <= int_of (m_log lib 8))%Z).
  { destruct (int_of_spec (m_log lib 8)) as [(_ & P & L & U)|(N & _)]; [|lra].
    assert (H : (inject_Z 2 < inject_Z (int_of (m_log lib 8) + 1))%Q) by (apply Qle_lt_trans with (m_log lib 8); assumption).
    rewrite <- Zlt_Qlt in H. lia. }
  apply (learner_diverges lib clique8 (K "weight") start rate None _ clique8_WF eq_refl AW NE DL).
  set (m := int_of (m_log lib 8)) in *. clearbody m. clear DL. intros k. unfold kept_at. set (t := value (reached lib start rate (S k))). clearbody t.
  intros H. destruct (Qlt_le_dec 1 t) as [L|L].
  - apply above_drifts in H; [lia|exact clique8_WF|reflexivity|exact AW|].
    intros u v k' a w E Ew. apply clique8_weights in E. subst a. inversion Ew; subst w. assumption.
  - assert (H0 : drifts clique8 (at_least (K "weight") 0) m).
    { eapply drifts_ext; [|exact H]. intros u v k' a E. apply clique8_weights in E. subst a. unfold at_least. cbn [stored_weight].
      change (stored_weight (K "weight") (weight 1)) with (Some (inject_Z 1)). apply eq_true_iff_eq. rewrite !Qle_bool_iff.
      split; intros; [discriminate|assumption]. }
    destruct (epoch_spec clique8 (K "weight") clique8_WF eq_refl AW m (NInt 0)) as (s & c & E & _ & _ & V).
    replace (second_largest_connected_component_order clique8 (Some (edge_filter (K "weight") (NInt 0)))) with (@Ok (option nat) None) in E by (vm_compute; reflexivity).
    inversion E; subst c. apply V in H0. discriminate.
Qed.
Print Assumptions C73_terminates_refuted.

(** a lone node with a self-loop: no second component ever *)
Theorem C73_single_node_diverges lib g start rate o attr :
  WF g -> g_dir g = false -> all_weighted g attr -> size g <> 0 -> order g = 1 ->
  forall fuel, floatsam_threshold_learner fuel lib g start rate o attr = Err OutOfFuel.
Proof.
  intros W D AW NE O. destruct (drifter_order lib g o) as [m|x] eqn:DO.
  - apply drifter_order_spec in DO; [|assumption|assumption|apply size_nodes; assumption].
    apply (learner_diverges lib g attr start rate o m W D AW NE DO). intros k (s & c & C & S & _).
    pose proof (drifts_half g W D _ _ (at_least_sym attr _) C c S) as H.
    destruct (orders_undirected g _ _ W D (filter_test_at_least g attr AW (reached lib start rate (Datatypes.S k))) (at_least_sym attr _)) as (s' & E & C').
    assert (s' = s) as -> by (eapply class_sizes_unique; eassumption).
    destruct (orders_partition g _ _ W (filter_test_at_least g attr AW (reached lib start rate (Datatypes.S k)))) as (s2 & E2 & P & _).
    rewrite E in E2. inversion E2; subst s2. apply second_greatest_In in S. apply P in S. lia.
  - exfalso. destruct o as [m|]; [discriminate|]. cbn in DO.
    destruct (largest_order_spec g W D) as [[N _]|(s & n & _ & _ & EL)]; [apply size_nodes in N; [contradiction|assumption]|].
    rewrite EL in DO. discriminate.
Qed.
Print Assumptions C73_single_node_diverges.

Example C73_ex :
  let loop := ex_graph false false [0]%Z [(0, 0, weight 1)]%Z in
  let pair := ex_graph false false [0; 1]%Z [(0, 1, weight 7)]%Z in
  wf loop = true /\ size loop = 1 /\ order loop = 1
  /\ floatsam_threshold_learner 50 log6 loop (NInt 0) (NInt 1) None (K "weight") = Err OutOfFuel
  (* weights up to 5, reached in 5 steps: only the first five thresholds matter for the order 2 *)
  /\ match floatsam_threshold_learner 50 log6 barbell (NInt 0) (NInt 1) (Some 2%Z) (K "weight") with Ok (t, _) => Some t | _ => None end = Some (NInt 1)
  (* order 6, 4 is more than half *)
  /\ floatsam_threshold_learner 50 log6 barbell (NInt 0) (NInt 1) (Some 4%Z) (K "weight") = Err OutOfFuel
  (* everything drifts in the end for the order 1 *)
  /\ match floatsam_threshold_learner 50 log6 pair (NInt 0) (NInt 1) (Some 1%Z) (K "weight") with Ok (t, _) => Some t | _ => None end = Some (NInt 7)
  /\ match floatsam_threshold_learner 50 log6 pair (NFloat 0) (NFloat 1) (Some 1%Z) (K "weight") with Ok (t, _) => Some t | _ => None end = Some (NFloat 7)
  /\ round64 1 = 1%Q /\ q_ltb 7 (1 * inject_Z (2 ^ 53 - 1)) = true
  (* stuck at the starting threshold, and returning it *)
  /\ n_add log6 (NFloat 9007199254740992) (NFloat 1) = NFloat 9007199254740992
  /\ match floatsam_threshold_learner 1 log6 pair (NFloat 9007199254740992) (NFloat 1) (Some 1%Z) (K "weight") with Ok (t, _) => Some t | _ => None end
     = Some (NFloat 9007199254740992).
Proof. vm_compute. repeat split; reflexivity. Qed.

(** ** C79 a negative learning rate does not reverse the logic *)

(** The docstring advises a negative rate when lower weights are better; the learner then should keep
    the edges of weight at most the threshold, but it still keeps those of weight at least the
    threshold. Here the edge of weight 2 is the first one to drop, which leaves two components
    of 2 nodes; instead the learner never ends. *)
Definition chain := ex_graph false false [0; 1; 2; 3]%Z [(0, 1, weight 1); (1, 2, weight 2); (2, 3, weight 1)]%Z.
Lemma chain_WF : WF chain. Proof. apply graph_WF. vm_compute. reflexivity. Qed.
Lemma chain_weights : forall u v k a, edge_attrs chain u v k = Some a -> a = weight 1 \/ a = weight 2.
Proof.
  apply (edges_forall chain (fun a => a = weight 1 \/ a = weight 2) chain_WF).
  let x := eval vm_compute in (edges_data chain) in replace (edges_data chain) with x by (vm_compute; reflexivity).
  repeat (apply Forall_cons; [cbn; auto|]); apply Forall_nil.
Qed.
Lemma chain_weighted : all_weighted chain (K "weight").
Proof. intros u v k a H. apply chain_weights in H as [-> | ->]; discriminate. Qed.

Theorem C79_negative_rate_refuted : exists g start rate m k, WF g /\ g_dir g = false /\ all_weighted g (K "weight") /\ (value rate < 0)%Q
  /\ forall lib, least (fun k => drifts g (at_most (K "weight") (value (reached lib start rate (S k)))) m) k
  /\ forall fuel, floatsam_threshold_learner fuel lib g start rate (Some m) (K "weight") = Err OutOfFuel.
Proof.
  exists chain, (NInt 3), (NInt (-1)), 2%Z, 1. split; [exact chain_WF|]. split; [reflexivity|]. split; [exact chain_weighted|].
  split; [reflexivity|]. intros lib.
  assert (SM : forall t, symmetric_test (at_most (K "weight") t)) by (intros t u v a; reflexivity).
  pose (f := fun t (u v : key) a => @Ok bool (at_most (K "weight") t u v a)).
  assert (FT : forall t, filter_test chain (Some (f t)) (at_most (K "weight") t)) by (intros t u v k a _; reflexivity).
  split; [split|].
  - rewrite reached_int. destruct (second_largest_spec chain _ _ chain_WF eq_refl (FT (inject_Z 1)) (SM _)) as (s & C & [[_ E]|(c & S & E)]).
    + vm_compute in E. discriminate.
    + exists s, c. split; [exact C|]. split; [exact S|]. vm_compute in E. inversion E; subst c. lia.
  - intros j Hj (s & c & C & S & L). assert (j = 0) as -> by lia. rewrite reached_int in C.
    destruct (second_largest_spec chain _ _ chain_WF eq_refl (FT (inject_Z 2)) (SM _)) as (s' & C' & [[LN E]|(c' & S' & E)]).
    + assert (s' = s) as -> by (eapply class_sizes_unique; eassumption). apply second_greatest_length in S. lia.
    + vm_compute in E. discriminate.
  - apply (learner_diverges lib chain (K "weight") (NInt 3) (NInt (-1)) (Some 2%Z) 2%Z chain_WF eq_refl chain_weighted); [discriminate|reflexivity|].
    intros [|k] H; unfold kept_at in H; rewrite reached_int in H.
    + destruct (epoch_spec chain (K "weight") chain_WF eq_refl chain_weighted 2 (NInt 2)) as (s & c & E & _ & _ & V).
      apply V in H. vm_compute in E. inversion E; subst c. discriminate.
    + cbn [value] in H. assert (T : (inject_Z (3 + Z.of_nat (S (S k)) * -1) <= 1)%Q) by (change 1%Q with (inject_Z 1); rewrite <- Zle_Qle; lia).
      set (t := inject_Z (3 + Z.of_nat (S (S k)) * -1)) in *. clearbody t.
      assert (H0 : drifts chain (at_least (K "weight") 1) 2).
      { eapply drifts_ext; [|exact H]. intros u v k' a E. unfold at_least.
        apply chain_weights in E as [-> | ->];
          [change (stored_weight (K "weight") (weight 1)) with (Some (inject_Z 1))|change (stored_weight (K "weight") (weight 2)) with (Some (inject_Z 2))];
          apply eq_true_iff_eq; rewrite !Qle_bool_iff; (split; intros; [discriminate|]); [assumption|].
        apply Qle_trans with 1%Q; [assumption|discriminate]. }
      destruct (epoch_spec chain (K "weight") chain_WF eq_refl chain_weighted 2 (NInt 1)) as (s & c & E & _ & _ & V).
      apply V in H0. vm_compute in E. inversion E; subst c. discriminate.
Qed.
Print Assumptions C79_negative_rate_refuted.

(** From a threshold at most every weight, a rate which is not positive gives the starting threshold at
    once or runs forever, whatever the rounding. *)
Theorem C79_useless_rate lib g start rate o m attr :
  WF g -> g_dir g = false -> all_weighted g attr -> size g <> 0 -> sound lib -> representable (m_round lib) (value start) ->
  (value rate <= 0)%Q -> drifter_limit (m_log lib) g o m ->
  (forall u v k a w, edge_attrs g u v k = Some a -> stored_weight attr a = Some w -> (value start <= w)%Q) ->
  (forall fuel, exists e, floatsam_threshold_learner (S fuel) lib g start rate o attr = Ok (start, [e]))
  \/ forall fuel, floatsam_threshold_learner fuel lib g start rate o attr = Err OutOfFuel.
Proof.
  intros W D AW NE [SR _] RS R DL H.
  assert (ST : settled lib rate start) by (unfold settled; destruct start, rate; auto).
  assert (A : forall k u v key a, edge_attrs g u v key = Some a -> kept_at lib start rate attr k u v a = true).
  { intros k u v key a E. unfold kept_at, at_least. destruct (stored_weight attr a) as [w|] eqn:Ew; [|destruct (AW _ _ _ _ E Ew)].
    apply (H _ _ _ _ _ E) in Ew. apply Qle_bool_iff. apply Qle_trans with (value start); [|assumption]. apply reached_down; assumption. }
  destruct (epoch_spec g attr W D AW m (n_add lib start rate)) as (s & c & E & _ & _ & V).
  destruct (verdict m c) eqn:Ec.
  - left. intros fuel. rewrite (learner_loop lib g attr start rate o m W D NE DL). cbn [floatsam_loop]. rewrite E. cbn [bind].
    fold (verdict m c). rewrite Ec. eauto.
  - right. apply (learner_diverges lib g attr start rate o m W D AW NE DL). intros k HD.
    enough (false = true) by discriminate. apply V. change (drifts g (kept_at lib start rate attr 1) m).
    eapply drifts_ext; [|exact HD]. intros u v key a Ea. rewrite (A _ _ _ _ _ Ea), (A _ _ _ _ _ Ea). reflexivity.
Qed.
Print Assumptions C79_useless_rate.

Example C79_ex :
  floatsam_threshold_learner 9 log6 chain (NInt 3) (NInt (-1)) (Some 2%Z) (K "weight") = Err OutOfFuel
  /\ floatsam_threshold_learner 9 log6 chain (NFloat 1) (NFloat (-1)) (Some 1%Z) (K "weight") = Err OutOfFuel
  /\ floatsam_threshold_learner 1 log6 (ex_graph false false [0; 1; 2]%Z [(0, 1, weight 1)]%Z) (NFloat 1) (NFloat (-1)) (Some 1%Z) (K "weight")
     = Ok (NFloat 1, [mkEpoch 1 1 (Some 1) (NFloat 0)]).
Proof. vm_compute. auto. Qed.

(** ** C80 the epochs passed to on_epoch *)
Theorem C80_epochs fuel lib g start rate o m attr t epochs :
  WF g -> g_dir g = false -> all_weighted g attr -> size g <> 0 -> drifter_limit (m_log lib) g o m ->
  floatsam_threshold_learner fuel lib g start rate o attr = Ok (t, epochs) ->
  t = reached lib start rate (List.length epochs - 1)
  /\ forall i e, nth_error epochs i = Some e ->
     e_nth e = S i /\ e_max_drifter_order e = m /\ e_threshold e = reached lib start rate (S i)
     /\ exists sizes, class_sizes (nodes g) (connected_by g (kept_at lib start rate attr (S i))) sizes
          /\ match e_drifter_order e with
             | Some c => second_greatest c sizes /\ ((m <= Z.of_nat c)%Z <-> S i = List.length epochs)
             | None => List.length sizes < 2 /\ S i <> List.length epochs
             end.
Proof.
  intros W D AW NE DL E. rewrite (learner_loop lib g attr start rate o m W D NE DL) in E.
  apply loop_ok in E as (k & A & B & [C1 C2] & R); [|assumption..]. rewrite B. split; [cbn; rewrite Nat.sub_0_r; assumption|].
  intros i e Hi. assert (Li : i < List.length epochs) by (apply nth_error_Some; congruence).
  apply R in Hi as (R1 & R2 & R3 & s & C & S). split; [assumption|]. split; [assumption|]. split; [assumption|]. exists s. split; [assumption|].
  destruct (e_drifter_order e) as [c|].
  - split; [assumption|]. split.
    + intros L. destruct (Nat.lt_ge_cases i k) as [H|H]; [|lia]. destruct (C2 i H). exists s, c. tauto.
    + intros H. assert (i = k) as -> by lia. destruct C1 as (s' & c' & C' & S' & L).
      assert (s' = s) as -> by (eapply class_sizes_unique; eassumption).
      assert (c' = c) as -> by (eapply second_greatest_unique; eassumption). assumption.
  - split; [assumption|]. intros H. assert (i = k) as -> by lia. destruct C1 as (s' & c' & C' & S' & L).
    assert (s' = s) as -> by (eapply class_sizes_unique; eassumption). apply second_greatest_length in S'. lia.
Qed.
Print Assumptions C80_epochs.

Example C80_ex : floatsam_threshold_learner 10 log6 barbell (NFloat 0) (NInt 1) (Some 1%Z) (K "weight")
  = Ok (NFloat 1, [mkEpoch 1 1 None (NFloat 1); mkEpoch 2 1 (Some 3) (NFloat 2)]).
Proof. vm_compute. reflexivity. Qed.

(** ** C87 weights which are missing or not numbers

    [e] is the exception due to some edge *)
Definition weight_error (g : graph) (attr : key) (e : exc) : Prop :=
  exists u v k a, edge_attrs g u v k = Some a
    /\ match dget attr a with None => e = KeyError | Some x => num_of x = None /\ e = TypeError end.

Lemma edge_filter_error attr t u v a e : edge_filter attr t u v a = Err e <->
  match dget attr a with None => e = KeyError | Some x => num_of x = None /\ e = TypeError end.
Proof.
  unfold edge_filter, as_number. destruct (dget attr a) as [x|]; [|intuition congruence].
  destruct x as [|[]|q|[]]; cbn; intuition congruence.
Qed.

(** the first epoch raises, in directed and undirected graphs, however many thresholds would be tried *)
Theorem C87_learner fuel lib g start rate o attr : WF g -> (exists e, weight_error g attr e) ->
  exists e, weight_error g attr e /\ floatsam_threshold_learner (S fuel) lib g start rate o attr = Err e.
Proof.
  intros W (e0 & H0). pose proof H0 as (u & v & k & a & Ha & _).
  assert (Hn : In u (nodes g)) by (apply edge_attrs_has in Ha; apply has_edge_nodes in Ha; tauto).
  unfold floatsam_threshold_learner.
  destruct (Nat.eqb_spec (size g) 0) as [Z|_].
  { exfalso. rewrite size_edges_data in Z. apply length_zero_iff_nil in Z.
    destruct (edge_attrs_edges_data g u v k a W Ha) as [I|[_ I]]; rewrite Z in I; destruct I. }
  assert (DO : exists m, drifter_order lib g o = Ok m).
  { destruct o as [m|]; [exists m; reflexivity|]. cbn. unfold largest_connected_component_order.
    destruct (Nat.eqb (order g) 0); [cbn; eauto|].
    assert (FT : filter_test g None (fun _ _ _ => true)) by (intros ? ? ?; reflexivity).
    destruct (orders_partition g None _ W FT) as (sizes & -> & _ & S). cbn [bind].
    destruct sizes as [|x l]; [|cbn [bind]; eauto]. exfalso. cbn in S. rewrite order_nodes in S.
    destruct (nodes g); [destruct Hn|discriminate]. }
  destruct DO as (m & ->). cbn [bind floatsam_loop].
  set (f := edge_filter attr (n_add lib start rate)).
  destruct (C87_filter_raises g f W) as (_ & A & B).
  destruct B as [_ (e & E)].
  { exists e0. destruct H0 as (u' & v' & k' & a' & H1 & H2). exists u', v', k', a'. split; [exact H1|]. apply edge_filter_error, H2. }
  rewrite E. cbn [bind]. exists e. split; [|reflexivity].
  apply A in E as (u' & v' & k' & a' & H1 & H2). exists u', v', k', a'. split; [exact H1|]. apply edge_filter_error in H2. exact H2.
Qed.
Print Assumptions C87_learner.

Example C87_ex_learner :
  let learn attr := floatsam_threshold_learner 1 lib64
    (ex_graph true false [] [(0, 1, weight 3); (1, 2, []); (2, 0, [(K "label", VStr "x"); (K "weight", VInt 2)])]%Z)
    (NInt 0) (NInt 1) (Some 2%Z) (K attr) in
  (learn "weight"%string, learn "label"%string) = (Err KeyError, Err KeyError).
Proof. vm_compute. reflexivity. Qed.
