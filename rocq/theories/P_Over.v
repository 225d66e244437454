(** * C98: floats do not overflow

    [round64] has no greatest float.  The functions of the library give the same results with any library of floats
    which agrees with binary64 up to 2^1023, whatever it does above, when weights are within the bounds stated. *)
From Coq Require Import List ZArith QArith Qabs Lia Lqa Bool.
From Verif Require Import PyBase PyNum NxGraph L_Base L_Nx M_UnionFind M_Graph S_Graph L_Graph M_Umst M_Disparity M_Sparse M_Learn M_Proj S_Partition S_Sparse S_Num S_Proj S_Over
  L_Num L_Proj3 L_Self2 L_Over L_Over2 L_Over3 L_Over4 L_Over5 P_Graph P_Sparse P_Learn P_Proj.
Import ListNotations.
Close Scope Q_scope.

(** ** libraries which differ from binary64 above 2^1023 *)
(** what is above is replaced by a very large number, like an infinity *)
Definition capped (x : Q) : Q := if Qle_bool (Qabs x) big then round64 x else inject_Z (2 ^ 1200).
Definition cap64 : libm := mkLib capped (m_pow lib64) sqrt64 (m_log lib64).
Lemma cap64_agree : agree lib64 cap64.
Proof.
  split; try reflexivity. intros x H. change (capped x = round64 x). unfold capped. apply Qle_bool_iff in H. rewrite H. reflexivity.
Qed.

Definition weights_fit (k l : Z) (attr : key) (g : graph) : bool :=
  forallb (fun e => match dget attr (snd e) with
    | Some w => match num_of w with
                | Some q => Qle_bool (Qabs q) (inject_Z (2 ^ k)) && (Qeq_bool q 0 || Qle_bool (1 / inject_Z (2 ^ l)) (Qabs q))
                | None => true end
    | None => true end) (edges_data g).
Lemma weights_fit_ok k l attr g : WF g -> weights_fit k l attr g = true -> weights_below k attr g /\ weights_above l attr g.
Proof.
  intros W F. unfold weights_fit in F. rewrite forallb_forall in F.
  assert (G : forall u v i a w q, edge_attrs g u v i = Some a -> dget attr a = Some w -> num_of w = Some q ->
    (Qabs q <= inject_Z (2 ^ k))%Q /\ ((q == 0)%Q \/ (1 / inject_Z (2 ^ l) <= Qabs q)%Q)).
  { intros u v i a w q E D N. assert (I : exists x y, In (x, y, a) (edges_data g)).
    { destruct (edge_attrs_edges_data g u v i a W E) as [I|[_ I]]; eauto. }
    destruct I as (x & y & I). specialize (F _ I). cbn [snd] in F. rewrite D, N in F. apply andb_true_iff in F as [F1 F2]. apply Qle_bool_iff in F1.
    split; [exact F1|]. apply orb_true_iff in F2 as [F2|F2]; [left; apply Qeq_bool_iff, F2|right; apply Qle_bool_iff, F2]. }
  split; intros u v i a w q E D N; apply (G u v i a w q E D N).
Qed.

(** ** spanning trees *)
Theorem C98_trees lib lib' pf g attr k : (forall x, m_round lib x = round64 x) -> agree lib lib' -> WF g -> (0 <= k <= 1022)%Z -> weights_below k attr g ->
  union_of_maximum_spanning_trees lib' pf g attr = union_of_maximum_spanning_trees lib pf g attr.
Proof. intros R A W K B. exact (trees_agree lib lib' R A k attr pf g K W B). Qed.
Print Assumptions C98_trees.

(** ** disparity *)
Theorem C98_disparity lib lib' g attr reverse k : (forall x, m_round lib x = round64 x) -> sound lib -> agree lib lib' ->
  WF g -> g_multi g = false -> g_dir g = false -> positive_weights attr g -> float_weights lib attr g -> (Z.of_nat (order g) < 2 ^ 53)%Z ->
  (0 <= k <= 970)%Z -> weights_below k attr g -> edge_disparity lib' g attr reverse = edge_disparity lib g attr reverse.
Proof. intros R S A W M D P F O K B. eapply (edge_disparity_agree lib lib' R A k); eassumption. Qed.
Print Assumptions C98_disparity.

(** ** sparsifiers: when connectivity is kept the attribute "weight" is read, as in C33 *)
Theorem C98_threshold lib lib' pf g t attr reverse keep k : (forall x, m_round lib x = round64 x) -> agree lib lib' -> WF g ->
  (keep = true -> (0 <= k <= 1022)%Z /\ weights_below k (K "weight") g) ->
  global_threshold_sparsification lib' pf g t attr reverse keep = global_threshold_sparsification lib pf g t attr reverse keep.
Proof. intros R A W B. unfold global_threshold_sparsification, global_threshold_sparsifier. apply (sparsify_agree lib lib' R A k); auto. Qed.
Print Assumptions C98_threshold.

Theorem C98_backbone lib lib' pf g alpha attr keep k : (forall x, m_round lib x = round64 x) -> sound lib -> agree lib lib' ->
  WF g -> g_multi g = false -> g_dir g = false -> positive_weights attr g -> float_weights lib attr g -> (Z.of_nat (order g) < 2 ^ 53)%Z ->
  (0 <= k <= 970)%Z -> weights_below k attr g -> (keep = true -> weights_below k (K "weight") g) ->
  multiscale_backbone lib' pf g alpha attr keep = multiscale_backbone lib pf g alpha attr keep.
Proof.
  intros R S A W M D P F O K B KB. unfold multiscale_backbone, multiscale_backbone_sparsifier. apply (sparsify_agree lib lib' R A k).
  - intros E. split; [lia|apply KB, E].
  - exact W.
  - unfold backbone_factory. rewrite (C98_disparity lib lib' g attr false k R S A W M D P F O K B). reflexivity.
Qed.
Print Assumptions C98_backbone.

(** ** the learner: fewer than 2^53 epochs *)
Theorem C98_learner lib lib' fuel g start rate o attr k : (forall x, m_round lib x = round64 x) -> agree lib lib' -> WF g ->
  (0 <= k <= 970)%Z -> (Z.of_nat fuel < 2 ^ 53)%Z -> (Z.of_nat (order g) <= 2 ^ 1023)%Z ->
  (Qabs (value start) <= inject_Z (2 ^ k))%Q -> (Qabs (value rate) <= inject_Z (2 ^ k))%Q ->
  floatsam_threshold_learner fuel lib' g start rate o attr = floatsam_threshold_learner fuel lib g start rate o attr.
Proof. intros R A W K F O HS HR. apply (learner_agree lib lib' R A k); assumption. Qed.
Print Assumptions C98_learner.

(** ** projections: only the metrics which read weights need bounds on them *)
Theorem C98_projection lib lib' g p attr wattr name chk thr : binary64 lib -> agree lib lib' -> WF g -> (Z.of_nat (order g) < 2 ^ 53)%Z ->
  (name = VStr "cosine" \/ name = VStr "dot_product" -> weights_below 200 wattr g) -> (name = VStr "cosine" -> weights_above 200 wattr g) ->
  monopartite_projection lib' g p attr wattr name chk thr = monopartite_projection lib g p attr wattr name chk thr.
Proof.
  intros (R & S & _) A W O B L. apply projection_agree; try assumption. intros m Hm.
  assert (N : (m = Cosine -> name = VStr "cosine") /\ (m = DotProduct -> name = VStr "dot_product")).
  { revert Hm. destruct name as [| | |[?|s|?]]; cbn [instantiate_online_metric]; try discriminate; [intros E; inversion E; split; discriminate|].
    repeat match goal with |- context [String.eqb s ?t] => destruct (String.eqb_spec s t) as [->|_]; [intros E; inversion E; split; (discriminate || reflexivity)|] end.
    discriminate. }
  destruct N as [N1 N2]. split.
  - intros Wm. apply B. destruct m; try discriminate Wm; auto.
  - intros Em. apply L, N1, Em.
Qed.
Print Assumptions C98_projection.

(** weights of self_similarity_projection are quotients which are at most 1 *)
Theorem C98_self_similarity lib lib' g d : agree lib lib' -> WF g -> g_dir g = true -> node_names g ->
  exists h out inn, self_similarity_projection lib' g d = Ok h /\ radii g d (nodes g) out inn
  /\ forall u v a, edge_attrs h u v (KInt 0) = Some a -> exists x i n, a = [(K "weight", VFloat x)]
        /\ has_size (fun t => view g u (out u) (inn u) t /\ view g v (out v) (inn v) t) i
        /\ has_size (fun t => (view g u (out u) (inn u) t \/ view g v (out v) (inn v) t) /\ ~ mutual u v t) n
        /\ 1 <= i <= n /\ (x == m_round lib (nq i / nq n))%Q.
Proof.
  intros A W D NN. destruct (whole lib' g W D d NN) as (h & out & inn & E & R & _ & _ & _ & _ & _ & _ & HA). exists h, out, inn. split; [exact E|]. split; [exact R|].
  intros u v a Ea. destruct (HA u v a Ea) as (x & i & n & -> & Si & Sn & Hin & X). exists x, i, n. split; [reflexivity|]. split; [exact Si|]. split; [exact Sn|]. split; [exact Hin|].
  rewrite X, (agree_round _ _ A); [reflexivity|]. assert (P : (0 < nq n)%Q) by (apply nq_pos; lia).
  assert (L : (0 <= nq i / nq n)%Q) by (apply Qle_shift_div_l; [exact P|]; rewrite Qmult_0_l; apply Qlt_le_weak, nq_pos; lia).
  rewrite Qabs_pos by exact L. apply Qle_trans with 1%Q; [|apply one_big]. apply Qle_shift_div_r; [exact P|]. rewrite Qmult_1_l. apply nq_le. lia.
Qed.
Print Assumptions C98_self_similarity.

(** ** the hypotheses are met, with a library which is not binary64 *)
Example C98_ex :
  agree lib64 cap64 /\ Qeq_bool (m_round cap64 (inject_Z (2 ^ 1100))) (m_round lib64 (inject_Z (2 ^ 1100))) = false
  /\ weights_fit 3 10 (K "weight") tenths = true /\ weights_fit 200 200 (K "weight") decimals = true
  /\ edge_disparity cap64 tenths (K "weight") false = edge_disparity lib64 tenths (K "weight") false
  /\ reduced (shown (monopartite_projection cap64 decimals (ByCollection false [KInt 0; KInt 1]) (K "part") (K "weight") (VStr "cosine") true VNone)) =
     Some ([(KInt 0, []); (KInt 1, [])], [(KInt 0, KInt 1, wq (8946000680678457 # 9007199254740992))])
  /\ floatsam_threshold_learner 10 cap64 barbell (NFloat 0) (NInt 1) (Some 1%Z) (K "weight") = floatsam_threshold_learner 10 lib64 barbell (NFloat 0) (NInt 1) (Some 1%Z) (K "weight").
Proof. split; [exact cap64_agree|]. do 5 (split; [vm_compute; reflexivity|]). vm_compute. reflexivity. Qed.
Example C98_ex_hyps : weights_below 3 (K "weight") tenths /\ weights_below 200 (K "weight") decimals /\ weights_above 200 (K "weight") decimals.
Proof.
  assert (W1 : WF tenths) by (apply graph_WF; vm_compute; reflexivity). assert (W2 : WF decimals) by (apply graph_WF; vm_compute; reflexivity).
  split; [apply (proj1 (weights_fit_ok 3 10 (K "weight") tenths W1 ltac:(vm_compute; reflexivity)))|].
  exact (weights_fit_ok 200 200 (K "weight") decimals W2 ltac:(vm_compute; reflexivity)).
Qed.

(** ** without bounds the claim is false: the degree of the middle of a star of three edges of weight 2^1023 is above all floats *)
Definition huge : attrs := [(K "weight", VFloat big)].
Definition huge_star : graph := ex_graph false false [0; 1; 2; 3]%Z [(0, 1, huge); (0, 2, huge); (0, 3, huge)]%Z.
Theorem C98_any_weights_refuted : exists g lib', agree lib64 lib' /\ WF g /\ g_multi g = false /\ g_dir g = false /\ order g = 4
  /\ positive_weights (K "weight") g /\ float_weights lib64 (K "weight") g /\ weights_below 1023 (K "weight") g
  /\ edge_disparity lib' g (K "weight") false <> edge_disparity lib64 g (K "weight") false.
Proof.
  exists huge_star, cap64. assert (W : WF huge_star) by (apply graph_WF; vm_compute; reflexivity).
  assert (ALL : forall u v a, In (u, v, a) (edges_data huge_star) -> a = huge).
  { intros u v a I. assert (F : map snd (edges_data huge_star) = [huge; huge; huge]) by (vm_compute; reflexivity).
    apply (in_map snd) in I. rewrite F in I. cbn [snd In] in I. intuition congruence. }
  split; [exact cap64_agree|]. split; [exact W|]. split; [reflexivity|]. split; [reflexivity|]. split; [reflexivity|]. split; [|split; [|split]].
  - intros u v a I. rewrite (ALL u v a I). exists big. split; [reflexivity|vm_compute; reflexivity].
  - intros u v a w I E. rewrite (ALL u v a I) in E. inversion E; subst. intros q Eq. inversion Eq; subst. change (representable round64 big). apply rep_power. lia.
  - exact (proj1 (weights_fit_ok 1023 0 (K "weight") huge_star W ltac:(vm_compute; reflexivity))).
  - vm_compute. discriminate.
Qed.
Print Assumptions C98_any_weights_refuted.
