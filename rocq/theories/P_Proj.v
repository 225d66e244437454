(** * C43-C50, C78, C88-C90: projections *)
From Coq Require Import List ZArith Lia Bool QArith Qminmax Sorted.
From Verif Require Import PyBase PyNum NxGraph L_Base L_Nx L_Nx2 L_Graph S_Partition L_Partition S_Graph S_Sparse M_Proj S_Num L_Num L_Sqrt S_Proj L_Proj L_Proj2 L_Proj3
  L_Comp L_Proj4 L_Proj5 L_Proj7 L_Proj8 L_Proj9 L_Accept L_Proj6 L_Bfs L_Self L_Self2 P_Graph.
Import ListNotations.
Close Scope Q_scope.

(** ** a library for the examples: square roots rounded down to (about) six decimals *)
Definition rounded_sqrt (q : Q) : Q :=
  let r := Qred q in (Z.sqrt (Qnum r * Zpos (Qden r) * 10 ^ 12) # (Qden r * 1000000))%Q.
Definition rounded : libm := mkLib (fun x => x) Qpower rounded_sqrt (fun q => Qred q - 1)%Q.

Lemma rounded_bounds q : (0 < q)%Q -> let r := Qred q in let n := (Qnum r * Zpos (Qden r) * 10 ^ 12)%Z in
  (10 ^ 12 <= n /\ Z.sqrt n * Z.sqrt n <= n < (Z.sqrt n + 1) * (Z.sqrt n + 1) /\ 10 ^ 6 <= Z.sqrt n)%Z.
Proof.
  intros H. cbn zeta. set (r := Qred q). assert (P : (0 < r)%Q) by (unfold r; rewrite Qred_correct; assumption).
  unfold Qlt in P. cbn [Qnum Qden] in P. assert (1 <= Qnum r)%Z by lia. assert (1 <= Qnum r * Zpos (Qden r))%Z by nia. set (n := (Qnum r * Zpos (Qden r) * 10 ^ 12)%Z).
  assert (10 ^ 12 <= n)%Z by (unfold n; lia). split; [assumption|].
  pose proof (Z.sqrt_spec n ltac:(lia)) as S. unfold Z.succ in S. cbv zeta in S. split; [exact S|]. pose proof (Z.sqrt_le_mono (10 ^ 12) n ltac:(lia)) as L. exact L.
Qed.

Lemma rounded_exact : exact rounded.
Proof. split; intros; reflexivity. Qed.

Lemma rounded_ok : lib_ok rounded.
Proof.
  split; [exact identity_rounding|split; [|split; [|split]]].
  - intros x y E. cbn. unfold rounded_sqrt. rewrite (Qred_complete x y E). reflexivity.
  - intros x y E. cbn. rewrite (Qred_complete x y E). reflexivity.
  - intros x _ P. destruct (rounded_bounds x P) as (_ & _ & H). cbn [m_sqrt rounded]. unfold rounded_sqrt, Qlt. cbn [Qnum Qden]. lia.
  - intros x _ P. cbn [m_sqrt rounded]. unfold rounded_sqrt. rewrite <- (Qred_correct x) in P. set (r := Qred x) in *. destruct r as [a d].
    unfold Qle in *. cbn [Qnum Qden] in *. rewrite Pos2Z.inj_mul.
    assert (H : (Z.sqrt (Zpos d * 1000000 * (Zpos d * 1000000)) <= Z.sqrt (a * Zpos d * 10 ^ 12))%Z) by (apply Z.sqrt_le_mono; nia).
    rewrite Z.sqrt_square in H by lia. lia.
Qed.

Lemma rounded_precise q : (0 < q)%Q -> ((500000 # 500001) * q <= m_sqrt rounded q * m_sqrt rounded q)%Q.
Proof.
  intros P. destruct (rounded_bounds q P) as (H1 & H2 & H3). cbn [m_sqrt rounded]. unfold rounded_sqrt. rewrite <- (Qred_correct q) at 1.
  set (r := Qred q) in *. set (s := Z.sqrt _) in *. destruct r as [a d]. cbn [Qnum Qden] in *.
  unfold Qle. cbn [Qnum Qden Qmult]. rewrite !Pos2Z.inj_mul. clear P. 
  assert (X : (500000 * (a * Zpos d * 10 ^ 12) <= s * s * 500001)%Z) by nia.
  clearbody s. clear H1 H2 H3. assert (0 < Zpos d)%Z by lia. generalize dependent (Zpos d). intros z X Hz.
  replace (500000 * a * (z * 1000000 * (z * 1000000)))%Z with (500000 * (a * z * 10 ^ 12) * z)%Z by ring.
  replace (s * s * (500001 * z))%Z with (s * s * 500001 * z)%Z by ring. apply Z.mul_le_mono_nonneg_r; [lia|exact X].
Qed.

(** ** C43 the nodes *)
Theorem C43_nodes lib g p attr wattr name chk thr h : WF g -> usable p = true -> order g <> 0 ->
  monopartite_projection lib g p attr wattr name chk thr = Ok h ->
  WF h /\ g_dir h = false /\ g_multi h = false /\ g_attr h = []
  /\ (exists n, kept g p attr n) /\ (exists f, nodes h = filter f (nodes g))
  /\ (forall n, In n (nodes h) <-> kept g p attr n)
  /\ forall n a b k, node_data g n = Some a -> node_data h n = Some b -> dget k b = if key_eqb k attr then None else dget k a.
Proof.
  intros W U O E. destruct (projection_nodes lib g p attr wattr chk W name thr h O E) as (Wh & Dh & Mh & Ah & Gh & NE).
  assert (ND : forall n, node_data h n = match node_data g n with Some a => if selected p attr (n, a) then Some (dremove [attr] a) else None | None => None end).
  { intros n. unfold node_data. rewrite Gh. apply stripped_dget. apply (wf_nodes g W). }
  split; [assumption|]. split; [assumption|]. split; [assumption|]. split; [assumption|]. split; [|split; [|split]].
  - destruct (filter (selected p attr) (g_nodes g)) as [|[n a] l] eqn:F; [congruence|].
    assert (I : In (n, a) (filter (selected p attr) (g_nodes g))) by (rewrite F; left; reflexivity). apply filter_In in I as [I S].
    exists n. apply kept_In; [assumption|assumption|]. eauto.
  - exists (fun n => match node_data g n with Some a => selected p attr (n, a) | None => false end).
    unfold nodes. rewrite Gh, dkeys_stripped. unfold dkeys. rewrite filter_map. f_equal. apply filter_ext_in'. intros [n a] I. cbn [fst].
    unfold node_data. rewrite (dget_In n a (g_nodes g) (wf_nodes g W) I). reflexivity.
  - intros n. rewrite (kept_In g p attr n W U). split.
    + intros I. apply node_data_In in I as (b & Eb). rewrite ND in Eb. destruct (node_data g n) as [a|] eqn:Ea; [|discriminate].
      destruct (selected p attr (n, a)) eqn:S; [|discriminate]. exists a. split; [apply dget_Some_In; assumption|assumption].
    + intros (a & I & S). apply (node_data_Some_In h n (dremove [attr] a)). rewrite ND. unfold node_data.
      rewrite (dget_In n a (g_nodes g) (wf_nodes g W) I). unfold selected. cbn [fst snd]. rewrite S. reflexivity.
  - intros n a b k Ea Eb. rewrite ND, Ea in Eb. destruct (selected p attr (n, a)); [|discriminate]. inversion Eb; subst b.
    rewrite dget_dremove. cbn [mem existsb]. rewrite orb_false_r. reflexivity.
Qed.
Print Assumptions C43_nodes.

Theorem C43_empty_part lib g p attr wattr name chk thr : WF g -> usable p = true -> order g <> 0 -> (forall n, ~ kept g p attr n) ->
  monopartite_projection lib g p attr wattr name chk thr = Err TypeError.
Proof.
  intros W U O E. apply empty_part_raises; [assumption|assumption|]. destruct (filter (selected p attr) (g_nodes g)) as [|[n a] l] eqn:F; [reflexivity|].
  exfalso. assert (I : In (n, a) (filter (selected p attr) (g_nodes g))) by (rewrite F; left; reflexivity). apply filter_In in I as [I S].
  apply (E n). apply kept_In; [assumption|assumption|]. eauto.
Qed.
Print Assumptions C43_empty_part.

Theorem C43_null_graph lib g p attr wattr name m chk : order g = 0 -> In (name, m) metric_names ->
  monopartite_projection lib g p attr wattr name chk VNone = Ok (empty_graph false false).
Proof. intros O N. unfold monopartite_projection. rewrite (proj1 (names_metric _ _) N). cbn [bind check_threshold]. rewrite O. reflexivity. Qed.
Print Assumptions C43_null_graph.

(** accounts 0 to 3 and 7 with colors 4 to 6; account 7 has no color *)
Definition account (l : list Z) (g : graph) : graph :=
  fold_left (fun g n => add_node g (KInt n) [(K "part", VStr "account"); (K "name", VKey (KInt n))]) l g.
Definition colors : graph :=
  fold_left (fun g e => add_edge g (KInt (fst (fst e))) (KInt (snd (fst e))) (snd e))
    [(0, 4, weight 1); (0, 5, weight 3); (1, 5, weight 2); (1, 6, weight 4); (2, 4, weight 2); (2, 5, weight 7); (3, 6, [])]%Z
    (account [0; 1; 2; 3; 7]%Z (ex_graph false false [4; 5; 6]%Z [])).
Definition accounts : part := ByValue (VStr "account").
Definition projected (name thr : val) : res graph := monopartite_projection rounded colors accounts (K "part") (K "weight") name true thr.
Definition shown (r : res graph) : option (list (key * attrs) * list (key * key * attrs)) :=
  match r with Ok h => Some (g_nodes h, edges_data h) | Err _ => None end.
Definition named (n : Z) : key * attrs := (KInt n, [(K "name", VKey (KInt n))]).
Definition wq (q : Q) : attrs := [(K "weight", VFloat q)].
Definition wz (z : Z) : attrs := [(K "weight", VInt z)].
(** the same with reduced fractions *)
Definition reduced (o : option (list (key * attrs) * list (key * key * attrs))) : option (list (key * attrs) * list (key * key * attrs)) :=
  match o with
  | Some (ns, es) => Some (ns, map (fun e => (fst e, map (fun kv => (fst kv, match snd kv with VFloat q => VFloat (Qred q) | v => v end)) (snd e))) es)
  | None => None
  end.

Example C43_ex : wf colors = true /\ usable accounts = true
  /\ reduced (shown (projected VNone VNone)) =
     Some ([named 0; named 1; named 2; named 3; named 7],
           [(KInt 0, KInt 2, wz 2); (KInt 0, KInt 1, wz 1); (KInt 1, KInt 2, wz 1); (KInt 1, KInt 3, wz 1)])
  /\ monopartite_projection rounded colors (ByCollection false [KInt 9]) (K "part") (K "weight") VNone true VNone = Err TypeError.
Proof. vm_compute. auto. Qed.

(** false for collections which are hashable: a tuple or a frozenset of nodes is taken for a part name *)
Theorem C43_hashable_collection_refuted : exists g p, WF g /\ g_dir g = false /\ g_multi g = false /\ bipartite g p (K "part")
  /\ (exists n, kept g p (K "part") n)
  /\ monopartite_projection rounded g p (K "part") (K "weight") VNone true VNone = Err TypeError.
Proof.
  exists (ex_graph false false [0; 1; 2]%Z (plain [(0, 1); (1, 2)]%Z)), (ByCollection true [KInt 0; KInt 2]).
  set (g := ex_graph _ _ _ _). assert (W : WF g) by (apply graph_WF; reflexivity).
  split; [exact W|]. split; [reflexivity|]. split; [reflexivity|]. split; [|split].
  - assert (Kn : forall n, kept g (ByCollection true [KInt 0; KInt 2]) (K "part") n <-> n = KInt 0 \/ n = KInt 2).
    { intros n. split.
      - intros (a & _ & I). cbn in I. intuition congruence.
      - intros [->| ->]; exists []; (split; [reflexivity|cbn; auto]). }
    intros u v H. rewrite !Kn. apply has_edge_edges in H; [|exact W]. vm_compute in H.
    intuition (try congruence; repeat match goal with E : (_, _) = (_, _) |- _ => inversion E; subst; clear E end; try congruence).
  - exists (KInt 0), []. split; [reflexivity|left; reflexivity].
  - vm_compute. reflexivity.
Qed.
Print Assumptions C43_hashable_collection_refuted.

(** ** C44 the links and their weights *)

(** Full statement: no hypothesis on the weights.  For the cosine metric it needs, for every kept node with neighbours,
    some weight which is not 0.  Sums of products of weights must not be rounded, which is so when weights are ints. *)
Theorem C44_links_partial lib g p attr wattr chk name m : WF g -> g_dir g = false -> g_multi g = false -> lib_ok lib ->
  usable p = true -> In (name, m) metric_names -> bipartite g p attr -> (exists n, kept g p attr n) -> comparable_part g p attr ->
  part_names g p attr -> (chk = true -> unmarked g p attr) -> (weighted m = true -> numeric wattr g) ->
  (m = Cosine -> forall u t, kept g p attr u -> has_edge g u t = true -> exists t', ~ (bond wattr g u t' == 0)%Q) ->
  (weighted m = true -> exact_sums lib wattr g) -> (m = PMI -> (0 < m_round lib (1 / (nq (order g) * nq (order g))))%Q) ->
  exists h, monopartite_projection lib g p attr wattr name chk VNone = Ok h
  /\ (forall u v, has_edge h u v = true <-> kept g p attr u /\ kept g p attr v /\ u <> v /\ exists t, shared g u v t)
  /\ forall u v a, edge_attrs h u v (KInt 0) = Some a -> exists w x, a = [(K "weight", w)] /\ stored_as m w x /\ similarity lib m wattr g u v x.
Proof.
  intros W D M L U Hn B Kn C PN UM NU CZ XS PO.
  destruct (projection_total lib g p attr wattr chk W D M L name m XS PO U Hn B Kn C PN UM NU CZ) as (h & E & H).
  assert (O : order g <> 0).
  { destruct Kn as (n & a & En & _). apply node_data_Some_In in En. unfold order, nodes, dkeys in *. destruct (g_nodes g); [destruct En|discriminate]. }
  destruct (C43_nodes lib g p attr wattr name chk VNone h W U O E) as (Wh & Dh & Mh & _ & _ & _ & Nh & _).
  exists h. split; [assumption|]. split.
  - intros u v. split.
    + intros He. destruct (has_edge_attrs h u v Wh Mh He) as (a & Ea).
      destruct (projection_weights lib g p attr wattr chk W D M L name VNone m h u v a XS Hn O E Ea) as (x & _ & _ & _ & S & N).
      unfold has_edge in He. destruct (edge_data h u v) as [kd|] eqn:Ed; [|discriminate]. apply edge_data_nodes in Ed as [Iu Iv]; [|assumption].
      split; [apply Nh; assumption|]. split; [apply Nh; assumption|]. auto.
    + intros (Ku & Kv & N & t & S). eapply H; eassumption.
  - intros u v a Ea. destruct (projection_weights lib g p attr wattr chk W D M L name VNone m h u v a XS Hn O E Ea) as (x & -> & S & ST & _).
    exists (val_of x), (value x). split; [reflexivity|]. split; assumption.
Qed.
Print Assumptions C44_links_partial.

(** with binary64 numbers and any weights: the sums of products of float weights are those which Python computes.  For the cosine
    metric, every kept node with neighbours needs some weight whose square does not round to 0. *)
Theorem C44_binary64 lib g p attr wattr chk name m : WF g -> g_dir g = false -> g_multi g = false -> binary64 lib ->
  usable p = true -> In (name, m) metric_names -> bipartite g p attr -> (exists n, kept g p attr n) -> comparable_part g p attr ->
  part_names g p attr -> (chk = true -> unmarked g p attr) -> (weighted m = true -> numeric wattr g) ->
  (m = Cosine -> forall u t, kept g p attr u -> has_edge g u t = true ->
     exists t', (0 < value (n_mul lib (bond_number wattr g u t') (bond_number wattr g u t')))%Q) ->
  (m = PMI -> Z.of_nat (order g) <= 2 ^ 500)%Z ->
  exists h, monopartite_projection lib g p attr wattr name chk VNone = Ok h
  /\ (forall u v, has_edge h u v = true <-> kept g p attr u /\ kept g p attr v /\ u <> v /\ exists t, shared g u v t)
  /\ forall u v a, edge_attrs h u v (KInt 0) = Some a -> exists w x, a = [(K "weight", w)] /\ stored_as m w x /\ python_similarity lib m wattr g u v x.
Proof.
  intros W D M B64 U Hn B Kn C PN UM NU CZ PO. pose proof (binary64_ok lib B64) as L.
  assert (O : order g <> 0).
  { destruct Kn as (n & a & En & _). apply node_data_Some_In in En. unfold order, nodes, dkeys in *. destruct (g_nodes g); [destruct En|discriminate]. }
  destruct (projection_floats lib g p attr wattr chk W D M name m L) as (h & E & H); try assumption.
  - pose proof B64 as (BR & BS & _). intros x y Rx Ry Px Py. rewrite BR, !BS. unfold representable in *. rewrite BR in Rx, Ry. apply roots64; assumption.
  - intros Hm. specialize (PO Hm). pose proof B64 as (BR & _). rewrite BR. apply round64_pos.
    assert (P : 1 <= order g) by lia.
    apply nq_pos in P. apply inject_le in PO. fold (nq (order g)) in PO. revert P PO. generalize (nq (order g)). intros q P PO.
    apply Qle_shift_div_l; [apply Qmult_lt_0_compat; assumption|].
    apply Qle_trans with (unit_of 0 * (inject_Z (2 ^ 500) * inject_Z (2 ^ 500)))%Q; [|vm_compute; discriminate].
    apply Qmult_le_l; [apply unit_pos; lia|]. apply Qmult_le_compat_nonneg; (split; [apply Qlt_le_weak|]; assumption).
  - destruct (C43_nodes lib g p attr wattr name chk VNone h W U O E) as (Wh & Dh & Mh & _ & _ & _ & Nh & _).
    exists h. split; [assumption|]. split.
    + intros u v. split.
      * intros He. destruct (has_edge_attrs h u v Wh Mh He) as (a & Ea).
        destruct (projection_python lib g p attr wattr chk W D M name VNone m h u v a L Hn O E Ea) as (x & _ & _ & _ & S & N).
        unfold has_edge in He. destruct (edge_data h u v) as [kd|] eqn:Ed; [|discriminate]. apply edge_data_nodes in Ed as [Iu Iv]; [|assumption].
        split; [apply Nh; assumption|]. split; [apply Nh; assumption|]. auto.
      * intros (Ku & Kv & N & t & S). eapply H; eassumption.
    + intros u v a Ea. destruct (projection_python lib g p attr wattr chk W D M name VNone m h u v a L Hn O E Ea) as (x & -> & S & ST & _).
      exists (val_of x), (value x). split; [reflexivity|]. split; assumption.
Qed.
Print Assumptions C44_binary64.

Lemma colors_WF : WF colors. Proof. apply graph_WF; reflexivity. Qed.
Lemma colors_kept n : kept colors accounts (K "part") n <-> In n (ks [0; 1; 2; 3; 7]%Z).
Proof.
  rewrite (kept_In colors accounts (K "part") n colors_WF eq_refl). split.
  - intros (a & I & P). vm_compute in I. repeat (destruct I as [I|I]; [inversion I; subst; clear I; vm_compute in P; try discriminate; cbn [ks map In]; tauto|]). contradiction.
  - intros I. cbn in I. destruct I as [<-|[<-|[<-|[<-|[<-|[]]]]]]; (eexists; split; [vm_compute; eauto 10|reflexivity]).
Qed.
Lemma colors_edges u v : has_edge colors u v = true -> In (u, v) (edges colors) \/ In (v, u) (edges colors).
Proof. intros H. apply (proj1 (has_edge_edges colors u v colors_WF)) in H. destruct H as [H|[_ H]]; [left|right]; exact H. Qed.
Ltac cases H := cbn [In] in H; repeat match type of H with _ \/ _ => destruct H as [H|H] end; try contradiction; inversion H; subst; clear H.
Ltac listed H t := let x := eval vm_compute in t in replace t with x in H by (vm_compute; reflexivity); cases H.
Ltac other_keys := repeat match goal with |- context [?a = ?b] => let N := fresh in assert (N : (a = b) <-> False) by (split; [discriminate|contradiction]); rewrite N; clear N
  | |- context [?a = ?a] => let N := fresh in assert (N : (a = a) <-> True) by (split; auto); rewrite N; clear N end; tauto.

Example C44_ex : bipartite colors accounts (K "part") /\ comparable_part colors accounts (K "part") /\ part_names colors accounts (K "part")
  /\ unmarked colors accounts (K "part") /\ numeric (K "weight") colors
  /\ (forall u t, kept colors accounts (K "part") u -> has_edge colors u t = true -> exists t', ~ (bond (K "weight") colors u t' == 0)%Q)
  /\ reduced (shown (projected (VStr "jaccard") VNone)) =
     Some ([named 0; named 1; named 2; named 3; named 7],
           [(KInt 0, KInt 2, wq 1); (KInt 0, KInt 1, wq (1 # 3)); (KInt 1, KInt 2, wq (1 # 3)); (KInt 1, KInt 3, wq (1 # 2))])
  /\ reduced (shown (projected (VStr "dot_product") VNone)) =
     Some ([named 0; named 1; named 2; named 3; named 7],
           [(KInt 0, KInt 2, wz 23); (KInt 0, KInt 1, wz 6); (KInt 1, KInt 2, wz 14); (KInt 1, KInt 3, wz 4)])
  /\ reduced (shown (projected (VStr "overlap") VNone)) =
     Some ([named 0; named 1; named 2; named 3; named 7],
           [(KInt 0, KInt 2, wq 1); (KInt 0, KInt 1, wq (1 # 2)); (KInt 1, KInt 2, wq (1 # 2)); (KInt 1, KInt 3, wq 1)]).
Proof.
  split; [|split; [|split; [|split; [|split; [|split; [|split; [|split]]]]]]].
  - intros u v H. rewrite !colors_kept. apply colors_edges in H. destruct H as [H|H]; listed H (edges colors); cbn [ks map In]; other_keys.
  - left. intros n H. apply colors_kept in H. unfold ks in H. apply in_map_iff in H as (z & <- & _). eauto.
  - intros n a k E _ I N. apply dget_Some_In in E. listed E (g_nodes colors); cbn in I;
      intuition (subst; try congruence; try (eexists; reflexivity)); cbn in *; intuition discriminate.
  - intros v Ev u t a _ E K0. inversion Ev; subst v. clear Ev. apply edge_attrs_keys in E; [|exact colors_WF].
    destruct E as [E|E]; [|destruct E as [_ E]]; listed E (edges_keys colors); cbn in K0; destruct K0 as [(w & K0 & _)|[_ K0]]; discriminate.
  - intros u t a w E Dw. apply edge_attrs_keys in E; [|exact colors_WF].
    destruct E as [E|E]; [|destruct E as [_ E]]; listed E (edges_keys colors); vm_compute in Dw; inversion Dw; discriminate.
  - intros u t _ H. exists t. apply colors_edges in H. destruct H as [H|H]; listed H (edges colors); vm_compute; discriminate.
  - vm_compute. reflexivity.
  - vm_compute. reflexivity.
  - vm_compute. reflexivity.
Qed.

(** false for the cosine metric when all the weights of a node are 0: its norm is not stored, and the link is missing
    or looking up the norm raises KeyError, depending on the order of the nodes *)
Definition zeros (a b : Z) : graph := ex_graph false false [0; 1; 2]%Z [(0, 1, weight a); (1, 2, weight b)]%Z.
Definition ends : part := ByCollection false [KInt 0; KInt 2].
Lemma zeros_fine a b : WF (zeros a b) /\ bipartite (zeros a b) ends (K "part") /\ numeric (K "weight") (zeros a b).
Proof.
  assert (W : WF (zeros a b)) by (apply graph_WF; reflexivity). split; [exact W|]. split.
  - assert (Kn : forall n, kept (zeros a b) ends (K "part") n <-> n = KInt 0 \/ n = KInt 2).
    { intros n. split.
      - intros (c & _ & I). cbn in I. intuition congruence.
      - intros [->| ->]; exists []; (split; [reflexivity|cbn; auto]). }
    intros u v H. rewrite !Kn. apply has_edge_edges in H; [|exact W]. destruct H as [H|[_ H]]; listed H (edges (zeros a b)); intuition congruence.
  - intros u t c w E Dw. apply edge_attrs_keys in E; [|exact W].
    destruct E as [E|E]; [|destruct E as [_ E]]; listed E (edges_keys (zeros a b)); vm_compute in Dw; inversion Dw; discriminate.
Qed.

Theorem C44_zero_weights_refuted : exists g p h, WF g /\ bipartite g p (K "part") /\ numeric (K "weight") g
  /\ kept g p (K "part") (KInt 0) /\ kept g p (K "part") (KInt 2) /\ shared g (KInt 0) (KInt 2) (KInt 1)
  /\ monopartite_projection rounded g p (K "part") (K "weight") (VStr "cosine") true VNone = Ok h /\ has_edge h (KInt 0) (KInt 2) = false.
Proof.
  destruct (zeros_fine 0 3) as (W & B & N). exists (zeros 0 3), ends. eexists. split; [exact W|]. split; [exact B|]. split; [exact N|].
  split; [exists []; split; [reflexivity|cbn; auto]|]. split; [exists []; split; [reflexivity|cbn; auto]|]. split; [split; reflexivity|].
  split; vm_compute; reflexivity.
Qed.
Print Assumptions C44_zero_weights_refuted.

Theorem C44_zero_weights_raise_refuted : exists g p, WF g /\ bipartite g p (K "part") /\ numeric (K "weight") g
  /\ kept g p (K "part") (KInt 0) /\ kept g p (K "part") (KInt 2) /\ shared g (KInt 0) (KInt 2) (KInt 1)
  /\ monopartite_projection rounded g p (K "part") (K "weight") (VStr "cosine") true VNone = Err KeyError.
Proof.
  destruct (zeros_fine 3 0) as (W & B & N). exists (zeros 3 0), ends. split; [exact W|]. split; [exact B|]. split; [exact N|].
  split; [exists []; split; [reflexivity|cbn; auto]|]. split; [exists []; split; [reflexivity|cbn; auto]|]. split; [split; reflexivity|].
  vm_compute; reflexivity.
Qed.
Print Assumptions C44_zero_weights_raise_refuted.

(** with binary64 numbers the square of a weight can vanish although the weight does not *)
Theorem C44_underflow_refuted : exists g p w, WF g /\ bipartite g p (K "part") /\ numeric (K "weight") g
  /\ kept g p (K "part") (KInt 0) /\ kept g p (K "part") (KInt 2)
  /\ edge_attrs g (KInt 1) (KInt 2) (KInt 0) = Some [(K "weight", VFloat w)] /\ (0 < w)%Q /\ float_ok lib64 (VFloat w)
  /\ shared g (KInt 0) (KInt 2) (KInt 1)
  /\ monopartite_projection lib64 g p (K "part") (K "weight") (VStr "cosine") true VNone = Err KeyError.
Proof.
  set (w := Qred (unit_of 474)). set (g := ex_graph false false [0; 1; 2]%Z [(0, 1, weight 3); (1, 2, [(K "weight", VFloat w)])]%Z).
  assert (W : WF g) by (apply graph_WF; reflexivity). exists g, ends, w. split; [exact W|]. split; [|split].
  - assert (Kn : forall n, kept g ends (K "part") n <-> n = KInt 0 \/ n = KInt 2).
    { intros n. split.
      - intros (c & _ & I). cbn in I. intuition congruence.
      - intros [->| ->]; exists []; (split; [reflexivity|cbn; auto]). }
    intros u v H. rewrite !Kn. apply has_edge_edges in H; [|exact W]. destruct H as [H|[_ H]]; listed H (edges g); intuition congruence.
  - intros u t c q E Dw. apply edge_attrs_keys in E; [|exact W].
    destruct E as [E|E]; [|destruct E as [_ E]]; listed E (edges_keys g); vm_compute in Dw; inversion Dw; discriminate.
  - split; [exists []; split; [reflexivity|cbn; auto]|]. split; [exists []; split; [reflexivity|cbn; auto]|]. split; [reflexivity|].
    split; [vm_compute; reflexivity|]. split; [|split; [split; reflexivity|vm_compute; reflexivity]].
    intros q Eq. inversion Eq; subst q. vm_compute. reflexivity.
Qed.
Print Assumptions C44_underflow_refuted.

(** what happens for every simple undirected bipartite graph and metric: KeyError when a node whose norm vanishes shares a
    neighbour with a smaller one whose norm does not; otherwise only nodes whose norms do not vanish are linked *)
Theorem C44_exact lib g p attr wattr chk name m : WF g -> g_dir g = false -> g_multi g = false -> binary64 lib ->
  usable p = true -> In (name, m) metric_names -> bipartite g p attr -> (exists n, kept g p attr n) -> comparable_pairs lib m g p attr wattr ->
  part_names g p attr -> (chk = true -> unmarked g p attr) -> (weighted m = true -> numeric wattr g) ->
  (m = PMI -> Z.of_nat (order g) <= 2 ^ 500)%Z ->
  (monopartite_projection lib g p attr wattr name chk VNone = Err KeyError
   /\ m = Cosine /\ exists u v t, kept g p attr u /\ kept g p attr v /\ shared g u v t /\ key_lt u v = Ok true
        /\ live lib Cosine wattr g u /\ ~ live lib Cosine wattr g v)
  \/ (exists h, monopartite_projection lib g p attr wattr name chk VNone = Ok h
   /\ (forall u v t, kept g p attr u -> shared g u v t -> key_lt u v = Ok true -> live lib m wattr g u -> live lib m wattr g v)
   /\ (forall u v, has_edge h u v = true <-> kept g p attr u /\ kept g p attr v /\ u <> v /\ (exists t, shared g u v t)
        /\ live lib m wattr g u /\ live lib m wattr g v)
   /\ forall u v a, edge_attrs h u v (KInt 0) = Some a -> exists w x, a = [(K "weight", w)] /\ stored_as m w x /\ python_similarity lib m wattr g u v x).
Proof.
  intros W D M B64 U Hn B Kn C PN UM NU PO. destruct (exact_run lib g p attr wattr chk m W M B64 name U Hn B Kn C PN UM NU PO) as [RE RO].
  assert (BS : forall u v t, between g u v t <-> shared g u v t) by (intros; unfold between, shared; rewrite (has_edge_sym g t v D); reflexivity).
  assert (SK : forall u v t, kept g p attr u -> shared g u v t -> kept g p attr v).
  { intros u v t Ku [S1 S2]. apply (B u t S1) in Ku. destruct (has_edge_attrs g v t W M S2) as (a & E). unfold edge_attrs in E.
    destruct (edge_data g v t) eqn:ED; [|discriminate]. apply edge_data_nodes in ED as [Iv _]; [|assumption]. apply node_data_In in Iv as (av & Ev).
    destruct (in_part p attr v av) eqn:Pv; [exists av; split; [exact Ev|apply in_part_keeps; assumption]|]. exfalso. apply Ku.
    rewrite has_edge_sym in S2 by exact D. apply (B t v S2). intros (av' & E' & K'). rewrite E' in Ev. inversion Ev; subst. apply in_part_keeps in K'; [|assumption]. congruence. }
  assert (O : order g <> 0).
  { destruct Kn as (n & a & En & _). apply node_data_Some_In in En. unfold order, nodes, dkeys in *. destruct (g_nodes g); [destruct En|discriminate]. }
  destruct (blocked_dec lib g p attr wattr m W M B64 U) as [BL|BL].
  - left. pose proof (RE BL) as E. destruct BL as (u & v & t & Ku & Lu & Bt & LT & NL). apply BS in Bt.
    destruct (metric_eq_dec m Cosine) as [Em|Em].
    + rewrite Em in *. split; [exact E|]. split; [reflexivity|]. exists u, v, t. split; [exact Ku|]. split; [eapply SK; eassumption|]. auto.
    + exfalso. apply NL. destruct Bt as [_ Hv]. exists t. split; [exact Hv|]. intros; contradiction.
  - right. destruct (RO BL) as (h & E & Wh & Dh & HK & HE). exists h. split; [exact E|].
    assert (UP : forall u v t, kept g p attr u -> shared g u v t -> key_lt u v = Ok true -> live lib m wattr g u -> live lib m wattr g v).
    { intros u v t Ku Sh LT Lu. destruct (live_dec lib g wattr m W M B64 v) as [Lv|Lv]; [exact Lv|]. exfalso. apply BL. exists u, v, t.
      split; [exact Ku|]. split; [exact Lu|]. split; [apply BS; exact Sh|]. auto. }
    split; [exact UP|]. split.
    + assert (ONE : forall u v, key_lt u v = Ok true -> has_edge h u v = true <-> kept g p attr u /\ kept g p attr v /\ u <> v /\ (exists t, shared g u v t)
        /\ live lib m wattr g u /\ live lib m wattr g v).
      { intros u v LT. rewrite (proj1 (HE u v LT)). split.
        - intros (Ku & Lu & t & Bt). apply BS in Bt. split; [exact Ku|]. split; [eapply SK; eassumption|].
          split; [intros ->; apply key_lt_irrefl in LT; discriminate|]. split; [eauto|]. split; [exact Lu|]. eapply UP; eassumption.
        - intros (Ku & _ & _ & (t & Sh) & Lu & _). split; [exact Ku|]. split; [exact Lu|]. exists t. apply BS, Sh. }
      assert (SYM : forall u v, (kept g p attr u /\ kept g p attr v /\ u <> v /\ (exists t, shared g u v t) /\ live lib m wattr g u /\ live lib m wattr g v)
        -> kept g p attr v /\ kept g p attr u /\ v <> u /\ (exists t, shared g v u t) /\ live lib m wattr g v /\ live lib m wattr g u).
      { intros u v (A1 & A2 & A3 & (t & A4 & A5) & A6 & A7). do 2 (split; [assumption|]). split; [congruence|]. split; [exists t; split; assumption|]. auto. }
      intros u v. split.
      * intros He. destruct (HK u v He) as [LT|LT]; [apply (ONE u v LT), He|]. rewrite has_edge_sym in He by exact Dh. apply SYM, (ONE v u LT), He.
      * intros H. pose proof H as (Ku & Kv & NE & (t & St) & Lu & Lv). assert (key_lt u v = Ok true \/ key_lt v u = Ok true) as [LT|LT].
        { destruct (C u v t Ku Lu (proj2 (BS u v t) St) NE) as ([|] & E1); [left; exact E1|].
          assert (exists r, key_lt v u = Ok r) as ([|] & E2) by (apply key_gt_lt_ok; eauto); [right; exact E2|].
          exfalso. apply NE, key_lt_total; assumption. }
        -- apply (ONE u v LT), H.
        -- rewrite has_edge_sym by exact Dh. apply (ONE v u LT), SYM, H.
    + intros u v a Ea. destruct (projection_python lib g p attr wattr chk W D M name VNone m h u v a (binary64_ok lib B64) Hn O E Ea) as (x & -> & S & ST & _).
      exists (val_of x), (value x). split; [reflexivity|]. split; assumption.
Qed.
Print Assumptions C44_exact.

(** the weights of 2 are 0: whether its neighbour is before or after it decides between KeyError and no link *)
Example C44_exact_ex : live lib64 Cosine (K "weight") (zeros 3 0) (KInt 0) /\ ~ live lib64 Cosine (K "weight") (zeros 3 0) (KInt 2)
  /\ monopartite_projection lib64 (zeros 3 0) ends (K "part") (K "weight") (VStr "cosine") true VNone = Err KeyError
  /\ ~ live lib64 Cosine (K "weight") (zeros 0 3) (KInt 0) /\ live lib64 Cosine (K "weight") (zeros 0 3) (KInt 2)
  /\ match monopartite_projection lib64 (zeros 0 3) ends (K "part") (K "weight") (VStr "cosine") true VNone with Ok h => edges_data h = [] | Err _ => False end.
Proof.
  assert (NL : forall a b u, (u = KInt 0 /\ a = 0%Z) \/ (u = KInt 2 /\ b = 0%Z) -> ~ live lib64 Cosine (K "weight") (zeros a b) u).
  { intros a b u Hu (t & H & P). specialize (P eq_refl). assert (W : WF (zeros a b)) by (apply zeros_fine).
    apply has_edge_edges in H; [|exact W]. destruct H as [H|[_ H]]; listed H (edges (zeros a b)); destruct Hu as [[? ->]|[? ->]]; try discriminate;
      apply (Qlt_irrefl 0); exact P. }
  assert (LV : forall a b u, (u = KInt 0 /\ a = 3%Z) \/ (u = KInt 2 /\ b = 3%Z) -> live lib64 Cosine (K "weight") (zeros a b) u).
  { intros a b u Hu. exists (KInt 1). destruct Hu as [[-> ->]|[-> ->]]; (split; [reflexivity|]); intros _; reflexivity. }
  split; [apply LV; auto|]. split; [apply NL; auto|]. split; [vm_compute; reflexivity|]. split; [apply NL; auto|]. split; [apply LV; auto|]. vm_compute. reflexivity.
Qed.

(** ** C45 ranges *)
Theorem C45_range lib g p attr wattr chk name thr m h u v x : WF g -> g_dir g = false -> g_multi g = false -> lib_ok lib ->
  In (name, m) metric_names -> m = Jaccard \/ m = Overlap \/ m = Dice ->
  monopartite_projection lib g p attr wattr name chk thr = Ok h -> edge_attrs h u v (KInt 0) = Some [(K "weight", VFloat x)] ->
  (m_round lib (1 / nq (order g)) <= x <= 1)%Q.
Proof.
  intros W D M L Hn Hm E Ea. destruct (Nat.eq_dec (order g) 0) as [O|O].
  - unfold monopartite_projection in E. apply bind_Ok in E as (m' & _ & E). apply bind_Ok in E as (t & _ & E). rewrite O in E. inversion E; subst h. discriminate.
  - destruct (projection_weights lib g p attr wattr chk W D M L name thr m h u v _ ltac:(destruct Hm as [->|[->| ->]]; discriminate) Hn O E Ea) as (x' & Ex & S & _ & (t & Sh) & _).
    destruct x' as [z|x']; inversion Ex; subst x'. eapply range_counts; eassumption.
Qed.
Print Assumptions C45_range.

Theorem C45_binary64 lib g p attr wattr chk name thr m h u v x : WF g -> g_dir g = false -> g_multi g = false -> binary64 lib ->
  In (name, m) metric_names -> m = Jaccard \/ m = Overlap \/ m = Dice -> (Z.of_nat (order g) <= 2 ^ 1074)%Z ->
  monopartite_projection lib g p attr wattr name chk thr = Ok h -> edge_attrs h u v (KInt 0) = Some [(K "weight", VFloat x)] ->
  (0 < x <= 1)%Q.
Proof.
  intros W D M B64 Hn Hm O E Ea. destruct (C45_range lib g p attr wattr chk name thr m h u v x W D M (binary64_ok lib B64) Hn Hm E Ea) as [A B].
  split; [|exact B]. eapply Qlt_le_trans; [|exact A]. destruct B64 as (BR & _). rewrite BR. apply round64_pos.
  assert (P : 1 <= order g).
  { destruct (Nat.eq_dec (order g) 0) as [O0|O0]; [exfalso|lia].
    unfold monopartite_projection in E. apply bind_Ok in E as (m' & _ & E). apply bind_Ok in E as (t & _ & E). rewrite O0 in E. inversion E; subst h. discriminate. }
  apply nq_pos in P. apply inject_le in O. fold (nq (order g)) in O. revert P O. generalize (nq (order g)). intros q P O.
  apply Qle_shift_div_l; [assumption|]. apply Qle_trans with (unit_of 0 * inject_Z (2 ^ 1074))%Q; [apply Qmult_le_l; [apply unit_pos; lia|exact O]|].
  vm_compute. discriminate.
Qed.
Print Assumptions C45_binary64.

(** without rounding, [c] measures the precision of the square root: 1 when it is exact, in which case the weight is at most 1 *)
Theorem C45_range_cosine lib g p attr wattr chk name thr m h u v x c : WF g -> g_dir g = false -> g_multi g = false -> lib_ok lib -> exact lib ->
  In (name, m) metric_names -> m = BinaryCosine \/ m = Cosine ->
  (0 < c)%Q -> (forall q, (0 < q)%Q -> (c * q <= m_sqrt lib q * m_sqrt lib q)%Q) ->
  (m = Cosine -> forall u t, has_edge g u t = true -> (0 < bond wattr g u t)%Q) ->
  monopartite_projection lib g p attr wattr name chk thr = Ok h -> edge_attrs h u v (KInt 0) = Some [(K "weight", VFloat x)] ->
  (0 < x)%Q /\ (x * c <= 1)%Q.
Proof.
  intros W D M L X Hn Hm Hc HS HB E Ea. destruct (Nat.eq_dec (order g) 0) as [O|O].
  - unfold monopartite_projection in E. apply bind_Ok in E as (m' & _ & E). apply bind_Ok in E as (t & _ & E). rewrite O in E. inversion E; subst h. discriminate.
  - destruct (projection_weights lib g p attr wattr chk W D M L name thr m h u v _ (fun _ => or_introl X) Hn O E Ea) as (x' & Ex & S & ST & (t & Sh) & _).
    destruct x' as [z|x']; [destruct Hm as [->| ->]; discriminate|]. inversion Ex; subst x'. eapply (range_cosine lib g wattr m W M L c); eassumption.
Qed.
Print Assumptions C45_range_cosine.

(** with binary64 numbers and positive int weights: at most 1 + 3 * 2^-52.  The norms are bounded for the weight not to
    vanish. *)
Theorem C45_cosine_binary64_partial lib g p attr wattr chk name thr m h u v x : WF g -> g_dir g = false -> g_multi g = false -> binary64 lib ->
  In (name, m) metric_names -> m = BinaryCosine \/ m = Cosine ->
  (m = Cosine -> (forall u t, has_edge g u t = true -> (0 < bond wattr g u t)%Q)
    /\ forall u v a w, edge_attrs g u v (KInt 0) = Some a -> dget wattr a = Some w -> exists z, pynum_of w = Some (NInt z)) ->
  (if weighted m then forall u, scalar wattr g u u <= inject_Z (2 ^ 530) else nq (order g) <= inject_Z (2 ^ 530))%Q ->
  monopartite_projection lib g p attr wattr name chk thr = Ok h -> edge_attrs h u v (KInt 0) = Some [(K "weight", VFloat x)] ->
  (0 < x <= 1 + (3 # 4503599627370496))%Q.
Proof.
  intros W D M B64 Hn Hm HB HO E Ea. destruct (Nat.eq_dec (order g) 0) as [O|O].
  - unfold monopartite_projection in E. apply bind_Ok in E as (m' & _ & E). apply bind_Ok in E as (t & _ & E). rewrite O in E. inversion E; subst h. discriminate.
  - assert (XS : weighted m = true -> exact_sums lib wattr g).
    { intros Wm. right. apply HB. destruct Hm as [->| ->]; [discriminate|reflexivity]. }
    destruct (projection_weights lib g p attr wattr chk W D M (binary64_ok lib B64) name thr m h u v _ XS Hn O E Ea) as (x' & Ex & S & ST & (t & Sh) & _).
    destruct x' as [z|x']; [destruct Hm as [->| ->]; discriminate|]. inversion Ex; subst x'.
    destruct (range_cosine64 lib g wattr m W M u v t x B64 Sh Hm HB S) as [A B].
    split; [|exact A]. apply B. destruct (weighted m); auto.
Qed.
Print Assumptions C45_cosine_binary64_partial.

(** float weights: the sums are rounded too, and the bound depends on the number of nodes.  Weights are neither huge nor tiny,
    for the products not to vanish *)
Theorem C45_cosine_floats_partial lib g p attr wattr chk name thr h u v x : WF g -> g_dir g = false -> g_multi g = false -> binary64 lib ->
  In (name, Cosine) metric_names ->
  (forall u t, has_edge g u t = true -> 1 / inject_Z (2 ^ 250) <= bond wattr g u t <= inject_Z (2 ^ 250))%Q -> (Z.of_nat (order g) <= 2 ^ 38)%Z ->
  monopartite_projection lib g p attr wattr name chk thr = Ok h -> edge_attrs h u v (KInt 0) = Some [(K "weight", VFloat x)] ->
  (0 < x <= 1 + (2 * nq (order g) + 9) * (1 # 2251799813685248))%Q.
Proof.
  intros W D M B64 Hn HB HO E Ea. destruct (Nat.eq_dec (order g) 0) as [O|O].
  - unfold monopartite_projection in E. apply bind_Ok in E as (m' & _ & E). apply bind_Ok in E as (t & _ & E). rewrite O in E. inversion E; subst h. discriminate.
  - destruct (projection_python lib g p attr wattr chk W D M name thr Cosine h u v _ (binary64_ok lib B64) Hn O E Ea) as (x' & Ex & S & ST & (t & Sh) & _).
    destruct x' as [z|x']; [discriminate|]. inversion Ex; subst x'.
    destruct (cosine_range lib g wattr W M B64 (fun u t H => proj1 (HB u t H)) HO u v t x Sh S) as [A P]. split; [|exact A]. apply P.
    intros u' t'. destruct (has_edge g u' t') eqn:He; [apply HB; exact He|]. rewrite (bond_edge g wattr u' t' He). vm_compute. discriminate.
Qed.
Print Assumptions C45_cosine_floats_partial.

(** at most 1 is false: 3 / (sqrt 3 * sqrt 3) is above 1 with binary64 numbers *)
Definition threes : graph := ex_graph false false [0; 1; 2; 3; 4]%Z (plain [(0, 2); (0, 3); (0, 4); (1, 2); (1, 3); (1, 4)]%Z).
Lemma lib64_binary64 : binary64 lib64.
Proof. split; [reflexivity|]. split; [reflexivity|]. intros x y E. exact E. Qed.
Theorem C45_cosine_refuted : exists g p name h x, binary64 lib64 /\ WF g /\ bipartite g p (K "part")
  /\ In (name, BinaryCosine) metric_names /\ monopartite_projection lib64 g p (K "part") (K "weight") name true VNone = Ok h
  /\ edge_attrs h (KInt 0) (KInt 1) (KInt 0) = Some [(K "weight", VFloat x)] /\ (1 < x)%Q.
Proof.
  exists threes, (ByCollection false [KInt 0; KInt 1]), (VStr "binary_cosine"). eexists. eexists. assert (W : WF threes) by (apply graph_WF; reflexivity).
  split; [exact lib64_binary64|]. split; [exact W|]. split; [|split; [cbn; auto 10|split; [vm_compute; reflexivity|split; [vm_compute; reflexivity|vm_compute; reflexivity]]]].
  assert (Kn : forall n, kept threes (ByCollection false [KInt 0; KInt 1]) (K "part") n <-> n = KInt 0 \/ n = KInt 1).
  { intros n. split.
    - intros (c & _ & I). cbn in I. intuition congruence.
    - intros [->| ->]; exists []; (split; [reflexivity|cbn; auto]). }
  intros u v H. rewrite !Kn. apply has_edge_edges in H; [|exact W]. destruct H as [H|[_ H]]; listed H (edges threes); intuition congruence.
Qed.
Print Assumptions C45_cosine_refuted.

(** not even up to rounding with positive float weights: their squares and products may be too small.  Here both weights
    are near 2^-537 and their cosine is 2. *)
Definition minute (n : Z) : Q := Qred (inject_Z n * unit_of 532).
Definition minutes : graph :=
  ex_graph false false [0; 1; 2]%Z [(0, 1, [(K "weight", VFloat (minute 39))]); (1, 2, [(K "weight", VFloat (minute 40))])]%Z.
Theorem C45_cosine_tiny_refuted : exists g p h x, binary64 lib64 /\ WF g /\ bipartite g p (K "part")
  /\ (forall u v a w, edge_attrs g u v (KInt 0) = Some a -> dget (K "weight") a = Some w ->
        exists q, w = VFloat q /\ (0 < q)%Q /\ float_ok lib64 w)
  /\ monopartite_projection lib64 g p (K "part") (K "weight") (VStr "cosine") true VNone = Ok h
  /\ edge_attrs h (KInt 0) (KInt 2) (KInt 0) = Some [(K "weight", VFloat x)] /\ (x == 2)%Q.
Proof.
  exists minutes, ends. eexists. eexists. assert (W : WF minutes) by (apply graph_WF; reflexivity).
  split; [exact lib64_binary64|]. split; [exact W|]. split; [|split; [|split; [vm_compute; reflexivity|split; vm_compute; reflexivity]]].
  - assert (Kn : forall n, kept minutes ends (K "part") n <-> n = KInt 0 \/ n = KInt 2).
    { intros n. split.
      - intros (c & _ & I). cbn in I. intuition congruence.
      - intros [->| ->]; exists []; (split; [reflexivity|cbn; auto]). }
    intros u v H. rewrite !Kn. apply has_edge_edges in H; [|exact W]. destruct H as [H|[_ H]]; listed H (edges minutes); intuition congruence.
  - intros u t c q E Dw. apply edge_attrs_keys in E; [|exact W].
    destruct E as [E|E]; [|destruct E as [_ E]]; listed E (edges_keys minutes); vm_compute in Dw; inversion Dw;
      (eexists; split; [reflexivity|split; [vm_compute; reflexivity|intros q' Eq; inversion Eq; subst; vm_compute; reflexivity]]).
Qed.
Print Assumptions C45_cosine_tiny_refuted.

Example C44_binary64_ex : binary64 lib64 /\ order colors = 8
  /\ reduced (shown (monopartite_projection lib64 colors accounts (K "part") (K "weight") (VStr "jaccard") true VNone)) =
     Some ([named 0; named 1; named 2; named 3; named 7],
           [(KInt 0, KInt 2, wq 1); (KInt 0, KInt 1, wq (6004799503160661 # 18014398509481984)); (KInt 1, KInt 2, wq (6004799503160661 # 18014398509481984));
            (KInt 1, KInt 3, wq (1 # 2))]).
Proof. split; [exact lib64_binary64|]. split; vm_compute; reflexivity. Qed.

(** weights 0.1, 0.2, 0.3 and the int 3 *)
Definition tenth (n : Z) : attrs := [(K "weight", VFloat (round64 (n # 10)))].
Definition decimals : graph :=
  ex_graph false false [0; 1; 2; 3; 4]%Z [(0, 2, tenth 1); (0, 3, tenth 2); (0, 4, weight 3); (1, 2, tenth 3); (1, 3, tenth 1); (1, 4, weight 2)]%Z.

Example C44_floats_ex :
  (forall u t, has_edge decimals u t = true -> 1 / inject_Z (2 ^ 250) <= bond (K "weight") decimals u t <= inject_Z (2 ^ 250))%Q
  /\ reduced (shown (monopartite_projection lib64 decimals (ByCollection false [KInt 0; KInt 1]) (K "part") (K "weight") (VStr "dot_product") true VNone)) =
     Some ([(KInt 0, []); (KInt 1, [])], [(KInt 0, KInt 1, wq (round64 (605 # 100)))])
  /\ reduced (shown (monopartite_projection lib64 decimals (ByCollection false [KInt 0; KInt 1]) (K "part") (K "weight") (VStr "cosine") true VNone)) =
     Some ([(KInt 0, []); (KInt 1, [])], [(KInt 0, KInt 1, wq (8946000680678457 # 9007199254740992))]).
Proof.
  split; [|split; vm_compute; reflexivity]. assert (W : WF decimals) by (apply graph_WF; reflexivity).
  intros u t H. apply has_edge_edges in H; [|exact W]. destruct H as [H|[_ H]]; listed H (edges decimals); (split; vm_compute; discriminate).
Qed.

(** 2 / (sqrt 2 * sqrt 2) is 0.9999999999999998, and 3 / (sqrt 3 * sqrt 3) is 1.0000000000000002 *)
Example C45_binary64_ex :
  reduced (shown (monopartite_projection lib64 colors accounts (K "part") (K "weight") (VStr "binary_cosine") true (VFloat (3 # 4)))) =
     Some ([named 0; named 1; named 2; named 3; named 7], [(KInt 0, KInt 2, wq (4503599627370495 # 4503599627370496))])
  /\ reduced (shown (monopartite_projection lib64 threes (ByCollection false [KInt 0; KInt 1]) (K "part") (K "weight") (VStr "cosine") true VNone)) =
     Some ([(KInt 0, []); (KInt 1, [])], [(KInt 0, KInt 1, wq (4503599627370497 # 4503599627370496))]).
Proof. split; vm_compute; reflexivity. Qed.

Example C45_ex : (forall u t, has_edge colors u t = true -> (0 < bond (K "weight") colors u t)%Q)
  /\ lib_ok rounded /\ (forall q, (0 < q)%Q -> ((500000 # 500001) * q <= m_sqrt rounded q * m_sqrt rounded q)%Q)
  /\ (exists h x, projected (VStr "cosine") VNone = Ok h /\ edge_attrs h (KInt 1) (KInt 3) (KInt 0) = Some [(K "weight", VFloat x)]
       /\ (89442719 # 100000000 < x < 89442739 # 100000000)%Q)
  /\ reduced (shown (projected (VStr "dice") VNone)) =
     Some ([named 0; named 1; named 2; named 3; named 7],
           [(KInt 0, KInt 2, wq 1); (KInt 0, KInt 1, wq (1 # 2)); (KInt 1, KInt 2, wq (1 # 2)); (KInt 1, KInt 3, wq (2 # 3))]).
Proof.
  split; [|split; [exact rounded_ok|split; [exact rounded_precise|split]]].
  - intros u t H. apply colors_edges in H. destruct H as [H|H]; listed H (edges colors); vm_compute; reflexivity.
  - eexists. eexists. split; [vm_compute; reflexivity|]. split; [vm_compute; reflexivity|]. split; vm_compute; reflexivity.
  - vm_compute. reflexivity.
Qed.

(** ** C46 weight_threshold *)
Theorem C46_threshold lib g p attr wattr chk name thr t : WF g -> num_of thr = Some t -> (0 < t)%Q ->
  match monopartite_projection lib g p attr wattr name chk VNone with
  | Ok h => exists h', monopartite_projection lib g p attr wattr name chk thr = Ok h'
      /\ WF h' /\ g_dir h' = g_dir h /\ g_multi h' = g_multi h /\ g_nodes h' = g_nodes h /\ g_attr h' = g_attr h
      /\ forall u v a, edge_attrs h' u v (KInt 0) = Some a <->
           edge_attrs h u v (KInt 0) = Some a /\ exists x, stored_weight (K "weight") a = Some x /\ (t <= x)%Q
  | Err e => monopartite_projection lib g p attr wattr name chk thr = Err e
  end.
Proof.
  intros W Ht Pt. assert (Ct : check_threshold thr = Ok (Some t)).
  { unfold check_threshold. destruct thr; try discriminate; rewrite Ht; (destruct (q_leb t 0) eqn:C; [apply q_leb_iff in C; exfalso; apply (Qlt_not_le _ _ Pt C)|reflexivity]). }
  pose proof (threshold_spec lib g p attr wattr chk W name thr (Some t) Ct) as H.
  destruct (monopartite_projection lib g p attr wattr name chk VNone) as [h|e] eqn:E, (monopartite_projection lib g p attr wattr name chk thr) as [h'|e'] eqn:E';
    try contradiction; [|congruence].
  destruct H as (W' & D' & M' & G' & A' & H). exists h'. split; [reflexivity|]. do 5 (split; [assumption|]). intros u v a. rewrite H.
  destruct (edge_attrs h u v (KInt 0)) as [b|] eqn:Eb; [|split; [discriminate|intros [X _]; discriminate]].
  destruct (projection_shape _ _ _ _ _ _ _ _ _ _ _ _ W E Eb) as (x & ->).
  pose proof (stored_wlink x) as SW. rewrite SW.
  destruct (q_ltb (value x) t) eqn:C.
  - apply q_ltb_iff in C. split; [discriminate|]. intros [X (y & Y & Ly)]. inversion X; subst a. rewrite SW in Y. inversion Y; subst. exfalso. apply (Qlt_not_le _ _ C Ly).
  - split.
    + intros X. inversion X; subst a. split; [reflexivity|]. exists (value x). split; [assumption|]. apply Qnot_lt_le. intros C'. apply q_ltb_iff in C'. congruence.
    + intros [X _]. assumption.
Qed.
Print Assumptions C46_threshold.

Theorem C46_bad_threshold lib g p attr wattr chk name thr : thr <> VNone -> (forall t, num_of thr = Some t -> (t <= 0)%Q) ->
  monopartite_projection lib g p attr wattr name chk thr = Err TypeError.
Proof.
  intros N H. unfold monopartite_projection. destruct (metric_raises name) as [(m & ->)| ->]; [|reflexivity]. cbn [bind].
  assert (C : check_threshold thr = Err TypeError); [|rewrite C; reflexivity].
  unfold check_threshold. destruct thr; [congruence| | |];
    (match goal with |- match ?n with _ => _ end = _ => destruct n as [t|] end; [|reflexivity]; rewrite (proj2 (q_leb_iff t 0) (H t eq_refl)); reflexivity).
Qed.
Print Assumptions C46_bad_threshold.

Example C46_ex : reduced (shown (projected VNone (VInt 2))) =
     Some ([named 0; named 1; named 2; named 3; named 7], [(KInt 0, KInt 2, wz 2)])
  /\ projected VNone (VFloat (-1 # 2)) = Err TypeError /\ projected VNone (VStr "2") = Err TypeError /\ projected VNone (VBool false) = Err TypeError.
Proof. vm_compute. auto. Qed.

(** ** C47 the bipartition check *)

(** false for parts given by attribute: the attributes of the edge are read instead of those of the neighbour *)
Theorem C47_attribute_refuted : exists g v h, WF g /\ kept g (ByValue v) (K "part") (KInt 0) /\ kept g (ByValue v) (K "part") (KInt 1)
  /\ has_edge g (KInt 0) (KInt 1) = true /\ monopartite_projection rounded g (ByValue v) (K "part") (K "weight") VNone true VNone = Ok h.
Proof.
  exists (add_edge (account [0; 1]%Z (empty_graph false false)) (KInt 0) (KInt 1) []), (VStr "account"). eexists.
  split; [apply graph_WF; reflexivity|]. split; [|split; [|split; [reflexivity|vm_compute; reflexivity]]];
    (eexists; split; [vm_compute; reflexivity|left; eexists; split; reflexivity]).
Qed.
Print Assumptions C47_attribute_refuted.

(** Full statement: for every way of giving the part.  It holds for collections of nodes. *)
Theorem C47_collection_partial lib g attr wattr name thr l u v : WF g -> In u l -> In v l -> has_edge g u v = true ->
  monopartite_projection lib g (ByCollection false l) attr wattr name true thr = Err TypeError.
Proof.
  intros W Iu Iv H. destruct (g_multi g) eqn:M.
  - rewrite <- (projection_view lib g _ attr wattr name true thr M). rewrite <- has_edge_view in H.
    exact (collection_check lib (simple_view g) _ attr wattr true (WF_view g W) eq_refl name thr l u v eq_refl eq_refl Iu Iv H).
  - exact (collection_check lib g _ attr wattr true W M name thr l u v eq_refl eq_refl Iu Iv H).
Qed.
Print Assumptions C47_collection_partial.

(** with a value of the attribute, what is detected is a kept node with an edge carrying the value, and nothing else *)
Theorem C47_attribute_reads_edges lib g v attr wattr name thr u t a : WF g -> g_multi g = false ->
  kept g (ByValue v) attr u -> edge_attrs g u t (KInt 0) = Some a -> dget attr a = Some v ->
  monopartite_projection lib g (ByValue v) attr wattr name true thr = Err TypeError.
Proof.
  intros W M Ku Ea Dv. eapply marked_edge_raises; try eassumption. left. exists v. split; [assumption|apply val_eqb_refl].
Qed.
Print Assumptions C47_attribute_reads_edges.

Theorem C47_attribute_check_ignored lib g v attr wattr name thr : WF g -> g_multi g = false -> unmarked g (ByValue v) attr ->
  monopartite_projection lib g (ByValue v) attr wattr name true thr = monopartite_projection lib g (ByValue v) attr wattr name false thr.
Proof.
  intros W M UM. apply unchecked; [assumption|assumption|]. intros u t a b Iu Pu Ea. cbn [same_part].
  destruct (val_eqb (get_or_none attr a) v) eqn:V; [|reflexivity]. elim (UM v eq_refl u t a); [apply kept_In; eauto|exact Ea|apply get_keeps; assumption].
Qed.
Print Assumptions C47_attribute_check_ignored.

Example C47_ex :
  let g := ex_graph false false [1; 2; 3]%Z (plain [(1, 2); (1, 3); (2, 3)]%Z) in
  let h := ex_graph false false [1; 2; 3]%Z [(1, 2, [(K "part", VStr "a")]); (2, 3, [])]%Z in
  wf g = true /\ monopartite_projection rounded g (ByCollection false [KInt 1; KInt 3]) (K "part") (K "weight") VNone true VNone = Err TypeError
  /\ monopartite_projection rounded (add_node h (KInt 1) [(K "part", VStr "a")]) (ByValue (VStr "a")) (K "part") (K "weight") VNone true VNone = Err TypeError.
Proof. vm_compute. auto. Qed.

(** ** C78 a bipartite graph is accepted: false when an edge has an attribute called like the part attribute *)
Theorem C78_accepts_bipartite_refuted : exists g v, WF g /\ bipartite g (ByValue v) (K "part") /\ kept g (ByValue v) (K "part") (KInt 0)
  /\ monopartite_projection rounded g (ByValue v) (K "part") (K "weight") VNone true VNone = Err TypeError.
Proof.
  set (g := add_edge (add_node (empty_graph false false) (KInt 0) [(K "part", VStr "a")]) (KInt 0) (KInt 1) [(K "part", VStr "a")]).
  assert (W : WF g) by (apply graph_WF; reflexivity).
  exists g, (VStr "a"). split; [exact W|]. split; [|split; [eexists; split; [vm_compute; reflexivity|left; eexists; split; reflexivity]|vm_compute; reflexivity]].
  assert (Kn : forall n, kept g (ByValue (VStr "a")) (K "part") n <-> n = KInt 0).
  { intros n. rewrite (kept_In g (ByValue (VStr "a")) (K "part") n W eq_refl). split.
    - intros (a & I & P). vm_compute in I. destruct I as [I|[I|[]]]; inversion I; subst; [reflexivity|vm_compute in P; discriminate].
    - intros ->. eexists. split; [vm_compute; left; reflexivity|reflexivity]. }
  intros u v H. rewrite !Kn. apply has_edge_edges in H; [|exact W]. destruct H as [H|[_ H]]; listed H (edges g); intuition congruence.
Qed.
Print Assumptions C78_accepts_bipartite_refuted.

(** Full statement: every bipartite graph is accepted, without condition on the attributes of the edges (nor, for the
    cosine metric, on the weights). *)
Theorem C78_accepts_bipartite_partial lib g p attr wattr name m : WF g -> g_dir g = false -> g_multi g = false -> lib_ok lib ->
  usable p = true -> In (name, m) metric_names -> weighted m = false -> bipartite g p attr -> (exists n, kept g p attr n) ->
  comparable_part g p attr -> part_names g p attr -> unmarked g p attr ->
  (m = PMI -> (0 < m_round lib (1 / (nq (order g) * nq (order g))))%Q) ->
  exists h, monopartite_projection lib g p attr wattr name true VNone = Ok h.
Proof.
  intros W D M L U Hn Wm B Kn C PN UM PO. destruct (C44_links_partial lib g p attr wattr true name m) as (h & E & _); try assumption; auto; try congruence.
  - intros ->. discriminate.
  - eauto.
Qed.
Print Assumptions C78_accepts_bipartite_partial.

(** with all metrics, on graphs directed or not: what accepted graphs are *)
Theorem C78_exact lib g p attr wattr chk name m : WF g -> g_multi g = false -> binary64 lib ->
  usable p = true -> In (name, m) metric_names -> bipartite g p attr -> (exists n, kept g p attr n) ->
  (weighted m = true -> numeric wattr g) -> (m = PMI -> Z.of_nat (order g) <= 2 ^ 500)%Z ->
  ((exists h, monopartite_projection lib g p attr wattr name chk VNone = Ok h)
   <-> part_names g p attr /\ (chk = true -> unmarked g p attr) /\ comparable_pairs lib m g p attr wattr /\ ~ blocked lib m g p attr wattr).
Proof.
  intros W M B64 U Hn B Kn NU PO. split.
  - intros (h & E). assert (O : order g <> 0).
    { destruct Kn as (n & a & En & _). apply node_data_Some_In in En. unfold order, nodes, dkeys in *. destruct (g_nodes g); [destruct En|discriminate]. }
    destruct (returned lib g p attr wattr chk m W M U name h Hn O E) as (PN & UM & CK).
    assert (C : comparable_pairs lib m g p attr wattr).
    { intros u v t Ku Lu Bt NE. apply (CK u v t Ku); [|exact Bt|exact NE].
      destruct (metric_eq_dec m PMI) as [Em|Em]; [apply keep_pmi|apply keep_live]; assumption. }
    split; [exact PN|]. split; [exact UM|]. split; [exact C|]. intros BL.
    destruct (exact_run lib g p attr wattr chk m W M B64 name U Hn B Kn C PN UM NU PO) as [RE _]. rewrite (RE BL) in E. discriminate.
  - intros (PN & UM & C & BL). destruct (exact_run lib g p attr wattr chk m W M B64 name U Hn B Kn C PN UM NU PO) as [_ RO].
    destruct (RO BL) as (h & E & _). eauto.
Qed.
Print Assumptions C78_exact.

(** undirected, without weights: attributes must be fit to be arguments, edges must not look like nodes of the part, and
    nodes with common neighbours must be comparable *)
Theorem C78_unweighted lib g p attr wattr name m : WF g -> g_dir g = false -> g_multi g = false -> binary64 lib ->
  usable p = true -> In (name, m) metric_names -> m <> Cosine -> bipartite g p attr -> (exists n, kept g p attr n) ->
  (weighted m = true -> numeric wattr g) -> (m = PMI -> Z.of_nat (order g) <= 2 ^ 500)%Z ->
  ((exists h, monopartite_projection lib g p attr wattr name true VNone = Ok h)
   <-> part_names g p attr /\ unmarked g p attr
       /\ forall u v t, kept g p attr u -> shared g u v t -> u <> v -> exists b, key_lt u v = Ok b).
Proof.
  intros W D M B64 U Hn NC B Kn NU PO. rewrite (C78_exact lib g p attr wattr true name m W M B64 U Hn B Kn NU PO).
  assert (BS : forall u v t, between g u v t <-> shared g u v t) by (intros; unfold between, shared; rewrite (has_edge_sym g t v D); reflexivity).
  split.
  - intros (PN & UM & C & _). split; [exact PN|]. split; [apply UM; reflexivity|]. intros u v t Ku S NE. apply (C u v t Ku); [|apply BS; exact S|exact NE].
    exists t. split; [apply S|intros; contradiction].
  - intros (PN & UM & C). split; [exact PN|]. split; [auto|]. split.
    + intros u v t Ku _ Bt NE. apply (C u v t Ku); [apply BS; exact Bt|exact NE].
    + intros (u & v & t & Ku & _ & Bt & _ & NL). apply NL. apply BS in Bt as [_ Hv]. exists t. split; [exact Hv|intros; contradiction].
Qed.
Print Assumptions C78_unweighted.

(** a bipartite graph whose nodes of the part are 0 and "a" is refused *)
Definition mixed : graph := add_edge (add_edge (empty_graph false false) (KInt 0) (KInt 1) []) (K "a") (KInt 1) [].
Theorem C78_names_refuted : exists g p, WF g /\ bipartite g p (K "part") /\ (exists n, kept g p (K "part") n) /\ part_names g p (K "part")
  /\ unmarked g p (K "part") /\ monopartite_projection rounded g p (K "part") (K "weight") VNone true VNone = Err TypeError.
Proof.
  assert (W : WF mixed) by (apply graph_WF; reflexivity). set (p := ByCollection false [KInt 0; K "a"]).
  assert (Kn : forall n, kept mixed p (K "part") n <-> n = KInt 0 \/ n = K "a").
  { intros n. split.
    - intros (a & _ & I). cbn in I. intuition congruence.
    - intros [->| ->]; exists []; (split; [reflexivity|cbn; auto]). }
  exists mixed, p. split; [exact W|]. split; [|split; [exists (KInt 0); apply Kn; auto|split; [|split; [|vm_compute; reflexivity]]]].
  - intros u v H. rewrite !Kn; unfold K. apply has_edge_edges in H; [|exact W]. destruct H as [H|[_ H]]; listed H (edges mixed); intuition congruence.
  - intros n a k En Ka Ik. assert (Kp : kept mixed p (K "part") n) by (exists a; auto). apply Kn in Kp as [->| ->]; vm_compute in En; inversion En; subst; destruct Ik.
  - intros v Ev. discriminate.
Qed.
Print Assumptions C78_names_refuted.

(** 0 and "a" are accepted when they have no neighbour in common *)
Example C78_exact_ex :
  let g := add_edge (add_edge (empty_graph false false) (KInt 0) (KInt 1) []) (K "a") (KInt 2) [] in
  let p := ByCollection false [KInt 0; K "a"] in
  wf g = true /\ comparable_pairs lib64 Jaccard g p (K "part") (K "weight") /\ ~ comparable_pairs lib64 Jaccard mixed p (K "part") (K "weight")
  /\ match monopartite_projection lib64 g p (K "part") (K "weight") (VStr "jaccard") true VNone with Ok h => nodes h = [KInt 0; K "a"] | Err _ => False end.
Proof.
  cbv zeta. split; [vm_compute; reflexivity|]. split; [|split; [|vm_compute; reflexivity]].
  - set (g := add_edge (add_edge (empty_graph false false) (KInt 0) (KInt 1) []) (K "a") (KInt 2) []). assert (W : WF g) by (apply graph_WF; reflexivity).
    intros u v t _ _ [H1 H2] NE. exfalso. apply NE. apply has_edge_edges in H1; [|exact W]. apply has_edge_edges in H2; [|exact W].
    destruct H1 as [H1|[_ H1]], H2 as [H2|[_ H2]]; listed H1 (edges g); listed H2 (edges g); congruence.
  - intros C. destruct (C (KInt 0) (K "a") (KInt 1)) as (b & E); [exists []; split; [reflexivity|cbn; auto]| |split; reflexivity|discriminate|discriminate].
    exists (KInt 1). split; [reflexivity|discriminate].
Qed.

Example C78_ex : exists h, monopartite_projection rounded colors accounts (K "part") (K "weight") (VStr "pmi") true VNone = Ok h /\ size h = 4.
Proof. eexists. split; vm_compute; reflexivity. Qed.

(** ** C88 multigraphs: weights are not read, parallel edges count once *)

Theorem C88_multigraph lib g p attr wattr chk name m : WF g -> g_dir g = false -> g_multi g = true -> lib_ok lib ->
  usable p = true -> In (name, m) metric_names -> bipartite g p attr -> (exists n, kept g p attr n) -> comparable_part g p attr ->
  part_names g p attr -> (chk = true -> p <> ByValue VNone /\ p <> ByValue attributes_object) ->
  (weighted m = true -> no_edge_key g wattr) -> (m = PMI -> (0 < m_round lib (1 / (nq (order g) * nq (order g))))%Q) ->
  exists h, monopartite_projection lib g p attr wattr name chk VNone = Ok h
  /\ (forall u v, has_edge h u v = true <-> kept g p attr u /\ kept g p attr v /\ u <> v /\ exists t, shared g u v t)
  /\ forall u v a, edge_attrs h u v (KInt 0) = Some a ->
       exists w x, a = [(K "weight", w)] /\ stored_as (without_weights m) w x /\ similarity lib (without_weights m) wattr g u v x.
Proof.
  intros W D M L U Hn B Kn C PN UM NK PO.
  assert (Hn' : exists name', In (name', without_weights m) metric_names).
  { destruct m; eexists; cbn [without_weights metric_names In]; auto 12. }
  destruct Hn' as (name' & Hn').
  assert (SH : forall u v t, shared (simple_view g) u v t <-> shared g u v t).
  { intros u v t. unfold shared. rewrite !has_edge_view. reflexivity. }
  destruct (C44_links_partial lib (simple_view g) p attr wattr chk name' (without_weights m)) as (h & E & Lk & Wt); try assumption.
  - apply WF_view, W.
  - reflexivity.
  - intros u v H. rewrite has_edge_view in H. exact (B u v H).
  - intros Hc. apply unmarked_view; apply UM, Hc.
  - destruct m; discriminate.
  - destruct m; discriminate.
  - destruct m; discriminate.
  - intros Hm. apply PO. destruct m; try discriminate. reflexivity.
  - exists h. split; [|split].
    + rewrite <- E, <- (projection_view lib g p attr wattr name chk VNone M). unfold monopartite_projection.
      rewrite (proj1 (names_metric _ _) Hn), (proj1 (names_metric _ _) Hn'). cbn [bind check_threshold].
      destruct (Nat.eqb (order (simple_view g)) 0); [reflexivity|].
      apply unweighted_run. intros Wm u [t a] I. cbn [snd]. apply items_In in I; [|apply WF_view, W|reflexivity].
      apply edge_attrs_view in I as (kd & Ek & ->). apply dget_None. unfold dkeys. rewrite map_map. cbn [fst].
      intros I. apply In_dkeys in I as (a & I). apply (NK Wm u t a). unfold edge_attrs. rewrite Ek.
      apply dget_In; [apply (edge_data_keys g u t kd W Ek)|exact I].
    + intros u v. rewrite Lk. setoid_rewrite SH. reflexivity.
    + intros u v a Ea. destruct (Wt u v a Ea) as (w & x & H1 & H2 & H3). exists w, x. split; [exact H1|]. split; [exact H2|].
      assert (HS : forall P Q n, (forall t : key, P t <-> Q t) -> has_size P n -> has_size Q n).
      { intros P Q n PQ (l & (N & I) & Ln). exists l. split; [|exact Ln]. split; [exact N|]. intros t. rewrite I. apply PQ. }
      assert (HE : forall u n, has_size (fun t => has_edge (simple_view g) u t = true) n -> has_size (fun t => has_edge g u t = true) n).
      { intros u' n. apply HS. intros t. rewrite has_edge_view. reflexivity. }
      assert (HSh : forall n, has_size (shared (simple_view g) u v) n -> has_size (shared g u v) n) by (intros n; apply HS; intros t; apply SH).
      assert (HU : forall n, has_size (fun t => has_edge (simple_view g) u t = true \/ has_edge (simple_view g) v t = true) n
        -> has_size (fun t => has_edge g u t = true \/ has_edge g v t = true) n).
      { intros n. apply HS. intros t. rewrite !has_edge_view. reflexivity. }
      unfold similarity, neighbourhood_sizes in *.
      destruct m; cbn [without_weights] in *;
        first [destruct H3 as (a0 & b0 & i & (SA & SB & SI) & X); exists a0, b0, i; auto 8
              |destruct H3 as (i & n & SI & SN & X); exists i, n; auto 8].
Qed.
Print Assumptions C88_multigraph.

(** A cosine raises when an edge has the name of the weight attribute as key: its dictionary of attributes is
    squared. *)
Theorem C88_key_named_weight lib g p attr wattr chk u t a thr : WF g -> g_multi g = true -> usable p = true ->
  kept g p attr u -> edge_attrs g u t wattr = Some a ->
  monopartite_projection lib g p attr wattr (VStr "cosine") chk thr = Err TypeError.
Proof.
  intros W M U Ku Ea. unfold monopartite_projection. cbn [instantiate_online_metric VStr String.eqb Ascii.eqb Bool.eqb bind].
  destruct (check_threshold_raises thr) as [(th & ->)| ->]; cbn [bind]; [|reflexivity].
  apply (kept_In g p attr u W U) in Ku as (au & Iu & Pu).
  assert (O : Nat.eqb (order g) 0 = false) by (apply Nat.eqb_neq; unfold order; destruct (g_nodes g); [destruct Iu|discriminate]).
  rewrite O. rewrite (foldM_raises_at _ _ _ TypeError (u, au)); [reflexivity|intros; apply norms_step_raises|assumption|].
  intros [[norms h] ex]. unfold norms_step. cbn [fst snd]. rewrite Pu.
  unfold edge_attrs in Ea. destruct (edge_data g u t) as [kd|] eqn:Ed; [|discriminate].
  assert (EA : accumulated lib Cosine g p attr wattr chk u = Err TypeError); [|rewrite EA; reflexivity].
  unfold accumulated. apply (foldM_raises_at _ _ _ _ (t, map (fun ka : key * attrs => (fst ka, attributes_object)) kd)).
  - intros s [t' a'] _. cbn [fst snd]. destruct (_ && _); [right; reflexivity|].
    unfold accumulate, as_number. destruct (pynum_of _); cbn; eauto.
  - unfold items. rewrite M. apply in_map_iff. exists (t, kd). split; [reflexivity|]. apply adj_items_In; assumption.
  - intros s. cbn [fst snd]. destruct (_ && _); [reflexivity|].
    assert (G : get_weight wattr (map (fun ka : key * attrs => (fst ka, attributes_object)) kd) = attributes_object).
    { unfold get_weight. clear - Ea. induction kd as [|[k b] l IH]; [discriminate|]. cbn [map dget fst] in *. destruct (key_eqb wattr k); [reflexivity|auto]. }
    rewrite G. reflexivity.
Qed.
Print Assumptions C88_key_named_weight.

(** accounts 0 and 1 share two colors, once through parallel edges; the dot product would be 31 *)
Example C88_ex :
  let g := fold_left (fun h e => add_edge h (fst (fst e)) (snd (fst e)) (snd e))
             [(KInt 0, KInt 8, weight 3); (KInt 0, KInt 8, weight 4); (KInt 1, KInt 8, weight 3); (KInt 0, KInt 9, weight 2); (KInt 1, KInt 9, weight 5)]%Z
             (empty_graph false true) in
  let part := ByCollection false [KInt 0; KInt 1] in
  wf g = true /\ size g = 5
  /\ match monopartite_projection lib64 g part (K "part") (K "weight") (VStr "dot_product") true VNone with Ok h => edges_data h | Err _ => [] end
     = [(KInt 0, KInt 1, weight 2)]
  /\ match monopartite_projection lib64 g part (K "part") (K "weight") (VStr "cosine") true VNone with Ok h => List.length (edges_data h) | Err _ => 0 end = 1
  /\ monopartite_projection lib64 (add_edge_at g (KInt 0) (KInt 9) (K "weight") []) part (K "part") (K "weight") (VStr "cosine") true VNone = Err TypeError.
Proof. vm_compute. auto. Qed.

(** ** C89 directed graphs: only paths of two arrows towards a larger key give links *)

Theorem C89_directed lib g p attr wattr chk name m : WF g -> g_dir g = true -> lib_ok lib -> counting m = true ->
  usable p = true -> In (name, m) metric_names -> bipartite g p attr -> (exists n, kept g p attr n) -> comparable_part g p attr ->
  part_names g p attr ->
  (chk = true -> if g_multi g then p <> ByValue VNone /\ p <> ByValue attributes_object else unmarked g p attr) ->
  (dead_end g p attr -> monopartite_projection lib g p attr wattr name chk VNone = Err KeyError)
  /\ (~ dead_end g p attr -> exists h, monopartite_projection lib g p attr wattr name chk VNone = Ok h /\ WF h /\ g_dir h = false
      /\ (forall u v, has_edge h u v = true -> key_lt u v = Ok true \/ key_lt v u = Ok true)
      /\ forall u v, key_lt u v = Ok true ->
           (has_edge h u v = true <-> kept g p attr u /\ kept g p attr v /\ exists t, between g u v t)
           /\ (m = Intersection -> forall a, edge_attrs h u v (KInt 0) = Some a ->
                exists i, a = [(K "weight", VInt (Z.of_nat i))] /\ has_size (between g u v) i)).
Proof.
  intros W _ L CM U Hn B Kn C PN UM. destruct (g_multi g) eqn:M; [|apply directed_run; assumption].
  assert (BT : forall u v t, between (simple_view g) u v t <-> between g u v t) by (intros; unfold between; rewrite !has_edge_view; reflexivity).
  assert (DE : dead_end (simple_view g) p attr <-> dead_end g p attr).
  { unfold dead_end. setoid_rewrite BT. setoid_rewrite has_edge_view. reflexivity. }
  destruct (directed_run lib (simple_view g) p attr wattr chk m) with (name := name) as [R1 R2]; try assumption.
  - apply WF_view, W.
  - reflexivity.
  - intros u v H. rewrite has_edge_view in H. exact (B u v H).
  - intros Hc. apply unmarked_view; apply UM, Hc.
  - rewrite (projection_view lib g p attr wattr name chk VNone M) in R1, R2. rewrite DE in R1, R2. split; [exact R1|].
    intros ND. destruct (R2 ND) as (h & E & Wh & Dh & Hc & H). exists h. split; [exact E|]. split; [exact Wh|]. split; [exact Dh|]. split; [exact Hc|]. intros u v LT. destruct (H u v LT) as [H1 H2]. split.
    + rewrite H1. setoid_rewrite BT. reflexivity.
    + intros Hm a Ea. destruct (H2 Hm a Ea) as (i & -> & l & (Nl & Il) & Ll). exists i. split; [reflexivity|].
      exists l. split; [|exact Ll]. split; [exact Nl|]. intros t. rewrite Il. apply BT.
Qed.
Print Assumptions C89_directed.

(** when all the arrows leave the part, or all enter it, nothing is linked *)
Theorem C89_one_way lib g p attr wattr chk name m : WF g -> g_dir g = true -> lib_ok lib -> counting m = true ->
  usable p = true -> In (name, m) metric_names -> bipartite g p attr -> (exists n, kept g p attr n) -> comparable_part g p attr ->
  part_names g p attr ->
  (chk = true -> if g_multi g then p <> ByValue VNone /\ p <> ByValue attributes_object else unmarked g p attr) ->
  (forall u v, has_edge g u v = true -> kept g p attr u) \/ (forall u v, has_edge g u v = true -> kept g p attr v) ->
  exists h, monopartite_projection lib g p attr wattr name chk VNone = Ok h /\ forall u v, has_edge h u v = false.
Proof.
  intros W D L CM U Hn B Kn C PN UM OW.
  assert (NB : forall u v t, kept g p attr u -> ~ between g u v t).
  { intros u v t Ku [H1 H2]. pose proof (proj1 (B u t H1) Ku) as Nt. destruct OW as [OW|OW].
    - exact (Nt (OW t v H2)).
    - exact (Nt (OW u t H1)). }
  destruct (C89_directed lib g p attr wattr chk name m W D L CM U Hn B Kn C PN UM) as [_ R].
  destruct R as (h & E & Wh & Dh & Hc & H); [intros (u & v & t & Ku & Bt & _); exact (NB u v t Ku Bt)|]. exists h. split; [exact E|].
  assert (F : forall u v, key_lt u v = Ok true -> has_edge h u v = false).
  { intros u v LT. destruct (has_edge h u v) eqn:He; [|reflexivity]. apply (H u v LT) in He. destruct He as (Ku & _ & t & Bt). elim (NB u v t Ku Bt). }
  intros u v. destruct (has_edge h u v) eqn:He; [|reflexivity]. destruct (Hc u v He) as [LT|LT].
  - rewrite (F u v LT) in He. discriminate.
  - rewrite has_edge_sym in He by assumption. rewrite (F v u LT) in He. discriminate.
Qed.
Print Assumptions C89_one_way.

(** the same nodes are linked when the directions are forgotten: a directed graph is not projected as an undirected
    one *)
Theorem C89_as_undirected_refuted : exists g p h, WF g /\ g_dir g = true /\ bipartite g p (K "part")
  /\ kept g p (K "part") (KInt 0) /\ kept g p (K "part") (KInt 1) /\ shared g (KInt 0) (KInt 1) (KInt 8)
  /\ monopartite_projection lib64 g p (K "part") (K "weight") VNone true VNone = Ok h /\ has_edge h (KInt 0) (KInt 1) = false.
Proof.
  set (g := ex_graph true false [0; 1; 8]%Z (plain [(0, 8); (1, 8)]%Z)). set (p := ByCollection false [KInt 0; KInt 1]).
  assert (W : WF g) by (apply graph_WF; reflexivity). exists g, p. eexists. split; [exact W|]. split; [reflexivity|].
  assert (Kn : forall n, kept g p (K "part") n <-> n = KInt 0 \/ n = KInt 1).
  { intros n. split.
    - intros (c & _ & I). cbn in I. intuition congruence.
    - intros [->| ->]; exists []; (split; [reflexivity|cbn; auto]). }
  split; [|split; [apply Kn; auto|split; [apply Kn; auto|split; [split; reflexivity|split; vm_compute; reflexivity]]]].
  intros u v H. rewrite !Kn. apply has_edge_edges in H; [|exact W]. destruct H as [H|[? H]]; [|discriminate]. listed H (edges g); intuition congruence.
Qed.
Print Assumptions C89_as_undirected_refuted.

(** the path from 0 to 1 counts, the one from 2 to 1 does not; without the arrow leaving 1 a KeyError is raised *)
Definition oneway (l : list (Z * Z)) : graph := ex_graph true false [0; 1; 2; 8; 9]%Z (plain l).
Example C89_ex :
  let part := ByCollection false [KInt 0; KInt 1; KInt 2] in
  let links g := match monopartite_projection lib64 g part (K "part") (K "weight") VNone true VNone with Ok h => Ok (edges_data h) | Err e => Err e end in
  wf (oneway [(0, 8); (8, 1); (1, 9); (2, 9); (9, 1)]%Z) = true
  /\ links (oneway [(0, 8); (8, 1); (1, 9); (2, 9); (9, 1)]%Z) = Ok [(KInt 0, KInt 1, weight 1)]
  /\ links (oneway [(0, 8); (8, 1)]%Z) = Err KeyError
  /\ links (oneway [(0, 8); (1, 8); (2, 8); (2, 9)]%Z) = Ok [].
Proof. vm_compute. auto. Qed.

(** ** C90 all the metrics on directed graphs *)
Theorem C90_directed lib g p attr wattr chk name m : WF g -> g_dir g = true -> g_multi g = false -> binary64 lib ->
  usable p = true -> In (name, m) metric_names -> bipartite g p attr -> (exists n, kept g p attr n) -> comparable_pairs lib m g p attr wattr ->
  part_names g p attr -> (chk = true -> unmarked g p attr) -> (weighted m = true -> numeric wattr g) ->
  (m = PMI -> Z.of_nat (order g) <= 2 ^ 500)%Z ->
  (blocked lib m g p attr wattr
   /\ monopartite_projection lib g p attr wattr name chk VNone = Err (match m with PMI => ZeroDivisionError | _ => KeyError end))
  \/ (~ blocked lib m g p attr wattr /\ exists h, monopartite_projection lib g p attr wattr name chk VNone = Ok h /\ WF h /\ g_dir h = false
      /\ (forall u v, has_edge h u v = true -> key_lt u v = Ok true \/ key_lt v u = Ok true)
      /\ forall u v, key_lt u v = Ok true ->
           (has_edge h u v = true <-> kept g p attr u /\ live lib m wattr g u /\ exists t, between g u v t)
           /\ forall a, edge_attrs h u v (KInt 0) = Some a ->
                exists w x, a = [(K "weight", w)] /\ stored_as m w x /\ paths_similarity lib m wattr g u v x).
Proof.
  intros W _ M B64 U Hn B Kn C PN UM NU PO. destruct (exact_run lib g p attr wattr chk m W M B64 name U Hn B Kn C PN UM NU PO) as [RE RO].
  destruct (blocked_dec lib g p attr wattr m W M B64 U) as [BL|BL]; [left|right]; (split; [exact BL|]); [exact (RE BL)|exact (RO BL)].
Qed.
Print Assumptions C90_directed.

(** from 0 three paths lead to 1, which a single arrow leaves *)
Definition funnel (l : list (Z * Z * attrs)) : graph := ex_graph true false [0; 1; 7; 8; 9]%Z l.
Definition tops : part := ByCollection false [KInt 0; KInt 1].
Definition funnelled : graph := funnel (plain [(0, 7); (0, 8); (0, 9); (7, 1); (8, 1); (9, 1); (1, 7)]%Z).

(** similarities are not at most 1 on directed graphs *)
Theorem C90_above_one_refuted : forall name, In name [VStr "jaccard"; VStr "overlap"; VStr "dice"; VStr "binary_cosine"] -> exists g p h w,
  WF g /\ g_dir g = true /\ g_multi g = false /\ bipartite g p (K "part")
  /\ monopartite_projection lib64 g p (K "part") (K "weight") name true VNone = Ok h
  /\ edge_attrs h (KInt 0) (KInt 1) (KInt 0) = Some [(K "weight", VFloat w)] /\ (1 < w)%Q.
Proof.
  intros name I. exists funnelled, tops. assert (W : WF funnelled) by (apply graph_WF; reflexivity).
  assert (Kn : forall n, kept funnelled tops (K "part") n <-> n = KInt 0 \/ n = KInt 1).
  { intros n. split.
    - intros (c & _ & J). cbn in J. intuition congruence.
    - intros [->| ->]; exists []; (split; [reflexivity|cbn; auto]). }
  assert (B : bipartite funnelled tops (K "part")).
  { intros u v H. rewrite !Kn. apply has_edge_edges in H; [|exact W]. destruct H as [H|[X _]]; [|vm_compute in X; discriminate X]. listed H (edges funnelled); intuition congruence. }
  cbn [In] in I. destruct I as [<-|[<-|[<-|[<-|[]]]]]; eexists; eexists; (split; [exact W|]); (split; [reflexivity|]); (split; [reflexivity|]); (split; [exact B|]);
    (split; [vm_compute; reflexivity|]); (split; [vm_compute; reflexivity|]); vm_compute; reflexivity.
Qed.
Print Assumptions C90_above_one_refuted.

(** products of weights along the three paths: 1 * 2 + 3 * 4 + 5 * 6; without the arrow leaving 1, PMI divides by zero *)
Example C90_ex :
  let heavy := funnel [(0, 7, weight 1); (0, 8, weight 3); (0, 9, weight 5); (7, 1, weight 2); (8, 1, weight 4); (9, 1, weight 6); (1, 7, weight 7)]%Z in
  let links g name := match monopartite_projection lib64 g tops (K "part") (K "weight") name true VNone with Ok h => Ok (edges_data h) | Err e => Err e end in
  let blockedg := funnel (plain [(0, 7); (7, 1)]%Z) in
  wf heavy = true /\ links heavy (VStr "dot_product") = Ok [(KInt 0, KInt 1, weight 44)]
  /\ links funnelled (VStr "jaccard") = Ok [(KInt 0, KInt 1, [(K "weight", VFloat (inject_Z 3))])]
  /\ links blockedg (VStr "pmi") = Err ZeroDivisionError /\ links blockedg (VStr "dot_product") = Err KeyError /\ links blockedg (VStr "cosine") = Err KeyError.
Proof. vm_compute. auto 10. Qed.

(** ** C48 bfs_from_node *)
Theorem C48_distances g s reverse limit : WF g -> g_dir g = true -> In s (nodes g) ->
  exists l, bfs_from_node g s reverse limit = Ok l /\ NoDup (map fst l)
  /\ StronglySorted (fun a b => (snd a <= snd b)%Z) l
  /\ forall n d, In (n, d) l <-> exists k, d = Z.of_nat k /\ 1 <= k /\ (d <= limit)%Z /\ distance g reverse s n k.
Proof. intros W D I. exact (bfs_spec g reverse limit s W D I). Qed.
Print Assumptions C48_distances.

Definition arrows : graph := ex_graph true false [0; 1; 2; 3; 4; 5]%Z (plain [(0, 0); (0, 1); (1, 2); (2, 3); (0, 2); (3, 0); (4, 3); (3, 5)]%Z).
Example C48_ex : wf arrows = true
  /\ bfs_from_node arrows (KInt 0) false 2 = Ok [(KInt 1, 1%Z); (KInt 2, 1%Z); (KInt 3, 2%Z)]
  /\ bfs_from_node arrows (KInt 0) false 9 = Ok [(KInt 1, 1%Z); (KInt 2, 1%Z); (KInt 3, 2%Z); (KInt 5, 3%Z)]
  /\ bfs_from_node arrows (KInt 0) true 2 = Ok [(KInt 3, 1%Z); (KInt 2, 2%Z); (KInt 4, 2%Z)]
  /\ bfs_from_node arrows (KInt 0) true 0 = Ok [].
Proof. vm_compute. auto. Qed.

(** ** C49, C50 self_similarity_projection *)

(** what the function computes, with the radii it uses *)
Theorem C50_actual_radii lib g d : rounding (m_round lib) -> WF g -> g_dir g = true -> node_names g ->
  exists h out inn, self_similarity_projection lib g d = Ok h /\ radii g d (nodes g) out inn
  /\ WF h /\ g_dir h = false /\ g_multi h = false /\ g_nodes h = g_nodes g /\ g_attr h = []
  /\ (forall u v, has_edge h u v = true <-> In u (nodes g) /\ In v (nodes g) /\ u <> v
        /\ exists t, view g u (out u) (inn u) t /\ view g v (out v) (inn v) t)
  /\ forall u v a, edge_attrs h u v (KInt 0) = Some a -> exists x i n, a = [(K "weight", VFloat x)]
        /\ has_size (fun t => view g u (out u) (inn u) t /\ view g v (out v) (inn v) t) i
        /\ has_size (fun t => (view g u (out u) (inn u) t \/ view g v (out v) (inn v) t) /\ ~ mutual u v t) n
        /\ 1 <= i <= n /\ (x == m_round lib (nq i / nq n))%Q /\ (0 <= x <= 1)%Q
        /\ (binary64 lib -> (Z.of_nat n <= 2 ^ 1074)%Z -> (0 < x)%Q).
Proof.
  intros R0 W D NN. destruct (whole lib g W D d NN) as (h & out & inn & E & R & Wh & Dh & Mh & Gh & Ah & HE & HA).
  exists h, out, inn. do 7 (split; [assumption|]). split; [exact HE|]. intros u v a Ea.
  destruct (HA u v a Ea) as (x & i & n & -> & Si & Sn & Hin & X). exists x, i, n. split; [reflexivity|]. split; [exact Si|]. split; [exact Sn|].
  split; [assumption|]. split; [assumption|]. rewrite X. assert (P : (0 < nq n)%Q) by (apply nq_pos; lia). split; [split|].
  - rewrite <- (rnd_0 _ R0). apply (rnd_le _ R0). apply Qle_shift_div_l; [assumption|]. rewrite Qmult_0_l. apply Qlt_le_weak, nq_pos; lia.
  - rewrite <- (rnd_1 _ R0). apply (rnd_le _ R0). apply Qle_shift_div_r; [assumption|]. rewrite Qmult_1_l. apply nq_le. lia.
  - intros (BR & _) O. rewrite BR. apply round64_pos. apply Qle_shift_div_l; [assumption|]. apply inject_le in O. fold (nq n) in O.
    assert (I : (1 <= nq i)%Q) by (apply (nq_le 1); lia). apply Qle_trans with 1%Q; [|exact I].
    apply Qle_trans with (unit_of 0 * inject_Z (2 ^ 1074))%Q; [apply Qmult_le_l; [apply unit_pos; lia|exact O]|vm_compute; discriminate].
Qed.
Print Assumptions C50_actual_radii.

(** Full statement: without the hypothesis [full].  It holds when every node from which another can be reached has one at
    distance exactly [d], in both directions; in particular at depth 1. *)
Theorem C50_radius_partial lib g d : rounding (m_round lib) -> WF g -> g_dir g = true -> node_names g -> full g d ->
  exists h, self_similarity_projection lib g d = Ok h /\ g_nodes h = g_nodes g
  /\ (forall u v, has_edge h u v = true <-> In u (nodes g) /\ In v (nodes g) /\ u <> v /\ exists t, view g u d d t /\ view g v d d t)
  /\ forall u v a, edge_attrs h u v (KInt 0) = Some a -> exists x i n, a = [(K "weight", VFloat x)]
        /\ has_size (fun t => view g u d d t /\ view g v d d t) i
        /\ has_size (fun t => (view g u d d t \/ view g v d d t) /\ ~ mutual u v t) n
        /\ 1 <= i <= n /\ (x == m_round lib (nq i / nq n))%Q /\ (0 <= x <= 1)%Q
        /\ (binary64 lib -> (Z.of_nat n <= 2 ^ 1074)%Z -> (0 < x)%Q).
Proof.
  intros R0 W D NN F. destruct (C50_actual_radii lib g d R0 W D NN) as (h & out & inn & E & R & Wh & Dh & Mh & Gh & Ah & HE & HA).
  pose proof (full_radii g d (nodes g) out inn F R) as FR. exists h. split; [assumption|]. split; [assumption|]. split.
  - intros u v. rewrite HE. split; intros (Iu & Iv & N & t & T); (split; [assumption|]; split; [assumption|]; split; [assumption|]; exists t);
      destruct (FR u Iu) as [E1 E2], (FR v Iv) as [E3 E4]; [rewrite E1, E2, E3, E4 in T|rewrite E1, E2, E3, E4]; assumption.
  - intros u v a Ea. assert (He : has_edge h u v = true) by (destruct (has_edge h u v) eqn:X; [reflexivity|]; rewrite edge_attrs_no_edge in Ea by assumption; discriminate).
    apply HE in He as (Iu & Iv & _). destruct (FR u Iu) as [E1 E2], (FR v Iv) as [E3 E4]. destruct (HA u v a Ea) as (x & i & n & H).
    rewrite E1, E2, E3, E4 in H. exists x, i, n. exact H.
Qed.
Print Assumptions C50_radius_partial.

(** at depth 1 the triples (direction, 1, neighbour) are the neighbours, other than the node itself *)
Lemma view_one g u b x : view g u 1 1 (b, 1%Z, x) <-> x <> u /\ arrow g (negb b) u x.
Proof.
  unfold view. split.
  - intros (n & E & _ & _ & Dn). replace n with 1 in Dn by lia. assert (N : x <> u).
    { intros ->. apply distance_self in Dn. discriminate. } split; [assumption|]. apply distance_one; [congruence|assumption].
  - intros [N A]. exists 1. split; [reflexivity|]. split; [lia|]. split; [destruct b; lia|]. apply distance_one; [congruence|assumption].
Qed.
Definition step (g : graph) (u : key) (t : bool * key) : Prop := snd t <> u /\ arrow g (negb (fst t)) u (snd t).
Lemma has_size_view g (P : Prop -> Prop -> bool * key -> Prop) u v n :
  (forall A B C E t, (A <-> C) -> (B <-> E) -> (P A B t <-> P C E t)) -> (forall A B t, P A B t -> A \/ B) ->
  has_size (fun t => P (view g u 1 1 t) (view g v 1 1 t) (fst (fst t), snd t)) n ->
  has_size (fun t => P (step g u t) (step g v t) t) n.
Proof.
  intros Ext Sub (l & [N I] & L). exists (map (fun t : bool * Z * key => (fst (fst t), snd t)) l). split; [|rewrite map_length; assumption].
  assert (One : forall t, In t l -> snd (fst t) = 1%Z).
  { intros t It. apply I in It. apply Sub in It. destruct t as [[b z] x]. cbn. destruct It as [(k & -> & K1 & K2 & _)|(k & -> & K1 & K2 & _)]; destruct b; lia. }
  split.
  - apply NoDup_map_inj; [|assumption]. intros [[b z] x] [[b' z'] x'] I1 I2 E. apply One in I1, I2. cbn in *. inversion E. congruence.
  - intros [b x]. rewrite in_map_iff. assert (Q : P (view g u 1 1 (b, 1%Z, x)) (view g v 1 1 (b, 1%Z, x)) (b, x) <-> P (step g u (b, x)) (step g v (b, x)) (b, x)).
    { apply Ext; apply view_one. }
    split.
    + intros ([[b' z] x'] & E & It). pose proof (One _ It) as O. cbn in O, E. inversion E; subst. apply I in It. cbn [fst snd] in It. apply Q. exact It.
    + intros H. exists (b, 1%Z, x). split; [reflexivity|]. apply I. cbn [fst snd]. apply Q. exact H.
Qed.

Theorem C49_depth_one lib g : rounding (m_round lib) -> WF g -> g_dir g = true -> node_names g ->
  exists h, self_similarity_projection lib g 1 = Ok h /\ g_nodes h = g_nodes g
  /\ (forall u v, has_edge h u v = true <-> u <> v /\ exists x, x <> u /\ x <> v /\
        ((has_edge g u x = true /\ has_edge g v x = true) \/ (has_edge g x u = true /\ has_edge g x v = true)))
  /\ forall u v a, edge_attrs h u v (KInt 0) = Some a -> exists x i n, a = [(K "weight", VFloat x)]
        /\ has_size (fun t => step g u t /\ step g v t) i
        /\ has_size (fun t => (step g u t \/ step g v t) /\ snd t <> u /\ snd t <> v) n
        /\ 1 <= i <= n /\ (x == m_round lib (nq i / nq n))%Q /\ (0 <= x <= 1)%Q
        /\ (binary64 lib -> (Z.of_nat n <= 2 ^ 1074)%Z -> (0 < x)%Q).
Proof.
  intros R0 W D NN. destruct (C50_radius_partial lib g 1 R0 W D NN (full_one g)) as (h & E & G & HE & HA). exists h. split; [assumption|]. split; [assumption|]. split.
  - intros u v. rewrite HE. split.
    + intros (_ & _ & N & [[b z] x] & V1 & V2). assert (z = 1%Z) as -> by (destruct V1 as (k & -> & K1 & K2 & _); destruct b; lia).
      apply view_one in V1 as [N1 A1]. apply view_one in V2 as [N2 A2]. split; [assumption|]. exists x. split; [assumption|]. split; [assumption|].
      destruct b; cbn in A1, A2; auto.
    + intros (N & x & N1 & N2 & H).
      assert (Ed : forall a b, has_edge g a b = true -> In a (nodes g) /\ In b (nodes g)).
      { intros a b He. unfold has_edge in He. destruct (edge_data g a b) eqn:Ed; [|discriminate]. eapply edge_data_nodes; eassumption. }
      destruct H as [[H1 H2]|[H1 H2]].
      * split; [apply Ed in H1; tauto|]. split; [apply Ed in H2; tauto|]. split; [assumption|]. exists (true, 1%Z, x). split; apply view_one; auto.
      * split; [apply Ed in H1; tauto|]. split; [apply Ed in H2; tauto|]. split; [assumption|]. exists (false, 1%Z, x). split; apply view_one; auto.
  - intros u v a Ea. destruct (HA u v a Ea) as (x & i & n & -> & Si & Sn & X). exists x, i, n. split; [reflexivity|].
    split; [|split; [|exact X]].
    + apply (has_size_view g (fun A B _ => A /\ B) u v i); [tauto|tauto|exact Si].
    + apply (has_size_view g (fun A B t => (A \/ B) /\ snd t <> u /\ snd t <> v) u v n); [tauto|tauto|].
      eapply has_size_ext; [|exact Sn]. intros [[b z] y]. cbn [fst snd]. unfold mutual. cbn [fst snd]. split.
      * intros [V M]. split; [assumption|]. assert (z = 1%Z) by (destruct V as [(k & -> & K1 & K2 & _)|(k & -> & K1 & K2 & _)]; destruct b; lia).
        split; intros C; apply M; auto.
      * intros [V [M1 M2]]. split; [assumption|]. tauto.
Qed.
Print Assumptions C49_depth_one.

Example C49_ex : node_names arrows
  /\ reduced (shown (self_similarity_projection rounded arrows 1)) =
     Some (map (fun n => (KInt n, [])) [0; 1; 2; 3; 4; 5]%Z,
       [(KInt 0, KInt 1, wq (1 # 2)); (KInt 0, KInt 5, wq (1 # 3)); (KInt 1, KInt 2, wq (1 # 2)); (KInt 2, KInt 4, wq (1 # 3))]).
Proof. split; [intros n a k I Ik; vm_compute in I; intuition (match goal with E : (_, _) = _ |- _ => inversion E; subst end; destruct Ik)|vm_compute; reflexivity]. Qed.

(** false at depth 2: the loops over the neighbours assign the variable depth, so that a node which reaches less far
    shrinks the radius for the nodes which come after it *)
Definition branches (ns : list Z) : graph := ex_graph true false ns (plain [(0, 1); (2, 3); (3, 4); (5, 6); (6, 4)]%Z).
Lemma branches_view ns u w : let g := branches ns in
  has_edge g (KInt u) (KInt w) = true -> has_edge g (KInt w) (KInt 4) = true -> has_edge g (KInt u) (KInt 4) = false -> u <> 4%Z ->
  view g (KInt u) 2 2 (true, 2%Z, KInt 4).
Proof.
  cbn zeta. intros H1 H2 H3 N. exists 2. split; [reflexivity|]. split; [lia|]. split; [lia|]. split.
  - exists (KInt w). split; [exists (KInt u); split; [reflexivity|exact H1]|exact H2].
  - intros m Hm R. destruct m as [|[|m]]; [|destruct R as (x & Rx & A)|lia].
    + cbn in R. congruence.
    + cbn in Rx. subst x. unfold arrow in A. congruence.
Qed.

Theorem C50_radius_refuted : exists g h, WF g /\ g_dir g = true /\ node_names g
  /\ self_similarity_projection rounded g 2 = Ok h
  /\ view g (KInt 2) 2 2 (true, 2%Z, KInt 4) /\ view g (KInt 5) 2 2 (true, 2%Z, KInt 4) /\ has_edge h (KInt 2) (KInt 5) = false.
Proof.
  exists (branches [0; 1; 2; 3; 4; 5; 6]%Z). eexists. split; [apply graph_WF; reflexivity|]. split; [reflexivity|]. split.
  { intros n a k I. listed I (g_nodes (branches [0; 1; 2; 3; 4; 5; 6]%Z)); intros []. }
  split; [vm_compute; reflexivity|]. split; [|split; [|vm_compute; reflexivity]].
  - apply (branches_view _ 2 3); try reflexivity. discriminate.
  - apply (branches_view _ 5 6); try reflexivity. discriminate.
Qed.
Print Assumptions C50_radius_refuted.

(** the same graph with its nodes in another order *)
Theorem C50_order_refuted : exists g g' h h', WF g /\ WF g' /\ (forall n, In n (nodes g) <-> In n (nodes g'))
  /\ (forall u v, has_edge g u v = has_edge g' u v)
  /\ self_similarity_projection rounded g 2 = Ok h /\ self_similarity_projection rounded g' 2 = Ok h'
  /\ has_edge h (KInt 2) (KInt 5) = false /\ has_edge h' (KInt 2) (KInt 5) = true.
Proof.
  exists (branches [0; 1; 2; 3; 4; 5; 6]%Z), (branches [5; 2; 4; 3; 6; 0; 1]%Z). eexists. eexists.
  split; [apply graph_WF; reflexivity|]. split; [apply graph_WF; reflexivity|]. split; [|split; [|split; [|split; [|split]]]].
  - intros n. vm_compute. tauto.
  - intros u v. reflexivity.
  - vm_compute. reflexivity.
  - vm_compute. reflexivity.
  - vm_compute. reflexivity.
  - vm_compute. reflexivity.
Qed.
Print Assumptions C50_order_refuted.

(** from every node of this graph there is exactly one other at distance 2 *)
Definition sides : graph := ex_graph true false [0; 1; 2; 3]%Z (plain [(0, 2); (0, 3); (1, 2); (1, 3); (2, 0); (2, 1); (3, 0); (3, 1)]%Z).
Lemma two_steps g reverse u t z : has_edge g u t = true /\ has_edge g t u = true /\ has_edge g t z = true /\ has_edge g z t = true
     /\ has_edge g u z = false /\ has_edge g z u = false /\ u <> z -> distance g reverse u z 2.
Proof.
  intros (H1 & H2 & H3 & H4 & H5 & H6 & N). split.
  - exists t. split; [exists u; split; [reflexivity|]|]; destruct reverse; assumption.
  - intros m Hm R. destruct m as [|[|m]]; [contradiction|destruct R as (w & <- & A)|lia]. destruct reverse; unfold arrow in A; congruence.
Qed.
Lemma sides_full : full sides 2.
Proof.
  intros reverse u x n Dx Hn. destruct (distance_down sides reverse u n x Dx 1 Hn) as (y & Dy). destruct Dy as [(w & <- & A) _].
  assert (I : In u (nodes sides)).
  { assert (W : WF sides) by (apply graph_WF; reflexivity). destruct reverse; unfold arrow in A; apply (L_Comp.has_edge_nodes sides _ _ W) in A; [exact (proj2 A)|exact (proj1 A)]. }
  clear A Dx Hn y x n.
  assert (H : exists z t, has_edge sides u t = true /\ has_edge sides t u = true /\ has_edge sides t z = true /\ has_edge sides z t = true
     /\ has_edge sides u z = false /\ has_edge sides z u = false /\ u <> z).
  { listed I (nodes sides); [exists (KInt 1), (KInt 2)|exists (KInt 0), (KInt 2)|exists (KInt 3), (KInt 0)|exists (KInt 2), (KInt 0)];
      (repeat split; try reflexivity; discriminate). }
  destruct H as (z & t & H). exists z, 2. split; [reflexivity|]. exact (two_steps sides reverse u t z H).
Qed.

Example C50_ex : full sides 2
  /\ reduced (shown (self_similarity_projection rounded sides 2)) = Some (map (fun n => (KInt n, [])) [0; 1; 2; 3]%Z,
        [(KInt 0, KInt 1, wq (1 # 2)); (KInt 2, KInt 3, wq (1 # 2))])
  /\ reduced (shown (self_similarity_projection rounded (branches [5; 2; 4; 3; 6; 0; 1]%Z) 2))
     = Some (map (fun n => (KInt n, [])) [5; 2; 4; 3; 6; 0; 1]%Z, [(KInt 5, KInt 2, wq (1 # 3)); (KInt 3, KInt 6, wq (1 # 3))]).
Proof. split; [exact sides_full|]. split; vm_compute; reflexivity. Qed.
