(** * Writing: edges and removals *)
From Coq Require Import Lia.
From Verif Require Import NxGraph NxDicts L_Base L_Utils L_Nx L_Nx2 L_Graph L_Graph2 L_Frame L_NxDicts L_NxDicts3.

Lemma set_found dir u v k a L1 r b L2 : same_ends dir u v b = true ->
  (forall y, In y L1 -> sought dir u v y = false) ->
  set_bundle dir u v k a (map snd (L1 ++ (r, b) :: L2))
  = map snd L1 ++ mkB (b_src b) (b_dst b) (dset k (dupdate (match dget k (b_data b) with Some o => o | None => [] end) a) (b_data b)) :: map snd L2.
Proof.
  intros S. induction L1 as [|[s c] L1 IH]; intros H; cbn [app map snd set_bundle].
  - now rewrite S.
  - pose proof (H (s, c) (or_introl eq_refl)) as X. unfold sought in X. cbn [snd] in X. rewrite X. f_equal.
    apply IH. intros y I. apply H. now right.
Qed.

Lemma drop_found dir multi u v L1 r b L2 : same_ends dir u v b = true ->
  (forall y, In y L1 -> sought dir u v y = false) ->
  drop_pair dir multi u v (map snd (L1 ++ (r, b) :: L2))
  = map snd L1 ++ match (if multi then removelast (b_data b) else []) with
                  | [] => map snd L2
                  | kd => mkB (b_src b) (b_dst b) kd :: map snd L2
                  end.
Proof.
  intros S. induction L1 as [|[s c] L1 IH]; intros H; cbn [app map snd drop_pair].
  - now rewrite S.
  - pose proof (H (s, c) (or_introl eq_refl)) as X. unfold sought in X. cbn [snd] in X. rewrite X. f_equal.
    apply IH. intros y I. apply H. now right.
Qed.

Lemma drop_absent dir multi u v l : (forall b, In b l -> same_ends dir u v b = false) -> drop_pair dir multi u v l = l.
Proof.
  induction l as [|b l IH]; intros H; [reflexivity|]. cbn [drop_pair]. rewrite (H b (or_introl eq_refl)). f_equal.
  apply IH. intros c I. apply H. now right.
Qed.

Lemma unsought_all g (L : list (nat * bundle)) u v : map snd L = g_adj g -> find (sought (g_dir g) u v) L = None ->
  forall b, In b (g_adj g) -> same_ends (g_dir g) u v b = false.
Proof.
  intros E F b I. rewrite <- E in I. apply in_map_iff in I as ([r c] & X & I). cbn [snd] in X. subst c.
  exact (find_none _ _ F (r, b) I).
Qed.

Section Adding.
  Context (d : dgraph) (g : graph) (L : list (nat * bundle)) (HR : Rep d g L) (HW : WF g).

  Let d1 u v := d_ensure (d_ensure d u) v.
  Let g1 u v := ensure_node (ensure_node g u) v.

  Lemma ensured u v : Rep (d1 u v) (g1 u v) L /\ WF (g1 u v) /\ In u (nodes (g1 u v)) /\ In v (nodes (g1 u v)).
  Proof.
    unfold d1, g1. assert (W : WF (ensure_node g u)) by now apply WF_ensure.
    split; [apply Rep_ensure; [apply Rep_ensure; assumption|assumption]|].
    split; [now apply WF_ensure|]. rewrite !In_nodes_ensure. auto.
  Qed.

  Lemma getitem_succ u : In u (nodes g) -> getitem (d_succ d) u = Ok (refs (g_dir g) L u).
  Proof. intros I. rewrite (rep_succ _ _ _ HR). now apply getitem_table. Qed.

  Lemma add_edge_with u v k a : add_edge_at g u v k a
    = with_adj (g1 u v) (set_bundle (g_dir (g1 u v)) u v k a (g_adj (g1 u v))).
  Proof. reflexivity. Qed.
End Adding.

Lemma Rep_add_simple d g L u v a : Rep d g L -> WF g -> g_multi g = false ->
  exists d' L', d_add_edge_simple d u v a = Ok d' /\ Rep d' (add_edge g u v a) L'.
Proof.
  intros HR HW M. unfold add_edge. rewrite M, add_edge_with.
  destruct (ensured d g L HR HW u v) as (R1 & W1 & Iu & Iv). unfold d_add_edge_simple.
  assert (M1 : g_multi (ensure_node (ensure_node g u) v) = false) by now rewrite !multi_ensure.
  revert R1 W1 Iu Iv M1. generalize (d_ensure (d_ensure d u) v) (ensure_node (ensure_node g u) v). intros d1 g1 R1 W1 Iu Iv M1.
  rewrite (getitem_succ d1 g1 L R1) by assumption. cbn [bind]. rewrite dget_refs.
  destruct (find (sought (g_dir g1) u v) L) as [[r b]|] eqn:F; cbn [option_map fst].
  - destruct (find_split _ _ _ F) as (L1 & L2 & E & S & H). unfold sought in S. cbn [snd] in S.
    assert (I : In (r, b) L) by (rewrite E; apply in_or_app; right; now left).
    assert (Ib : In b (g_adj g1)) by (rewrite <- (rep_adj _ _ _ R1); apply in_map_iff; exists (r, b); auto).
    destruct (wf_simple g1 W1 M1 b Ib) as (o & Eo).
    rewrite (deref_In d1 g1 L R1 r b I), Eo. cbn [dget key_eqb]. change (Z.eqb 0 0) with true. cbn iota.
    pose proof (Rep_store d1 g1 L R1 L1 r b L2 [(KInt 0, dupdate o a)] E) as R2.
    assert (Same : set_bundle (g_dir g1) u v (KInt 0) a (g_adj g1) = map snd L1 ++ mkB (b_src b) (b_dst b) [(KInt 0, dupdate o a)] :: map snd L2).
    { rewrite <- (rep_adj _ _ _ R1), E, set_found by assumption. rewrite Eo. reflexivity. }
    rewrite <- Same in R2.
    assert (W2 : WF (with_adj g1 (set_bundle (g_dir g1) u v (KInt 0) a (g_adj g1)))).
    { pose proof (WF_add_edge_at g1 u v (KInt 0) a W1 (fun _ => eq_refl)) as X. rewrite add_edge_with in X.
      rewrite !(ensure_present g1) in X by (rewrite ?ensure_present; assumption). exact X. }
    rewrite (link_same _ _ _ R2 W2 u v r (mkB (b_src b) (b_dst b) [(KInt 0, dupdate o a)])).
    + eexists _, _. split; [reflexivity|exact R2].
    + exact Iu.
    + exact Iv.
    + cbn [with_adj g_dir].
      assert (Z : forall l x l2, (forall y, In y l -> sought (g_dir g1) u v y = false) -> sought (g_dir g1) u v x = true ->
        find (sought (g_dir g1) u v) (l ++ x :: l2) = Some x).
      { clear. induction l as [|y l IH]; intros x l2 H X; cbn [app find]; [now rewrite X|].
        rewrite (H y (or_introl eq_refl)). apply IH; [|assumption]. intros z I. apply H. now right. }
      apply Z; [assumption|]. exact S.
  - unfold alloc. destruct (Rep_new_edge d1 g1 L R1 W1 u v [(KInt 0, dupdate [] a)] Iu Iv F) as (d2 & E & R2).
    unfold alloc in E. cbn [fst snd] in E. rewrite E. eexists _, _. split; [reflexivity|].
    rewrite (set_bundle_new (g_dir g1) u v (KInt 0) a (g_adj g1)); [exact R2|].
    exact (unsought_all g1 L u v (rep_adj _ _ _ R1) F).
Qed.

Lemma Rep_add_multi d g L u v ok a : Rep d g L -> WF g -> g_multi g = true ->
  exists d' L', d_add_edge_multi d u v ok a = Ok d'
    /\ Rep d' (add_edge_at g u v (match ok with Some k => k | None => new_edge_key g u v end) a) L'.
Proof.
  intros HR HW M. rewrite add_edge_with.
  destruct (ensured d g L HR HW u v) as (R1 & W1 & Iu & Iv). unfold d_add_edge_multi.
  assert (K : d_new_edge_key (d_ensure (d_ensure d u) v) u v = new_edge_key g u v).
  { unfold d_new_edge_key, new_edge_key. rewrite (read_edge_data _ _ _ R1 W1).
    unfold edge_data. now rewrite !adj_ensure, !dir_ensure. }
  rewrite K. generalize (match ok with Some k => k | None => new_edge_key g u v end). intros k. clear K.
  revert R1 W1 Iu Iv. generalize (d_ensure (d_ensure d u) v) (ensure_node (ensure_node g u) v). intros d1 g1 R1 W1 Iu Iv.
  rewrite (getitem_succ d1 g1 L R1) by assumption. cbn [bind]. rewrite dget_refs.
  destruct (find (sought (g_dir g1) u v) L) as [[r b]|] eqn:F; cbn [option_map fst].
  - destruct (find_split _ _ _ F) as (L1 & L2 & E & S & H). unfold sought in S. cbn [snd] in S.
    assert (I : In (r, b) L) by (rewrite E; apply in_or_app; right; now left).
    rewrite (deref_In d1 g1 L R1 r b I).
    pose proof (Rep_store d1 g1 L R1 L1 r b L2 (dset k (dupdate (match dget k (b_data b) with Some o => o | None => [] end) a) (b_data b)) E) as R2.
    rewrite <- (set_found (g_dir g1) u v k a L1 r b L2 S H), <- E, (rep_adj _ _ _ R1) in R2.
    eexists _, _. split; [reflexivity|exact R2].
  - unfold alloc. destruct (Rep_new_edge d1 g1 L R1 W1 u v [(k, dupdate [] a)] Iu Iv F) as (d2 & E & R2).
    unfold alloc in E. cbn [fst snd] in E. rewrite E. eexists _, _. split; [reflexivity|].
    rewrite (set_bundle_new (g_dir g1) u v k a (g_adj g1)); [exact R2|].
    exact (unsought_all g1 L u v (rep_adj _ _ _ R1) F).
Qed.

(** ** removing edges *)
Lemma dremove_mid {A} m (x : A) d1 d2 : NoDup (dkeys (d1 ++ (m, x) :: d2)) -> dremove [m] (d1 ++ (m, x) :: d2) = d1 ++ d2.
Proof.
  intros ND. unfold dkeys in ND. rewrite map_app in ND. cbn [map fst] in ND. apply NoDup_remove_2 in ND.
  unfold dremove. rewrite filter_app. cbn [filter fst mem existsb]. rewrite key_eqb_refl. cbn [orb negb]. rewrite <- filter_app.
  rewrite <- map_app in ND. fold (dkeys (d1 ++ d2)) in ND. apply (dremove_none m (d1 ++ d2) ND).
Qed.

Lemma refs_NoDup dir L n : ForallOrdPairs (apart dir) (map snd L) -> NoDup (dkeys (refs dir L n)).
Proof.
  induction L as [|[r b] L IH]; intros F; [constructor|]. cbn [map snd] in F. inversion F as [|? ? H F']; subst.
  cbn [refs flat_map snd fst]. fold (refs dir L n). destruct (other_end dir n b) as [m|] eqn:E; [|now apply IH].
  cbn [app dkeys map fst]. constructor; [|now apply IH]. intros I. apply in_map_iff in I as ([m' s] & X & I). cbn [fst] in X. subst m'.
  apply refs_In in I as (c & I & Ec). rewrite Forall_forall in H.
  assert (Ic : In c (map snd L)) by (apply in_map_iff; exists (s, c); auto). specialize (H c Ic). unfold apart in H.
  apply other_end_iff in E. apply other_end_iff in Ec. apply same_ends_iff in E. apply same_ends_iff in Ec.
  assert (same_ends dir (b_src b) (b_dst b) c = true); [|congruence]. apply same_ends_iff. intuition congruence.
Qed.

Lemma prefs_In L n m r : In (m, r) (prefs L n) -> exists b, In (r, b) L /\ b_src b = m /\ b_dst b = n.
Proof.
  unfold prefs. intros I. apply in_flat_map in I as ([r' b] & I & J). cbn [fst snd] in J.
  destruct (key_eqb (b_dst b) n) eqn:E; [|destruct J]. destruct J as [[= <- <-]|[]]. apply key_eqb_eq in E. eauto.
Qed.

Lemma prefs_NoDup L n : ForallOrdPairs (apart true) (map snd L) -> NoDup (dkeys (prefs L n)).
Proof.
  induction L as [|[r b] L IH]; intros F; [constructor|]. cbn [map snd] in F. inversion F as [|? ? H F']; subst.
  cbn [prefs flat_map snd fst]. fold (prefs L n). destruct (key_eqb (b_dst b) n) eqn:E; [|now apply IH]. apply key_eqb_eq in E.
  cbn [app dkeys map fst]. constructor; [|now apply IH]. intros I. apply in_map_iff in I as ([m' s] & X & I). cbn [fst] in X. subst m'.
  apply prefs_In in I as (c & I & E1 & E2). rewrite Forall_forall in H.
  assert (Ic : In c (map snd L)) by (apply in_map_iff; exists (s, c); auto). specialize (H c Ic). unfold apart in H.
  assert (same_ends true (b_src b) (b_dst b) c = true); [|congruence]. apply same_ends_iff. intuition congruence.
Qed.

Lemma Rep_unlink d g L1 r b L2 u v : Rep d g (L1 ++ (r, b) :: L2) ->
  NoDup (nodes g) -> In u (nodes g) -> In v (nodes g) -> ForallOrdPairs (apart (g_dir g)) (g_adj g) ->
  same_ends (g_dir g) u v b = true ->
  exists d', d_unlink d u v = Ok d' /\ Rep d' (with_adj g (map snd L1 ++ map snd L2)) (L1 ++ L2).
Proof.
  intros HR NT Iu Iv F S. pose proof HR as [H1 H2 H3 H4 H5 H6 H7 H8 H9].
  set (L := L1 ++ (r, b) :: L2) in *.
  assert (Rn : forall n, refs (g_dir g) L n = refs (g_dir g) L1 n ++ match other_end (g_dir g) n b with Some m => [(m, r)] | None => [] end ++ refs (g_dir g) L2 n).
  { intros n. unfold L. rewrite refs_app. reflexivity. }
  assert (Pn : forall n, prefs L n = prefs L1 n ++ (if key_eqb (b_dst b) n then [(b_src b, r)] else []) ++ prefs L2 n).
  { intros n. unfold L. rewrite prefs_app. reflexivity. }
  rewrite <- H7 in F.
  assert (Cut : forall n m, other_end (g_dir g) n b = Some m -> dremove [m] (refs (g_dir g) L n) = refs (g_dir g) (L1 ++ L2) n).
  { intros n m E. pose proof (refs_NoDup (g_dir g) L n F) as ND. rewrite Rn in *. rewrite E in *. cbn [app] in *.
    rewrite dremove_mid by assumption. now rewrite refs_app. }
  assert (Keep : forall n, other_end (g_dir g) n b = None -> refs (g_dir g) L n = refs (g_dir g) (L1 ++ L2) n).
  { intros n E. rewrite Rn, E, refs_app. reflexivity. }
  assert (Oe : other_end (g_dir g) u b = Some v) by now apply other_end_iff.
  assert (Has : In v (dkeys (refs (g_dir g) L u))).
  { rewrite Rn, Oe. unfold dkeys. rewrite map_app. apply in_or_app. right. now left. }
  assert (Common : forall succ pred, succ = table (refs (g_dir g) (L1 ++ L2)) (nodes g) ->
    pred = (if g_dir g then table (prefs (L1 ++ L2)) (nodes g) else []) ->
    Rep (mkD (g_dir g) (d_multi d) (d_graph d) (d_node d) succ pred (d_heap d)) (with_adj g (map snd L1 ++ map snd L2)) (L1 ++ L2)).
  { intros succ pred -> ->. constructor; cbn [with_adj g_dir g_multi g_attr g_nodes g_adj d_dir d_multi d_graph d_node d_succ d_pred d_heap]; try assumption; try reflexivity.
    - apply map_app.
    - unfold L in H8. rewrite map_app in *. cbn [map fst] in H8. now apply NoDup_remove_1 in H8.
    - intros s c I. apply H9. unfold L. apply in_app_or in I as [I|I]; apply in_or_app; [now left|right; now right]. }
  unfold d_unlink. rewrite H5, delitem2_table by assumption. cbn [bind]. rewrite H1. destruct (g_dir g) eqn:D.
  - assert (Src : b_src b = u /\ b_dst b = v).
    { apply same_ends_iff in S as [S|[X _]]; [assumption|discriminate]. }
    destruct Src as [Es Ed].
    rewrite H6, delitem2_table; [|assumption|assumption|].
    + cbn [bind]. eexists. split; [reflexivity|]. apply Common; apply table_ext; intros n _.
      * destruct (key_eqb u n) eqn:E.
        -- apply key_eqb_eq in E as <-. now apply Cut.
        -- apply Keep. unfold other_end. rewrite Es, E. reflexivity.
      * destruct (key_eqb v n) eqn:E.
        -- apply key_eqb_eq in E as <-. pose proof (prefs_NoDup L v F) as ND. rewrite Pn in *. rewrite Ed, Es, key_eqb_refl in *. cbn [app] in *.
           rewrite dremove_mid by assumption. now rewrite prefs_app.
        -- rewrite Pn, Ed, E, prefs_app. reflexivity.
    + rewrite Pn, Ed, Es, key_eqb_refl. unfold dkeys. rewrite map_app. apply in_or_app. right. now left.
  - destruct (key_eqb u v) eqn:E.
    + apply key_eqb_eq in E as <-. cbn [bind]. eexists. split; [reflexivity|]. apply Common; [|assumption]. apply table_ext. intros n _.
      destruct (key_eqb u n) eqn:E.
      * apply key_eqb_eq in E as <-. now apply Cut.
      * apply Keep. apply same_ends_iff in S. unfold other_end. cbn [negb andb].
        destruct S as [[-> ->]|[_ [-> ->]]]; now rewrite E.
    + assert (Oe2 : other_end false v b = Some u).
      { apply other_end_iff. rewrite same_ends_sym. assumption. }
      rewrite delitem2_table; [|assumption|assumption|].
      * cbn [bind]. eexists. split; [reflexivity|]. apply Common; [|assumption]. apply table_ext. intros n _.
        destruct (key_eqb v n) eqn:En.
        -- apply key_eqb_eq in En as <-. rewrite E. now apply Cut.
        -- destruct (key_eqb u n) eqn:En2.
           ++ apply key_eqb_eq in En2 as <-. now apply Cut.
           ++ apply Keep. apply same_ends_iff in S. unfold other_end. cbn [negb andb].
              destruct S as [[-> ->]|[_ [-> ->]]]; now rewrite En, En2.
      * rewrite E. rewrite Rn, Oe2. unfold dkeys. rewrite map_app. apply in_or_app. right. now left.
Qed.
