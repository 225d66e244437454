(** * Removals, mutations and copies; sequences of calls *)
From Coq Require Import Lia.
From Verif Require Import NxGraph NxDicts S_Nx L_Base L_Utils L_Nx L_Nx2 L_Graph L_Graph2 L_Frame L_Json L_Sparse L_NxDicts L_NxDicts2 L_NxDicts3 L_NxDicts4.

(** ** removing a pair *)
Definition dropped (dir multi : bool) (u v x y : key) (kd : dict attrs) : option (dict attrs) :=
  if jn dir u v x y then match (if multi then removelast kd else []) with [] => None | kd' => Some kd' end else Some kd.

Lemma dropped_other dir multi u v l : (forall b, In b l -> same_ends dir u v b = false) -> rewrite_adj (dropped dir multi u v) l = l.
Proof.
  induction l as [|c l IH]; intros H; [reflexivity|]. cbn [rewrite_adj flat_map]. fold (rewrite_adj (dropped dir multi u v) l).
  rewrite IH by (intros x I; apply H; now right). unfold dropped. rewrite <- same_ends_jn, (H c (or_introl eq_refl)). now destruct c.
Qed.

Lemma drop_rewrite dir multi u v l : ForallOrdPairs (apart dir) l ->
  drop_pair dir multi u v l = rewrite_adj (dropped dir multi u v) l.
Proof.
  induction 1 as [|b l H F IH]; [reflexivity|]. cbn [drop_pair rewrite_adj flat_map]. fold (rewrite_adj (dropped dir multi u v) l).
  unfold dropped at 1. rewrite <- same_ends_jn. destruct (same_ends dir u v b) eqn:E.
  - rewrite dropped_other.
    + now destruct (if multi then removelast (b_data b) else []).
    + intros c I. rewrite Forall_forall in H. specialize (H c I). unfold apart in H.
      destruct (same_ends dir u v c) eqn:E2; [rewrite (same_ends_trans _ _ _ _ _ E E2) in H; discriminate|reflexivity].
  - rewrite <- IH. now destruct b.
Qed.

Lemma removelast_In {A} (x : A) l : In x (removelast l) -> In x l.
Proof.
  destruct l as [|y l] using rev_ind; [intros []|]. rewrite removelast_last. intros I. apply in_or_app. now left.
Qed.

Lemma removelast_NoDup {A B} (f : A -> B) l : NoDup (map f l) -> NoDup (map f (removelast l)).
Proof.
  destruct l as [|y l _] using rev_ind; [trivial|]. rewrite removelast_last, map_app. cbn [map]. intros H.
  apply NoDup_remove_1 in H. now rewrite app_nil_r in H.
Qed.

Lemma WF_drop g u v : WF g -> WF (with_adj g (drop_pair (g_dir g) (g_multi g) u v (g_adj g))).
Proof.
  intros W. rewrite drop_rewrite by apply (wf_distinct g W). apply WF_rewrite; [assumption|].
  intros x y kd kd' (N & D & A & M) E. unfold dropped in E. destruct (jn (g_dir g) u v x y).
  - destruct (g_multi g) eqn:Mu; [|discriminate]. destruct (removelast kd) as [|p l] eqn:R; [discriminate|].
    injection E as <-. rewrite <- R. split; [rewrite R; discriminate|]. split; [now apply removelast_NoDup|].
    split; [intros k a I; apply (A k a); now apply removelast_In|discriminate].
  - injection E as <-. split; [assumption|]. split; [assumption|]. split; assumption.
Qed.

Lemma store_fields d r kd : d_dir (store d r kd) = d_dir d.
Proof. reflexivity. Qed.

Lemma Rep_remove_pair d g L u v : Rep d g L -> WF g ->
  exists d' L', d_remove_pair d u v = Ok d' /\ Rep d' (with_adj g (drop_pair (g_dir g) (g_multi g) u v (g_adj g))) L'.
Proof.
  intros HR HW. unfold d_remove_pair.
  assert (Get : match dget u (d_succ d) with Some nb => dget v nb | None => None end = option_map fst (find (sought (g_dir g) u v) L)).
  { rewrite <- dget_refs, <- (succ_nbrs d g L HR HW u). now destruct (dget u (d_succ d)). }
  assert (Gone : find (sought (g_dir g) u v) L = None ->
    exists L', Rep d (with_adj g (drop_pair (g_dir g) (g_multi g) u v (g_adj g))) L').
  { intros F. exists L. rewrite drop_absent; [|exact (unsought_all g L u v (rep_adj _ _ _ HR) F)]. destruct g. exact HR. }
  destruct (dget u (d_succ d)) as [nb|].
  2: { destruct (find (sought (g_dir g) u v) L); [discriminate|]. destruct (Gone eq_refl) as (L' & R'). eauto. }
  rewrite Get. clear Get. destruct (find (sought (g_dir g) u v) L) as [[r b]|] eqn:F; cbn [option_map fst].
  2: { destruct (Gone eq_refl) as (L' & R'). eauto. }
  clear Gone. destruct (find_split _ _ _ F) as (L1 & L2 & E & S & H). unfold sought in S. cbn [snd] in S.
  assert (I : In (r, b) L) by (rewrite E; apply in_or_app; right; now left).
  assert (Ib : In b (g_adj g)) by (rewrite <- (rep_adj _ _ _ HR); apply in_map_iff; exists (r, b); auto).
  assert (Ends : In u (nodes g) /\ In v (nodes g)).
  { destruct (wf_ends g HW b Ib) as [A B]. apply same_ends_iff in S. destruct S as [[<- <-]|(_ & <- & <-)]; auto. }
  destruct Ends as [Iu Iv].
  assert (Drop : drop_pair (g_dir g) (g_multi g) u v (g_adj g) = map snd L1 ++ match (if g_multi g then removelast (b_data b) else []) with
                  | [] => map snd L2
                  | kd => mkB (b_src b) (b_dst b) kd :: map snd L2
                  end).
  { rewrite <- (rep_adj _ _ _ HR), E. now apply drop_found. }
  rewrite Drop. clear Drop. rewrite (rep_multi _ _ _ HR). destruct (g_multi g).
  - rewrite (deref_In d g L HR r b I).
    pose proof (Rep_store d g L HR L1 r b L2 (removelast (b_data b)) E) as R2.
    destruct (removelast (b_data b)) as [|x kd] eqn:Rl.
    + destruct (Rep_unlink (store d r []) _ L1 r _ L2 u v R2) as (d' & Ed & R3).
      * apply (wf_nodes g HW).
      * exact Iu.
      * exact Iv.
      * cbn [with_adj g_dir g_adj]. pose proof (wf_distinct g HW) as FO. rewrite <- (rep_adj _ _ _ HR), E, map_app in FO. cbn [map snd] in FO.
        change (map snd L1 ++ mkB (b_src b) (b_dst b) [] :: map snd L2) with (map snd L1 ++ [mkB (b_src b) (b_dst b) []] ++ map snd L2).
        change (map snd L1 ++ b :: map snd L2) with (map snd L1 ++ [b] ++ map snd L2) in FO.
        apply FOP_app in FO as (F1 & F2 & F3). apply FOP_app in F2 as (F4 & F5 & F6).
        apply FOP_app. split; [assumption|]. split.
        -- apply FOP_app. split; [repeat constructor|]. split; [assumption|].
           intros x y [<-|[]] Iy. exact (F6 b y (or_introl eq_refl) Iy).
        -- intros x y Ix Iy. apply in_app_or in Iy as [[<-|[]]|Iy].
           ++ exact (F3 x b Ix (or_introl eq_refl)).
           ++ apply F3; [assumption|]. apply in_or_app. now right.
      * exact S.
      * exists d', (L1 ++ L2). split; [assumption|]. exact R3.
    + eexists _, _. split; [reflexivity|exact R2].
  - rewrite E in HR. destruct (Rep_unlink d g L1 r b L2 u v HR) as (d' & Ed & R3);
      [apply (wf_nodes g HW)|assumption|assumption|apply (wf_distinct g HW)|assumption|].
    exists d', (L1 ++ L2). split; [assumption|]. exact R3.
Qed.

Lemma Rep_remove_edges l : forall d g L, Rep d g L -> WF g ->
  exists d' L', d_remove_edges_from d l = Ok d' /\ Rep d' (remove_edges_from g l) L' /\ WF (remove_edges_from g l).
Proof.
  induction l as [|[u v] l IH]; intros d g L HR HW.
  - exists d, L. split; [reflexivity|]. destruct g. auto.
  - destruct (Rep_remove_pair d g L u v HR HW) as (d1 & L1 & E1 & R1). pose proof (WF_drop g u v HW) as W1.
    destruct (IH d1 _ L1 R1 W1) as (d2 & L2 & E2 & R2 & W2). exists d2, L2. split; [|split].
    + unfold d_remove_edges_from in *. cbn [foldM fst snd]. now rewrite E1.
    + exact R2.
    + exact W2.
Qed.

(** ** removing a node *)
Definition off (n : key) (rb : nat * bundle) : bool := negb (mem (b_src (snd rb)) [n]) && negb (mem (b_dst (snd rb)) [n]).

Lemma mem1 m n : mem m [n] = key_eqb m n.
Proof. unfold mem. cbn. apply orb_false_r. Qed.

Lemma refs_off dir L n m : m <> n -> refs dir (filter (off n) L) m = dremove [n] (refs dir L m).
Proof.
  intros X. induction L as [|[r b] L IH]; [reflexivity|]. cbn [filter]. cbn [refs flat_map snd fst]. fold (refs dir L m).
  unfold dremove in *. rewrite filter_app, <- IH. unfold off at 1. cbn [snd]. rewrite !mem1.
  destruct (other_end dir m b) as [x|] eqn:E.
  - cbn [filter fst]. rewrite mem1. apply other_end_iff in E. pose proof E as E'. apply same_ends_iff in E'.
    assert (Y : negb (key_eqb (b_src b) n) && negb (key_eqb (b_dst b) n) = negb (key_eqb x n)).
    { assert (Z : key_eqb m n = false) by (destruct (key_eqb m n) eqn:Q; [apply key_eqb_eq in Q; contradiction|reflexivity]).
      destruct E' as [[-> ->]|(_ & -> & ->)]; rewrite Z; [reflexivity|]. now rewrite andb_true_r. }
    rewrite Y. destruct (negb (key_eqb x n)); [|reflexivity]. cbn [refs flat_map snd fst app].
    apply other_end_iff in E. rewrite E. reflexivity.
  - cbn [filter app]. destruct (negb (key_eqb (b_src b) n) && negb (key_eqb (b_dst b) n)); [|reflexivity].
    cbn [refs flat_map snd fst app]. now rewrite E.
Qed.

Lemma prefs_off L n m : m <> n -> prefs (filter (off n) L) m = dremove [n] (prefs L m).
Proof.
  intros X. induction L as [|[r b] L IH]; [reflexivity|]. cbn [filter]. cbn [prefs flat_map snd fst]. fold (prefs L m).
  unfold dremove in *. rewrite filter_app, <- IH. unfold off at 1. cbn [snd]. rewrite !mem1.
  destruct (key_eqb (b_dst b) m) eqn:E.
  - cbn [filter fst]. rewrite mem1. apply key_eqb_eq in E. rewrite E.
    assert (Z : key_eqb m n = false) by (destruct (key_eqb m n) eqn:Q; [apply key_eqb_eq in Q; contradiction|reflexivity]).
    rewrite Z, andb_true_r. destruct (negb (key_eqb (b_src b) n)); [|reflexivity]. cbn [prefs flat_map snd fst app].
    now rewrite E, key_eqb_refl.
  - cbn [filter app]. destruct (negb (key_eqb (b_src b) n) && negb (key_eqb (b_dst b) n)); [|reflexivity].
    cbn [prefs flat_map snd fst app]. now rewrite E.
Qed.

Lemma refs_key dir L u v : In v (dkeys (refs dir L u)) <-> find (sought dir u v) L <> None.
Proof.
  split.
  - intros I. destruct (dkeys_dget v _ I) as (r & E). rewrite dget_refs in E. destruct (find _ L); [discriminate|discriminate].
  - intros F. destruct (find (sought dir u v) L) as [x|] eqn:E; [|contradiction].
    apply dget_Some_key with (v := fst x). now rewrite dget_refs, E.
Qed.

Lemma prefs_key L u v : In u (dkeys (prefs L v)) <-> find (sought true u v) L <> None.
Proof.
  split.
  - intros I. destruct (dkeys_dget u _ I) as (r & E). rewrite dget_prefs in E. destruct (find _ L); [discriminate|discriminate].
  - intros F. destruct (find (sought true u v) L) as [x|] eqn:E; [|contradiction].
    apply dget_Some_key with (v := fst x). now rewrite dget_prefs, E.
Qed.

Lemma find_sym L u v : find (sought false u v) L = find (sought false v u) L.
Proof. induction L as [|x l IH]; [reflexivity|]. cbn [find]. unfold sought at 1 3. rewrite (same_ends_sym v u), IH. reflexivity. Qed.

Lemma Rep_remove_node d g L n : Rep d g L -> WF g ->
  exists d' L', d_remove_node d n = Ok d' /\ Rep d' (remove_nodes_from g [n]) L'.
Proof.
  intros HR HW. pose proof HR as [H1 H2 H3 H4 H5 H6 H7 H8 H9]. unfold d_remove_node. rewrite H4.
  assert (NT : NoDup (nodes g)) by apply (wf_nodes g HW).
  assert (FO : ForallOrdPairs (apart (g_dir g)) (map snd L)) by (rewrite H7; apply (wf_distinct g HW)).
  assert (Ends : forall r b, In (r, b) L -> In (b_src b) (nodes g) /\ In (b_dst b) (nodes g)).
  { intros r b I. apply (wf_ends g HW b). rewrite <- H7. apply in_map_iff. exists (r, b). auto. }
  assert (Sub : forall m, incl (dkeys (refs (g_dir g) L m)) (nodes g)).
  { intros m x I. apply refs_key in I. destruct (find (sought (g_dir g) m x) L) as [[r b]|] eqn:F; [|contradiction].
    apply find_some in F as [I' S]. apply Ends in I' as [A B]. unfold sought in S. cbn [snd] in S. apply same_ends_iff in S.
    destruct S as [[<- <-]|(_ & <- & <-)]; assumption. }
  assert (PSub : g_dir g = true -> forall m, incl (dkeys (prefs L m)) (nodes g)).
  { intros D m x I. apply prefs_key in I. destruct (find (sought true x m) L) as [[r b]|] eqn:F; [|contradiction].
    apply find_some in F as [I' S]. apply Ends in I' as [A B]. unfold sought in S. cbn [snd] in S. apply same_ends_iff in S.
    destruct S as [[<- <-]|(_ & <- & <-)]; assumption. }
  destruct (dmem n (g_nodes g)) eqn:In_n.
  2: { exists d, L. split; [reflexivity|]. assert (X : ~ In n (nodes g)) by now apply mem_nIn.
       assert (Same : remove_nodes_from g [n] = g); [|rewrite Same; exact HR].
       unfold remove_nodes_from. destruct g as [gd gm ga gn gb]. cbn [g_dir g_multi g_attr g_nodes g_adj] in *. f_equal.
       - apply filter_all. intros [m a] I. rewrite mem1. cbn [fst]. apply negb_true_iff.
         destruct (key_eqb m n) eqn:Q; [|reflexivity]. apply key_eqb_eq in Q as ->. exfalso. apply X. unfold nodes. cbn [g_nodes].
         apply in_map_iff. exists (n, a). auto.
       - apply filter_all. intros b I. rewrite !mem1. destruct (wf_ends _ HW b I) as [A B]. apply andb_true_iff. split; apply negb_true_iff.
         + destruct (key_eqb (b_src b) n) eqn:Q; [|reflexivity]. apply key_eqb_eq in Q. congruence.
         + destruct (key_eqb (b_dst b) n) eqn:Q; [|reflexivity]. apply key_eqb_eq in Q. congruence. }
  apply mem_In in In_n. fold (nodes g) in In_n. set (N' := filter (fun m => negb (mem m [n])) (nodes g)).
  assert (N'_iff : forall m, In m N' <-> In m (nodes g) /\ m <> n).
  { intros m. unfold N'. rewrite filter_In, mem1, negb_true_iff. split.
    - intros [A B]. split; [assumption|]. intros ->. rewrite key_eqb_refl in B. discriminate.
    - intros [A B]. split; [assumption|]. destruct (key_eqb m n) eqn:Q; [apply key_eqb_eq in Q; contradiction|reflexivity]. }
  assert (NN : NoDup N') by (unfold N'; now apply NoDup_filter).
  assert (Common : forall succ pred, succ = table (refs (g_dir g) (filter (off n) L)) N' ->
    pred = (if g_dir g then table (prefs (filter (off n) L)) N' else []) ->
    Rep (mkD (g_dir g) (d_multi d) (d_graph d) (dremove [n] (g_nodes g)) succ pred (d_heap d)) (remove_nodes_from g [n]) (filter (off n) L)).
  { intros succ pred -> ->. constructor; cbn [remove_nodes_from g_dir g_multi g_attr g_nodes g_adj d_dir d_multi d_graph d_node d_succ d_pred d_heap]; try assumption; try reflexivity.
    - rewrite nodes_remove. reflexivity.
    - rewrite nodes_remove. reflexivity.
    - rewrite <- H7. clear. induction L as [|[r b] l IH]; [reflexivity|]. cbn [filter map snd]. unfold off at 1. cbn [snd].
      destruct (negb (mem (b_src b) [n]) && negb (mem (b_dst b) [n])); cbn [map snd]; now rewrite IH.
    - revert H8. clear. induction L as [|[r b] l IH]; intros H; [constructor|]. cbn [filter map fst] in *. inversion H as [|? ? X H']; subst.
      destruct (off n (r, b)); [|now apply IH]. cbn [map fst]. constructor; [|now apply IH]. intros I. apply X.
      apply in_map_iff in I as ([s c] & E & I). cbn [fst] in E. subst s. apply filter_In in I as [I _]. apply in_map_iff. exists (r, c). auto.
    - intros r b I. apply filter_In in I as [I _]. now apply H9. }
  assert (Dn : delitem (g_nodes g) n = Ok (dremove [n] (g_nodes g))).
  { unfold delitem, dmem. fold (nodes g). apply mem_In in In_n. now rewrite In_n. }
  rewrite Dn. cbn [bind]. rewrite H5, getitem_table by assumption. cbn [bind]. rewrite H1. destruct (g_dir g) eqn:D.
  - rewrite H6. rewrite fold_del; [|assumption|now apply refs_NoDup|apply Sub|].
    2: { intros u I. apply prefs_key. now apply refs_key in I. }
    cbn [bind]. rewrite delitem_table by assumption. cbn [bind]. fold N'. rewrite getitem_table by assumption. cbn [bind].
    assert (P : (if mem n (dkeys (refs true L n)) then dremove [n] (prefs L n) else prefs L n) = dremove [n] (prefs L n)).
    { destruct (mem n (dkeys (refs true L n))) eqn:Q; [reflexivity|]. symmetry. apply dremove_none. intros I. apply prefs_key in I.
      apply mem_nIn in Q. apply Q. now apply refs_key. }
    rewrite P. clear P. assert (Kp : forall m, In m (dkeys (dremove [n] (prefs L n))) <-> In m (dkeys (prefs L n)) /\ m <> n).
    { intros m. unfold dremove, dkeys. rewrite in_map_iff. split.
      - intros ([m' r] & E & I). cbn [fst] in E. subst m'. apply filter_In in I as [I Q]. rewrite mem1 in Q. cbn [fst] in Q. split.
        + apply in_map_iff. exists (m, r). auto.
        + intros ->. rewrite key_eqb_refl in Q. discriminate.
      - intros [I X]. apply in_map_iff in I as ([m' r] & E & I). cbn [fst] in E. subst m'. exists (m, r). split; [reflexivity|].
        apply filter_In. split; [assumption|]. rewrite mem1. cbn [fst]. destruct (key_eqb m n) eqn:Q; [apply key_eqb_eq in Q; contradiction|reflexivity]. }
    rewrite fold_del; [|assumption| | |].
    + cbn [bind]. rewrite delitem_table by assumption. cbn [bind]. fold N'. eexists _, _. split; [reflexivity|]. apply Common; apply table_ext; intros m Im; apply N'_iff in Im as [Im X].
      * rewrite refs_off by assumption. destruct (mem m (dkeys (dremove [n] (prefs L n)))) eqn:Q; [reflexivity|]. symmetry. apply dremove_none.
        intros I. apply mem_nIn in Q. apply Q. apply Kp. split; [|assumption]. apply prefs_key. now apply refs_key in I.
      * rewrite prefs_off by assumption. destruct (mem m (dkeys (refs true L n))) eqn:Q; [reflexivity|]. symmetry. apply dremove_none.
        intros I. apply mem_nIn in Q. apply Q. apply refs_key. now apply prefs_key in I.
    + unfold dremove. apply NoDup_dkeys_filter. now apply prefs_NoDup.
    + intros m I. apply Kp in I as [I X]. apply N'_iff. split; [|assumption]. exact (PSub eq_refl n m I).
    + intros m I. apply Kp in I as [I X]. apply refs_key. now apply prefs_key in I.
  - rewrite fold_del; [|assumption|now apply refs_NoDup|apply Sub|].
    2: { intros u I. apply refs_key. apply refs_key in I. now rewrite find_sym. }
    cbn [bind]. rewrite delitem_table by assumption. cbn [bind]. fold N'. eexists _, _. split; [reflexivity|]. apply Common; [|assumption].
    apply table_ext. intros m Im. apply N'_iff in Im as [Im X]. rewrite refs_off by assumption.
    destruct (mem m (dkeys (refs false L n))) eqn:Q; [reflexivity|]. symmetry. apply dremove_none. intros I. apply mem_nIn in Q. apply Q.
    apply refs_key. apply refs_key in I. now rewrite find_sym.
Qed.

Lemma remove_nodes_cons g n l : remove_nodes_from g (n :: l) = remove_nodes_from (remove_nodes_from g [n]) l.
Proof.
  unfold remove_nodes_from. cbn [g_dir g_multi g_attr g_nodes g_adj]. rewrite !filter_filter. f_equal.
  - apply filter_ext_in'. intros [m a] _. rewrite mem1. cbn [fst mem existsb]. fold (mem m l). now destruct (key_eqb m n), (mem m l).
  - apply filter_ext_in'. intros b _. rewrite !mem1. cbn [mem existsb]. fold (mem (b_src b) l). fold (mem (b_dst b) l).
    now destruct (key_eqb (b_src b) n), (mem (b_src b) l), (key_eqb (b_dst b) n), (mem (b_dst b) l).
Qed.

Lemma Rep_remove_nodes l : forall d g L, Rep d g L -> WF g ->
  exists d' L', d_remove_nodes_from d l = Ok d' /\ Rep d' (remove_nodes_from g l) L' /\ WF (remove_nodes_from g l).
Proof.
  induction l as [|n l IH]; intros d g L HR HW.
  - exists d, L. split; [reflexivity|]. assert (E : remove_nodes_from g [] = g); [|now rewrite E].
    unfold remove_nodes_from. rewrite !filter_all by reflexivity. now destruct g.
  - destruct (Rep_remove_node d g L n HR HW) as (d1 & L1 & E1 & R1).
    assert (W1 : WF (remove_nodes_from g [n])) by (rewrite remove_nodes_induced; now apply WF_induced).
    destruct (IH d1 _ L1 R1 W1) as (d2 & L2 & E2 & R2 & W2). exists d2, L2. rewrite remove_nodes_cons. split; [|auto].
    unfold d_remove_nodes_from in *. cbn [foldM]. now rewrite E1.
Qed.

(** ** mutating an edge *)
Lemma map_key_dset (k : key) (f : attrs -> attrs) (a : attrs) kd : NoDup (dkeys kd) -> dget k kd = Some a ->
  map (fun ka => if key_eqb k (fst ka) then (fst ka, f (snd ka)) else ka) kd = dset k (f a) kd.
Proof.
  induction kd as [|[k' a'] kd IH]; intros ND G; [discriminate|]. cbn [map dset dget fst snd] in *. unfold dkeys in ND. cbn [map fst] in ND.
  inversion ND as [|? ? X ND']; subst. destruct (key_eqb k k') eqn:E.
  - injection G as ->. f_equal. apply key_eqb_eq in E as <-. rewrite <- (map_id kd) at 2. apply map_ext_in. intros [k2 a2] I. cbn [fst snd].
    destruct (key_eqb k k2) eqn:Q; [|reflexivity]. apply key_eqb_eq in Q as <-. exfalso. apply X. apply in_map_iff. exists (k, a2). auto.
  - f_equal. now apply IH.
Qed.

Lemma Rep_map_edge d g L u v k f : Rep d g L -> WF g ->
  match edge_attrs g u v k with
  | None => d_map_edge d u v k f = Err KeyError
  | Some _ => exists d' L', d_map_edge d u v k f = Ok d' /\ Rep d' (map_edge g u v k f) L'
  end.
Proof.
  intros HR HW. unfold edge_attrs. rewrite <- (sought_data d g L HR u v). unfold d_map_edge, getitem.
  assert (Get : match dget u (d_succ d) with Some nb => dget v nb | None => None end = dget v (refs (g_dir g) L u)).
  { rewrite <- (succ_nbrs d g L HR HW u). now destruct (dget u (d_succ d)). }
  rewrite <- Get. rewrite dget_refs in Get.
  destruct (dget u (d_succ d)) as [nb|]; cbn [bind]; [|reflexivity]. rewrite Get.
  destruct (find (sought (g_dir g) u v) L) as [[r b]|] eqn:F; cbn [option_map fst]; [|reflexivity].
  cbn [bind]. destruct (dget k (deref d r)) as [a|] eqn:Ga; cbn [bind]; [|reflexivity].
  destruct (find_split _ _ _ F) as (L1 & L2 & E & S & H). unfold sought in S. cbn [snd] in S.
  assert (I : In (r, b) L) by (rewrite E; apply in_or_app; right; now left).
  rewrite (deref_In d g L HR r b I) in *.
  pose proof (Rep_store d g L HR L1 r b L2 (dset k (f a) (b_data b)) E) as R2.
  eexists _, _. split; [reflexivity|].
  assert (Same : map_edge g u v k f = with_adj g (map snd L1 ++ mkB (b_src b) (b_dst b) (dset k (f a) (b_data b)) :: map snd L2)); [|rewrite Same; exact R2].
  unfold map_edge, with_adj. f_equal. pose proof (wf_distinct g HW) as FO. rewrite <- (rep_adj _ _ _ HR), E, map_app in FO. cbn [map snd] in FO. rewrite <- (rep_adj _ _ _ HR). rewrite E at 1. rewrite map_app. cbn [map snd].
  assert (Ib : In b (g_adj g)) by (rewrite <- (rep_adj _ _ _ HR), E; apply in_map_iff; exists (r, b); split; [reflexivity|]; apply in_or_app; right; now left).
  rewrite map_app. cbn [map]. rewrite S. rewrite (map_key_dset k f a (b_data b) (wf_keys g HW b Ib) Ga).
  change (map snd L1 ++ b :: map snd L2) with (map snd L1 ++ [b] ++ map snd L2) in FO.
  apply FOP_app in FO as (F1 & F2 & F3). apply FOP_app in F2 as (F4 & F5 & F6).
  f_equal; [|f_equal]; rewrite <- map_id; apply map_ext_in; intros c Ic.
  - apply in_map_iff in Ic as ([s c'] & X & Ic). cbn [snd] in X. subst c'. specialize (H (s, c) Ic). unfold sought in H. cbn [snd] in H. now rewrite H.
  - specialize (F6 b c (or_introl eq_refl) Ic). unfold apart in F6.
    destruct (same_ends (g_dir g) u v c) eqn:Q; [|reflexivity]. rewrite (same_ends_trans _ _ _ _ _ S Q) in F6. discriminate.
Qed.

(** ** new graphs *)
Lemma Rep_empty dir multi : Rep (d_empty dir multi) (empty_graph dir multi) [].
Proof. constructor; cbn; try reflexivity; [now destruct dir|constructor|intros ? ? []]. Qed.

Lemma WF_empty dir multi : WF (empty_graph dir multi).
Proof. apply wf_WF. reflexivity. Qed.

Lemma Rep_nodes l : forall d g, Rep d g [] -> WF g ->
  Rep (fold_left (fun h na => d_add_node h (fst na) (snd na)) l d) (fold_left (fun h na => add_node h (fst na) (snd na)) l g) []
  /\ WF (fold_left (fun h na => add_node h (fst na) (snd na)) l g).
Proof.
  induction l as [|[n a] l IH]; intros d g HR HW; cbn [fold_left fst snd]; [auto|].
  apply IH; [now apply Rep_add_node|now apply WF_add_node].
Qed.

Lemma fold_nodes l : forall g, NoDup (nodes g ++ map fst l) -> (forall n a, In (n, a) l -> NoDup (dkeys a)) ->
  fold_left (fun h na => add_node h (fst na) (snd na)) l g = mkG (g_dir g) (g_multi g) (g_attr g) (g_nodes g ++ l) (g_adj g).
Proof.
  induction l as [|[n a] l IH]; intros g ND HA; cbn [fold_left fst snd].
  - rewrite app_nil_r. now destruct g.
  - cbn [map fst] in ND. rewrite add_node_new.
    + rewrite IH; cbn [g_dir g_multi g_attr g_nodes g_adj].
      * now rewrite <- app_assoc.
      * unfold nodes. cbn [g_nodes]. unfold dkeys. rewrite map_app. cbn [map fst]. rewrite <- app_assoc. exact ND.
      * intros m b I. apply (HA m b). now right.
    + intros X. apply NoDup_remove_2 in ND. apply ND. apply in_or_app. now left.
    + apply (HA n a). now left.
Qed.

Lemma Rep_copy d g L : Rep d g L -> WF g -> Rep (d_create_empty_copy d) (create_empty_copy g) [] /\ WF (create_empty_copy g).
Proof.
  intros HR HW. unfold d_create_empty_copy. rewrite (rep_node _ _ _ HR), (rep_dir _ _ _ HR), (rep_multi _ _ _ HR), (rep_attr _ _ _ HR).
  destruct (Rep_nodes (g_nodes g) _ _ (Rep_empty (g_dir g) (g_multi g)) (WF_empty (g_dir g) (g_multi g))) as [R W].
  rewrite fold_nodes in R, W by (try apply (wf_nodes g HW); apply (wf_nattrs g HW)).
  cbn [empty_graph g_dir g_multi g_attr g_nodes g_adj app] in R, W.
  split.
  - destruct R as [H1 H2 H3 H4 H5 H6 H7 H8 H9].
    constructor; cbn [create_empty_copy g_dir g_multi g_attr g_nodes g_adj d_dir d_multi d_graph d_node d_succ d_pred d_heap] in *; try assumption.
    rewrite H3. apply dupdate_nil. apply (wf_gattr g HW).
  - destruct W as [W1 W2 W3 W4 W5 W6 W7 W8 W9]. constructor; try assumption. apply (wf_gattr g HW).
Qed.

(** ** one call *)
Lemma Rep_call d g L c : Rep d g L -> WF g ->
  match call_dicts d c, call_model g c with
  | Ok d', Ok g' => exists L', Rep d' g' L' /\ WF g'
  | Err e, Err e' => e = e'
  | _, _ => False
  end.
Proof.
  intros HR HW. destruct c as [n a|u v a|u v k a|l|l|u v k name x|a|]; cbn [call_dicts call_model]; rewrite ?(rep_multi _ _ _ HR).
  - exists L. split; [now apply Rep_add_node|now apply WF_add_node].
  - destruct (g_multi g) eqn:M.
    + destruct (Rep_add_multi d g L u v None a HR HW M) as (d' & L' & -> & R).
      unfold add_edge. rewrite M. exists L'. split; [assumption|]. apply WF_add_edge_at; [assumption|congruence].
    + destruct (Rep_add_simple d g L u v a HR HW M) as (d' & L' & -> & R). exists L'. split; [assumption|]. now apply WF_add_edge.
  - destruct (g_multi g) eqn:M.
    + destruct (Rep_add_multi d g L u v (Some k) a HR HW M) as (d' & L' & -> & R).
      exists L'. split; [assumption|]. apply WF_add_edge_at; [assumption|congruence].
    + destruct (Rep_add_simple d g L u v (dset (K "key") (VKey k) a) HR HW M) as (d' & L' & -> & R). exists L'. split; [assumption|]. now apply WF_add_edge.
  - destruct (Rep_remove_nodes l d g L HR HW) as (d' & L' & -> & R & W). eauto.
  - destruct (Rep_remove_edges l d g L HR HW) as (d' & L' & -> & R & W). eauto.
  - set (k' := if g_multi g then k else KInt 0).
    pose proof (Rep_map_edge d g L u v k' (dset name x) HR HW) as X. destruct (edge_attrs g u v k').
    + destruct X as (d' & L' & -> & R). exists L'. split; [assumption|]. apply WF_map_edge; [assumption|]. intros b. apply NoDup_dset.
    + now rewrite X.
  - exists L. destruct HR as [H1 H2 H3 H4 H5 H6 H7 H8 H9], HW as [W1 W2 W3 W4 W5 W6 W7 W8 W9]. split.
    + constructor; cbn [g_attr d_graph d_multi]; try assumption; try reflexivity. now rewrite H3.
    + constructor; try assumption. cbn. now apply NoDup_dupdate.
  - exists []. now apply (Rep_copy d g L).
Qed.

Lemma Rep_calls cs : forall d g L, Rep d g L -> WF g ->
  match foldM call_dicts cs d, foldM call_model cs g with
  | Ok d', Ok g' => exists L', Rep d' g' L' /\ WF g'
  | Err e, Err e' => e = e'
  | _, _ => False
  end.
Proof.
  induction cs as [|c cs IH]; intros d g L HR HW; cbn [foldM]; [eauto|].
  pose proof (Rep_call d g L c HR HW) as X. destruct (call_dicts d c) as [d1|e1], (call_model g c) as [g1|e2]; try contradiction; cbn [bind].
  - destruct X as (L1 & R1 & W1). exact (IH d1 g1 L1 R1 W1).
  - assumption.
Qed.

Lemma div2_double n : Nat.div2 (2 * n) = n.
Proof. apply Nat.div2_double. Qed.

Lemma Rep_alike d g L : Rep d g L -> WF g -> seen_alike d g.
Proof.
  intros HR HW. pose proof HR as [H1 H2 H3 H4 H5 H6 H7 H8 H9]. constructor; try assumption.
  - unfold d_nodes. now rewrite H4.
  - intros n. unfold d_node_data. now rewrite H4.
  - apply (read_edge_data d g L HR HW).
  - apply (read_has_edge d g L HR HW).
  - apply (read_neighbors d g L HR HW).
  - intros D n. now apply (read_predecessors d g L HR HW).
  - apply (read_edges_keys d g L HR).
  - apply (read_edges_of d g L HR HW).
  - apply (read_degree d g L HR HW).
  - unfold d_size, d_nodes. rewrite H4. fold (nodes g). rewrite (map_ext _ (degree g) (read_degree d g L HR HW)), handshake by assumption.
    apply Nat.div2_double.
Qed.

Lemma Rep_reference d g L u v : Rep d g L -> WF g -> reference (d_succ d) u v = option_map fst (find (sought (g_dir g) u v) L).
Proof.
  intros HR HW. unfold reference. rewrite <- dget_refs, <- (succ_nbrs d g L HR HW u). now destruct (dget u (d_succ d)).
Qed.

Lemma Rep_preference d g L u v : Rep d g L -> WF g -> g_dir g = true -> reference (d_pred d) v u = option_map fst (find (sought true u v) L).
Proof.
  intros HR HW D. unfold reference. rewrite <- dget_prefs, <- (pred_nbrs d g L HR HW v D). now destruct (dget v (d_pred d)).
Qed.

Lemma Rep_ok d g L : Rep d g L -> WF g -> dicts_ok d.
Proof.
  intros HR HW. pose proof HR as [H1 H2 H3 H4 H5 H6 H7 H8 H9].
  assert (FO : ForallOrdPairs (apart (g_dir g)) (map snd L)) by (rewrite H7; apply (wf_distinct g HW)).
  constructor; rewrite ?H1, ?H2, ?H4; fold (nodes g).
  - apply (wf_nodes g HW).
  - rewrite H5. apply dkeys_table.
  - intros D. rewrite H6, D. apply dkeys_table.
  - intros n nb E. rewrite (succ_get d g L HR) in E. destruct (has_node g n); [|discriminate]. injection E as <-. split; [now apply refs_NoDup|].
    intros m I. rewrite refs_keys, H7, <- neighbors_flat in I. unfold neighbors in I. apply in_map_iff in I as ([m' kd] & E & I). cbn [fst] in E. subst m'.
    apply adj_items_In in I; [|assumption]. apply edge_data_nodes in I; [apply I|assumption].
  - intros D n nb E. rewrite (pred_get d g L HR n D) in E. destruct (has_node g n); [|discriminate]. injection E as <-. rewrite D in FO. split; [now apply prefs_NoDup|].
    intros m I. apply prefs_key in I. destruct (find (sought true m n) L) as [[r b]|] eqn:F; [|contradiction]. apply find_some in F as [I' S].
    unfold sought in S. cbn [snd] in S. apply same_ends_iff in S as [[<- _]|[X _]]; [|discriminate]. apply (wf_ends g HW b). rewrite <- H7. apply in_map_iff. exists (r, b). auto.
  - destruct (g_dir g) eqn:D; intros u v; rewrite (Rep_reference d g L _ _ HR HW).
    + rewrite D, (Rep_preference d g L u v HR HW D). reflexivity.
    + rewrite (Rep_reference d g L _ _ HR HW), D, find_sym. reflexivity.
  - intros u v x y r E1 E2. rewrite (Rep_reference d g L u v HR HW) in E1. rewrite (Rep_reference d g L x y HR HW) in E2.
    destruct (find (sought (g_dir g) u v) L) as [[r1 b1]|] eqn:F1; [|discriminate].
    destruct (find (sought (g_dir g) x y) L) as [[r2 b2]|] eqn:F2; [|discriminate]. cbn [option_map fst] in E1, E2. injection E1 as ->. injection E2 as ->.
    apply find_some in F1 as [I1 S1]. apply find_some in F2 as [I2 S2]. unfold sought in S1, S2. cbn [snd] in S1, S2.
    assert (b1 = b2) as <-.
    { pose proof (H9 r b1 I1) as A. pose proof (H9 r b2 I2) as B. clear - H8 I1 I2. induction L as [|[s c] l IH]; [destruct I1|].
      cbn [map fst] in H8. inversion H8 as [|? ? X H8']; subst. destruct I1 as [E1|I1], I2 as [E2|I2]; try injection E1 as -> ->; try injection E2; intros; subst; try reflexivity.
      - exfalso. apply X. apply in_map_iff. exists (r, b2). auto.
      - exfalso. apply X. apply in_map_iff. exists (r, b1). auto.
      - now apply IH. }
    apply same_ends_iff in S1. apply same_ends_iff in S2. intuition congruence.
  - intros u v kd E. rewrite (read_edge_data d g L HR HW) in E. split; [now apply (edge_data_ne g u v)|]. split; [now apply (edge_data_keys g u v)|].
    intros M. destruct (edge_data_simple g u v kd HW M E) as (a & ->). reflexivity.
Qed.
