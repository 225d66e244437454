(** * Writing: each method of networkx on the dictionaries does what [NxGraph] says *)
From Coq Require Import Lia.
From Verif Require Import NxGraph NxDicts L_Base L_Utils L_Nx L_Nx2 L_Graph L_Graph2 L_Frame L_NxDicts.

(** ** references *)
Lemma nth_update_same {A} r (x y : A) l : nth_error l r = Some y -> nth_error (update_nth r x l) r = Some x.
Proof. revert l. induction r as [|r IH]; intros [|z l] H; try discriminate; [reflexivity|]. cbn in *. now apply IH. Qed.

Lemma nth_update_other {A} r s (x : A) l : r <> s -> nth_error (update_nth r x l) s = nth_error l s.
Proof.
  revert s l. induction r as [|r IH]; intros [|s] [|z l] H; try reflexivity; try congruence. cbn. apply IH. congruence.
Qed.

Lemma find_split {A} (p : A -> bool) l x : find p l = Some x ->
  exists l1 l2, l = l1 ++ x :: l2 /\ p x = true /\ forall y, In y l1 -> p y = false.
Proof.
  induction l as [|y l IH]; [discriminate|]. cbn [find]. destruct (p y) eqn:E.
  - intros [= <-]. exists [], l. split; [reflexivity|]. split; [assumption|]. intros ? [].
  - intros H. destruct (IH H) as (l1 & l2 & -> & P & Q). exists (y :: l1), l2. split; [reflexivity|]. split; [assumption|].
    intros z [<-|I]; auto.
Qed.

Lemma refs_In dir L n m r : In (m, r) (refs dir L n) -> exists b, In (r, b) L /\ other_end dir n b = Some m.
Proof.
  unfold refs. intros I. apply in_flat_map in I as ([r' b] & I & J). cbn [fst snd] in J.
  destruct (other_end dir n b) as [m'|] eqn:E; [|destruct J]. destruct J as [[= -> ->]|[]]. eauto.
Qed.

Section Writing.
  Context (d : dgraph) (g : graph) (L : list (nat * bundle)) (HR : Rep d g L) (HW : WF g).

  Lemma ref_bound r b : In (r, b) L -> r < List.length (d_heap d).
  Proof. intros I. apply nth_error_Some. rewrite (rep_heap _ _ _ HR r b I). discriminate. Qed.

  (** ** nodes *)
  Lemma Rep_new_node n a : ~ In n (nodes g) ->
    Rep (d_new_node d n a) (mkG (g_dir g) (g_multi g) (g_attr g) (g_nodes g ++ [(n, a)]) (g_adj g)) L.
  Proof.
    intros X. destruct HR as [H1 H2 H3 H4 H5 H6 H7 H8 H9]. unfold d_new_node. constructor; cbn [g_dir g_multi g_attr g_nodes g_adj d_dir d_multi d_graph d_node d_succ d_pred d_heap]; try assumption.
    - rewrite H4. now apply dset_notin.
    - rewrite H5. unfold nodes. cbn [g_nodes]. unfold dkeys. rewrite map_app. cbn [map fst]. fold (dkeys (g_nodes g)).
      rewrite table_snoc, (no_refs d g L HR HW n X). now apply dset_table_new.
    - rewrite H1, H6. destruct (g_dir g); [|reflexivity]. unfold nodes. cbn [g_nodes]. unfold dkeys. rewrite map_app. cbn [map fst].
      fold (dkeys (g_nodes g)). rewrite table_snoc, (no_prefs d g L HR HW n X). now apply dset_table_new.
  Qed.

  Lemma Rep_add_node n a : Rep (d_add_node d n a) (add_node g n a) L.
  Proof.
    unfold d_add_node, add_node, node_data. rewrite (rep_node _ _ _ HR). destruct (dget n (g_nodes g)) as [old|] eqn:E.
    - destruct HR as [H1 H2 H3 H4 H5 H6 H7 H8 H9]. apply dget_Some_key in E.
      assert (N : nodes (mkG (g_dir g) (g_multi g) (g_attr g) (dset n (dupdate old a) (g_nodes g)) (g_adj g)) = nodes g).
      { unfold nodes. cbn [g_nodes]. rewrite dkeys_dset. unfold dmem. apply mem_In in E. now rewrite E. }
      constructor; cbn [g_dir g_multi g_attr g_nodes g_adj d_dir d_multi d_graph d_node d_succ d_pred d_heap]; try assumption.
      + reflexivity.
      + now rewrite N.
      + now rewrite N.
    - apply dget_None in E. rewrite dset_notin by assumption. now apply Rep_new_node.
  Qed.

  Lemma Rep_ensure n : Rep (d_ensure d n) (ensure_node g n) L.
  Proof.
    unfold d_ensure, ensure_node, has_node. rewrite (rep_node _ _ _ HR). destruct (dmem n (g_nodes g)) eqn:E; [assumption|].
    apply Rep_new_node. now apply mem_nIn.
  Qed.

  (** ** edge data *)
  Lemma Rep_store L1 r b L2 kd : L = L1 ++ (r, b) :: L2 ->
    Rep (store d r kd) (with_adj g (map snd L1 ++ mkB (b_src b) (b_dst b) kd :: map snd L2))
      (L1 ++ (r, mkB (b_src b) (b_dst b) kd) :: L2).
  Proof.
    intros E. destruct HR as [H1 H2 H3 H4 H5 H6 H7 H8 H9]. subst L. unfold store, with_adj.
    constructor; cbn [g_dir g_multi g_attr g_nodes g_adj d_dir d_multi d_graph d_node d_succ d_pred d_heap]; try assumption.
    - rewrite H5. unfold nodes. cbn [g_nodes]. apply table_ext. intros n _. rewrite !refs_app. reflexivity.
    - rewrite H6. unfold nodes. cbn [g_nodes]. destruct (g_dir g); [|reflexivity]. apply table_ext. intros n _.
      rewrite !prefs_app. reflexivity.
    - rewrite map_app. reflexivity.
    - rewrite map_app in *. exact H8.
    - intros s c I. rewrite map_app in H8. cbn [map fst] in H8.
      apply in_app_or in I as [I|[[= <- <-]|I]].
      + rewrite nth_update_other; [apply H9; apply in_or_app; now left|].
        intros <-. apply NoDup_remove_2 in H8. apply H8. apply in_or_app. left. apply in_map_iff. exists (r, c). auto.
      + cbn [b_data]. eapply nth_update_same. apply H9. apply in_or_app. right. now left.
      + rewrite nth_update_other; [apply H9; apply in_or_app; right; now right|].
        intros <-. apply NoDup_remove_2 in H8. apply H8. apply in_or_app. right. apply in_map_iff. exists (r, c). auto.
  Qed.

  Lemma get_ref u v : dget v (refs (g_dir g) L u) = option_map fst (find (sought (g_dir g) u v) L).
  Proof. apply dget_refs. Qed.

  (** a pair already linked *)
  Lemma link_same u v r b : In u (nodes g) -> In v (nodes g) -> find (sought (g_dir g) u v) L = Some (r, b) ->
    d_link d u v r = Ok d.
  Proof.
    intros Iu Iv F. unfold d_link.
    assert (NT : NoDup (nodes g)) by apply (wf_nodes g HW).
    assert (S1 : setitem2 (d_succ d) u v r = Ok (d_succ d)).
    { rewrite (rep_succ _ _ _ HR), setitem2_table by assumption. f_equal. apply table_ext. intros n _.
      destruct (key_eqb u n) eqn:E; [|reflexivity]. apply key_eqb_eq in E as <-. apply dset_same.
      rewrite dget_refs, F. reflexivity. }
    rewrite S1. cbn [bind]. rewrite (rep_dir _ _ _ HR). destruct (g_dir g) eqn:D.
    - assert (S2 : setitem2 (d_pred d) v u r = Ok (d_pred d)).
      { rewrite (rep_pred _ _ _ HR), D, setitem2_table by assumption. f_equal. apply table_ext. intros n _.
        destruct (key_eqb v n) eqn:E; [|reflexivity]. apply key_eqb_eq in E as <-. apply dset_same.
        rewrite dget_prefs, F. reflexivity. }
      rewrite S2. cbn [bind]. rewrite <- D, <- (rep_dir _ _ _ HR). now destruct d.
    - assert (S2 : setitem2 (d_succ d) v u r = Ok (d_succ d)).
      { rewrite (rep_succ _ _ _ HR), D, setitem2_table by assumption. f_equal. apply table_ext. intros n _.
        destruct (key_eqb v n) eqn:E; [|reflexivity]. apply key_eqb_eq in E as <-. apply dset_same.
        rewrite dget_refs. replace (find (sought false v u) L) with (find (sought false u v) L); [now rewrite F|].
        clear. induction L as [|x l IH]; [reflexivity|]. cbn [find]. unfold sought at 1 3. rewrite (same_ends_sym v u), IH. reflexivity. }
      rewrite S2. cbn [bind]. rewrite <- D, <- (rep_dir _ _ _ HR). now destruct d.
  Qed.

  Lemma unsought u v b r : find (sought (g_dir g) u v) L = None -> In (r, b) L -> same_ends (g_dir g) u v b = false.
  Proof. intros F I. exact (find_none _ _ F (r, b) I). Qed.

  (** a new pair *)
  Lemma Rep_new_edge u v kd : In u (nodes g) -> In v (nodes g) -> find (sought (g_dir g) u v) L = None ->
    exists d', d_link (fst (alloc d kd)) u v (snd (alloc d kd)) = Ok d'
      /\ Rep d' (with_adj g (g_adj g ++ [mkB u v kd])) (L ++ [(List.length (d_heap d), mkB u v kd)]).
  Proof.
    intros Iu Iv F. set (r := List.length (d_heap d)).
    assert (NT : NoDup (nodes g)) by apply (wf_nodes g HW).
    assert (None1 : dget v (refs (g_dir g) L u) = None) by (rewrite dget_refs, F; reflexivity).
    assert (Fresh : dset v r (refs (g_dir g) L u) = refs (g_dir g) L u ++ [(v, r)]) by (apply dset_notin; now apply dget_None).
    unfold alloc. cbn [fst snd]. unfold d_link. cbn [d_succ d_pred d_dir d_heap d_graph d_node d_multi]. fold r.
    rewrite (rep_succ _ _ _ HR), setitem2_table by assumption. cbn [bind].
    rewrite (rep_dir _ _ _ HR). destruct (g_dir g) eqn:D.
    - assert (None2 : dget u (prefs L v) = None) by (rewrite dget_prefs, F; reflexivity).
      rewrite (rep_pred _ _ _ HR), D, setitem2_table by assumption. cbn [bind]. eexists; split; [reflexivity|].
      pose proof HR as [H1 H2 H3 H4 H5 H6 H7 H8 H9].
      constructor; cbn [with_adj g_dir g_multi g_attr g_nodes g_adj d_dir d_multi d_graph d_node d_succ d_pred d_heap]; try assumption; try congruence.
      + rewrite D. unfold nodes. cbn [g_nodes with_adj]. apply table_ext. intros n _. rewrite refs_app. cbn [refs flat_map snd fst].
        unfold other_end. cbn [b_src b_dst negb andb]. destruct (key_eqb u n) eqn:E; [|now rewrite app_nil_r].
        apply key_eqb_eq in E as <-. rewrite Fresh. reflexivity.
      + rewrite D. unfold nodes. cbn [g_nodes with_adj]. apply table_ext. intros n _. rewrite prefs_app. cbn [prefs flat_map snd fst b_src b_dst].
        destruct (key_eqb v n) eqn:E; [|now rewrite app_nil_r].
        apply key_eqb_eq in E as <-. rewrite app_nil_r. apply dset_notin. now apply dget_None.
      + rewrite map_app. cbn [map snd]. now rewrite H7.
      + rewrite map_app. cbn [map fst]. apply NoDup_snoc; [assumption|].
        intros I. apply in_map_iff in I as ([s c] & E & I). cbn [fst] in E. apply ref_bound in I. lia.
      + intros s c I. apply in_app_or in I as [I|[[= <- <-]|[]]].
        * rewrite nth_error_app1; [now apply H9|now apply ref_bound in I].
        * rewrite nth_error_app2 by (unfold r; lia). unfold r. now rewrite Nat.sub_diag.
    - assert (None2 : dget u (refs false L v) = None).
      { rewrite dget_refs. replace (find (sought false v u) L) with (find (sought false u v) L); [now rewrite F|].
        clear. induction L as [|x l IH]; [reflexivity|]. cbn [find]. unfold sought at 1 3. rewrite (same_ends_sym v u), IH. reflexivity. }
      rewrite setitem2_table by assumption. cbn [bind]. eexists; split; [reflexivity|].
      pose proof HR as [H1 H2 H3 H4 H5 H6 H7 H8 H9].
      constructor; cbn [with_adj g_dir g_multi g_attr g_nodes g_adj d_dir d_multi d_graph d_node d_succ d_pred d_heap]; try assumption; try congruence.
      + rewrite D. unfold nodes. cbn [g_nodes with_adj]. apply table_ext. intros n _. rewrite refs_app. cbn [refs flat_map snd fst].
        unfold other_end. cbn [b_src b_dst negb andb].
        destruct (key_eqb u n) eqn:E.
        * apply key_eqb_eq in E as <-. rewrite Fresh, app_nil_r. destruct (key_eqb v u) eqn:E2; [|reflexivity].
          apply key_eqb_eq in E2 as ->. apply dset_same. rewrite dget_app, None2. cbn. now rewrite key_eqb_refl.
        * destruct (key_eqb v n) eqn:E2; [|now rewrite app_nil_r]. apply key_eqb_eq in E2 as <-.
          rewrite app_nil_r. apply dset_notin. now apply dget_None.
      + rewrite D. rewrite D in H6. assumption.
      + rewrite map_app. cbn [map snd]. now rewrite H7.
      + rewrite map_app. cbn [map fst]. apply NoDup_snoc; [assumption|].
        intros I. apply in_map_iff in I as ([s c] & E & I). cbn [fst] in E. apply ref_bound in I. lia.
      + intros s c I. apply in_app_or in I as [I|[[= <- <-]|[]]].
        * rewrite nth_error_app1; [now apply H9|now apply ref_bound in I].
        * rewrite nth_error_app2 by (unfold r; lia). unfold r. now rewrite Nat.sub_diag.
  Qed.
End Writing.
