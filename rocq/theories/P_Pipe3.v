(** * C104: sparsifying with the learned threshold *)
From Coq Require Import List Relations ZArith Lia Bool QArith Lqa.
From Verif Require Import PyBase PyNum NxGraph L_Base L_Nx L_Nx2 M_Utils M_UnionFind S_Partition L_Partition M_Traversal M_Graph S_Graph L_Graph L_Comp L_Comp2 P_Graph
  M_Disparity M_Sparse S_Sparse L_Sparse M_Learn S_Num L_Num S_Learn L_Learn P_Learn.
Import ListNotations.
Close Scope Q_scope.

Lemma weighted_listed g attr : WF g -> all_weighted g attr -> forall u v a, In (u, v, a) (edges_data g) -> exists w, stored_weight attr a = Some w.
Proof.
  intros W A u v a I. apply edges_data_In in I as (k & I). apply edges_keys_attrs in I; [|assumption]. specialize (A u v k a I).
  destruct (stored_weight attr a) as [w|]; [eauto|congruence].
Qed.

(** the components of the sparsified graph are those of the accepted edges *)
Lemma threshold_components lib pf g t attr : WF g -> edge_names g -> all_weighted g attr ->
  exists h, global_threshold_sparsification lib pf g t attr false false = Ok h /\ WF h /\ same_but_edges g h
    /\ forall x y, connected h x y <-> connected_by g (at_least attr t) x y.
Proof.
  intros W N H. pose proof (weighted_listed g attr W H) as HL.
  unfold global_threshold_sparsification, global_threshold_sparsifier.
  destruct (make_sparsifier _ _ _ _ _) as [sp|] eqn:E; [|discriminate]. cbn [bind]. apply make_predicate in E. subst sp.
  destruct (partition_test (mkSP (Some (fun _ => Ok (threshold_predicate t attr false))) None None) g eq_refl eq_refl
    (threshold_predicate t attr false) (at_least attr t) eq_refl) as (R & _).
  { intros u v a I. destruct (HL u v a I) as (w & Ew). unfold threshold_predicate, at_least, stored_weight in *.
    destruct (dget attr a) as [x|]; [|discriminate]. unfold num. rewrite Ew. reflexivity. }
  destruct (sparsifier_filter_spec _ g _ W N R) as (h & Eh & Wh & S & D). exists h. split; [exact Eh|]. split; [exact Wh|]. split; [exact S|].
  intros x y. rewrite connected_closure, <- closure_edges_data by assumption. unfold closure, connected_by. split; apply rst_iff; intros u v I.
  - apply in_map_iff in I as ([p a] & Ep & I). cbn in Ep. subst p. rewrite D in I. apply filter_In in I as [I P].
    apply edges_data_In in I as (k & I). apply edges_keys_attrs in I; [|assumption]. apply rst_step. exists k, a. split; [exact I|exact P].
  - destruct I as (k & a & I & P). apply edge_attrs_edges_data in I; [|assumption].
    destruct I as [I|[_ I]]; [|apply rst_sym]; apply rst_step; apply in_map_iff; eexists; (split; [|rewrite D; apply filter_In; split; [exact I|exact P]]); reflexivity.
Qed.

(** what second_largest_connected_component_order tells of the sparsified graph *)
Lemma threshold_drifts lib pf g t attr m : WF g -> g_dir g = false -> edge_names g -> all_weighted g attr ->
  exists h c, global_threshold_sparsification lib pf g t attr false false = Ok h /\ same_but_edges g h
    /\ second_largest_connected_component_order h None = Ok c
    /\ (drifts g (at_least attr t) m <-> exists n, c = Some n /\ (m <= Z.of_nat n)%Z).
Proof.
  intros W D N A. destruct (threshold_components lib pf g t attr W N A) as (h & E & Wh & S & C).
  assert (Dh : g_dir h = false) by (destruct S as ((S1 & _) & _); congruence).
  assert (Nh : nodes h = nodes g) by (destruct S as (_ & _ & S3); unfold nodes; rewrite S3; reflexivity).
  destruct (second_largest_spec h None (fun _ _ _ => true) Wh Dh (fun _ _ _ => eq_refl) (fun _ _ _ => eq_refl)) as (sizes & CS & L).
  assert (CS' : class_sizes (nodes g) (connected_by g (at_least attr t)) sizes).
  { rewrite <- Nh. eapply class_sizes_ext; [|exact CS]. intros x y. rewrite connected_by_all by auto. apply C. }
  destruct L as [[L Ec]|(n & L & Ec)].
  - exists h, None. split; [exact E|]. split; [exact S|]. split; [exact Ec|]. split; [|intros (n & X & _); discriminate].
    intros (s & c & Cs & Sg & _). exfalso. assert (s = sizes) by (eapply class_sizes_unique; eassumption). subst s.
    apply second_greatest_length in Sg. lia.
  - exists h, (Some n). split; [exact E|]. split; [exact S|]. split; [exact Ec|]. split.
    + intros (s & c & Cs & Sg & Lm). assert (s = sizes) by (eapply class_sizes_unique; eassumption). subst s.
      assert (c = n) by (eapply second_greatest_unique; eassumption). subst c. eauto.
    + intros (n' & X & Lm). injection X as <-. exists sizes, n. auto.
Qed.

(** The graph is sparsified with the threshold learned after two epochs or more: its second component has fewer nodes than
    the limit.  It has at least as many with one more rate, in all cases. *)
Theorem C104_learned_partial fuel lib pf g start rate o m attr t epochs :
  WF g -> g_dir g = false -> edge_names g -> all_weighted g attr -> size g <> 0 -> drifter_limit (m_log lib) g o m ->
  floatsam_threshold_learner fuel lib g start rate o attr = Ok (t, epochs) ->
  exists h h' c c',
    global_threshold_sparsification lib pf g (value t) attr false false = Ok h /\ same_but_edges g h
    /\ second_largest_connected_component_order h None = Ok c
    /\ (1 < List.length epochs -> forall n, c = Some n -> (Z.of_nat n < m)%Z)
    /\ global_threshold_sparsification lib pf g (value (n_add lib t rate)) attr false false = Ok h'
    /\ second_largest_connected_component_order h' None = Ok (Some c') /\ (m <= Z.of_nat c')%Z.
Proof.
  intros W D N A NE DL E. rewrite (learner_loop lib g attr start rate o m W D NE DL) in E.
  apply loop_ok in E as (k & -> & Lk & [L1 L2] & _); [|assumption..].
  destruct (threshold_drifts lib pf g (value (reached lib start rate k)) attr m W D N A) as (h & c & E & S & Ec & Dr).
  destruct (threshold_drifts lib pf g (value (reached lib start rate (Datatypes.S k))) attr m W D N A) as (h' & c' & E' & S' & Ec' & Dr').
  apply Dr' in L1 as (n & -> & Ln). exists h, h', c, n. split; [exact E|]. split; [exact S|]. split; [exact Ec|]. split; [|auto].
  intros L2' n' ->. destruct (Z.lt_ge_cases (Z.of_nat n') m) as [H|H]; [exact H|]. exfalso.
  destruct k as [|k]; [lia|]. apply (L2 k ltac:(lia)). apply Dr. eauto.
Qed.
Print Assumptions C104_learned_partial.

Definition second_after (lib : libm) (g : graph) (t : pynum) : res (option nat) :=
  let* h := global_threshold_sparsification lib Long64 g (value t) (K "weight") false false in second_largest_connected_component_order h None.

(** the thresholds learned for the two triangles (C72_ex) and one rate above them *)
Example C104_ex : WF barbell /\ g_dir barbell = false /\ edge_names barbell /\ all_weighted barbell (K "weight") /\ size barbell <> 0
  /\ floatsam_threshold_learner 10 log6 barbell (NFloat 0) (NFloat (1 # 2)) (Some 3%Z) (K "weight")
     = Ok (NFloat 1, [mkEpoch 1 3 None (NFloat (1 # 2)); mkEpoch 2 3 None (NFloat 1); mkEpoch 3 3 (Some 3) (NFloat (3 # 2))])
  /\ second_after log6 barbell (NFloat 1) = Ok None /\ second_after log6 barbell (NFloat (3 # 2)) = Ok (Some 3).
Proof.
  split; [exact barbell_WF|]. split; [reflexivity|]. split; [|split; [exact barbell_weighted|]].
  - intros u v a k I Ik. vm_compute in I. repeat (destruct I as [I|I]; [inversion I; subst; vm_compute in Ik; destruct Ik as [<-|[]]; (split; [eauto|]); split; vm_compute; intuition discriminate|]). destruct I.
  - vm_compute. split; [discriminate|]. repeat split; reflexivity.
Qed.

(** Full statement: the second component of the sparsified graph has fewer nodes than the limit.  The starting threshold is not
    tried, and it is returned after one epoch, whether or not a component has drifted with it. *)
Definition apart := ex_graph false false [0; 1; 2; 3]%Z [(0, 1, weight 5); (2, 3, weight 5)]%Z.
Theorem C104_first_epoch_refuted : exists g start rate m t epochs h, WF g /\ g_dir g = false /\ all_weighted g (K "weight") /\ size g <> 0
  /\ floatsam_threshold_learner 10 lib64 g start rate (Some m) (K "weight") = Ok (t, epochs)
  /\ global_threshold_sparsification lib64 Long64 g (value t) (K "weight") false false = Ok h
  /\ second_largest_connected_component_order h None = Ok (Some 2) /\ (m <= 2)%Z.
Proof.
  assert (W : WF apart) by (apply graph_WF; reflexivity).
  exists apart, (NInt 0), (NInt 1), 2%Z. do 3 eexists. split; [exact W|]. split; [reflexivity|]. split.
  { intros u v k a H. revert u v k a H. apply (edges_forall apart (fun a => stored_weight (K "weight") a <> None) W).
    let x := eval vm_compute in (edges_data apart) in replace (edges_data apart) with x by (vm_compute; reflexivity). repeat constructor; discriminate. }
  split; [discriminate|]. split; [vm_compute; reflexivity|]. split; [vm_compute; reflexivity|]. split; [vm_compute; reflexivity|lia].
Qed.
Print Assumptions C104_first_epoch_refuted.
