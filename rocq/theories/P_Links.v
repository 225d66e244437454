(** * C100, C101: what a projection keeps of the graph *)
From Coq Require Import List ZArith Lia Bool QArith Permutation Relation_Operators.
From Verif Require Import PyBase PyNum NxGraph L_Base L_Nx L_Nx2 L_Graph S_Partition L_Partition L_Comp2 S_Graph S_Sparse M_Proj S_Num L_Num S_Proj L_Proj L_Proj2 L_Proj3
  L_Proj5 L_Proj6 L_Proj10 S_Links P_Graph P_Proj.
Import ListNotations.
Close Scope Q_scope.

Lemma kept_dec g p attr x : usable p = true -> kept g p attr x \/ ~ kept g p attr x.
Proof.
  intros U. destruct (node_data g x) as [a|] eqn:E; [|right; intros (a & E' & _); congruence].
  destruct (in_part p attr x a) eqn:P; [left; exists a; split; [exact E|apply in_part_keeps; assumption]|].
  right. intros (a' & E' & K'). rewrite E in E'. inversion E'; subst. apply in_part_keeps in K'; [congruence|assumption].
Qed.

(** Two nodes of the part are joined by a path in the projection exactly when they are in the graph. *)
Theorem C100_components_partial lib g p attr wattr chk name m : WF g -> g_dir g = false -> g_multi g = false -> binary64 lib ->
  usable p = true -> In (name, m) metric_names -> bipartite g p attr -> (exists n, kept g p attr n) -> comparable_part g p attr ->
  part_names g p attr -> (chk = true -> unmarked g p attr) -> (weighted m = true -> numeric wattr g) ->
  (m = Cosine -> forall u t, kept g p attr u -> has_edge g u t = true ->
     exists t', (0 < value (n_mul lib (bond_number wattr g u t') (bond_number wattr g u t')))%Q) ->
  (m = PMI -> Z.of_nat (order g) <= 2 ^ 500)%Z ->
  exists h, monopartite_projection lib g p attr wattr name chk VNone = Ok h
  /\ forall u v, kept g p attr u -> kept g p attr v -> (connected h u v <-> connected g u v).
Proof.
  intros W D M B64 U Hn B Kn C PN UM NU CZ PO.
  destruct (C44_binary64 lib g p attr wattr chk name m W D M B64 U Hn B Kn C PN UM NU CZ PO) as (h & E & H & _).
  exists h. split; [exact E|]. intros u v. apply (projection_connected g h p attr D B); [|exact H].
  intros x. apply kept_dec, U.
Qed.
Print Assumptions C100_components_partial.

(** Without metric, weights count common neighbours; they add up to the number of pairs which can be chosen among the neighbours of each
    node which is not kept. *)
Theorem C101_total_weight lib g p attr wattr chk : WF g -> g_dir g = false -> g_multi g = false -> binary64 lib ->
  usable p = true -> bipartite g p attr -> (exists n, kept g p attr n) -> comparable_part g p attr ->
  part_names g p attr -> (chk = true -> unmarked g p attr) ->
  exists h z, monopartite_projection lib g p attr wattr VNone chk VNone = Ok h /\ total_weight (edges_data h) z
  /\ forall T d, enumerates T (fun t => In t (nodes g) /\ ~ kept g p attr t) -> (forall t, In t T -> has_size (fun u => has_edge g u t = true) (d t)) ->
     (2 * z)%Z = twice_pairs T d.
Proof.
  intros W D M B64 U B Kn C PN UM.
  destruct (C44_binary64 lib g p attr wattr chk VNone Intersection W D M B64 U (or_introl eq_refl) B Kn C PN UM) as (h & E & H & HW); try (intros X; discriminate X).
  assert (O : order g <> 0).
  { destruct Kn as (n & a & En & _). apply node_data_Some_In in En. unfold order, nodes, dkeys in *. destruct (g_nodes g); [destruct En|discriminate]. }
  destruct (C43_nodes lib g p attr wattr VNone chk VNone h W U O E) as (Wh & Dh & Mh & _ & _ & _ & Nh & _).
  exists h, (sum_over (edges h) (fun e => common g (fst e) (snd e))). split; [exact E|]. split.
  - exists (map (fun e => common g (fst (fst e)) (snd (fst e))) (edges_data h)). split.
    + assert (A : forall e, In e (edges_data h) -> dget (K "weight") (snd e) = Some (VInt (common g (fst (fst e)) (snd (fst e))))).
      { intros [[u v] a] I. cbn [fst snd]. apply (edges_data_attrs h u v a Wh Mh) in I. destruct (HW u v a I) as (w & x & -> & ST & (i1 & i2 & i & (_ & _ & Si) & Ex)).
        destruct ST as (z & -> & ->). cbn. f_equal. f_equal. rewrite (common_size g W u v i Si).
        unfold nq in Ex. unfold Qeq, inject_Z in Ex. cbn in Ex. lia. }
      revert A. generalize (edges_data h). intros l A. induction l as [|e l IH]; constructor; [apply A; left; reflexivity|].
      apply IH. intros; apply A; right; assumption.
    + rewrite <- (edges_data_simple_fst h Wh Mh), sum_over_map. generalize (edges_data h). intros l.
      induction l as [|e l IH]; cbn; [reflexivity|]. rewrite <- IH. reflexivity.
  - intros T d [NT ET] Hd. rewrite (total_common g h p attr Wh Dh Nh H).
    unfold twice_pairs. transitivity (sum_over T (fun t => Z.of_nat (d t) * (Z.of_nat (d t) - 1))%Z).
    + pose (F := fun t => (kept_degree g h t * (kept_degree g h t - 1))%Z).
      transitivity (sum_over (filter (fun t => negb (mem t (nodes h))) (nodes g)) F).
      * rewrite sum_over_filter. apply sum_over_ext. intros t _. subst F. cbv beta. destruct (mem t (nodes h)) eqn:Et; [|unfold ind, negb; lia].
        apply mem_In in Et. apply Nh in Et. rewrite (kept_degree_kept g h p attr B Nh t Et). unfold ind, negb. lia.
      * rewrite (sum_over_perm _ T).
        -- apply sum_over_ext. intros t It. subst F. cbv beta. rewrite (kept_degree_size g h p attr W D B Wh Nh t (d t)); [reflexivity| |apply Hd; exact It].
           apply ET in It. tauto.
        -- apply NoDup_Permutation; [apply NoDup_filter, (wf_nodes g W)|exact NT|]. intros t. rewrite filter_In, ET, negb_true_iff, mem_nIn, Nh. reflexivity.
    + induction T as [|t T IH]; [reflexivity|]. cbn. f_equal. 
      clear. induction T as [|t T IH]; [reflexivity|]. cbn. rewrite IH. reflexivity.
Qed.
Print Assumptions C101_total_weight.

(** ** Examples *)

(** accounts 0, 1, 2, 3 share colours, 7 has none *)
Example C100_ex : exists h, monopartite_projection lib64 colors accounts (K "part") (K "weight") (VStr "jaccard") true VNone = Ok h
  /\ connected h (KInt 0) (KInt 3) /\ connected colors (KInt 0) (KInt 3) /\ ~ connected colors (KInt 0) (KInt 7) /\ ~ connected h (KInt 0) (KInt 7).
Proof.
  destruct C44_ex as (B & C & N & UM & _).
  assert (Ka : forall z, In (KInt z) (ks [0; 1; 2; 3; 7]%Z) -> kept colors accounts (K "part") (KInt z)) by (intros; apply colors_kept; assumption).
  destruct (C100_components_partial lib64 colors accounts (K "part") (K "weight") true (VStr "jaccard") Jaccard colors_WF eq_refl eq_refl lib64_binary64 eq_refl)
    as (h & E & H).
  - cbn; auto 10.
  - exact B.
  - exists (KInt 0). apply Ka. cbn. auto.
  - exact C.
  - exact N.
  - intros _. exact UM.
  - intros X; discriminate X.
  - intros X; discriminate X.
  - intros X; discriminate X.
  - assert (C03 : connected colors (KInt 0) (KInt 3)).
    { apply rst_trans with (KInt 5); [apply rst_step; reflexivity|]. apply rst_trans with (KInt 1); [apply rst_step; reflexivity|].
      apply rst_trans with (KInt 6); apply rst_step; reflexivity. }
    assert (C07 : ~ connected colors (KInt 0) (KInt 7)).
    { assert (A : forall x y, connected colors x y -> (x = KInt 7 <-> y = KInt 7)).
      { intros x y P. induction P as [x y P|x|x y P IH|x y z P IH P' IH'].
        - apply colors_edges in P. destruct P as [P|P]; listed P (edges colors); split; discriminate.
        - reflexivity.
        - symmetry; exact IH.
        - rewrite IH. exact IH'. }
      intros P. apply A in P. destruct P as [_ P]. discriminate (P eq_refl). }
    exists h. split; [exact E|]. split; [apply H; [apply Ka|apply Ka|exact C03]; cbn; auto|]. split; [exact C03|]. split; [exact C07|].
    intros P. apply C07. apply H; [apply Ka|apply Ka|exact P]; cbn; auto 6.
Qed.

(** 4, 5 and 6 have 2, 3 and 2 neighbours: 1 + 3 + 1 pairs, and the weights are 2, 1, 1 and 1 *)
Example C101_ex : exists h, monopartite_projection lib64 colors accounts (K "part") (K "weight") VNone true VNone = Ok h
  /\ map (fun e => (fst e, dget (K "weight") (snd e))) (edges_data h)
     = [(KInt 0, KInt 2, Some (VInt 2)); (KInt 0, KInt 1, Some (VInt 1)); (KInt 1, KInt 2, Some (VInt 1)); (KInt 1, KInt 3, Some (VInt 1))]
  /\ twice_pairs (ks [4; 5; 6]%Z) (degree colors) = 10%Z.
Proof. eexists. split; [vm_compute; reflexivity|]. split; vm_compute; reflexivity. Qed.

(** false for cosines when norms vanish: 0 and 2 share the neighbour 1, and the projection has no edge *)
Theorem C100_zero_weights_refuted : exists g p h, WF g /\ bipartite g p (K "part") /\ numeric (K "weight") g
  /\ kept g p (K "part") (KInt 0) /\ kept g p (K "part") (KInt 2) /\ connected g (KInt 0) (KInt 2)
  /\ monopartite_projection lib64 g p (K "part") (K "weight") (VStr "cosine") true VNone = Ok h /\ ~ connected h (KInt 0) (KInt 2).
Proof.
  destruct (zeros_fine 0 3) as (W & B & N). exists (zeros 0 3), ends. eexists. split; [exact W|]. split; [exact B|]. split; [exact N|].
  split; [exists []; split; [reflexivity|cbn; auto]|]. split; [exists []; split; [reflexivity|cbn; auto]|].
  split; [apply rst_trans with (KInt 1); apply rst_step; reflexivity|]. split; [vm_compute; reflexivity|].
  match goal with |- ~ connected ?h _ _ => assert (A : forall x y, connected h x y -> x = y) end.
  { intros x y P. induction P as [x y P|x|x y P IH|x y z P IH P' IH']; try congruence.
    apply has_edge_edges in P; [|apply graph_WF; reflexivity]. vm_compute in P. tauto. }
  intros P. apply A in P. discriminate P.
Qed.
Print Assumptions C100_zero_weights_refuted.
