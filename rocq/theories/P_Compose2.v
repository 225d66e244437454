(** * C96: sparsifying with keep_connected twice *)
From Coq Require Import List Relations ZArith QArith Qminmax Lia Lqa Bool.
From Verif Require Import PyBase PyNum NxGraph L_Base L_Nx L_Nx2 M_UnionFind S_UnionFind S_Partition L_Partition M_Graph S_Graph L_Graph M_Umst S_Umst L_Forest L_Umst
  M_Disparity M_Sparse S_Sparse L_Sparse S_Num L_Num P_Graph P_Umst P_Sparse P_Compose.
Import ListNotations.
Close Scope Q_scope.

Lemma least_in {A} (w : A -> Q) l : l <> [] -> exists x, In x l /\ forall y, In y l -> (w x <= w y)%Q.
Proof.
  induction l as [|a l IH]; [congruence|]. intros _. destruct l as [|b l].
  - exists a. split; [left; reflexivity|]. intros y [->|[]]. apply Qle_refl.
  - destruct IH as (x & Hx & Lx); [discriminate|]. destruct (Qlt_le_dec (w x) (w a)) as [L|L].
    + exists x. split; [right; exact Hx|]. intros y [<-|Hy]; [apply Qlt_le_weak, L|apply Lx, Hy].
    + exists a. split; [left; reflexivity|]. intros y [<-|Hy]; [apply Qle_refl|].
      eapply Qle_trans; [exact L|apply Lx, Hy].
Qed.

Lemma above_In E c j : In j (above E c) <-> j < List.length E /\ (c < weight_at E j)%Q.
Proof.
  unfold above. rewrite filter_In, in_seq, negb_true_iff. split.
  - intros (B & H). split; [lia|]. apply Qnot_le_lt. intros L. apply Qle_bool_iff in L. congruence.
  - intros (B & H). split; [lia|]. destruct (Qle_bool (weight_at E j) c) eqn:Q; [|reflexivity].
    apply Qle_bool_iff in Q. exfalso. eapply Qlt_not_le; eassumption.
Qed.

Lemma far_lt rnd c x : rounding rnd -> far_below rnd c x -> (x < c)%Q.
Proof.
  intros R F. apply Qnot_le_lt. intros L. unfold far_below in F.
  apply (Qlt_not_le _ _ F), (rnd_le _ R). lra.
Qed.

(** equal or far apart: each weight has a bucket of its own *)
Lemma all_starts E rnd : rounding rnd -> separated E rnd ->
  forall i, i < List.length E -> bucket_start E rnd (weight_at E i).
Proof.
  intros R SE.
  assert (H : forall n i, List.length (above E (weight_at E i)) <= n -> i < List.length E -> bucket_start E rnd (weight_at E i)).
  { induction n as [|n IH]; intros i Ln Bi.
    - apply first_start; [exact Bi|]. intros j Bj. apply Qnot_lt_le. intros L.
      assert (I : In j (above E (weight_at E i))) by (apply above_In; auto).
      destruct (above E (weight_at E i)); [exact I|cbn in Ln; lia].
    - destruct (above E (weight_at E i)) as [|x l] eqn:Ea.
      + apply first_start; [exact Bi|]. intros j Bj. apply Qnot_lt_le. intros L.
        assert (I : In j (above E (weight_at E i))) by (apply above_In; auto). rewrite Ea in I. exact I.
      + destruct (least_in (weight_at E) (above E (weight_at E i))) as (j & Hj & Lj); [rewrite Ea; discriminate|].
        rewrite <- Ea in Ln. apply above_In in Hj as Hj'. destruct Hj' as (Bj & Wj).
        apply next_start with (weight_at E j).
        * apply IH; [|exact Bj].
          assert (NoDup (above E (weight_at E j))) by (apply NoDup_filter, seq_NoDup).
          assert (L : List.length (j :: above E (weight_at E j)) <= List.length (above E (weight_at E i))).
          { apply NoDup_incl_length.
            - constructor; [|assumption]. intros I. apply above_In in I as (_ & I). apply (Qlt_irrefl _ I).
            - intros k [<-|Hk]; [exact Hj|]. apply above_In in Hk as (Bk & Wk). apply above_In. split; [exact Bk|lra]. }
          cbn in L. lia.
        * exact Bi.
        * apply SE; assumption.
        * intros k Bk Fk. apply Qnot_lt_le. intros L. pose proof (far_lt _ _ _ R Fk) as Lk.
          apply (Qlt_not_le _ _ Lk), Lj, above_In. auto. }
  intros i. eapply H. apply le_n.
Qed.

Lemma start_weight E rnd c : bucket_start E rnd c -> exists i, i < List.length E /\ c = weight_at E i.
Proof. intros H. inversion H; subst; eauto. Qed.

Lemma made_small pf cap d : make_ds pf cap = Ok d -> (Z.of_nat cap <= 2 ^ 64)%Z.
Proof.
  unfold make_ds. intros M. apply bind_Ok in M as (u & M & _). unfold make in M. apply bind_Ok in M as (r & M & _).
  unfold uint_representation_for_capacity, uint_representation_for_max in M.
  destruct (List.find _ _) as [x|] eqn:F; [|discriminate]. apply find_some in F as (I & L).
  apply Z.leb_le in L. unfold uint_representations in I. cbn [In] in I.
  destruct I as [<-|[<-|[<-|[<-|[]]]]]; cbn [rep_max fst] in L; lia.
Qed.

(** with fewer edges, the spanning trees are found again when they were *)
Lemma umst_again lib pf g h E E' out :
  WF g -> WF h -> nodes h = nodes g -> weighted_edges (K "weight") (edges_data g) E -> weighted_edges (K "weight") (edges_data h) E' ->
  incl E' E -> incl (edges_data h) (edges_data g) -> fine lib -> alike lib (K "weight") (edges_data g) -> separated E (m_round lib) ->
  union_of_maximum_spanning_trees lib pf g (K "weight") = Ok out ->
  exists out', union_of_maximum_spanning_trees lib pf h (K "weight") = Ok out'.
Proof.
  intros W W1 N WE WE' IE I1 FI AL SE U.
  assert (O : order h = order g) by (unfold order; unfold nodes in N; rewrite <- (map_length fst (g_nodes h)), <- (map_length fst (g_nodes g)); unfold dkeys in N; congruence).
  assert (AL' : alike lib (K "weight") (edges_data h)).
  { destruct AL as [AL|AL]; [left|right]; intros; eapply AL; try apply I1; eassumption. }
  destruct (Nat.eqb_spec (size h) 0) as [Z|Z].
  { exists []. unfold union_of_maximum_spanning_trees, umst_run. rewrite Z. reflexivity. }
  assert (Z0 : size g <> 0).
  { rewrite size_edges_data in Z |- *. destruct (edges_data h) as [|e es]; [cbn in Z; lia|].
    specialize (I1 e (or_introl eq_refl)). destruct (edges_data g); [destruct I1|discriminate]. }
  assert (L : (Z.of_nat (order g) <= 2 ^ 64)%Z).
  { unfold union_of_maximum_spanning_trees, umst_run in U. apply Nat.eqb_neq in Z0. rewrite Z0 in U.
    destruct (mapM _ (edges_data g)); [|discriminate].
    destruct (make_ds pf (order g)) as [d|] eqn:Ed; [|discriminate].
    exact (made_small _ _ _ Ed). }
  destruct (union_of_maximum_spanning_trees lib pf h (K "weight")) as [out'|e] eqn:U'; [eauto|exfalso].
  apply (C28_exact lib pf h (K "weight") E' e W1 WE' FI AL') in U'; [|rewrite O; exact L].
  destruct U' as (-> & T & c & B & J).
  assert (X : union_of_maximum_spanning_trees lib pf g (K "weight") = Err OverflowError); [|congruence].
  apply (C28_exact lib pf g (K "weight") E OverflowError W WE FI AL L). split; [reflexivity|]. rewrite <- O. split; [exact T|].
  destruct (start_weight _ _ _ B) as (i' & Bi' & ->). 
  destruct (In_nth E _ (KInt 0, KInt 0, 0%Q) (IE _ (nth_In E' (KInt 0, KInt 0, 0%Q) Bi'))) as (i & Bi & Ei).
  assert (Ec : weight_at E' i' = weight_at E i) by (unfold weight_at; rewrite Ei; reflexivity).
  rewrite Ec in *. exists (weight_at E i). split; [apply all_starts; [apply FI|exact SE|exact Bi]|].
  intros a b Ha Hb. rewrite <- N in Ha, Hb. specialize (J a b Ha Hb). revert J. apply closure_incl.
  intros x Hx. apply in_map_iff in Hx as (j' & <- & Hj). apply above_In in Hj as [Bj Wj].
  destruct (In_nth E _ (KInt 0, KInt 0, 0%Q) (IE _ (nth_In E' (KInt 0, KInt 0, 0%Q) Bj))) as (j & Bj2 & Ej).
  apply in_map_iff. exists j. split; [unfold edge_at; rewrite Ej; reflexivity|].
  apply above_In. split; [exact Bj2|]. unfold weight_at in *. rewrite Ej. exact Wj.
Qed.

(** With keep_connected, sparsifying again returns, and returns the very same graph, when weights are equal or far
    apart. *)
Theorem C96_keep_connected_twice lib pf p sp g E h :
  make_sparsifier lib pf (Some (fun _ => Ok p)) None None true = Ok sp -> WF g -> edge_names g ->
  weighted_edges (K "weight") (edges_data g) E -> fine lib -> alike lib (K "weight") (edges_data g) -> separated E (m_round lib) ->
  sparsifier_filter sp g = Ok h -> sparsifier_filter sp h = Ok h.
Proof.
  intros MS W N WE FI AL SE F. 
  assert (X : exists h', sparsifier_filter sp h = Ok h').
  2:{ destruct X as (h' & F'). rewrite (C96_keep_connected_partial lib pf p sp g E h h' MS W N WE FI AL SE F F') in F'. exact F'. }
  apply make_predicate in MS. subst sp. cbv iota in F |- *.
  match type of F with sparsifier_filter ?s g = _ => destruct (relevant_edges s g) as [l|] eqn:R end; [|unfold sparsifier_filter in F; rewrite R in F; discriminate].
  destruct (decorated_relevant _ _ _ _ _ R) as (p0 & out & Ef & U & A & ->). inversion Ef; subst p0. clear Ef.
  set (q := fun e : edge3 => answer (p (fst (fst e)) (snd (fst e)) (snd e)) || pmem (fst e) (map fst out)) in *.
  rewrite (sparsifier_filter_exact _ g q W N R) in F. injection F as Eh.
  destruct (rebuild_filter g q W) as (W1 & D1 & N1 & A1 & R1 & M1 & _). rewrite Eh in *.
  assert (S1 : same_but_edges g h) by (repeat split; congruence).
  assert (I1 : incl (edges_data h) (edges_data g)) by (rewrite D1; intros e He; apply filter_In in He; tauto).
  destruct (weighted_filter (K "weight") q _ _ WE) as (E' & WE' & IE & _). rewrite <- D1 in WE'.
  destruct (umst_again lib pf g h E E' out W W1) as (out' & U'); try assumption.
  { unfold nodes. congruence. }
  set (q' := fun e : edge3 => answer (p (fst (fst e)) (snd (fst e)) (snd e)) || pmem (fst e) (map fst out')).
  eexists. apply (sparsifier_filter_exact _ h q' W1 (edge_names_sub g h S1 I1 N)).
  unfold relevant_edges, sp_predicate, decorate. cbn [sp_relevant sp_factory bind]. rewrite U'. cbn [bind].
  apply filterM_Ok. intros [[u v] a] I. destruct (A u v a (I1 _ I)) as (b & Eb). unfold q'. cbn [fst snd].
  rewrite Eb. reflexivity.
Qed.
Print Assumptions C96_keep_connected_twice.

Example C96_twice_ex :
  let once g := global_threshold_sparsification lib64 Long64 g 4 (K "weight") false true in
  (let* h := once simple_pairs in let* h' := once h in Ok (size simple_pairs, edges_data h, edges_data h'))
  = (let* h := once simple_pairs in Ok (5, edges_data h, edges_data h))
  /\ match once simple_pairs with Ok h => size h | Err _ => 0 end = 4.
Proof. vm_compute. auto. Qed.
