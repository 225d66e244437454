(** * C29-C39, C77: sparsification and disparity *)
From Coq Require Import List Relations ZArith QArith Qminmax Lia Lqa Bool.
From Verif Require Import PyBase PyNum NxGraph L_Base L_Nx M_UnionFind S_UnionFind S_Partition L_Partition M_Graph S_Graph L_Graph M_Umst S_Umst L_Forest L_Umst
  M_Disparity M_Sparse S_Sparse L_Sparse L_Disparity L_Scale S_Num L_Num P_Graph P_Umst.
Import ListNotations.
Close Scope Q_scope.

(** ** C29 global threshold *)
Definition weighted_pairs : graph :=
  ex_graph false true [0; 1; 2; 3]%Z
    [(0, 1, weight 5); (1, 2, weight 3); (0, 2, weight 2); (0, 1, weight 1); (2, 2, weight 4)]%Z.

Theorem C29_threshold lib pf g t attr reverse :
  WF g -> edge_names g ->
  (forall u v a, In (u, v, a) (edges_data g) -> exists w, stored_weight attr a = Some w) ->
  exists h keep, global_threshold_sparsification lib pf g t attr reverse false = Ok h
    /\ same_but_edges g h /\ edges_data h = filter keep (edges_data g)
    /\ forall u v a w, stored_weight attr a = Some w -> (keep (u, v, a) = true <-> right_side reverse t w).
Proof.
  intros W N H.
  set (keep := fun (_ _ : key) (a : attrs) => match stored_weight attr a with
    | Some w => if reverse then q_leb w t else q_leb t w | None => false end).
  unfold global_threshold_sparsification, global_threshold_sparsifier.
  destruct (make_sparsifier _ _ _ _ _) as [sp|] eqn:E; [|discriminate]. cbn [bind]. apply make_predicate in E. subst sp.
  destruct (partition_test (mkSP (Some (fun _ => Ok (threshold_predicate t attr reverse))) None None) g eq_refl eq_refl
    (threshold_predicate t attr reverse) keep eq_refl) as (R & _).
  { intros u v a I. destruct (H u v a I) as (w & Ew). unfold threshold_predicate, keep, stored_weight in *.
    destruct (dget attr a) as [x|]; [|discriminate]. unfold num. rewrite Ew. reflexivity. }
  destruct (sparsifier_filter_spec _ g _ W N R) as (h & Eh & Wh & S & D).
  exists h, (on_edge keep). split; [exact Eh|]. split; [exact S|]. split; [exact D|].
  intros u v a w Ew. unfold on_edge, keep. cbn [snd]. rewrite Ew. unfold right_side. unfold q_leb.
  destruct reverse; apply Qle_bool_iff.
Qed.
Print Assumptions C29_threshold.

Example C29_ex :
  wf weighted_pairs = true
  /\ match global_threshold_sparsification lib64 Long64 weighted_pairs 3 (K "weight") false false with
     | Ok h => edges_data h | Err _ => [] end
     = [(KInt 0, KInt 1, weight 5); (KInt 1, KInt 2, weight 3); (KInt 2, KInt 2, weight 4)]
  /\ match global_threshold_sparsification lib64 Long64 weighted_pairs 3 (K "weight") true false with
     | Ok h => edges_data h | Err _ => [] end
     = [(KInt 0, KInt 1, weight 1); (KInt 0, KInt 2, weight 2); (KInt 1, KInt 2, weight 3)].
Proof. vm_compute. auto. Qed.

(** an edge without weight *)
Theorem C29_missing_weight lib pf g t attr reverse :
  WF g -> edge_names g ->
  (forall u v a x, In (u, v, a) (edges_data g) -> dget attr a = Some x -> exists w, num_of x = Some w) ->
  (exists u v a, In (u, v, a) (edges_data g) /\ dget attr a = None) ->
  global_threshold_sparsification lib pf g t attr reverse false = Err KeyError.
Proof.
  intros W N H (u & v & a & I & M).
  unfold global_threshold_sparsification, global_threshold_sparsifier.
  destruct (make_sparsifier _ _ _ _ _) as [sp|] eqn:E; [|discriminate]. cbn [bind]. apply make_predicate in E. subst sp.
  unfold sparsifier_filter, relevant_edges, sp_predicate. cbn [sp_relevant sp_factory bind].
  assert (X : filterM (fun e => let '(u, v, a) := e in threshold_predicate t attr reverse u v a) (edges_data g) = Err KeyError).
  { clear W N. induction (edges_data g) as [|[[x y] b] l IH]; [contradiction|]. cbn [filterM].
    destruct (threshold_predicate t attr reverse x y b) as [r|e] eqn:T.
    - cbn [bind]. rewrite IH; [reflexivity| |].
      + intros; eapply H; [right; eassumption|assumption].
      + destruct I as [I|I]; [|exact I]. inversion I; subst. unfold threshold_predicate in T. rewrite M in T. discriminate.
    - cbn [bind]. unfold threshold_predicate in T. destruct (dget attr b) as [z|] eqn:D; [|congruence].
      destruct (H x y b z (or_introl eq_refl) D) as (w & Ew). unfold num in T. rewrite Ew in T. discriminate. }
  rewrite X. reflexivity.
Qed.
Print Assumptions C29_missing_weight.

Example C29_missing_ex :
  let g := ex_graph true false [0; 1; 2]%Z [(0, 1, weight 5); (1, 0, []); (1, 2, weight 5)]%Z in
  wf g = true /\ global_threshold_sparsification lib64 Long64 g 3 (K "weight") false false = Err KeyError.
Proof. vm_compute. auto. Qed.

(** raising the threshold can only remove edges (lowering it when reversed) *)
Theorem C29_monotone lib pf g t t' attr (reverse : bool) h h' :
  WF g -> edge_names g ->
  (forall u v a, In (u, v, a) (edges_data g) -> exists w, stored_weight attr a = Some w) ->
  (if reverse then t' <= t else t <= t')%Q ->
  global_threshold_sparsification lib pf g t attr reverse false = Ok h ->
  global_threshold_sparsification lib pf g t' attr reverse false = Ok h' ->
  incl (edges_data h') (edges_data h).
Proof.
  intros W N H L E E'.
  destruct (C29_threshold lib pf g t attr reverse W N H) as (h1 & k & E1 & _ & D & K).
  destruct (C29_threshold lib pf g t' attr reverse W N H) as (h2 & k' & E2 & _ & D' & K').
  assert (h1 = h) by congruence. assert (h2 = h') by congruence. subst h1 h2.
  intros [[u v] a] I. rewrite D' in I. apply filter_In in I as (I & P). rewrite D. apply filter_In. split; [exact I|].
  destruct (H u v a I) as (w & Ew). apply (K u v a w Ew). apply (K' u v a w Ew) in P.
  unfold right_side in *. destruct reverse; lra.
Qed.
Print Assumptions C29_monotone.

Example C29_monotone_ex :
  match global_threshold_sparsification lib64 Long64 weighted_pairs 4 (K "weight") false false with
  | Ok h => edges_data h | Err _ => [] end
  = [(KInt 0, KInt 1, weight 5); (KInt 2, KInt 2, weight 4)].
Proof. vm_compute. auto. Qed.

(** ** C30 relevant and redundant edges partition the edges *)
Theorem C30_partition lib pf f keep_connected sp g :
  make_sparsifier lib pf (Some f) None None keep_connected = Ok sp ->
  (exists e, relevant_edges sp g = Err e /\ redundant_edges sp g = Err e)
  \/ exists q, relevant_edges sp g = Ok (filter q (edges_data g))
       /\ redundant_edges sp g = Ok (filter (fun e => negb (q e)) (edges_data g)).
Proof.
  intros E. apply make_predicate in E. subst sp.
  destruct (partition_edges (mkSP (Some (if keep_connected then decorate lib pf (Some f) else f)) None None) g eq_refl eq_refl)
    as [H|(p & _ & _ & R & R')]; [left; exact H|right]. eauto.
Qed.
Print Assumptions C30_partition.

(** without keep_connected the relevant edges are the ones passing the predicate *)
Theorem C30_relevant lib pf f sp g p t :
  make_sparsifier lib pf (Some f) None None false = Ok sp -> f g = Ok p -> edge_test g p t ->
  relevant_edges sp g = Ok (filter (on_edge t) (edges_data g))
  /\ redundant_edges sp g = Ok (filter (fun e => negb (on_edge t e)) (edges_data g)).
Proof.
  intros E F T. apply make_predicate in E. subst sp. apply (partition_test (mkSP (Some f) None None) g eq_refl eq_refl p t F T).
Qed.
Print Assumptions C30_relevant.

Definition heavy : factory := fun _ => Ok (threshold_predicate 3 (K "weight") false).
Example C30_ex :
  match make_sparsifier lib64 Long64 (Some heavy) None None true with
  | Ok sp => match relevant_edges sp weighted_pairs, redundant_edges sp weighted_pairs with
             | Ok a, Ok b => (a, b) | _, _ => ([], []) end
  | Err _ => ([], []) end
  = ([(KInt 0, KInt 1, weight 5); (KInt 0, KInt 1, weight 1); (KInt 1, KInt 2, weight 3); (KInt 2, KInt 2, weight 4)],
     [(KInt 0, KInt 2, weight 2)])
  /\ match make_sparsifier lib64 Long64 (Some heavy) None None false with
     | Ok sp => match relevant_edges sp weighted_pairs with Ok a => a | _ => [] end
     | Err _ => [] end
     = [(KInt 0, KInt 1, weight 5); (KInt 1, KInt 2, weight 3); (KInt 2, KInt 2, weight 4)].
Proof. vm_compute. auto. Qed.

(** ** C31 remove leaves what filter returns

    False for multigraphs: [remove_edges_from] gets the attribute dict as an edge key. *)
Theorem C31_remove_filter_refuted :
  exists lib pf f sp g h, make_sparsifier lib pf (Some f) None None false = Ok sp /\ WF g
    /\ sparsifier_filter sp g = Ok h /\ sparsifier_remove sp g = (g, Err TypeError).
Proof.
  exists lib64, Long64, heavy. eexists. exists weighted_pairs. eexists. split; [reflexivity|].
  split; [apply graph_WF; reflexivity|]. split; vm_compute; reflexivity.
Qed.
Print Assumptions C31_remove_filter_refuted.

(** Missing from the full claim: multigraphs. *)
Theorem C31_remove_filter_partial lib pf f keep_connected sp g h :
  make_sparsifier lib pf (Some f) None None keep_connected = Ok sp ->
  WF g -> g_multi g = false -> edge_names g -> sparsifier_filter sp g = Ok h ->
  exists g', sparsifier_remove sp g = (g', Ok tt) /\ same_but_edges g' h /\ edges_data g' = edges_data h.
Proof.
  intros E W M N F. apply make_predicate in E. subst sp.
  destruct (partition_edges (mkSP (Some (if keep_connected then decorate lib pf (Some f) else f)) None None) g eq_refl eq_refl)
    as [(e & R & _)|(p & _ & _ & R & R')].
  - unfold sparsifier_filter in F. rewrite R in F. discriminate.
  - destruct (sparsifier_filter_spec _ g _ W N R) as (h' & F' & _ & S & D). assert (h' = h) by congruence. subst h'.
    destruct (sparsifier_remove_spec _ g _ W M R') as (g' & G & _ & S' & D').
    exists g'. split; [exact G|]. split; [|congruence].
    destruct S as ((? & ?) & ? & ?), S' as ((? & ?) & ? & ?). repeat split; congruence.
Qed.
Print Assumptions C31_remove_filter_partial.

(** on a multigraph, nothing is ever removed: it raises as soon as an edge is redundant *)
Theorem C31_multigraph lib pf f keep_connected sp g red :
  make_sparsifier lib pf (Some f) None None keep_connected = Ok sp -> WF g -> g_multi g = true -> redundant_edges sp g = Ok red ->
  sparsifier_remove sp g = (g, match red with [] => Ok tt | _ :: _ => Err TypeError end).
Proof.
  intros E W M R. apply make_predicate in E. subst sp.
  assert (I : incl red (edges_data g)).
  { destruct (partition_edges (mkSP (Some (if keep_connected then decorate lib pf (Some f) else f)) None None) g eq_refl eq_refl)
      as [(e & _ & R')|(p & _ & _ & _ & R')]; [congruence|]. rewrite R in R'. inversion R'; subst. intros e He. apply filter_In in He. tauto. }
  unfold sparsifier_remove, sbind, sread. rewrite R, M. destruct red as [|[[u v] a] l]; [reflexivity|]. cbn [existsb fst snd].
  replace (has_edge g u v) with true; [reflexivity|]. symmetry. apply has_edge_edges; [assumption|]. left.
  eapply edges_data_edges. apply I. left. reflexivity.
Qed.
Print Assumptions C31_multigraph.

Example C31_ex_multigraph : match make_sparsifier lib64 Long64 (Some heavy) None None false with
  | Ok sp => (sparsifier_remove sp weighted_pairs, match redundant_edges sp weighted_pairs with Ok l => map fst l | Err _ => [] end)
  | Err _ => ((weighted_pairs, Ok tt), []) end = ((weighted_pairs, Err TypeError), [(KInt 0, KInt 1); (KInt 0, KInt 2)]).
Proof. vm_compute. reflexivity. Qed.

Definition simple_pairs : graph :=
  ex_graph false false [0; 1; 2; 3]%Z
    [(0, 1, weight 5); (1, 2, weight 1); (0, 2, weight 2); (2, 2, weight 4); (2, 3, weight 1)]%Z.
Example C31_ex :
  wf simple_pairs = true /\ match make_sparsifier lib64 Long64 (Some heavy) None None true with
  | Ok sp => match sparsifier_remove sp simple_pairs, sparsifier_filter sp simple_pairs with
             | (g', Ok _), Ok h => (edges_data g', edges_data h) | _, _ => ([], []) end
  | Err _ => ([], []) end
  = let l := [(KInt 0, KInt 1, weight 5); (KInt 0, KInt 2, weight 2); (KInt 2, KInt 2, weight 4); (KInt 2, KInt 3, weight 1)] in (l, l).
Proof. vm_compute. auto. Qed.

(** ** C32 keep_connected preserves components *)
Theorem C32_components lib pf f sp g h :
  make_sparsifier lib pf (Some f) None None true = Ok sp -> WF g -> sparsifier_filter sp g = Ok h ->
  same_but_edges g h /\ forall x y, connected h x y <-> connected g x y.
Proof.
  intros E W F. apply make_predicate in E. subst sp.
  destruct (keep_connected_components lib pf f g h W F) as (S & C & _). auto.
Qed.
Print Assumptions C32_components.

Theorem C32_superset lib pf f sp sp0 g h h0 :
  make_sparsifier lib pf (Some f) None None true = Ok sp -> make_sparsifier lib pf (Some f) None None false = Ok sp0 ->
  WF g -> edge_names g -> sparsifier_filter sp g = Ok h -> sparsifier_filter sp0 g = Ok h0 ->
  incl (edges_data h0) (edges_data h).
Proof.
  intros E E0 W N F F0. apply make_predicate in E. apply make_predicate in E0. subst sp sp0. cbn [make_sparsifier] in *.
  destruct (relevant_edges (mkSP (Some (decorate lib pf (Some f))) None None) g) as [l|] eqn:R;
    [|unfold sparsifier_filter in F; rewrite R in F; discriminate].
  destruct (relevant_edges (mkSP (Some f) None None) g) as [l0|] eqn:R0;
    [|unfold sparsifier_filter in F0; rewrite R0 in F0; discriminate].
  destruct (decorated_relevant _ _ _ _ _ R) as (p & out & Ef & U & A & ->).
  destruct (undecorated_relevant _ _ _ R0) as (p' & Ef' & ->). assert (p' = p) by congruence. subst p'.
  destruct (sparsifier_filter_spec _ g _ W N R) as (h1 & F1 & _ & _ & D). assert (h1 = h) by congruence. subst h1.
  destruct (sparsifier_filter_spec _ g _ W N R0) as (h1 & F1' & _ & _ & D0). assert (h1 = h0) by congruence. subst h1.
  rewrite D, D0. intros e He. apply filter_In in He as (He & P). apply filter_In. split; [exact He|]. rewrite P. reflexivity.
Qed.
Print Assumptions C32_superset.

(** and it does return a graph, when the weights are numbers and the predicate answers *)
Theorem C32_returns lib pf f sp g p t E :
  make_sparsifier lib pf (Some f) None None true = Ok sp -> WF g -> edge_names g ->
  f g = Ok p -> edge_test g p t ->
  weighted_edges (K "weight") (edges_data g) E -> (Z.of_nat (order g) <= 2 ^ 64)%Z -> ~ tight_capacity pf (order g) ->
  exists h, sparsifier_filter sp g = Ok h.
Proof.
  intros M W N Ef T WE L NT. apply make_predicate in M. subst sp. cbn [make_sparsifier].
  destruct (C28_never_raises_partial lib pf g (K "weight") E W WE L (or_introl NT)) as (out & U).
  assert (P : sp_predicate (mkSP (Some (decorate lib pf (Some f))) None None) g
    = Ok (fun u v a => let* b := p u v a in Ok (b || pmem (u, v) (map fst out)))).
  { unfold sp_predicate, decorate. cbn [sp_factory]. rewrite Ef. cbn [bind]. rewrite U. reflexivity. }
  destruct (partition_test (mkSP (Some (decorate lib pf (Some f))) None None) g eq_refl eq_refl _ (fun u v a => t u v a || pmem (u, v) (map fst out)) P) as (R & _).
  { intros u v a I. rewrite (T u v a I). reflexivity. }
  destruct (sparsifier_filter_spec _ g _ W N R) as (h & F & _). eauto.
Qed.
Print Assumptions C32_returns.

Example C32_ex :
  match global_threshold_sparsification lib64 Long64 simple_pairs 5 (K "weight") false true with
  | Ok h => edges h | Err _ => [] end
  = [(KInt 0, KInt 1); (KInt 0, KInt 2); (KInt 2, KInt 3)].
Proof. vm_compute. auto. Qed.

(** ** C33 keep_connected and the weight attribute

    False: the spanning trees are always computed with the attribute "weight". *)
Definition other_attr (n : Z) : attrs := [(K "w", VKey (KInt n))].
Definition triangle_w : graph :=
  ex_graph false false [0; 1; 2]%Z [(0, 1, other_attr 10); (1, 2, other_attr 10); (0, 2, other_attr 1)]%Z.
Definition triangle_w_E : list (key * key * Q) :=
  [(KInt 0, KInt 1, 10%Q); (KInt 0, KInt 2, 1%Q); (KInt 1, KInt 2, 10%Q)].

Theorem C33_weight_attribute_refuted :
  exists lib pf g attr t E h i e, WF g /\ weighted_edges attr (edges_data g) E
    /\ global_threshold_sparsification lib pf g t attr false true = Ok h
    /\ nth_error (edges_data g) i = Some e /\ In e (edges_data h)
    /\ (weight_at E i < t)%Q /\ ~ in_some_msf E i.
Proof.
  exists lib64, Long64, triangle_w, (K "w"), 5%Q, triangle_w_E. eexists. exists 1. eexists.
  split; [apply graph_WF; reflexivity|]. split; [computed_edges triangle_w|].
  split; [vm_compute; reflexivity|]. split; [vm_compute; reflexivity|]. split; [vm_compute; tauto|].
  split; [vm_compute; reflexivity|].
  intros (T & M & I). pose proof (msf_not_joined triangle_w_E T 1 M I) as J. apply J.
  apply (closure_trans _ _ (KInt 1)); apply closure_In; vm_compute; auto.
Qed.
Print Assumptions C33_weight_attribute_refuted.

(** Missing from the full claim: other attributes than "weight", multigraphs (parallel edges of
    a spanning tree edge are kept too), different weights within 1e-8 of each other and ints mixed with
    floats as in C25. *)
Theorem C33_weight_attribute_partial lib pf g t reverse E h i e :
  WF g -> g_multi g = false -> edge_names g ->
  weighted_edges (K "weight") (edges_data g) E ->
  fine lib -> alike lib (K "weight") (edges_data g) -> separated E (m_round lib) ->
  global_threshold_sparsification lib pf g t (K "weight") reverse true = Ok h ->
  nth_error (edges_data g) i = Some e -> In e (edges_data h) ->
  right_side reverse t (weight_at E i) \/ in_some_msf E i.
Proof.
  intros W M N WE FI AL S F Ei I.
  unfold global_threshold_sparsification, global_threshold_sparsifier in F.
  destruct (make_sparsifier _ _ _ _ _) as [sp|] eqn:E0; [|discriminate]. cbn [bind] in F. apply make_predicate in E0. subst sp. cbv iota in F.
  match type of F with sparsifier_filter ?s g = _ => destruct (relevant_edges s g) as [l|] eqn:R end; [|unfold sparsifier_filter in F; rewrite R in F; discriminate].
  destruct (decorated_relevant _ _ _ _ _ R) as (p & out & Ef & U & A & ->). inversion Ef; subst p. clear Ef.
  destruct (sparsifier_filter_spec _ g _ W N R) as (h1 & F1 & _ & _ & D). assert (h1 = h) by congruence. subst h1.
  rewrite D in I. apply filter_In in I as (I & P).
  assert (Li : i < List.length (edges_data g)) by (apply nth_error_Some; congruence).
  assert (Bi : i < List.length E) by (rewrite <- (we_length g (K "weight") E WE); exact Li).
  assert (Ni : item_of g i = e) by (apply (nth_error_nth (edges_data g)); exact Ei).
  apply orb_true_iff in P as [P|P].
  - left. destruct (we_nth g (K "weight") E WE i Bi) as [_ Wi]. rewrite Ni in Wi.
    unfold threshold_predicate, edge_weight, weight_at, right_side in *.
    destruct (dget (K "weight") (snd e)) as [x|]; [|discriminate]. unfold num in P. rewrite Wi in P. cbn in P.
    destruct reverse; apply Qle_bool_iff in P; exact P.
  - right. destruct (numbers_exist _ _ _ WE) as (ws & EN).
    destruct (umst_covers lib pf g (K "weight") E ws W WE EN FI AL out U) as (sel & Eo & _ & H' & K').
    assert (B : forall j, In j sel -> j < List.length E) by (intros j Hj; destruct (K' S j Hj) as (T & [T0 _] & HT); apply (sf_edges _ _ T0), HT).
    apply pmem_In in P. rewrite Eo in P. unfold at_positions in P. rewrite map_map in P.
    apply in_map_iff in P as (j & Ej & Hj).
    assert (j = i); [|subst j; apply (K' S), Hj].
    pose proof (edges_data_simple_NoDup g W M) as ND. specialize (B j Hj). rewrite <- (we_length g (K "weight") E WE) in B.
    rewrite (NoDup_nth _ (KInt 0, KInt 0)) in ND. apply ND; try (rewrite map_length; assumption).
    change (KInt 0, KInt 0) with (fst (KInt 0, KInt 0, [] : attrs)). rewrite !map_nth. rewrite <- Ni in Ej. exact Ej.
Qed.
Print Assumptions C33_weight_attribute_partial.

(** What is kept, for the threshold of any attribute and multigraphs too: the edges on the right side of the
    threshold, and all the edges parallel to an edge of a maximum spanning forest for the attribute "weight". *)
Theorem C33_exact lib pf g t attr reverse E h :
  WF g -> edge_names g ->
  weighted_edges (K "weight") (edges_data g) E ->
  fine lib -> alike lib (K "weight") (edges_data g) -> separated E (m_round lib) ->
  global_threshold_sparsification lib pf g t attr reverse true = Ok h ->
  forall u v a, In (u, v, a) (edges_data h) <-> In (u, v, a) (edges_data g)
    /\ ((exists x q, dget attr a = Some x /\ num_of x = Some q /\ right_side reverse t q)
        \/ exists i, in_some_msf E i /\ edge_at E i = (u, v)).
Proof.
  intros W N WE FI AL S F u v a.
  unfold global_threshold_sparsification, global_threshold_sparsifier in F.
  destruct (make_sparsifier _ _ _ _ _) as [sp|] eqn:E0; [|discriminate]. cbn [bind] in F. apply make_predicate in E0. subst sp. cbv iota in F.
  match type of F with sparsifier_filter ?s g = _ => destruct (relevant_edges s g) as [l|] eqn:R end; [|unfold sparsifier_filter in F; rewrite R in F; discriminate].
  destruct (decorated_relevant _ _ _ _ _ R) as (p & out & Ef & U & A & ->). inversion Ef; subst p. clear Ef.
  destruct (sparsifier_filter_spec _ g _ W N R) as (h1 & F1 & _ & _ & D). assert (h1 = h) by congruence. subst h1.
  rewrite D, filter_In. cbn [fst snd]. rewrite orb_true_iff.
  assert (P1 : answer (threshold_predicate t attr reverse u v a) = true
    <-> exists x q, dget attr a = Some x /\ num_of x = Some q /\ right_side reverse t q).
  { unfold threshold_predicate, right_side, num. destruct (dget attr a) as [x|]; [|split; [discriminate|intros (? & ? & ? & _); discriminate]].
    destruct (num_of x) as [q|] eqn:Ex; cbn [bind answer].
    - split.
      + intros H. exists x, q. split; [reflexivity|]. split; [exact Ex|]. destruct reverse; apply Qle_bool_iff in H; exact H.
      + intros (x' & q' & H1 & H2 & H). injection H1 as <-. assert (q' = q) by congruence. subst q'.
        destruct reverse; apply Qle_bool_iff, H.
    - split; [discriminate|]. intros (x' & q' & H1 & H2 & H). injection H1 as <-. congruence. }
  assert (P2 : pmem (u, v) (map fst out) = true <-> exists i, in_some_msf E i /\ edge_at E i = (u, v)).
  { destruct (numbers_exist _ _ _ WE) as (ws & EN).
    destruct (umst_covers lib pf g (K "weight") E ws W WE EN FI AL out U) as (sel & Eo & _ & H' & K').
    assert (B : forall j, in_some_msf E j -> j < List.length E) by (intros j (T & [T0 _] & HT); apply (sf_edges _ _ T0), HT).
    rewrite pmem_In, Eo. unfold at_positions. rewrite map_map, in_map_iff. split.
    - intros (j & Ej & Hj). exists j. specialize (K' S j Hj). split; [exact K'|].
      rewrite <- (proj1 (we_nth g (K "weight") E WE j (B j K'))). exact Ej.
    - intros (j & Hj & Ej). exists j. split; [|apply H', Hj]. rewrite <- Ej.
      exact (proj1 (we_nth g (K "weight") E WE j (B j Hj))). }
  rewrite P1, P2. reflexivity.
Qed.
Print Assumptions C33_exact.

Definition simple_pairs_E : list (key * key * Q) :=
  [(KInt 0, KInt 1, 5%Q); (KInt 0, KInt 2, 2%Q); (KInt 1, KInt 2, 1%Q); (KInt 2, KInt 2, 4%Q); (KInt 2, KInt 3, 1%Q)].
Example C33_ex :
  weighted_edges (K "weight") (edges_data simple_pairs) simple_pairs_E /\ separated simple_pairs_E (m_round lib64)
  /\ match global_threshold_sparsification lib64 Long64 simple_pairs 4 (K "weight") false true with
     | Ok h => edges h | Err _ => [] end
     = [(KInt 0, KInt 1); (KInt 0, KInt 2); (KInt 2, KInt 2); (KInt 2, KInt 3)].
Proof.
  split; [computed_edges simple_pairs|]. split; [|vm_compute; reflexivity].
  intros i j Hi Hj. cbn in Hi, Hj.
  do 5 (destruct i as [|i]; [do 5 (destruct j as [|j]; [vm_compute; intuition discriminate|]); lia|]). lia.
Qed.

(** no edge reaches 10; the edge of weight 4 is kept as it is parallel to the one of weight 5 *)
Example C33_exact_ex :
  let g := ex_graph false true [] [(0, 1, weight 5); (0, 1, weight 4); (1, 2, weight 3); (0, 2, weight 2)]%Z in
  wf g = true /\
  match global_threshold_sparsification lib64 Long64 g 10 (K "weight") false true with Ok h => edges_data h | Err _ => [] end
  = [(KInt 0, KInt 1, weight 5); (KInt 0, KInt 1, weight 4); (KInt 1, KInt 2, weight 3)].
Proof. vm_compute. auto. Qed.

(** ** C34 flags *)
Theorem C34_flag_relevant lib pf f keep_connected sp g p t attr :
  make_sparsifier lib pf (Some f) None None keep_connected = Ok sp -> WF g ->
  sp_predicate sp g = Ok p -> edge_test g p t ->
  (exists g', flag_relevant_edges sp attr false g = (g', Ok tt)
     /\ flagged attr (fun u v a => if t u v a then Some true else None) g g')
  /\ (exists g', flag_relevant_edges sp attr true g = (g', Ok tt)
     /\ flagged attr (fun u v a => Some (t u v a)) g g')
  /\ relevant_edges sp g = Ok (filter (on_edge t) (edges_data g)).
Proof.
  intros E W P T. apply make_predicate in E. subst sp. unfold flag_relevant_edges. cbn [sp_relevant].
  split; [|split; [|apply (partition_test (mkSP (Some (if keep_connected then decorate lib pf (Some f) else f)) None None) g eq_refl eq_refl p t P T)]].
  - destruct (flag_with_spec _ p t attr (fun b => if b then Some true else None) g W P T) as (g' & F & _ & H). eauto.
  - destruct (flag_with_spec _ p t attr (fun b => Some b) g W P T) as (g' & F & _ & H). eauto.
Qed.
Print Assumptions C34_flag_relevant.

Theorem C34_flag_redundant lib pf f keep_connected sp g p t attr :
  make_sparsifier lib pf (Some f) None None keep_connected = Ok sp -> WF g ->
  sp_predicate sp g = Ok p -> edge_test g p t ->
  (exists g', flag_redundant_edges sp attr false g = (g', Ok tt)
     /\ flagged attr (fun u v a => if t u v a then None else Some true) g g')
  /\ (exists g', flag_redundant_edges sp attr true g = (g', Ok tt)
     /\ flagged attr (fun u v a => Some (negb (t u v a))) g g')
  /\ redundant_edges sp g = Ok (filter (fun e => negb (on_edge t e)) (edges_data g)).
Proof.
  intros E W P T. apply make_predicate in E. subst sp. unfold flag_redundant_edges. cbn [sp_redundant].
  split; [|split; [|apply (partition_test (mkSP (Some (if keep_connected then decorate lib pf (Some f) else f)) None None) g eq_refl eq_refl p t P T)]].
  - destruct (flag_with_spec _ p t attr (fun b => if b then None else Some true) g W P T) as (g' & F & _ & H). eauto.
  - destruct (flag_with_spec _ p t attr (fun b => Some (negb b)) g W P T) as (g' & F & _ & H). eauto.
Qed.
Print Assumptions C34_flag_redundant.

Example C34_ex :
  match make_sparsifier lib64 Long64 (Some heavy) None None false with
  | Ok sp => (map snd (edges_data (fst (flag_relevant_edges sp (K "x") false weighted_pairs))),
              map snd (edges_data (fst (flag_redundant_edges sp (K "x") true weighted_pairs))))
  | Err _ => ([], []) end
  = ([weight 5 ++ [(K "x", VBool true)]; weight 1; weight 2; weight 3 ++ [(K "x", VBool true)]; weight 4 ++ [(K "x", VBool true)]],
     [weight 5 ++ [(K "x", VBool false)]; weight 1 ++ [(K "x", VBool true)]; weight 2 ++ [(K "x", VBool true)];
      weight 3 ++ [(K "x", VBool false)]; weight 4 ++ [(K "x", VBool false)]]).
Proof. vm_compute. auto. Qed.

(** ** C35 generator-based sparsifiers *)
Theorem C35_relevant_only lib pf gen sp g l :
  make_sparsifier lib pf None (Some gen) None false = Ok sp ->
  WF g -> g_multi g = false -> comparable (nodes g) ->
  gen g = Ok l -> (forall u v a, In (u, v, a) l -> has_edge g u v = true) ->
  relevant_edges sp g = Ok l
  /\ exists q, redundant_edges sp g = Ok (filter q (edges_data g))
     /\ forall u v a, q (u, v, a) = true <-> ~ mentioned g l u v.
Proof.
  intros E W M C G L. unfold make_sparsifier in E. inversion E; subst sp. clear E.
  split; [exact G|].
  destruct (from_relevant_test g W C l L gen G) as (p & P & T).
  exists (fun e => negb (on_edge (fun u v _ => mentionedb g l u v) e)). split.
  - unfold redundant_edges, sp_predicate. cbn [sp_redundant sp_factory]. rewrite P. cbn [bind]. apply L_Graph3.filterM_not. exact T.
  - intros u v a. unfold on_edge. cbn [fst snd]. rewrite negb_true_iff, <- not_true_iff_false, mentionedb_iff. reflexivity.
Qed.
Print Assumptions C35_relevant_only.

Theorem C35_redundant_only lib pf gen sp g l :
  make_sparsifier lib pf None None (Some gen) false = Ok sp ->
  WF g -> g_multi g = false -> comparable (nodes g) ->
  gen g = Ok l -> (forall u v a, In (u, v, a) l -> has_edge g u v = true) ->
  redundant_edges sp g = Ok l
  /\ exists q, relevant_edges sp g = Ok (filter q (edges_data g))
     /\ forall u v a, q (u, v, a) = true <-> ~ mentioned g l u v.
Proof.
  intros E W M C G L. unfold make_sparsifier in E. inversion E; subst sp. clear E.
  split; [exact G|].
  destruct (from_redundant_test g W C l L gen G) as (p & P & T).
  exists (on_edge (fun u v _ => negb (mentionedb g l u v))). split.
  - unfold relevant_edges, sp_predicate. cbn [sp_relevant sp_factory]. rewrite P. cbn [bind].
    apply filterM_Ok. intros [[u v] a] I. apply T, I.
  - intros u v a. unfold on_edge. cbn [fst snd]. rewrite negb_true_iff, <- not_true_iff_false, mentionedb_iff. reflexivity.
Qed.
Print Assumptions C35_redundant_only.

Example C35_ex :
  let gen : generator := fun g => Ok [(KInt 1, KInt 0, []); (KInt 2, KInt 3, [])] in
  match make_sparsifier lib64 Long64 None (Some gen) None false, make_sparsifier lib64 Long64 None None (Some gen) false with
  | Ok sp, Ok sp' => match redundant_edges sp simple_pairs, relevant_edges sp' simple_pairs with
                     | Ok a, Ok b => (map fst a, map fst b) | _, _ => ([], []) end
  | _, _ => ([], []) end
  = let l := [(KInt 0, KInt 2); (KInt 1, KInt 2); (KInt 2, KInt 2)] in (l, l).
Proof. vm_compute. auto. Qed.

(** ** C77 generators with keep_connected

    Not a partition: only the predicate is decorated, not the generator which was given. *)
Theorem C77_generator_keep_connected_refuted :
  exists lib pf (gen : generator) sp g rel red e,
    make_sparsifier lib pf None (Some gen) None true = Ok sp /\ WF g
    /\ (exists l, gen g = Ok l /\ incl l (edges_data g))
    /\ relevant_edges sp g = Ok rel /\ redundant_edges sp g = Ok red
    /\ In e (edges_data g) /\ ~ In e rel /\ ~ In e red.
Proof.
  exists lib64, Long64, (fun g => Ok [(KInt 0, KInt 1, weight 5)]). eexists. exists simple_pairs. eexists. eexists.
  exists (KInt 2, KInt 3, weight 1). split; [reflexivity|]. split; [apply graph_WF; reflexivity|].
  split; [eexists; split; [reflexivity|]; intros x [<-|[]]; vm_compute; tauto|].
  split; [vm_compute; reflexivity|]. split; [vm_compute; reflexivity|].
  split; [vm_compute; tauto|]. split; intros H; cbn in H; intuition discriminate.
Qed.
Print Assumptions C77_generator_keep_connected_refuted.

(** and the filtered graph is not connected as the original *)
Theorem C77_components_refuted :
  exists lib pf (gen : generator) sp g h,
    make_sparsifier lib pf None (Some gen) None true = Ok sp /\ WF g
    /\ (exists l, gen g = Ok l /\ incl l (edges_data g))
    /\ sparsifier_filter sp g = Ok h /\ connected g (KInt 2) (KInt 3) /\ ~ connected h (KInt 2) (KInt 3).
Proof.
  exists lib64, Long64, (fun g => Ok [(KInt 0, KInt 1, weight 5)]). eexists. exists simple_pairs. eexists.
  split; [reflexivity|]. split; [apply graph_WF; reflexivity|].
  split; [eexists; split; [reflexivity|]; intros x [<-|[]]; vm_compute; tauto|].
  split; [vm_compute; reflexivity|]. split; [apply rst_step; reflexivity|].
  intros X. set (h := mkG _ _ _ _ _) in X.
  assert (I : forall a b, connected h a b -> (a = KInt 3 <-> b = KInt 3)).
  { intros a b Hc. induction Hc as [a b S| |a b _ IH|a b c _ IH1 _ IH2]; try tauto.
    subst h. unfold has_edge, edge_data in S. cbn in S. unfold same_ends in S. cbn [b_src b_dst negb andb] in S.
    destruct (key_eqb_spec (KInt 0) a), (key_eqb_spec (KInt 1) b), (key_eqb_spec (KInt 0) b), (key_eqb_spec (KInt 1) a);
      cbn in S; try discriminate; subst; try discriminate; split; discriminate. }
  apply I in X. destruct X as [_ X]. specialize (X eq_refl). discriminate.
Qed.
Print Assumptions C77_components_refuted.

(** What happens instead: the given generator is used as it is, and the edges [t] of the maximum spanning
    trees only change the derived answer. *)
Lemma decorated_test lib pf (f : factory) g p q t : f g = Ok p -> edge_test g p q -> union_of_maximum_spanning_trees lib pf g (K "weight") = Ok t ->
  exists p', decorate lib pf (Some f) g = Ok p' /\ edge_test g p' (fun u v a => q u v a || pmem (u, v) (map fst t)).
Proof.
  intros F T U. unfold decorate. rewrite F. cbn [bind]. rewrite U. cbn [bind]. eexists. split; [reflexivity|].
  intros u v a I. rewrite (T u v a I). reflexivity.
Qed.

Theorem C77_relevant_partial lib pf gen sp g l t :
  make_sparsifier lib pf None (Some gen) None true = Ok sp ->
  WF g -> g_multi g = false -> comparable (nodes g) ->
  gen g = Ok l -> (forall u v a, In (u, v, a) l -> has_edge g u v = true) ->
  union_of_maximum_spanning_trees lib pf g (K "weight") = Ok t ->
  relevant_edges sp g = Ok l
  /\ exists q, redundant_edges sp g = Ok (filter q (edges_data g))
     /\ forall u v a, q (u, v, a) = true <-> ~ mentioned g l u v /\ ~ In (u, v) (map fst t).
Proof.
  intros E W M C G L U. unfold make_sparsifier in E. inversion E; subst sp. clear E.
  split; [exact G|].
  destruct (from_relevant_test g W C l L gen G) as (p & P & T).
  destruct (decorated_test lib pf _ g p _ t P T U) as (p' & P' & T').
  eexists. split.
  - unfold redundant_edges, sp_predicate. cbn [sp_redundant sp_factory]. rewrite P'. cbn [bind]. apply L_Graph3.filterM_not. exact T'.
  - intros u v a. unfold on_edge. cbn [fst snd]. rewrite negb_true_iff, orb_false_iff, <- !not_true_iff_false, mentionedb_iff, pmem_In. reflexivity.
Qed.
Print Assumptions C77_relevant_partial.

Theorem C77_redundant_partial lib pf gen sp g l t :
  make_sparsifier lib pf None None (Some gen) true = Ok sp ->
  WF g -> g_multi g = false -> comparable (nodes g) ->
  gen g = Ok l -> (forall u v a, In (u, v, a) l -> has_edge g u v = true) ->
  union_of_maximum_spanning_trees lib pf g (K "weight") = Ok t ->
  redundant_edges sp g = Ok l
  /\ exists q, relevant_edges sp g = Ok (filter q (edges_data g))
     /\ forall u v a, q (u, v, a) = true <-> ~ mentioned g l u v \/ In (u, v) (map fst t).
Proof.
  intros E W M C G L U. unfold make_sparsifier in E. inversion E; subst sp. clear E.
  split; [exact G|].
  destruct (from_redundant_test g W C l L gen G) as (p & P & T).
  destruct (decorated_test lib pf _ g p _ t P T U) as (p' & P' & T').
  eexists. split.
  - unfold relevant_edges, sp_predicate. cbn [sp_relevant sp_factory]. rewrite P'. cbn [bind].
    apply (filterM_Ok _ (on_edge (fun u v _ => negb (mentionedb g l u v) || pmem (u, v) (map fst t)))). intros [[u v] a] I. apply T', I.
  - intros u v a. unfold on_edge. cbn [fst snd]. rewrite orb_true_iff, negb_true_iff, <- not_true_iff_false, mentionedb_iff, pmem_In. reflexivity.
Qed.
Print Assumptions C77_redundant_partial.

(** an edge yielded is the edge of the graph *)
Lemma mentioned_yielded g l u v a : WF g -> g_multi g = false -> incl l (edges_data g) -> In (u, v, a) (edges_data g) -> (mentioned g l u v <-> In (u, v, a) l).
Proof.
  intros W M L I. split; [|intros H; exists a; auto]. intros (b & [H|[D H]]).
  - pose proof (L _ H) as J. apply (edges_data_attrs g u v _ W M) in I. apply (edges_data_attrs g u v _ W M) in J. congruence.
  - pose proof (L _ H) as J. assert (u = v) as -> by (apply (edges_oriented g u v W D); eapply edges_data_edges; eassumption).
    apply (edges_data_attrs g v v _ W M) in I. apply (edges_data_attrs g v v _ W M) in J. congruence.
Qed.
Lemma yielded_dec g l u v a : WF g -> g_multi g = false -> incl l (edges_data g) -> In (u, v, a) (edges_data g) -> In (u, v, a) l \/ ~ In (u, v, a) l.
Proof.
  intros W M L I. rewrite <- (mentioned_yielded g l u v a W M L I), <- mentionedb_iff. destruct (mentionedb g l u v); [left; reflexivity|right; discriminate].
Qed.
Lemma listed_pair g l u v a : WF g -> g_multi g = false -> incl l (edges_data g) -> In (u, v, a) (edges_data g) -> (In (u, v) (map fst l) <-> In (u, v, a) l).
Proof.
  intros W M L I. split; [|intros H; apply in_map_iff; exists (u, v, a); auto]. intros H. apply in_map_iff in H as ([[x y] b] & E & H). cbn [fst] in E. inversion E; subst.
  apply (mentioned_yielded g l u v a W M L I). exists b. auto.
Qed.
Lemma umst_yields lib pf g t : WF g -> union_of_maximum_spanning_trees lib pf g (K "weight") = Ok t -> incl t (edges_data g).
Proof. intros W U. destruct (umst_Ok_weighted _ _ _ _ _ U) as (E & WE). exact (umst_incl _ _ _ _ _ _ W WE U). Qed.

(** [keep_connected] is honoured exactly when the generator honours it: when the spanning trees are among the
    relevant edges, resp. not among the redundant ones *)
Theorem C77_exact lib pf gen sp sp' g l t :
  make_sparsifier lib pf None (Some gen) None true = Ok sp -> make_sparsifier lib pf None None (Some gen) true = Ok sp' ->
  WF g -> g_multi g = false -> comparable (nodes g) -> gen g = Ok l -> incl l (edges_data g) ->
  union_of_maximum_spanning_trees lib pf g (K "weight") = Ok t ->
  (exists rel red, relevant_edges sp g = Ok rel /\ redundant_edges sp g = Ok red
     /\ (forall e, In e (edges_data g) -> ~ (In e rel /\ In e red))
     /\ ((forall e, In e (edges_data g) -> In e rel \/ In e red) <-> incl t l))
  /\ (exists rel red, relevant_edges sp' g = Ok rel /\ redundant_edges sp' g = Ok red
     /\ (forall e, In e (edges_data g) -> In e rel \/ In e red)
     /\ ((forall e, In e (edges_data g) -> ~ (In e rel /\ In e red)) <-> forall e, In e t -> ~ In e l)).
Proof.
  intros E E' W M C G L U. pose proof (umst_yields _ _ _ _ W U) as Lt.
  assert (L' : forall u v a, In (u, v, a) l -> has_edge g u v = true) by (intros u v a I; apply L, (edges_data_attrs g u v a W M), edge_attrs_has in I; exact I).
  destruct (C77_relevant_partial lib pf gen sp g l t E W M C G L' U) as (R & q & D & Q).
  destruct (C77_redundant_partial lib pf gen sp' g l t E' W M C G L' U) as (R' & q' & D' & Q').
  split.
  - exists l, (filter q (edges_data g)). split; [exact R|]. split; [exact D|]. split; [|split].
    + intros [[u v] a] I [H J]. apply filter_In in J as [_ J]. apply Q in J as [J _]. apply J, (mentioned_yielded g l u v a W M L I), H.
    + intros H [[u v] a] T. specialize (Lt _ T). destruct (H _ Lt) as [J|J]; [exact J|]. apply filter_In in J as [_ J]. apply Q in J as [_ J]. destruct J. apply in_map_iff. exists (u, v, a). auto.
    + intros T [[u v] a] I. destruct (yielded_dec g l u v a W M L I) as [J|J]; [left; exact J|right]. apply filter_In. split; [exact I|]. apply Q. split.
      * rewrite (mentioned_yielded g l u v a W M L I). exact J.
      * rewrite (listed_pair g t u v a W M Lt I). intros X. apply J, T, X.
  - exists (filter q' (edges_data g)), l. split; [exact D'|]. split; [exact R'|]. split; [|split].
    + intros [[u v] a] I. destruct (yielded_dec g l u v a W M L I) as [J|J]; [right; exact J|left]. apply filter_In. split; [exact I|]. apply Q'. left.
      rewrite (mentioned_yielded g l u v a W M L I). exact J.
    + intros H [[u v] a] T J. specialize (Lt _ T). apply (H _ Lt). split; [|exact J]. apply filter_In. split; [exact Lt|]. apply Q'. right. apply in_map_iff. exists (u, v, a). auto.
    + intros H [[u v] a] I [J K']. apply filter_In in J as [_ J]. apply Q' in J as [J|J].
      * apply J, (mentioned_yielded g l u v a W M L I), K'.
      * apply (listed_pair g t u v a W M Lt I) in J. exact (H _ J K').
Qed.
Print Assumptions C77_exact.

(** a generator of redundant edges leaves the components alone *)
Theorem C77_components lib pf gen sp g h : make_sparsifier lib pf None None (Some gen) true = Ok sp -> WF g ->
  sparsifier_filter sp g = Ok h -> same_but_edges g h /\ forall x y, connected h x y <-> connected g x y.
Proof.
  intros E W F. unfold make_sparsifier in E. inversion E; subst sp. clear E.
  destruct (keep_connected_components lib pf (from_redundant gen) g h W F) as (S & C & _). auto.
Qed.
Print Assumptions C77_components.

(** a generator of relevant edges connects what it connects *)
Theorem C77_components_exact lib pf gen sp g h l : make_sparsifier lib pf None (Some gen) None true = Ok sp -> WF g ->
  gen g = Ok l -> incl l (edges_data g) -> sparsifier_filter sp g = Ok h ->
  same_but_edges g h /\ forall x y, connected h x y <-> clos_refl_sym_trans key (fun u v => exists a, In (u, v, a) l) x y.
Proof.
  intros E W G L F. unfold make_sparsifier in E. inversion E; subst sp. clear E.
  destruct (filter_links (mkSP (Some (decorate lib pf (Some (from_relevant gen)))) (Some gen) None) g l h W G L F) as (S & _ & C). split; [exact S|]. intros x y. rewrite C. unfold closure.
  split; intros H; (induction H as [x y H|x|x y _ IH|x y z _ IH1 _ IH2]; [apply rst_step|apply rst_refl|apply rst_sym, IH|eapply rst_trans; eassumption]).
  - rename H into I. apply in_map_iff in I as ([[p q] a] & E & I). cbn [fst] in E. inversion E; subst. eauto.
  - destruct H as (a & I). apply in_map_iff. exists (x, y, a). auto.
Qed.
Print Assumptions C77_components_exact.

Example C77_ex :
  let gen : generator := fun g => Ok [(KInt 1, KInt 0, []); (KInt 2, KInt 3, [])] in
  (match union_of_maximum_spanning_trees lib64 Long64 simple_pairs (K "weight") with Ok t => map fst t | Err _ => [] end,
   match make_sparsifier lib64 Long64 None (Some gen) None true, make_sparsifier lib64 Long64 None None (Some gen) true with
   | Ok sp, Ok sp' => match redundant_edges sp simple_pairs, relevant_edges sp' simple_pairs with
                      | Ok a, Ok b => (map fst a, map fst b) | _, _ => ([], []) end
   | _, _ => ([], []) end)
  = ([(KInt 0, KInt 1); (KInt 0, KInt 2); (KInt 2, KInt 3)],
     ([(KInt 1, KInt 2); (KInt 2, KInt 2)], [(KInt 0, KInt 1); (KInt 0, KInt 2); (KInt 1, KInt 2); (KInt 2, KInt 2); (KInt 2, KInt 3)])).
Proof. vm_compute. reflexivity. Qed.

(** a generator of the edges of the spanning trees, then of the others *)
Example C77_ex_exact :
  let heavy : generator := fun g => Ok (firstn 2 (edges_data g)) in
  match heavy simple_pairs, union_of_maximum_spanning_trees lib64 Long64 simple_pairs (K "weight") with
  | Ok l, Ok t => (map fst (edges_data simple_pairs), map fst l, map fst t) | _, _ => ([], [], []) end
  = ([(KInt 0, KInt 1); (KInt 0, KInt 2); (KInt 1, KInt 2); (KInt 2, KInt 2); (KInt 2, KInt 3)], [(KInt 0, KInt 1); (KInt 0, KInt 2)], [(KInt 0, KInt 1); (KInt 0, KInt 2); (KInt 2, KInt 3)])
  /\ match make_sparsifier lib64 Long64 None (Some heavy) None true, make_sparsifier lib64 Long64 None None (Some heavy) true with
     | Ok sp, Ok sp' => match redundant_edges sp simple_pairs, sparsifier_filter sp' simple_pairs with
                        | Ok red, Ok h => (map fst red, edges h) | _, _ => ([], []) end
     | _, _ => ([], []) end
     = ([(KInt 1, KInt 2); (KInt 2, KInt 2)], [(KInt 0, KInt 1); (KInt 0, KInt 2); (KInt 1, KInt 2); (KInt 2, KInt 2); (KInt 2, KInt 3)]).
Proof. vm_compute. auto. Qed.

(** ** C36 multiscale backbone *)
Definition strengths : graph :=
  ex_graph false false [0; 1; 2; 3]%Z
    [(0, 1, weight 5); (1, 2, weight 1); (0, 2, weight 2); (2, 2, weight 4); (2, 3, weight 1); (3, 0, weight 1)]%Z.

(** exact arithmetic, for the examples *)
Definition exact_lib : libm := mkLib (fun x => x) Qpower (fun x => x) (fun x => x).
Lemma exact_lib_exact : exact exact_lib.
Proof. split; reflexivity. Qed.

Lemma exact_floats lib attr g : exact lib -> float_weights lib attr g.
Proof. intros [E _] u v a w _ _ q _. unfold representable. rewrite E. reflexivity. Qed.

(** C36 and the range of the scores hold whatever the rounding *)
Theorem C36_backbone lib pf g alpha attr d : sound lib -> float_weights lib attr g ->
  WF g -> g_multi g = false -> g_dir g = false -> edge_names g -> positive_weights attr g -> comparable (nodes g) ->
  edge_disparity lib g attr false = Ok d ->
  exists h keep, multiscale_backbone lib pf g alpha attr false = Ok h
    /\ same_but_edges g h /\ edges_data h = filter keep (edges_data g)
    /\ forall u v a, In (u, v, a) (edges_data g) ->
         exists x, (In (u, v, x) d \/ In (v, u, x) d) /\ (keep (u, v, a) = true <-> (x <= alpha)%Q).
Proof.
  intros SD FO W M D N P C0 ED. pose proof (comparable_linked g W C0) as C.
  destruct (backbone_test g attr W M D P lib SD FO C alpha) as (p & Ep & T).
  unfold multiscale_backbone, multiscale_backbone_sparsifier.
  destruct (make_sparsifier _ _ _ _ _) as [sp|] eqn:E; [|discriminate]. cbn [bind]. apply make_predicate in E. subst sp.
  destruct (partition_test (mkSP (Some (backbone_factory lib alpha attr)) None None) g eq_refl eq_refl p _ Ep T) as (R & _).
  destruct (sparsifier_filter_spec _ g _ W N R) as (h & Eh & Wh & S & DH).
  exists h, (on_edge (fun u v _ => q_leb (score_of g attr lib false u v) alpha)).
  split; [exact Eh|]. split; [exact S|]. split; [exact DH|].
  intros u v a I. apply (edges_data_attrs g u v a W M) in I. apply edge_attrs_has in I.
  rewrite (edge_disparity_Ok g attr W M D P lib SD FO C) in ED. inversion ED; subst d. unfold on_edge, q_leb. cbn [fst snd].
  assert (I' : has_edge g v u = true) by (rewrite has_edge_sym; assumption).
  destruct (negb (gtb u v)) eqn:G.
  - exists (score_of g attr lib false u v). split.
    + left. apply (entries_In g attr W M D lib C). split; [exact I|]. split; [|reflexivity]. apply (gtb_smaller g D C); assumption.
    + apply Qle_bool_iff.
  - exists (score_of g attr lib false v u). split.
    + right. apply (entries_In g attr W M D lib C). split; [exact I'|]. split; [|reflexivity].
      unfold gtb in G. destruct (C u v I) as (b & Gb). rewrite Gb in G. destruct b; [|discriminate]. right. exact Gb.
    + rewrite Qle_bool_iff, score_sym. reflexivity.
Qed.
Print Assumptions C36_backbone.

Theorem C36_monotone lib pf g alpha alpha' attr h h' : sound lib -> float_weights lib attr g ->
  WF g -> g_multi g = false -> g_dir g = false -> edge_names g -> positive_weights attr g -> comparable (nodes g) ->
  (alpha <= alpha')%Q ->
  multiscale_backbone lib pf g alpha attr false = Ok h -> multiscale_backbone lib pf g alpha' attr false = Ok h' ->
  incl (edges_data h) (edges_data h').
Proof.
  intros SD FO W M D N P C L E E'. pose proof (edge_disparity_Ok g attr W M D P lib SD FO (comparable_linked g W C) false) as ED.
  destruct (C36_backbone lib pf g alpha attr _ SD FO W M D N P C ED) as (h1 & k & E1 & _ & D1 & K).
  destruct (C36_backbone lib pf g alpha' attr _ SD FO W M D N P C ED) as (h2 & k' & E2 & _ & D2 & K').
  assert (h1 = h) by congruence. assert (h2 = h') by congruence. subst h1 h2.
  intros [[u v] a] I. rewrite D1 in I. apply filter_In in I as (I & Q). rewrite D2. apply filter_In. split; [exact I|].
  destruct (K u v a I) as (x & Hx & Kx). destruct (K' u v a I) as (x' & Hx' & Kx').
  assert (x = x').
  { pose proof (entries_In g attr W M D lib (comparable_linked g W C) false) as EI. pose proof (comparable_linked g W C) as CL.
    destruct Hx as [Hx|Hx], Hx' as [Hx'|Hx']; apply EI in Hx as (H1 & S1 & ->); apply EI in Hx' as (H2 & S2 & ->); try reflexivity.
    - destruct S1 as [->|S1]; [reflexivity|]. destruct S2 as [->|S2]; [reflexivity|]. exfalso. exact (gt_asym u v S2 S1).
    - destruct S1 as [->|S1]; [reflexivity|]. destruct S2 as [->|S2]; [reflexivity|]. exfalso. exact (gt_asym u v S1 S2). }
  subst x'. apply Kx'. apply Kx in Q. lra.
Qed.
Print Assumptions C36_monotone.

Theorem C36_all lib pf g alpha attr : sound lib -> float_weights lib attr g ->
  WF g -> g_multi g = false -> g_dir g = false -> edge_names g -> positive_weights attr g -> comparable (nodes g) ->
  (1 <= alpha)%Q ->
  exists h, multiscale_backbone lib pf g alpha attr false = Ok h /\ same_but_edges g h /\ edges_data h = edges_data g.
Proof.
  intros SD FO W M D N P C L. pose proof (comparable_linked g W C) as CL. pose proof (edge_disparity_Ok g attr W M D P lib SD FO CL false) as ED.
  destruct (C36_backbone lib pf g alpha attr _ SD FO W M D N P C ED) as (h & k & E & S & DH & K).
  exists h. split; [exact E|]. split; [exact S|]. rewrite DH.
  assert (A : forall e, In e (edges_data g) -> k e = true).
  { intros [[u v] a] I. destruct (K u v a I) as (x & Hx & Kx). apply Kx.
    assert (x <= 1)%Q; [|lra].
    destruct Hx as [Hx|Hx]; apply (entries_In g attr W M D lib CL) in Hx as (H & _ & ->);
      apply (score_unit g attr W M D P lib SD FO _ _ H). }
  clear -A. induction (edges_data g) as [|e l IH]; [reflexivity|]. cbn [filter]. rewrite (A e (or_introl eq_refl)). f_equal.
  apply IH. intros; apply A; right; assumption.
Qed.
Print Assumptions C36_all.

Lemma strengths_positive : positive_weights (K "weight") strengths.
Proof.
  intros u v a I. assert (F : forallb (fun e : edge3 => match stored_weight (K "weight") (snd e) with
      | Some w => negb (Qle_bool w 0) | None => false end) (edges_data strengths) = true) by (vm_compute; reflexivity).
  rewrite forallb_forall in F. specialize (F _ I). cbn [snd] in F. destruct (stored_weight (K "weight") a) as [w|]; [|discriminate].
  exists w. split; [reflexivity|]. apply negb_true_iff, not_true_iff_false in F. rewrite Qle_bool_iff in F. apply Qnot_le_lt. exact F.
Qed.

Example C36_ex :
  wf strengths = true /\ g_multi strengths = false /\ g_dir strengths = false /\ positive_weights (K "weight") strengths
  /\ match multiscale_backbone exact_lib Long64 strengths (1 # 4) (K "weight") false with Ok h => edges h | Err _ => [] end
     = [(KInt 0, KInt 1); (KInt 2, KInt 2)]
  /\ match multiscale_backbone lib64 Long64 strengths (1 # 2) (K "weight") false with Ok h => edges h | Err _ => [] end
     = [(KInt 0, KInt 1); (KInt 0, KInt 2); (KInt 0, KInt 3); (KInt 2, KInt 2); (KInt 2, KInt 3)].
Proof.
  split; [reflexivity|]. split; [reflexivity|]. split; [reflexivity|]. split; [exact strengths_positive|]. vm_compute. auto.
Qed.

(** ** C37 the documented formula *)

(** in exact arithmetic *)
Theorem C37_disparity lib g attr : exact lib ->
  WF g -> g_multi g = false -> g_dir g = false -> positive_weights attr g -> comparable (nodes g) ->
  exists d, edge_disparity lib g attr false = Ok d /\ NoDup (map fst d)
    /\ (forall u v, In (u, v) (map fst d) <-> has_edge g u v = true /\ smaller_first u v)
    /\ forall u v x, In (u, v, x) d ->
         (x == Qmin ((1 - link_weight attr g u v / strength attr g u) ^ (Z.of_nat (edge_ends g u) - 1))
                    ((1 - link_weight attr g v u / strength attr g v) ^ (Z.of_nat (edge_ends g v) - 1)))%Q
         /\ (0 <= x <= 1)%Q.
Proof.
  intros X W M D P C0. pose proof (comparable_linked g W C0) as C. exists (entries g attr lib false).
  pose proof (exact_sound lib X) as SD. pose proof (exact_floats lib attr g X) as FO.
  split; [apply edge_disparity_Ok; assumption|]. split; [apply (entries_NoDup g attr W M)|]. split.
  - intros u v. rewrite in_map_iff. split.
    + intros ([[u' v'] x] & E & I). cbn in E. inversion E; subst. apply (entries_In g attr W M D lib C) in I. tauto.
    + intros [H S]. exists (u, v, score_of g attr lib false u v). split; [reflexivity|]. apply (entries_In g attr W M D lib C). auto.
  - intros u v x I. apply (entries_In g attr W M D lib C) in I as (H & _ & ->). split.
    + rewrite (score_eq g attr W M D P lib SD FO u v X H). reflexivity.
    + apply (score_unit g attr W M D P lib SD FO u v H).
Qed.
Print Assumptions C37_disparity.

(** whatever the rounding: one entry per edge, in [0, 1] *)
Theorem C37_rounded lib g attr : sound lib -> float_weights lib attr g ->
  WF g -> g_multi g = false -> g_dir g = false -> positive_weights attr g -> comparable (nodes g) ->
  exists d, edge_disparity lib g attr false = Ok d /\ NoDup (map fst d)
    /\ (forall u v, In (u, v) (map fst d) <-> has_edge g u v = true /\ smaller_first u v)
    /\ forall u v x, In (u, v, x) d -> (0 <= x <= 1)%Q.
Proof.
  intros SD FO W M D P C0. pose proof (comparable_linked g W C0) as C. exists (entries g attr lib false).
  split; [apply edge_disparity_Ok; assumption|]. split; [apply (entries_NoDup g attr W M)|]. split.
  - intros u v. rewrite in_map_iff. split.
    + intros ([[u' v'] x] & E & I). cbn in E. inversion E; subst. apply (entries_In g attr W M D lib C) in I. tauto.
    + intros [H S]. exists (u, v, score_of g attr lib false u v). split; [reflexivity|]. apply (entries_In g attr W M D lib C). auto.
  - intros u v x I. apply (entries_In g attr W M D lib C) in I as (H & _ & ->). apply (score_unit g attr W M D P lib SD FO u v H).
Qed.
Print Assumptions C37_rounded.

Example C37_ex :
  wf strengths = true /\ positive_weights (K "weight") strengths
  /\ (strength (K "weight") strengths (KInt 2) == 12)%Q /\ edge_ends strengths (KInt 2) = 5
  /\ match edge_disparity exact_lib strengths (K "weight") false with
     | Ok d => map (fun e => (fst e, Qred (snd e))) d | Err _ => [] end
     = [(KInt 0, KInt 1, (9 # 64)%Q); (KInt 0, KInt 2, (625 # 1296)%Q ); (KInt 0, KInt 3, (1 # 2)%Q);
        (KInt 1, KInt 2, (14641 # 20736)%Q); (KInt 2, KInt 2, (16 # 81)%Q); (KInt 2, KInt 3, (1 # 2)%Q)].
Proof.
  split; [reflexivity|]. split; [exact strengths_positive|]. split; [vm_compute; reflexivity|]. split; [vm_compute; reflexivity|].
  vm_compute. reflexivity.
Qed.

(** the floats nearest to the tenths *)
Definition tenth (n : Z) : Q := round64 (inject_Z n / 10).
Definition weightf (q : Q) : attrs := [(K "weight", VFloat q)].
Definition tenths : graph :=
  ex_graph false false [0; 1; 2; 3]%Z [(0, 1, weightf (tenth 1)); (0, 2, weightf (tenth 7)); (0, 3, weight 1); (2, 3, weightf (tenth 3))]%Z.

Lemma tenths_floats : float_weights lib64 (K "weight") tenths.
Proof.
  intros u v a w I E q ->. assert (F : forallb (fun e : edge3 => match dget (K "weight") (snd e) with
      | Some (VFloat x) => q_eqb (round64 x) x | _ => true end) (edges_data tenths) = true) by (vm_compute; reflexivity).
  rewrite forallb_forall in F. specialize (F _ I). cbn [snd] in F. rewrite E in F. apply Qeq_bool_iff. exact F.
Qed.

(** what CPython prints as 0.8919753086419753, 0.30000000000000004, 0.19753086419753085 and 0.7 *)
Example C37_ex_rounded : sound lib64 /\ float_weights lib64 (K "weight") tenths
  /\ match edge_disparity lib64 tenths (K "weight") false with Ok d => d | Err _ => [] end
     = [(KInt 0, KInt 1, 0x0.e4587e6b74f03%xQ); (KInt 0, KInt 2, 0x0.4cccccccccccd%xQ);
        (KInt 0, KInt 3, (222399981598543 # 1125899906842624)%Q); (KInt 2, KInt 3, 0x0.b333333333333%xQ)].
Proof. split; [exact lib64_sound|]. split; [exact tenths_floats|]. vm_compute. reflexivity. Qed.

(** ** C38 reverse *)

(** whatever the rounding, the reversed score is [1.0 - x], computed with floats *)
Theorem C38_rounded lib g attr : sound lib -> float_weights lib attr g ->
  WF g -> g_multi g = false -> g_dir g = false -> positive_weights attr g ->
  (edge_disparity lib g attr false = Err TypeError /\ edge_disparity lib g attr true = Err TypeError)
  \/ exists d d', edge_disparity lib g attr false = Ok d /\ edge_disparity lib g attr true = Ok d'
     /\ map fst d = map fst d' /\ NoDup (map fst d)
     /\ forall p x x', In (p, x) d -> In (p, x') d' -> (x' == m_round lib (1 - x))%Q.
Proof.
  intros SD FO W M D P. destruct (linked_comparable_dec g attr W M) as [C|C].
  - right. exists (entries g attr lib false), (entries g attr lib true).
    split; [apply edge_disparity_Ok; assumption|]. split; [apply edge_disparity_Ok; assumption|].
    split; [unfold entries; rewrite !map_map; reflexivity|]. split; [apply (entries_NoDup g attr W M)|].
    intros [u v] x x' I I'. apply (entries_In g attr W M D lib C) in I as (_ & _ & ->).
    apply (entries_In g attr W M D lib C) in I' as (_ & _ & ->). apply score_reverse. exact SD.
  - left. split; apply edge_disparity_Err; assumption.
Qed.
Print Assumptions C38_rounded.

Theorem C38_reverse lib g attr : exact lib ->
  WF g -> g_multi g = false -> g_dir g = false -> positive_weights attr g ->
  (edge_disparity lib g attr false = Err TypeError /\ edge_disparity lib g attr true = Err TypeError)
  \/ exists d d', edge_disparity lib g attr false = Ok d /\ edge_disparity lib g attr true = Ok d'
     /\ map fst d = map fst d' /\ NoDup (map fst d)
     /\ forall p x x', In (p, x) d -> In (p, x') d' -> (x' == 1 - x)%Q.
Proof.
  intros X W M D P. destruct (C38_rounded lib g attr (exact_sound lib X) (exact_floats lib attr g X) W M D P) as [H|(d & d' & H)]; [left; exact H|].
  right. exists d, d'. destruct X as [X _]. intuition. rewrite <- (X (1 - x)%Q). eauto.
Qed.
Print Assumptions C38_reverse.

Example C38_ex :
  match edge_disparity exact_lib strengths (K "weight") true with
  | Ok d => map (fun e => Qred (snd e)) d | Err _ => [] end
  = [(55 # 64)%Q; (671 # 1296)%Q; (1 # 2)%Q; (6095 # 20736)%Q; (65 # 81)%Q; (1 # 2)%Q].
Proof. vm_compute. reflexivity. Qed.

Example C38_ex_rounded :
  match edge_disparity lib64 tenths (K "weight") false, edge_disparity lib64 tenths (K "weight") true with
  | Ok d, Ok d' => map (fun e => round64 (1 - snd e)) d = map snd d' | _, _ => False end.
Proof. vm_compute. reflexivity. Qed.

(** ** C39 rescaling *)
Lemma entries_keys_In lib g attr : WF g -> g_multi g = false -> g_dir g = false -> linked_comparable g ->
  forall p, In p (map fst (entries g attr lib false)) <-> has_edge g (fst p) (snd p) = true /\ smaller_first (fst p) (snd p).
Proof.
  intros W M D C [u v]. rewrite in_map_iff. cbn [fst snd]. split.
  - intros ([[u' v'] x] & E & I). cbn in E. inversion E; subst. apply (entries_In g attr W M D lib C) in I. tauto.
  - intros [H S]. exists (u, v, score_of g attr lib false u v). split; [reflexivity|]. apply (entries_In g attr W M D lib C). auto.
Qed.

(** in exact arithmetic; or with any rounding when all weights are ints *)
Theorem C39_rescaling lib g h attr c : exact lib \/ sound lib /\ int_weights attr g /\ int_weights attr h ->
  WF g -> WF h -> g_multi g = false -> g_dir g = false -> positive_weights attr g -> (0 < c)%Q -> rescaled attr c g h ->
  (edge_disparity lib g attr false = Err TypeError /\ edge_disparity lib h attr false = Err TypeError)
  \/ exists d d', edge_disparity lib g attr false = Ok d /\ edge_disparity lib h attr false = Ok d'
     /\ (forall p, In p (map fst d) <-> In p (map fst d')) /\ NoDup (map fst d) /\ NoDup (map fst d')
     /\ forall p x x', In (p, x) d -> In (p, x') d' -> (x' == x)%Q.
Proof.
  intros A W W' M D P Hc R.
  assert (SD : sound lib) by (destruct A as [A|[A _]]; [apply exact_sound, A|exact A]).
  assert (FO : float_weights lib attr g /\ float_weights lib attr h).
  { destruct A as [A|(_ & A & B)]; [split; apply exact_floats, A|]. split; intros u v a w I E q ->.
    - destruct (A u v a I) as (z & Z). rewrite Z in E. discriminate.
    - destruct (B u v a I) as (z & Z). rewrite Z in E. discriminate. }
  destruct FO as [FO FO'].
  pose proof (rs_multi g h attr c M D R) as M'. pose proof (rs_dir g h attr c D R) as D'.
  pose proof (rs_positive g h attr c Hc P R) as P'. pose proof (rs_links g h attr c W W' M D R) as L.
  destruct (linked_comparable_dec g attr W M) as [C|C].
  - right. assert (C' : linked_comparable h) by (intros u v H; rewrite L in H; apply C, H).
    exists (entries g attr lib false), (entries h attr lib false).
    split; [apply edge_disparity_Ok; assumption|]. split; [apply edge_disparity_Ok; assumption|].
    split; [|split; [apply (entries_NoDup g attr W M)|split; [apply (entries_NoDup h attr W' M')|]]].
    + intros p. rewrite !entries_keys_In by assumption. rewrite L. reflexivity.
    + intros [u v] x x' I I'. apply (entries_In g attr W M D lib C) in I as (H & _ & ->).
      apply (entries_In h attr W' M' D' lib C') in I' as (H' & _ & ->). destruct A as [A|(_ & IG & IH)].
      * rewrite (score_eq g attr W M D P lib SD FO u v A H), (score_eq h attr W' M' D' P' lib SD FO' u v A H').
        apply (rs_formula g h attr c Hc W W' M D P R u v H).
      * apply (rs_score g h attr c Hc W W' M D P R lib SD IG IH FO FO' u v H).
  - left. split; apply edge_disparity_Err; try assumption. intros C'. apply C. intros u v H. apply C'. rewrite L. exact H.
Qed.
Print Assumptions C39_rescaling.

Definition strengths3 : graph :=
  ex_graph false false [0; 1; 2; 3]%Z
    [(0, 1, weight 15); (1, 2, weight 3); (0, 2, weight 6); (2, 2, weight 12); (2, 3, weight 3); (3, 0, weight 3)]%Z.
Example C39_ex :
  wf strengths3 = true /\ rescaled (K "weight") 3 strengths strengths3
  /\ match edge_disparity lib64 strengths3 (K "weight") false, edge_disparity lib64 strengths (K "weight") false with
     | Ok d, Ok d' => d = d' | _, _ => False end.
Proof.
  split; [reflexivity|]. split.
  - split; [split; reflexivity|]. split; [reflexivity|].
    let x := eval vm_compute in (edges_data strengths) in replace (edges_data strengths) with x by (vm_compute; reflexivity).
    let x := eval vm_compute in (edges_data strengths3) in replace (edges_data strengths3) with x by (vm_compute; reflexivity).
    repeat constructor; eexists; eexists; (split; [reflexivity|]); (split; [reflexivity|]); reflexivity.
  - vm_compute. reflexivity.
Qed.

(** C39 is false for floats: the sum of the weights of the middle node is not rounded alike after multiplying both weights
    by 3, which they can be without rounding. *)
Definition big_path (c : Z) : graph :=
  ex_graph false false [0; 1; 2]%Z [(0, 1, weightf (inject_Z c)); (1, 2, weightf (inject_Z (c * 2 ^ 53)))]%Z.

Lemma big_path_ok c : c = 1%Z \/ c = 3%Z ->
  WF (big_path c) /\ positive_weights (K "weight") (big_path c) /\ float_weights lib64 (K "weight") (big_path c).
Proof.
  intros Hc. split; [apply wf_WF; destruct Hc as [-> | ->]; vm_compute; reflexivity|].
  assert (F : forallb (fun e : edge3 => match dget (K "weight") (snd e) with
      | Some (VFloat x) => q_eqb (round64 x) x && negb (Qle_bool x 0) | _ => false end) (edges_data (big_path c)) = true)
    by (destruct Hc as [-> | ->]; vm_compute; reflexivity).
  rewrite forallb_forall in F. split.
  - intros u v a I. specialize (F _ I). cbn [snd] in F. unfold stored_weight.
    destruct (dget (K "weight") a) as [[| |x|]|]; try discriminate. exists x. split; [reflexivity|].
    apply andb_prop in F as [_ F]. apply negb_true_iff, not_true_iff_false in F. rewrite Qle_bool_iff in F. apply Qnot_le_lt. exact F.
  - intros u v a w I E q ->. specialize (F _ I). cbn [snd] in F. rewrite E in F. apply andb_prop in F as [F _]. apply Qeq_bool_iff. exact F.
Qed.

Theorem C39_rounding_refuted : exists g h c d d' p x x',
  WF g /\ WF h /\ g_multi g = false /\ g_dir g = false /\ positive_weights (K "weight") g
  /\ float_weights lib64 (K "weight") g /\ float_weights lib64 (K "weight") h /\ (0 < c)%Q /\ rescaled (K "weight") c g h
  /\ edge_disparity lib64 g (K "weight") false = Ok d /\ edge_disparity lib64 h (K "weight") false = Ok d'
  /\ In (p, x) d /\ In (p, x') d' /\ ~ (x' == x)%Q.
Proof.
  exists (big_path 1), (big_path 3), (inject_Z 3).
  let d := eval vm_compute in (edge_disparity lib64 (big_path 1) (K "weight") false) in
  match d with Ok ?d => exists d end.
  let d := eval vm_compute in (edge_disparity lib64 (big_path 3) (K "weight") false) in
  match d with Ok ?d => exists d end.
  eexists (KInt 1, KInt 2), _, _.
  destruct (big_path_ok 1 (or_introl eq_refl)) as (W1 & P1 & F1). destruct (big_path_ok 3 (or_intror eq_refl)) as (W3 & P3 & F3).
  split; [exact W1|]. split; [exact W3|]. split; [reflexivity|]. split; [reflexivity|]. split; [exact P1|]. split; [exact F1|]. split; [exact F3|].
  split; [reflexivity|]. split.
  - split; [split; reflexivity|]. split; [reflexivity|].
    let x := eval vm_compute in (edges_data (big_path 1)) in replace (edges_data (big_path 1)) with x by (vm_compute; reflexivity).
    let x := eval vm_compute in (edges_data (big_path 3)) in replace (edges_data (big_path 3)) with x by (vm_compute; reflexivity).
    repeat constructor; eexists; eexists; (split; [reflexivity|]); (split; [reflexivity|]); reflexivity.
  - split; [vm_compute; reflexivity|]. split; [vm_compute; reflexivity|].
    split; [right; left; reflexivity|]. split; [right; left; reflexivity|]. intros E. vm_compute in E. discriminate.
Qed.
Print Assumptions C39_rounding_refuted.

(** With floats and binary64 rounding scores do not change when weights are multiplied by a power of two, including divisions by
    exchanging both graphs. Sums of weights are rounded in the order of the neighbours, which has to be the same. *)
Theorem C39_power_of_two lib g h attr k : sound lib -> (forall x, m_round lib x == round64 x)%Q ->
  WF g -> WF h -> g_multi g = false -> g_dir g = false -> positive_weights attr g -> only_floats lib attr g -> only_floats lib attr h ->
  (0 <= k)%Z -> rescaled attr (inject_Z (2 ^ k)) g h -> (forall u, neighbors h u = neighbors g u) -> forall reverse,
  (edge_disparity lib g attr reverse = Err TypeError /\ edge_disparity lib h attr reverse = Err TypeError)
  \/ exists d d', edge_disparity lib g attr reverse = Ok d /\ edge_disparity lib h attr reverse = Ok d'
     /\ (forall p, In p (map fst d) <-> In p (map fst d')) /\ NoDup (map fst d) /\ NoDup (map fst d')
     /\ forall p x x', In (p, x) d -> In (p, x') d' -> (x' == x)%Q.
Proof.
  intros SD R64 W W' M D P OG OH K R NB reverse. pose proof (pow2_pos k K) as Hc.
  assert (FO : forall f, only_floats lib attr f -> float_weights lib attr f).
  { intros f O a b at' w I E q ->. destruct (O a b at' I) as (q' & E' & Rq). rewrite E in E'. inversion E'; subst. exact Rq. }
  pose proof (FO g OG) as FG. pose proof (FO h OH) as FH.
  pose proof (rs_multi g h attr _ M D R) as M'. pose proof (rs_dir g h attr _ D R) as D'.
  pose proof (rs_positive g h attr _ Hc P R) as P'. pose proof (rs_links g h attr _ W W' M D R) as L.
  assert (EK : forall f, WF f -> g_multi f = false -> g_dir f = false -> linked_comparable f ->
    forall p, In p (map fst (entries f attr lib reverse)) <-> has_edge f (fst p) (snd p) = true /\ smaller_first (fst p) (snd p)).
  { intros f Wf Mf Df Cf [u v]. rewrite in_map_iff. cbn [fst snd]. split.
    - intros ([[u' v'] x] & E & I). cbn in E. inversion E; subst. apply (entries_In f attr Wf Mf Df lib Cf) in I. tauto.
    - intros [H S]. exists (u, v, score_of f attr lib reverse u v). split; [reflexivity|]. apply (entries_In f attr Wf Mf Df lib Cf). auto. }
  destruct (linked_comparable_dec g attr W M) as [C|C].
  - right. assert (C' : linked_comparable h) by (intros u v H; rewrite L in H; apply C, H).
    exists (entries g attr lib reverse), (entries h attr lib reverse).
    split; [apply edge_disparity_Ok; assumption|]. split; [apply edge_disparity_Ok; assumption|].
    split; [|split; [apply (entries_NoDup g attr W M)|split; [apply (entries_NoDup h attr W' M')|]]].
    + intros p. rewrite !EK by assumption. rewrite L. reflexivity.
    + intros [u v] x x' I I'. apply (entries_In g attr W M D lib C) in I as (H & _ & ->).
      apply (entries_In h attr W' M' D' lib C') in I' as (H' & _ & ->).
      apply (times_score lib k R64 K g h attr W W' M D P R NB OG OH SD reverse u v H).
  - left. split; apply edge_disparity_Err; try assumption. intros C'. apply C. intros u v H. apply C'. rewrite L. exact H.
Qed.
Print Assumptions C39_power_of_two.

(** tenths multiplied by 2^-3 and 2^70 *)
Definition scaled_tenths (c : Q) : graph :=
  ex_graph false false [0; 1; 2; 3]%Z
    [(0, 1, weightf (c * round64 (1 # 10))); (1, 2, weightf (c * round64 (2 # 10))); (0, 2, weightf (c * round64 (3 # 10)));
     (2, 2, weightf (c * round64 (7 # 10))); (2, 3, weightf (c * round64 (1 # 10)))]%Z.
Example C39_ex_power_of_two :
  (forallb (fun c => forallb (fun e : edge3 => match dget (K "weight") (snd e) with
      | Some (VFloat x) => q_eqb (round64 x) x | _ => false end) (edges_data (scaled_tenths c))) [1 # 8; 1; inject_Z (2 ^ 70)]
   && forallb (fun c => match edge_disparity lib64 (scaled_tenths c) (K "weight") false, edge_disparity lib64 (scaled_tenths 1) (K "weight") false with
     | Ok d, Ok d' => Nat.eqb (List.length d) 5 && forallb (fun ee => q_eqb (snd (fst ee)) (snd (snd ee))) (combine d d') | _, _ => false end)
     [1 # 8; inject_Z (2 ^ 70)])%Q = true.
Proof. vm_compute. reflexivity. Qed.
