(** * C96: filters and sparsifiers applied one after the other *)
From Coq Require Import List Relations ZArith QArith Qminmax Lia Lqa Bool.
From Verif Require Import PyBase PyNum NxGraph L_Base L_Nx L_Nx2 M_UnionFind S_UnionFind S_Partition L_Partition M_Graph S_Graph L_Graph M_Umst S_Umst L_Forest L_Umst
  M_Disparity M_Sparse S_Sparse L_Sparse S_Num L_Num P_Graph P_Umst P_Sparse.
Import ListNotations.
Close Scope Q_scope.

(** ** Edges *)
Lemma filter_filter {A} (p q : A -> bool) l : filter q (filter p l) = filter (fun x => p x && q x) l.
Proof. induction l as [|x l IH]; [reflexivity|]. cbn. destruct (p x); cbn; [destruct (q x); rewrite IH; reflexivity|exact IH]. Qed.

Lemma empty_copy_same g h : same_but_edges g h -> create_empty_copy h = create_empty_copy g.
Proof. intros ((D & M) & A & N). unfold create_empty_copy. congruence. Qed.

Lemma edge_names_sub g h : same_but_edges g h -> incl (edges_data h) (edges_data g) -> edge_names g -> edge_names h.
Proof. intros ((_ & M) & _) I N u v a k Ia Ik. rewrite <- M. apply (N u v a k (I _ Ia) Ik). Qed.

Lemma filter_edges_exact g f p : WF g -> edge_names g -> edge_test g f p ->
  filter_edges g f = Ok (add_all (filter (on_edge p) (edges_data g)) (create_empty_copy g)).
Proof. intros W N T. apply filter_edges_ok; [exact T|]. intros u v a I _. eapply edge_names_data; eassumption. Qed.

(** filtering twice is filtering by both predicates: the very same graph *)
Theorem C96_filters g f f' p p' : WF g -> edge_names g -> edge_test g f p -> edge_test g f' p' ->
  exists h1 h2, filter_edges g f = Ok h1 /\ filter_edges h1 f' = Ok h2
    /\ filter_edges g (fun u v a => Ok (p u v a && p' u v a)) = Ok h2.
Proof.
  intros W N T T'. destruct (filter_edges_spec g f p W N T) as (h1 & E1 & W1 & S1 & D1 & _).
  assert (I1 : incl (edges_data h1) (edges_data g)) by (rewrite D1; intros e He; apply filter_In in He; tauto).
  exists h1. eexists. split; [exact E1|]. split.
  - apply (filter_edges_exact h1 f' p' W1 (edge_names_sub g h1 S1 I1 N)). intros u v a I. apply T', I1, I.
  - rewrite (filter_edges_exact g _ (fun u v a => p u v a && p' u v a) W N) by (intros u v a _; reflexivity).
    rewrite D1, filter_filter, (empty_copy_same g h1 S1). reflexivity.
Qed.
Print Assumptions C96_filters.

Theorem C96_filter_twice g f p h : WF g -> edge_names g -> edge_test g f p ->
  filter_edges g f = Ok h -> filter_edges h f = Ok h.
Proof.
  intros W N T E. destruct (C96_filters g f f p p W N T T) as (h1 & h2 & E1 & E2 & E3).
  assert (h1 = h) by congruence. subst h1. rewrite E2. f_equal.
  rewrite (filter_edges_exact g _ (fun u v a => p u v a && p u v a) W N) in E3 by (intros u v a _; reflexivity).
  rewrite (filter_edges_exact g f p W N T) in E. inversion E. inversion E3. f_equal. apply filter_ext.
  intros e. unfold on_edge. apply andb_diag.
Qed.
Print Assumptions C96_filter_twice.

Theorem C96_filters_commute g f f' p p' : WF g -> edge_names g -> edge_test g f p -> edge_test g f' p' ->
  exists h1 h1' h, filter_edges g f = Ok h1 /\ filter_edges g f' = Ok h1' /\ filter_edges h1 f' = Ok h /\ filter_edges h1' f = Ok h.
Proof.
  intros W N T T'. destruct (C96_filters g f f' p p' W N T T') as (h1 & h & E1 & E2 & E3).
  destruct (C96_filters g f' f p' p W N T' T) as (h1' & h' & E1' & E2' & E3').
  exists h1, h1', h. do 3 (split; [assumption|]). rewrite E2', <- E3, <- E3'.
  rewrite !(filter_edges_exact g _ _ W N (fun u v a _ => eq_refl)). f_equal. f_equal. apply filter_ext. intros e. apply andb_comm.
Qed.
Print Assumptions C96_filters_commute.

Definition at_most (n : Z) : edge_predicate := fun _ _ a =>
  match dget (K "weight") a with Some (VKey (KInt m)) => Ok (m <=? n)%Z | _ => Err KeyError end.
Example C96_filters_ex :
  let twice f f' := let* h := filter_edges weighted_pairs f in let* h' := filter_edges h f' in Ok (edges_data h') in
  wf weighted_pairs = true
  /\ twice (at_least 2) (at_most 4) = Ok [(KInt 0, KInt 2, weight 2); (KInt 1, KInt 2, weight 3); (KInt 2, KInt 2, weight 4)]
  /\ twice (at_most 4) (at_least 2) = twice (at_least 2) (at_most 4).
Proof. vm_compute. auto. Qed.

(** ** Nodes *)
Theorem C96_remove_nodes g f f' p p' : WF g -> node_test g f p -> node_test g f' p' ->
  exists g1 g2, remove_nodes f g = (g1, Ok tt) /\ remove_nodes f' g1 = (g2, Ok tt)
    /\ remove_nodes (fun n a => Ok (p n a && p' n a)) g = (g2, Ok tt).
Proof.
  intros W T T'. exists (induced (accepted g p) g). eexists. split; [apply remove_nodes_ok; assumption|].
  assert (W1 : WF (induced (accepted g p) g)) by (apply WF_induced; assumption). split.
  - apply (remove_nodes_ok _ f' p' W1). intros n a I. apply T'. unfold induced in I. cbn [g_nodes] in I. apply filter_In in I. tauto.
  - rewrite (remove_nodes_ok g _ (fun n a => p n a && p' n a) W) by (intros n a _; reflexivity). f_equal.
    assert (A : forall n, accepted g (fun n a => p n a && p' n a) n = accepted g p n && accepted (induced (accepted g p) g) p' n).
    { intros n. unfold accepted at 1 3. rewrite node_data_induced. unfold accepted. destruct (node_data g n) as [a|]; [|reflexivity].
      destruct (p n a); reflexivity. }
    generalize dependent (accepted (induced (accepted g p) g) p'). intros q A.
    unfold induced. cbn [g_dir g_multi g_attr g_nodes g_adj]. rewrite !filter_filter. f_equal; apply filter_ext; intros x; rewrite !A.
    + reflexivity.
    + destruct (accepted g p (b_src x)), (accepted g p (b_dst x)), (q (b_src x)), (q (b_dst x)); reflexivity.
Qed.
Print Assumptions C96_remove_nodes.

Definition small_node (m : Z) : node_predicate := fun n _ => match n with KInt z => Ok (z <? m)%Z | _ => Err TypeError end.
Example C96_remove_nodes_ex :
  let (g1, r1) := remove_nodes even_node weighted_pairs in
  let (g2, r2) := remove_nodes (small_node 2) g1 in
  (r1, r2, nodes g1, nodes g2, edges g1, edges g2) = (Ok tt, Ok tt, ks [0; 2]%Z, ks [0]%Z, [(KInt 0, KInt 2); (KInt 2, KInt 2)], []).
Proof. vm_compute. reflexivity. Qed.

(** ** Thresholds *)
Definition beyond (t : Q) (attr : key) (reverse : bool) (_ _ : key) (a : attrs) : bool :=
  match stored_weight attr a with Some w => if reverse then q_leb w t else q_leb t w | None => false end.

Lemma sparsifier_filter_exact sp g q : WF g -> edge_names g -> relevant_edges sp g = Ok (filter q (edges_data g)) ->
  sparsifier_filter sp g = Ok (add_all (filter q (edges_data g)) (create_empty_copy g)).
Proof.
  intros W N R. unfold sparsifier_filter. rewrite R. cbn [bind].
  apply foldM_kw_all. intros u v a I. apply filter_In in I. eapply (edge_names_data g); [exact N|apply I].
Qed.

Lemma threshold_exact lib pf g t attr reverse : WF g -> edge_names g ->
  (forall u v a, In (u, v, a) (edges_data g) -> exists w, stored_weight attr a = Some w) ->
  global_threshold_sparsification lib pf g t attr reverse false
  = Ok (add_all (filter (on_edge (beyond t attr reverse)) (edges_data g)) (create_empty_copy g)).
Proof.
  intros W N H. unfold global_threshold_sparsification, global_threshold_sparsifier.
  destruct (make_sparsifier _ _ _ _ _) as [sp|] eqn:E; [|discriminate]. cbn [bind]. apply make_predicate in E. subst sp. cbv iota.
  apply (sparsifier_filter_exact _ g _ W N).
  apply (partition_test (mkSP (Some (fun _ => Ok (threshold_predicate t attr reverse))) None None) g eq_refl eq_refl
    (threshold_predicate t attr reverse) _ eq_refl).
  intros u v a I. destruct (H u v a I) as (w & Ew). unfold threshold_predicate, beyond, stored_weight in *.
  destruct (dget attr a) as [x|]; [|discriminate]. unfold num. rewrite Ew. reflexivity.
Qed.

(** two thresholds are one: the greater of them, the smaller when reversed *)
Theorem C96_thresholds lib pf g t t' attr reverse : WF g -> edge_names g ->
  (forall u v a, In (u, v, a) (edges_data g) -> exists w, stored_weight attr a = Some w) ->
  exists h1 h2, global_threshold_sparsification lib pf g t attr reverse false = Ok h1
    /\ global_threshold_sparsification lib pf h1 t' attr reverse false = Ok h2
    /\ global_threshold_sparsification lib pf g (if reverse then Qmin t t' else Qmax t t') attr reverse false = Ok h2.
Proof.
  intros W N H. destruct (rebuild_filter g (on_edge (beyond t attr reverse)) W) as (W1 & D1 & N1 & A1 & R1 & M1 & _).
  set (h1 := add_all _ _) in *.
  assert (S1 : same_but_edges g h1) by (repeat split; congruence).
  assert (I1 : incl (edges_data h1) (edges_data g)) by (rewrite D1; intros e He; apply filter_In in He; tauto).
  exists h1. eexists. split; [apply threshold_exact; assumption|]. split.
  - apply threshold_exact; [exact W1|apply (edge_names_sub g h1 S1 I1 N)|]. intros u v a I. apply (H u v a), I1, I.
  - rewrite (threshold_exact lib pf g _ attr reverse W N H), D1, filter_filter, (empty_copy_same g h1 S1). f_equal. f_equal.
    apply filter_ext. intros e. unfold on_edge, beyond. destruct (stored_weight attr (snd e)) as [w|]; [|reflexivity].
    apply eq_true_iff_eq. rewrite andb_true_iff. unfold q_leb. destruct reverse; rewrite !Qle_bool_iff.
    + apply Q.min_glb_iff.
    + apply Q.max_lub_iff.
Qed.
Print Assumptions C96_thresholds.

Example C96_thresholds_ex :
  let two t t' r := let* h := global_threshold_sparsification lib64 Long64 weighted_pairs t (K "weight") r false in
                    let* h' := global_threshold_sparsification lib64 Long64 h t' (K "weight") r false in Ok (edges_data h') in
  two 4%Q 2%Q false = Ok [(KInt 0, KInt 1, weight 5); (KInt 2, KInt 2, weight 4)]
  /\ two 2%Q 4%Q false = two 4%Q 2%Q false
  /\ two 4%Q 2%Q true = Ok [(KInt 0, KInt 1, weight 1); (KInt 0, KInt 2, weight 2)].
Proof. vm_compute. auto. Qed.

(** ** keep_connected *)
Lemma msf_kept E E' i i' : incl E' E -> i < List.length E -> i' < List.length E' ->
  nth i' E' (KInt 0, KInt 0, 0%Q) = nth i E (KInt 0, KInt 0, 0%Q) -> in_some_msf E i -> in_some_msf E' i'.
Proof.
  intros I Bi Bi' Eq M. apply in_some_msf_iff; [exact Bi'|]. apply in_some_msf_iff in M; [|exact Bi].
  intros J. apply M. unfold edge_at in J at 1 2. rewrite Eq in J. revert J. apply closure_incl.
  intros x Hx. apply in_map_iff in Hx as (j' & <- & Hj). apply heavier_In in Hj as [Bj Wj].
  destruct (In_nth E _ (KInt 0, KInt 0, 0%Q) (I _ (nth_In E' (KInt 0, KInt 0, 0%Q) Bj))) as (j & Bj2 & Ej).
  apply in_map_iff. exists j. split; [unfold edge_at; rewrite Ej; reflexivity|].
  apply heavier_In. split; [exact Bj2|]. unfold weight_at in *. rewrite Ej, <- Eq. exact Wj.
Qed.

Lemma weighted_filter attr q es E : weighted_edges attr es E ->
  exists E', weighted_edges attr (filter q es) E' /\ incl E' E
    /\ forall i, i < List.length E -> q (nth i es (KInt 0, KInt 0, [])) = true -> In (nth i E (KInt 0, KInt 0, 0%Q)) E'.
Proof.
  induction 1 as [|e x l l' H F (E' & W & I & K)].
  - exists []. split; [constructor|]. split; [intros ? []|]. cbn. lia.
  - cbn [filter]. destruct (q e) eqn:Q.
    + exists (x :: E'). split; [constructor; assumption|]. split; [intros y [<-|Hy]; [left; reflexivity|right; apply I, Hy]|].
      intros [|i] B Hi; cbn in *; [left; reflexivity|right; apply K; [lia|exact Hi]].
    + exists E'. split; [exact W|]. split; [intros y Hy; right; apply I, Hy|].
      intros [|i] B Hi; cbn in *; [congruence|apply K; [lia|exact Hi]].
Qed.

(** With keep_connected, sparsifying again changes nothing when weights are equal or far apart. *)
Theorem C96_keep_connected_partial lib pf p sp g E h h' :
  make_sparsifier lib pf (Some (fun _ => Ok p)) None None true = Ok sp -> WF g -> edge_names g ->
  weighted_edges (K "weight") (edges_data g) E -> fine lib -> alike lib (K "weight") (edges_data g) -> separated E (m_round lib) ->
  sparsifier_filter sp g = Ok h -> sparsifier_filter sp h = Ok h' -> h' = h.
Proof.
  intros MS W N WE FI AL SE F F'. apply make_predicate in MS. subst sp. cbv iota in F, F'.
  match type of F with sparsifier_filter ?s g = _ => destruct (relevant_edges s g) as [l|] eqn:R end; [|unfold sparsifier_filter in F; rewrite R in F; discriminate].
  match type of F' with sparsifier_filter ?s h = _ => destruct (relevant_edges s h) as [l'|] eqn:R' end; [|unfold sparsifier_filter in F'; rewrite R' in F'; discriminate].
  destruct (decorated_relevant _ _ _ _ _ R) as (p0 & out & Ef & U & _ & ->). inversion Ef; subst p0. clear Ef.
  destruct (decorated_relevant _ _ _ _ _ R') as (p0 & out' & Ef & U' & _ & ->). inversion Ef; subst p0. clear Ef.
  set (q := fun e : edge3 => answer (p (fst (fst e)) (snd (fst e)) (snd e)) || pmem (fst e) (map fst out)) in *.
  rewrite (sparsifier_filter_exact _ g q W N R) in F. injection F as Eh.
  destruct (rebuild_filter g q W) as (W1 & D1 & N1 & A1 & R1 & M1 & _). rewrite Eh in *.
  assert (S1 : same_but_edges g h) by (repeat split; congruence).
  assert (I1 : incl (edges_data h) (edges_data g)) by (rewrite D1; intros e He; apply filter_In in He; tauto).
  rewrite (sparsifier_filter_exact _ h _ W1 (edge_names_sub g h S1 I1 N) R') in F'. injection F' as <-.
  rewrite (empty_copy_same g h S1).
  assert (X : forall e, In e (edges_data h) -> answer (p (fst (fst e)) (snd (fst e)) (snd e)) || pmem (fst e) (map fst out') = true).
  { intros e He. rewrite D1 in He. apply filter_In in He as [He Q]. unfold q in Q. apply orb_true_iff in Q as [Q|Q]; [rewrite Q; reflexivity|].
    apply orb_true_iff. right. apply pmem_In in Q. apply pmem_In.
    destruct (numbers_exist _ _ _ WE) as (ws & EN).
    destruct (umst_covers lib pf g (K "weight") E ws W WE EN FI AL out U) as (sel & Eo & _ & _ & K').
    rewrite Eo in Q. unfold at_positions in Q. rewrite map_map in Q. apply in_map_iff in Q as (i & Ei & Hi).
    pose proof (K' SE i Hi) as Mi. assert (Bi : i < List.length E) by (destruct Mi as (T & [T0 _] & HT); apply (sf_edges _ _ T0), HT).
    destruct (weighted_filter (K "weight") q _ _ WE) as (E' & WE' & IE & KE). rewrite <- D1 in WE'.
    assert (Qi : q (nth i (edges_data g) (KInt 0, KInt 0, [])) = true).
    { unfold q. apply orb_true_iff. right. apply pmem_In. rewrite Eo. unfold at_positions. rewrite map_map.
      apply (in_map (fun j => fst (nth j (edges_data g) (KInt 0, KInt 0, [])))), Hi. }
    destruct (In_nth E' _ (KInt 0, KInt 0, 0%Q) (KE i Bi Qi)) as (i' & Bi' & Ei').
    pose proof (msf_kept E E' i i' IE Bi Bi' Ei' Mi) as Mi'.
    destruct (numbers_exist _ _ _ WE') as (ws' & EN').
    assert (AL' : alike lib (K "weight") (edges_data h)).
    { destruct AL as [AL|AL]; [left|right]; intros; eapply AL; try apply I1; eassumption. }
    destruct (umst_covers lib pf h (K "weight") E' ws' W1 WE' EN' FI AL' out' U') as (sel' & Eo' & _ & H' & _).
    rewrite Eo'. unfold at_positions. rewrite map_map. apply in_map_iff. exists i'. split; [|apply H', Mi'].
    rewrite <- Ei. transitivity (edge_at E' i'); [apply (we_nth h (K "weight") E' WE' i' Bi')|].
    transitivity (edge_at E i); [unfold edge_at; rewrite Ei'; reflexivity|]. symmetry. apply (we_nth g (K "weight") E WE i Bi). }
  match goal with |- add_all ?x _ = _ => assert (FX : x = edges_data h) end; [|rewrite FX, D1; exact Eh].
  clear - X. induction (edges_data h) as [|e es IH]; [reflexivity|]. cbn [filter]. rewrite (X e (or_introl eq_refl)).
  f_equal. apply IH. intros x Hx. apply X. right. exact Hx.
Qed.
Print Assumptions C96_keep_connected_partial.

Definition near (n : Z) : attrs := [(K "weight", VFloat (9 - inject_Z n * (1 # 1073741824))%Q)].
(** Weights closer than 1e-8 share buckets, and buckets start elsewhere once a redundant edge is gone. *)
Definition shifting : graph :=
  ex_graph false false [] [(0, 1, weight 10); (1, 2, weight 10); (0, 2, weight 9); (2, 3, near 6); (3, 4, near 12); (4, 5, near 12); (3, 5, near 18)]%Z.
Lemma shifting_alike : alike lib64 (K "weight") (edges_data shifting).
Proof.
  right. intros e x He.
  assert (F : forallb (fun e => match edge_number (K "weight") (snd e) with
                | Some x => Qeq_bool (m_round lib64 (value x)) (value x) | None => true end) (edges_data shifting) = true)
    by (vm_compute; reflexivity).
  rewrite forallb_forall in F. specialize (F e He). intros H. rewrite H in F. apply Qeq_bool_iff, F.
Qed.
Lemma shifting_names : edge_names shifting.
Proof.
  intros u v a k I Ik.
  assert (F : forallb (fun e => forallb (fun k => key_eqb k (K "weight")) (dkeys (snd e))) (edges_data shifting) = true) by (vm_compute; reflexivity).
  rewrite forallb_forall in F. specialize (F _ I). rewrite forallb_forall in F. specialize (F k Ik). apply key_eqb_eq in F. subst k.
  split; [eexists; reflexivity|]. split; [vm_compute; intuition discriminate|discriminate].
Qed.

Theorem C96_keep_connected_refuted :
  exists t sp g h h', global_threshold_sparsifier lib64 Long64 t (K "weight") false true = Ok sp /\ WF g /\ edge_names g
    /\ alike lib64 (K "weight") (edges_data g)
    /\ sparsifier_filter sp g = Ok h /\ sparsifier_filter sp h = Ok h' /\ size h' < size h.
Proof.
  exists 100%Q. eexists. exists shifting. eexists. eexists. split; [reflexivity|].
  split; [apply graph_WF; reflexivity|]. split; [exact shifting_names|]. split; [exact shifting_alike|].
  split; [vm_compute; reflexivity|]. split; [vm_compute; reflexivity|]. vm_compute. repeat constructor.
Qed.
Print Assumptions C96_keep_connected_refuted.

Example C96_keep_connected_ex :
  let once g := global_threshold_sparsification lib64 Long64 g 4 (K "weight") false true in
  (let* h := once simple_pairs in let* h' := once h in Ok (edges h, edges h'))
  = Ok ([(KInt 0, KInt 1); (KInt 0, KInt 2); (KInt 2, KInt 2); (KInt 2, KInt 3)], [(KInt 0, KInt 1); (KInt 0, KInt 2); (KInt 2, KInt 2); (KInt 2, KInt 3)])
  /\ (let once g := global_threshold_sparsification lib64 Long64 g 100 (K "weight") false true in
      let* h := once shifting in let* h' := once h in Ok (size h, size h')) = Ok (6, 5).
Proof. vm_compute. auto. Qed.

(** ** The backbone: what is left is judged anew, and may be dropped altogether *)
Definition sun : graph :=
  ex_graph false false [] [(0, 1, weight 25); (0, 2, weight 25); (0, 3, weight 25); (1, 3, weight 1); (1, 4, weight 1); (2, 4, weight 1)]%Z.
Theorem C96_backbone_refuted :
  exists alpha g h h', WF g /\ multiscale_backbone lib64 Long64 g alpha (K "weight") false = Ok h
    /\ multiscale_backbone lib64 Long64 h alpha (K "weight") false = Ok h' /\ size h = 3 /\ size h' = 0.
Proof.
  exists (1 # 20)%Q, sun. eexists. eexists. split; [apply graph_WF; reflexivity|].
  split; [vm_compute; reflexivity|]. split; [vm_compute; reflexivity|]. split; vm_compute; reflexivity.
Qed.
Print Assumptions C96_backbone_refuted.
