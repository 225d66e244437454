(** * C110: links and weights of projections of undirected graphs do not depend on the names *)
From Coq Require Import List ZArith Lia Bool QArith Qminmax.
From Verif Require Import PyBase PyNum S_Num NxGraph L_Base L_Nx L_Nx2 S_Partition S_Sparse M_Graph M_Proj S_Proj S_Renaming L_Renaming L_Renaming2 L_Rename P_Graph P_Proj P_Renaming.
Import ListNotations.
Close Scope Q_scope.

Section Names.
Variable f : key -> key.
Hypothesis I : injective f.
Variable g : graph.
Let s := renamed f g.
Definition part_of (p : part) : part := match p with ByValue v => ByValue v | ByCollection h l => ByCollection h (map f l) end.

Lemma node_data_names m a : node_data s m = Some a <-> exists n, m = f n /\ node_data g n = Some a.
Proof.
  unfold node_data, s. cbn [renamed g_nodes]. change (map _ (g_nodes g)) with (map (on_key f) (g_nodes g)). split.
  - intros E. assert (X : exists n, m = f n).
    { apply dget_Some_In in E. apply in_map_iff in E as ([n b] & E & _). inversion E. eauto. }
    destruct X as (n & ->). rewrite (dget_renamed f I) in E. eauto.
  - intros (n & -> & E). rewrite (dget_renamed f I). exact E.
Qed.
Lemma edge_data_names x y kd : edge_data s x y = Some kd <-> exists u v, x = f u /\ y = f v /\ edge_data g u v = Some kd.
Proof.
  split.
  - intros E. assert (X : exists u v, x = f u /\ y = f v).
    { unfold edge_data in E. destruct (List.find _ _) as [b|] eqn:F; [|discriminate]. apply find_some in F as [J F]. apply in_map_iff in J as (c & <- & _).
      unfold same_ends in F. cbn [b_src b_dst] in F. apply orb_true_iff in F as [F|F]; apply andb_true_iff in F as [F1 F2].
      - apply key_eqb_eq in F1, F2. subst. eauto.
      - apply andb_true_iff in F1 as [_ F1]. apply key_eqb_eq in F1, F2. subst. eauto. }
    destruct X as (u & v & -> & ->). exists u, v. repeat split. rewrite <- E. symmetry. apply (edge_data_renamed f I).
  - intros (u & v & -> & -> & E). unfold s. rewrite (edge_data_renamed f I). exact E.
Qed.
Lemma has_edge_names x y : has_edge s x y = true <-> exists u v, x = f u /\ y = f v /\ has_edge g u v = true.
Proof.
  split.
  - unfold has_edge at 1. destruct (edge_data s x y) as [kd|] eqn:E; [|discriminate]. intros _. apply edge_data_names in E as (u & v & -> & -> & E).
    exists u, v. repeat split. unfold has_edge. rewrite E. reflexivity.
  - intros (u & v & -> & -> & E). unfold s. rewrite (has_edge_renamed f I). exact E.
Qed.
Lemma edge_attrs_names x y k a : edge_attrs s x y k = Some a <-> exists u v, x = f u /\ y = f v /\ edge_attrs g u v k = Some a.
Proof.
  split.
  - unfold edge_attrs at 1. destruct (edge_data s x y) as [kd|] eqn:E; [|discriminate]. intros G. apply edge_data_names in E as (u & v & -> & -> & E).
    exists u, v. repeat split. unfold edge_attrs. rewrite E. exact G.
  - intros (u & v & -> & -> & E). unfold edge_attrs, s in *. rewrite (edge_data_renamed f I). exact E.
Qed.
Lemma kept_names p attr m : kept s (part_of p) attr m <-> exists n, m = f n /\ kept g p attr n.
Proof.
  assert (Kp : forall n a, keeps (part_of p) attr (f n) a <-> keeps p attr n a).
  { intros n a. destruct p as [v|h l]; cbn; [reflexivity|]. rewrite in_map_iff. split; [intros (x & E & J); apply I in E; subst; exact J|eauto]. }
  split.
  - intros (a & E & J). apply node_data_names in E as (n & -> & E). exists n. split; [reflexivity|]. exists a. split; [exact E|]. apply Kp, J.
  - intros (n & -> & a & E & J). exists a. split; [apply node_data_names; eauto|]. apply Kp, J.
Qed.
Lemma kept_name p attr n : kept s (part_of p) attr (f n) <-> kept g p attr n.
Proof. rewrite kept_names. split; [intros (m & E & J); apply I in E; subst; exact J|eauto]. Qed.
Lemma shared_names u v t : shared s (f u) (f v) t <-> exists t', t = f t' /\ shared g u v t'.
Proof.
  unfold shared. split.
  - intros [A B]. apply has_edge_names in A as (u' & t' & E & -> & A). apply I in E. subst u'. unfold s in B. rewrite (has_edge_renamed f I) in B. exists t'. auto.
  - intros (t' & -> & A & B). unfold s. rewrite !(has_edge_renamed f I). auto.
Qed.
Lemma link_names u t : has_edge s (f u) t = true <-> exists t', t = f t' /\ has_edge g u t' = true.
Proof.
  rewrite has_edge_names. split; [intros (u' & t' & E & -> & A); apply I in E; subst; eauto|intros (t' & -> & A); eauto].
Qed.
Lemma size_names (P Q : key -> Prop) n : (forall t, P t <-> exists t', t = f t' /\ Q t') -> has_size P n -> has_size Q n.
Proof.
  intros H (l & (ND & HL) & L).
  assert (X : exists l', l = map f l').
  { assert (Y : forall x, In x l -> exists y, x = f y) by (intros x J; apply HL, H in J as (y & -> & _); eauto). clear - Y.
    induction l as [|x l IH]; [exists []; reflexivity|]. destruct (Y x (or_introl eq_refl)) as (y & ->). destruct IH as (l' & ->); [intros; apply Y; right; assumption|].
    exists (y :: l'). reflexivity. }
  destruct X as (l' & ->). exists l'. split; [split; [apply NoDup_map_inv in ND; exact ND|]|rewrite map_length in L; exact L].
  intros t. split.
  - intros J. assert (K : P (f t)) by (apply HL, in_map, J). apply H in K as (t' & E & K). apply I in E. subst. exact K.
  - intros J. assert (K : In (f t) (map f l')) by (apply HL, H; eauto). apply in_map_iff in K as (t' & E & K). apply I in E. subst. exact K.
Qed.

Lemma bond_names attr u t : bond attr s (f u) (f t) = bond attr g u t.
Proof. unfold bond, edge_attrs, s. rewrite (edge_data_renamed f I). reflexivity. Qed.
Lemma scalar_names attr u v : scalar attr s (f u) (f v) = scalar attr g u v.
Proof.
  unfold scalar. unfold s at 3. rewrite nodes_renamed, map_map. f_equal. apply map_ext. intros t. rewrite !bond_names. reflexivity.
Qed.
Lemma similarity_names lib m attr u v x : similarity lib m attr s (f u) (f v) x -> similarity lib m attr g u v x.
Proof.
  assert (NS : forall a b i, neighbourhood_sizes s (f u) (f v) a b i -> neighbourhood_sizes g u v a b i).
  { intros a b i (A & B & C). split; [apply (size_names _ _ _ (link_names u)), A|]. split; [apply (size_names _ _ _ (link_names v)), B|].
    apply (size_names _ _ _ (shared_names u v)), C. }
  assert (G : (exists a b i, neighbourhood_sizes s (f u) (f v) a b i /\
           (x == match m with
                 | Overlap => m_round lib (nq i / Qmin (nq a) (nq b))
                 | Dice => m_round lib (2 * nq i / (nq a + nq b))
                 | BinaryCosine => m_round lib (m_round lib (nq i) / m_round lib (root lib (nq a) * root lib (nq b)))
                 | PMI => m_log lib (m_round lib (nq i / (nq a * nq b)))
                 | _ => nq i
                 end)%Q) ->
     exists a b i, neighbourhood_sizes g u v a b i /\
           (x == match m with
                 | Overlap => m_round lib (nq i / Qmin (nq a) (nq b))
                 | Dice => m_round lib (2 * nq i / (nq a + nq b))
                 | BinaryCosine => m_round lib (m_round lib (nq i) / m_round lib (root lib (nq a) * root lib (nq b)))
                 | PMI => m_log lib (m_round lib (nq i / (nq a * nq b)))
                 | _ => nq i
                 end)%Q).
  { intros (a & b & i & H & E). exists a, b, i. split; [apply NS, H|exact E]. }
  destruct m; cbn [similarity] in *; try exact G.
  - intros (i & n & A & B & E). exists i, n. split; [apply (size_names _ _ _ (shared_names u v)), A|]. split; [|exact E].
    eapply size_names; [|exact B]. intros t. cbv beta. rewrite !link_names. split.
    + intros [(t' & -> & H)|(t' & -> & H)]; eauto.
    + intros (t' & -> & [H|H]); eauto.
  - rewrite !scalar_names. auto.
  - rewrite !scalar_names. auto.
Qed.
End Names.

Theorem C110_undirected f lib g p attr wattr chk name m : injective f -> WF g -> g_dir g = false -> g_multi g = false -> lib_ok lib ->
  usable p = true -> In (name, m) metric_names -> bipartite g p attr -> (exists n, kept g p attr n) ->
  comparable_part (renamed f g) (part_of f p) attr ->
  part_names g p attr -> (chk = true -> unmarked g p attr) -> (weighted m = true -> numeric wattr g) ->
  (m = Cosine -> forall u t, kept g p attr u -> has_edge g u t = true -> exists t', ~ (bond wattr g u t' == 0)%Q) ->
  (weighted m = true -> exact_sums lib wattr g) -> (m = PMI -> (0 < m_round lib (1 / (nq (order g) * nq (order g))))%Q) ->
  exists h, monopartite_projection lib (renamed f g) (part_of f p) attr wattr name chk VNone = Ok h
  /\ (forall u v, has_edge h (f u) (f v) = true <-> kept g p attr u /\ kept g p attr v /\ u <> v /\ exists t, shared g u v t)
  /\ forall u v a, edge_attrs h (f u) (f v) (KInt 0) = Some a ->
       exists w x, a = [(K "weight", w)] /\ stored_as m w x /\ similarity lib m wattr g u v x.
Proof.
  intros I W D M L U Hn B Kn C PN UM NU CZ XS PO.
  destruct (C44_links_partial lib (renamed f g) (part_of f p) attr wattr chk name m) as (h & E & Lk & Wt); try assumption.
  - apply (WF_rename f g); [exact W|]. intros x y _ _. apply I.
  - destruct p; exact U.
  - intros x y H. apply (has_edge_names f I) in H as (u & v & -> & -> & H). rewrite !(kept_name f I). apply B, H.
  - destruct Kn as (n & Kn). exists (f n). apply (kept_name f I), Kn.
  - intros x a k E J Jk NE. apply (node_data_names f I) in E as (n & -> & E). apply (PN n a k E); try assumption.
    destruct p as [v|h l]; [exact J|]. cbn in J |- *. apply in_map_iff in J as (y & E' & J). apply I in E'. subst. exact J.
  - intros Hc v Ep x t a Kx Ea. apply (edge_attrs_names f I) in Ea as (u & t' & -> & -> & Ea). apply (proj1 (kept_name f I g p attr u)) in Kx.
    destruct p as [v'|h l]; [|discriminate Ep]. exact (UM Hc v' eq_refl u t' a Kx Ea).
  - intros Hw x y a w Ea. apply (edge_attrs_names f I) in Ea as (u & t' & -> & -> & Ea). exact (NU Hw u t' a w Ea).
  - intros Hm x t Kx H. apply (has_edge_names f I) in H as (u & t' & -> & -> & H). apply (proj1 (kept_name f I g p attr u)) in Kx.
    destruct (CZ Hm u t' Kx H) as (t0 & N). exists (f t0). rewrite (bond_names f I). exact N.
  - intros Hw. destruct (XS Hw) as [X|X]; [left; exact X|right]. intros x y a w Ea. apply (edge_attrs_names f I) in Ea as (u & t' & -> & -> & Ea). exact (X u t' a w Ea).
  - intros Hm. rewrite order_renamed. exact (PO Hm).
  - exists h. split; [exact E|]. split.
    + intros u v. rewrite Lk, !(kept_name f I). split.
      * intros (A1 & A2 & A3 & t & A4). apply (shared_names f I) in A4 as (t' & -> & A4). split; [exact A1|]. split; [exact A2|]. split; [congruence|eauto].
      * intros (A1 & A2 & A3 & t & A4). split; [exact A1|]. split; [exact A2|]. split; [intros X; apply I in X; contradiction|]. exists (f t). apply (shared_names f I). eauto.
    + intros u v a Ea. destruct (Wt _ _ _ Ea) as (w & x & -> & St & Si). exists w, x. split; [reflexivity|]. split; [exact St|]. apply (similarity_names f I), Si.
Qed.
Print Assumptions C110_undirected.

(** accounts 0, 1 and 2 in reverse order: the links are the same *)
Example C110_undirected_ex :
  let rev_names := fun k => match k with KInt z => KInt (9 - z) | _ => k end in
  let g := ex_graph false false [0; 1; 2; 8; 9]%Z (P_Graph.plain [(0, 8); (1, 8); (1, 9); (2, 9)]%Z) in
  let links g l := match monopartite_projection lib64 g (ByCollection false l) (K "part") (K "weight") (VStr "jaccard") true VNone with
                   | Ok h => map fst (edges_data h) | Err _ => [] end in
  links g [KInt 0; KInt 1; KInt 2] = [(KInt 0, KInt 1); (KInt 1, KInt 2)]
  /\ links (renamed rev_names g) [KInt 9; KInt 8; KInt 7] = [(KInt 9, KInt 8); (KInt 8, KInt 7)].
Proof. vm_compute. auto. Qed.
