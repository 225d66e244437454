(** * C115: projections of graphs built in other orders *)
From Coq Require Import List ZArith Lia Bool Permutation QArith Qminmax.
From Verif Require Import PyBase PyNum NxGraph L_Base L_Nx S_Partition L_Partition S_Graph L_Graph M_Graph S_Sparse M_Proj S_Num L_Num S_Proj P_Graph P_Proj S_Shuffled P_Shuffled P_Shuffled2.
Import ListNotations.
Close Scope Q_scope.

Lemma shuffled_kept g h p attr n : shuffled g h -> (kept g p attr n <-> kept h p attr n).
Proof. intros (_ & _ & N & _). unfold kept. rewrite N. tauto. Qed.
Lemma shuffled_bond attr g h u t : shuffled g h -> bond attr g u t = bond attr h u t.
Proof. intros (_ & _ & _ & E). unfold bond. rewrite E. reflexivity. Qed.
Lemma shuffled_scalar attr g h u v : WF g -> WF h -> shuffled g h -> (scalar attr g u v == scalar attr h u v)%Q.
Proof.
  intros W W' S. unfold scalar. rewrite (map_ext _ (fun t => bond attr h u t * bond attr h v t)%Q).
  - apply sum_q_permutation, Permutation_map, shuffled_permutation; assumption.
  - intros t. rewrite !(shuffled_bond attr g h) by exact S. reflexivity.
Qed.
Lemma shuffled_shared g h u v t : WF g -> WF h -> shuffled g h -> (shared g u v t <-> shared h u v t).
Proof. intros W W' S. unfold shared. rewrite !(shuffled_edge g h) by assumption. tauto. Qed.
Lemma shuffled_similarity lib m attr g h u v x x' : lib_ok lib -> WF g -> WF h -> shuffled g h ->
  similarity lib m attr g u v x -> similarity lib m attr h u v x' -> (x == x')%Q.
Proof.
  intros (R & Q & _) W W' S H H'.
  assert (U : forall (P P' : key -> Prop) i i', (forall t, P t <-> P' t) -> has_size P i -> has_size P' i' -> i = i').
  { intros P P' i i' E A B. eapply has_size_unique; [exact A|]. eapply has_size_ext; [|exact B]. intros t. symmetry. apply E. }
  assert (E : forall u t, has_edge g u t = true <-> has_edge h u t = true) by (intros y t; rewrite (shuffled_edge g h) by assumption; tauto).
  assert (B : forall a b i a' b' i', neighbourhood_sizes g u v a b i -> neighbourhood_sizes h u v a' b' i' -> a = a' /\ b = b' /\ i = i').
  { intros a b i a' b' i' (A1 & A2 & A3) (B1 & B2 & B3). split; [exact (U _ _ _ _ (fun t => E u t) A1 B1)|]. split; [exact (U _ _ _ _ (fun t => E v t) A2 B2)|].
    exact (U _ _ _ _ (fun t => shuffled_shared g h u v t W W' S) A3 B3). }
  destruct m; cbn in H, H';
    try (destruct H as (a & b & i & A & ->), H' as (a' & b' & i' & A' & ->); destruct (B a b i a' b' i' A A') as (-> & -> & ->); reflexivity).
  - destruct H as (i & n & A & C & ->), H' as (i' & n' & A' & C' & ->).
    rewrite (U _ _ _ _ (fun t => shuffled_shared g h u v t W W' S) A A'), (U _ _ n n' (fun t => or_iff_compat_r _ (E u t)) C). reflexivity. 
    eapply has_size_ext; [|exact C']. intros t. cbn. rewrite E. tauto.
  - rewrite H, H'. apply shuffled_scalar; assumption.
  - assert (Z : forall y z, (root lib (scalar attr g y z) == root lib (scalar attr h y z))%Q).
    { intros y z. unfold root. apply Q, (rnd_eq _ R), shuffled_scalar; assumption. }
    rewrite H, H'. apply (rnd_eq _ R). rewrite (rnd_eq _ R _ _ (shuffled_scalar attr g h u v W W' S)).
    rewrite (rnd_eq _ R (root lib (scalar attr g u u) * root lib (scalar attr g v v)) (root lib (scalar attr h u u) * root lib (scalar attr h v v))); [reflexivity|].
    rewrite !Z. reflexivity.
Qed.

(** ** the projection onto a part: the same links, with equal weights *)
Theorem C115_projection lib g h p attr wattr chk name m : WF g -> WF h -> shuffled g h -> g_dir g = false -> g_multi g = false -> lib_ok lib ->
  usable p = true -> In (name, m) metric_names -> bipartite g p attr -> (exists n, kept g p attr n) -> comparable_part g p attr ->
  part_names g p attr -> (chk = true -> unmarked g p attr) -> (weighted m = true -> numeric wattr g) ->
  (m = Cosine -> forall u t, kept g p attr u -> has_edge g u t = true -> exists t', ~ (bond wattr g u t' == 0)%Q) ->
  (weighted m = true -> exact_sums lib wattr g) -> (m = PMI -> (0 < m_round lib (1 / (nq (order g) * nq (order g))))%Q) ->
  exists g' h', monopartite_projection lib g p attr wattr name chk VNone = Ok g' /\ monopartite_projection lib h p attr wattr name chk VNone = Ok h'
  /\ (forall u v, has_edge g' u v = has_edge h' u v)
  /\ forall u v a a', edge_attrs g' u v (KInt 0) = Some a -> edge_attrs h' u v (KInt 0) = Some a' ->
       exists w w' x x', a = [(K "weight", w)] /\ a' = [(K "weight", w')] /\ stored_as m w x /\ stored_as m w' x' /\ (x == x')%Q.
Proof.
  intros W W' S D M L Us Nm B Ne C Pn Un Nu Co Ex Pm. pose proof S as (SD & SM & N & A).
  assert (E : forall u t, has_edge g u t = has_edge h u t) by (intros u t; apply shuffled_edge; assumption).
  assert (KP : forall n, kept g p attr n <-> kept h p attr n) by (intros n; apply shuffled_kept, S).
  assert (O : order g = order h) by (unfold order; rewrite <- (map_length fst (g_nodes g)), <- (map_length fst (g_nodes h)); apply Permutation_length, shuffled_permutation; assumption).
  destruct (C44_links_partial lib g p attr wattr chk name m W D M L Us Nm B Ne C Pn Un Nu Co Ex Pm) as (g' & P & F & V).
  destruct (C44_links_partial lib h p attr wattr chk name m) as (h' & P' & F' & V'); try assumption; try congruence.
  - intros u v H. rewrite <- E in H. rewrite <- !KP. apply B, H.
  - destruct Ne as (n & Ne). exists n. apply KP, Ne.
  - destruct C as [C|C]; [left|right]; intros n H; apply C, KP, H.
  - intros n a k H. rewrite <- N in H. apply Pn, H.
  - intros H v Q u t a Ku G. rewrite <- A in G. apply (Un H v Q u t a); [apply KP, Ku|exact G].
  - intros H u v a w G. rewrite <- A in G. apply (Nu H u v a w G).
  - intros H u t Ku G. rewrite <- E in G. destruct (Co H u t (proj2 (KP u) Ku) G) as (t' & T). exists t'. rewrite <- (shuffled_bond wattr g h) by exact S. exact T.
  - intros H. destruct (Ex H) as [X|X]; [left; exact X|right]. intros u v a w G. rewrite <- A in G. apply (X u v a w G).
  - intros H. rewrite <- O. apply Pm, H.
  - exists g', h'. split; [exact P|]. split; [exact P'|]. split.
    + intros u v. apply eq_true_iff_eq. rewrite F, F', !KP. assert (Z : (exists t, shared g u v t) <-> exists t, shared h u v t).
      { split; intros (t & T); exists t; apply (shuffled_shared g h u v t W W' S), T. } tauto.
    + intros u v a a' G G'. apply V in G as (w & x & -> & St & Si). apply V' in G' as (w' & x' & -> & St' & Si').
      exists w, w', x, x'. split; [reflexivity|]. split; [reflexivity|]. split; [exact St|]. split; [exact St'|]. exact (shuffled_similarity lib m wattr g h u v x x' L W W' S Si Si').
Qed.
Print Assumptions C115_projection.

(** The same accounts and colors, inserted in another order: the same links, listed otherwise. *)
Definition colors_again : graph :=
  fold_left (fun g e => add_edge g (KInt (fst (fst e))) (KInt (snd (fst e))) (snd e))
    [(3, 6, []); (2, 5, weight 7); (0, 5, weight 3); (1, 6, weight 4); (2, 4, weight 2); (0, 4, weight 1); (1, 5, weight 2)]%Z
    (account [7; 3; 2; 1; 0]%Z (ex_graph false false [6; 4; 5]%Z [])).
Example C115_projection_ex :
  wf colors = true /\ wf colors_again = true /\ are_same_graphs colors colors_again true = true /\ nodes colors <> nodes colors_again
  /\ option_map snd (P_Proj.shown (projected VNone VNone)) = Some [(KInt 0, KInt 2, wz 2); (KInt 0, KInt 1, wz 1); (KInt 1, KInt 2, wz 1); (KInt 1, KInt 3, wz 1)]
  /\ option_map snd (P_Proj.shown (monopartite_projection rounded colors_again accounts (K "part") (K "weight") VNone true VNone))
     = Some [(KInt 3, KInt 1, wz 1); (KInt 2, KInt 1, wz 1); (KInt 2, KInt 0, wz 2); (KInt 1, KInt 0, wz 1)].
Proof. split; [vm_compute; reflexivity|]. split; [vm_compute; reflexivity|]. split; [vm_compute; reflexivity|]. split; [discriminate|]. split; vm_compute; reflexivity. Qed.
