(** * Proofs about monopartite_projection: shape of the links and bipartition check *)
From Coq Require Import Lia QArith.
From Verif Require Import PyBase PyNum L_Base NxGraph L_Nx L_Nx2 L_Graph S_Partition S_Sparse M_Proj S_Proj L_Proj L_Proj2 L_Proj3 L_Proj4.
Close Scope Q_scope.

Lemma projection_shape lib g p attr wattr name chk thr h u v a : WF g ->
  monopartite_projection lib g p attr wattr name chk thr = Ok h -> edge_attrs h u v (KInt 0) = Some a -> exists x, a = wlink x.
Proof.
  intros W E EA. destruct (Nat.eq_dec (order g) 0) as [O|O].
  - unfold monopartite_projection in E. apply bind_Ok in E as (m & _ & E). apply bind_Ok in E as (t & _ & E). rewrite O in E.
    inversion E; subst h. discriminate.
  - destruct (projection_inv _ _ _ _ _ _ _ _ _ W O E) as (m & t & norms & h0 & ls & Em & Et & P & El & Eh).
    destruct (assembled _ _ _ _ _ _ _ _ _ _ _ t W P El) as (_ & _ & _ & _ & _ & _ & EE). rewrite <- Eh in EE. rewrite EE in EA. clear EE.
    destruct (List.find _ _) as [l|]; [|discriminate]. destruct (passes t l); [|discriminate]. inversion EA. eauto.
Qed.

Lemma foldM_ext {A S} (f f' : S -> A -> res S) l : (forall s a, In a l -> f s a = f' s a) -> forall s, foldM f l s = foldM f' l s.
Proof.
  induction l as [|a l IH]; intros H s; [reflexivity|]. cbn [foldM]. rewrite (H s a (or_introl eq_refl)). destruct (f' s a); [|reflexivity].
  apply IH. intros; apply H; right; assumption.
Qed.

(** the check only matters when an edge carries the value of the part *)
Lemma unchecked lib g p attr wattr name thr : WF g -> g_multi g = false ->
  (forall u t a b, In (u, b) (g_nodes g) -> in_part p attr u b = true -> edge_attrs g u t (KInt 0) = Some a -> same_part p attr t a = false) ->
  monopartite_projection lib g p attr wattr name true thr = monopartite_projection lib g p attr wattr name false thr.
Proof.
  intros W M H. unfold monopartite_projection. destruct (instantiate_online_metric name) as [m|]; [|reflexivity]. cbn [bind].
  destruct (check_threshold thr) as [t|]; [|reflexivity]. cbn [bind]. destruct (Nat.eqb (order g) 0); [reflexivity|].
  rewrite (foldM_ext (norms_step lib m g p attr wattr true) (norms_step lib m g p attr wattr false)); [reflexivity|].
  intros [[norms h] ex] [n a] I. unfold norms_step. destruct (in_part p attr (fst (n, a)) (snd (n, a))) eqn:Pn; [|reflexivity].
  replace (accumulated lib m g p attr wattr true (fst (n, a))) with (accumulated lib m g p attr wattr false (fst (n, a))); [reflexivity|].
  unfold accumulated. apply foldM_ext. intros s [t' a'] It. cbn [fst snd] in *. rewrite (H n t' a' a); [reflexivity|exact I|exact Pn|apply items_In; assumption].
Qed.

Lemma marked_edge_raises lib g v attr wattr name thr u t a : WF g -> g_multi g = false ->
  kept g (ByValue v) attr u -> edge_attrs g u t (KInt 0) = Some a -> keeps (ByValue v) attr u a ->
  monopartite_projection lib g (ByValue v) attr wattr name true thr = Err TypeError.
Proof.
  intros W M Ku Ea Ke. unfold monopartite_projection.
  destruct (metric_raises name) as [(m & ->)| ->]; cbn [bind]; [|reflexivity].
  destruct (check_threshold_raises thr) as [(th & ->)| ->]; cbn [bind]; [|reflexivity].
  apply (kept_In g (ByValue v) attr u W eq_refl) in Ku as (au & Iu & Pu).
  assert (O : Nat.eqb (order g) 0 = false) by (apply Nat.eqb_neq; unfold order; destruct (g_nodes g); [destruct Iu|discriminate]).
  rewrite O. rewrite (foldM_raises_at _ _ _ TypeError (u, au)); [reflexivity|intros; apply norms_step_raises|assumption|].
  intros [[norms h] ex]. unfold norms_step. cbn [fst snd]. rewrite Pu.
  assert (EA : accumulated lib m g (ByValue v) attr wattr true u = Err TypeError); [|rewrite EA; reflexivity].
  unfold accumulated. apply (foldM_raises_at _ _ _ _ (t, a)).
  - intros s [t' a'] _. cbn [fst snd andb]. destruct (same_part (ByValue v) attr t' a'); [right; reflexivity|].
    unfold accumulate, as_number. destruct m; eauto. destruct (pynum_of _); cbn; eauto.
  - apply items_In; assumption.
  - intros s. cbn [fst snd same_part andb]. replace (val_eqb (get_or_none attr a) v) with true; [reflexivity|].
    symmetry. exact (proj2 (in_part_keeps (ByValue v) attr u a eq_refl) Ke).
Qed.
