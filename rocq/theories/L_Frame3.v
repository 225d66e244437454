(** * Lemmas about the cells of DataFrames *)
From Coq Require Import List ZArith QArith Lia Bool.
From Verif Require Import PyBase PyNum NxGraph L_Base L_Nx L_Nx2 M_Shim M_Tabular S_Graph S_Json S_Tabular L_Graph L_Graph2 L_Comp L_Sparse L_Json L_Tab L_Edges L_Frame L_Frame2.
Import ListNotations.
Open Scope list_scope.
Close Scope Q_scope.

Lemma existsb_nth {A} (f : A -> bool) l i x : existsb f l = false -> nth_error l i = Some x -> f x = false.
Proof.
  intros H N. destruct (f x) eqn:E; [|reflexivity]. rewrite <- H. symmetry. apply existsb_exists. exists x. split; [eapply nth_error_In; eassumption|assumption].
Qed.

Lemma convert_shows nan cells i v : nth_error cells i = Some (Some v) -> exists w, nth_error (convert_column nan cells) i = Some w /\ shows nan v w.
Proof.
  intros H. unfold convert_column.
  match goal with |- context [negb ?o && ?b] => destruct (negb o && b) eqn:B; [apply andb_true_iff in B as [O _]; apply negb_true_iff in O|] end.
  - rewrite nth_error_map, H. cbn [option_map]. eexists. split; [reflexivity|]. pose proof (existsb_nth _ _ _ _ O H) as Ov. unfold shows.
    destruct v as [|b|q|[z|s|n]]; try discriminate; auto. right; right; exists z; split; reflexivity.
  - rewrite nth_error_map, H. cbn [option_map]. eexists. split; [reflexivity|]. left. reflexivity.
Qed.

Lemma convert_absent nan cells i : nth_error cells i = Some None -> nth_error (convert_column nan cells) i = Some nan.
Proof. intros H. unfold convert_column. destruct (_ && _); rewrite nth_error_map, H; reflexivity. Qed.

Lemma cell_shows nan rows idx c i r v : nth_error rows i = Some r -> dget c r = Some v ->
  exists w, cell (make_frame nan rows idx) c i = Some w /\ shows nan v w.
Proof.
  intros H E. rewrite frame_cell.
  - apply convert_shows. rewrite nth_error_map, H. cbn. rewrite E. reflexivity.
  - exists r. split; [eapply nth_error_In; eassumption|eapply dget_Some_key; eassumption].
Qed.

Lemma cell_absent nan rows idx c i r : nth_error rows i = Some r -> dget c r = None ->
  cell (make_frame nan rows idx) c i = None \/ cell (make_frame nan rows idx) c i = Some nan.
Proof.
  intros H E. destruct (mem c (columns_of rows)) eqn:M.
  - right. apply mem_In in M. rewrite frame_cell by (apply columns_In; exact M). apply convert_absent. rewrite nth_error_map, H. cbn. rewrite E. reflexivity.
  - left. unfold cell, make_frame. cbn [f_cols]. rewrite (dget_map_keys (fun c => convert_column nan (map (fun r => dget c r) rows))), M. reflexivity.
Qed.

Lemma dget_key (c : key) (d : attrs) : (exists x, dget c d = Some x) <-> In c (dkeys d).
Proof.
  split; [intros (x & E); eapply dget_Some_key; eassumption|]. intros I. destruct (dget c d) as [x|] eqn:E; [eauto|]. apply dget_None in E. contradiction.
Qed.

(** the columns of attributes of nodes *)
Lemma add_node_columns_last g n l1 attr c l2 r : (forall x, ~ In (x, c) l2) ->
  dget c (add_node_columns g n (Some (l1 ++ (attr, c) :: l2)) r) = Some (attr_of g n attr).
Proof.
  intros H. cbn [add_node_columns]. rewrite fold_left_app. cbn [fold_left fst snd].
  match goal with |- dget c (fold_left _ l2 ?s) = _ => pose proof (add_node_columns_get g n (Some l2) s c) as G end. cbn [add_node_columns] in G. rewrite G.
  - rewrite dget_dset, key_eqb_refl. unfold attr_of. destruct (node_data g n); reflexivity.
  - intros l c' x E I -> . inversion E; subst. exact (H _ I).
Qed.

Lemma same_names_In cols c : In c cols -> In (c, c) (dupdate [] (map (fun k => (k, k)) cols)).
Proof.
  intros I. apply dget_Some_In. rewrite dget_dupdate. cbn [dget].
  assert (G : dget c (rev (map (fun k => (k, k)) cols)) = Some c); [|rewrite G; reflexivity].
  destruct (dget c (rev (map (fun k => (k, k)) cols))) as [x|] eqn:E.
  - apply dget_Some_In in E. apply in_rev, in_map_iff in E as (k & E & _). congruence.
  - apply dget_None in E. elim E. unfold dkeys. apply in_map_iff. exists (c, c). split; [reflexivity|]. apply in_rev. rewrite rev_involutive. apply in_map_iff. eauto.
Qed.

Lemma same_names_split cols c : In c cols -> exists l1 l2, dupdate [] (map (fun k => (k, k)) cols) = l1 ++ (c, c) :: l2 /\ forall x, ~ In (x, c) l2.
Proof.
  intros I. apply same_names_In in I. apply in_split in I as (l1 & l2 & E). exists l1, l2. split; [exact E|]. intros x Ix.
  pose proof (check_columns_Ok (Some (NIter cols)) _ eq_refl x c) as H. rewrite E in H. destruct H as [-> _]; [apply in_or_app; right; right; exact Ix|].
  assert (N : NoDup (dkeys (dupdate [] (map (fun k => (k, k)) cols)))) by (apply NoDup_dupdate; constructor).
  rewrite E in N. unfold dkeys in N. rewrite map_app in N. cbn [map fst] in N. apply NoDup_remove_2 in N. apply N. apply in_or_app. right. apply in_map_iff. exists (c, c). auto.
Qed.

Lemma asks_split o o' attr c : check_columns o = Ok o' -> asks o attr c -> exists l1 l2, o' = Some (l1 ++ (attr, c) :: l2) /\ forall x, ~ In (x, c) l2.
Proof.
  destruct o as [[cols|cols|]|]; cbn; intros E A; try contradiction; inversion E; subst o'.
  - destruct A as (l1 & l2 & -> & H). eauto.
  - destruct A as [-> I]. destruct (same_names_split cols c I) as (l1 & l2 & -> & H). eauto.
Qed.

Lemma no_column_spec o o' c : check_columns o = Ok o' -> no_column o c -> forall l a x, o' = Some l -> In (a, x) l -> x <> c.
Proof.
  intros E Q l a x -> I ->. apply (check_columns_Ok o l E) in I. destruct o as [[cols|cols| ]|]; cbn in Q; [exact (Q a I)|destruct I as [-> I]; exact (Q I)|destruct I|destruct I].
Qed.

Lemma asked o c : (exists attr, asks o attr c) \/ no_column o c.
Proof.
  destruct o as [[l|l|]|]; cbn; auto.
  - induction l as [|[a x] l IH]; [right; intros x []|]. destruct IH as [(attr & l1 & l2 & -> & H)|H].
    + left. exists attr, ((a, x) :: l1), l2. auto.
    + destruct (key_eqb x c) eqn:E; [apply key_eqb_eq in E; subst x; left; exists a, [], l; auto|]. apply key_eqb_neq in E. right. intros y [Y|Y]; [congruence|exact (H y Y)].
  - destruct (mem c l) eqn:M; [apply mem_In in M; eauto|]. apply mem_nIn in M. auto.
Qed.

(** ** There and back, exactly *)
Lemma values_In l k v a : In a l -> dget k a = Some v -> In v (values k l).
Proof. intros I E. unfold values. apply in_flat_map. exists a. split; [assumption|]. rewrite E. left. reflexivity. Qed.
Lemma values_from l k v : In v (values k l) -> exists a, In a l /\ dget k a = Some v.
Proof. unfold values. intros H. apply in_flat_map in H as (a & I & H). exists a. split; [assumption|]. destruct (dget k a) as [x|]; [destruct H as [H|[]]; congruence|destruct H]. Qed.

Lemma turned_shows nan vals v : In v vals -> shows nan v (turned nan (map Some vals) (Some v)).
Proof.
  intros Hv. unfold turned. destruct (to_floats (map Some vals)) eqn:B; [|left; reflexivity]. apply to_floats_iff in B as [O _].
  destruct v as [|b|q|[z|s|n]]; unfold shows; auto.
  - destruct O. exists (VBool b). split; [assumption|exact I].
  - right. right. exists z. auto.
  - destruct O. exists (VKey (KStr s)). split; [assumption|exact I].
  - destruct O. exists (VKey (KObj n)). split; [assumption|exact I].
Qed.

(** the values of [l] as they come back *)
Lemma by_shown nan names l a b : uniform names l -> In a l -> attrs_by (becomes nan l) a b -> shown_attrs nan a b.
Proof.
  intros U I H k. specialize (H k). destruct (dget k a) as [x|] eqn:E, (dget k b) as [y|]; try assumption. rewrite H. apply turned_shows. eapply values_In; eassumption.
Qed.
Lemma by_same nan names l a b : uniform names l -> clean_columns names l -> In a l -> attrs_by (becomes nan l) a b -> same_attrs a b.
Proof.
  intros U C I H k. specialize (H k). destruct (dget k a) as [x|] eqn:E, (dget k b) as [y|]; try assumption. rewrite H. apply turned_clean; [|eapply values_In; eassumption].
  apply C. apply (U a I). eapply dget_Some_key; eassumption.
Qed.
Lemma same_by nan names l : val_eqb VNone nan = false -> (forall a, In a l -> exists b, attrs_by (becomes nan l) a b /\ same_attrs a b) -> clean_columns names l.
Proof.
  intros Nn H k _. apply (turned_unclean nan); [assumption|]. intros v Hv. apply values_from in Hv as (a & I & E). destruct (H a I) as (b & Hb & Sb).
  specialize (Hb k). specialize (Sb k). rewrite E in *. destruct (dget k b) as [y|]; [|destruct Hb]. unfold becomes in Hb. subst y. exact Sb.
Qed.

(** frames without rows have no columns *)
Lemma no_rows nan idx cols k : In k cols -> iterator_from_dataframe (TFrame (make_frame nan [] idx)) (Some cols) = Err KeyError.
Proof. intros H. destruct cols as [|c cols]; [destruct H|]. reflexivity. Qed.
Lemma iterate_error f cols e : iterator_from_dataframe (TFrame f) (Some cols) = Err e -> e = KeyError.
Proof.
  unfold iterator_from_dataframe. intros H. assert (G : forall l e, mapM (fun col => match dget col (f_cols f) with Some l => Ok l | None => Err KeyError end) l = Err e -> e = KeyError).
  { clear. induction l as [|x l IH]; intros e H; [discriminate|]. cbn [mapM bind] in H. destruct (dget x (f_cols f)); cbn [bind] in H; [|congruence]. destruct (mapM _ l) eqn:E; cbn [bind] in H; [discriminate|]. inversion H; subst. eauto. }
  destruct (mapM _ cols) eqn:E; cbn [bind] in H; [discriminate|]. inversion H; subst. eauto.
Qed.

Lemma back_shown repr nan g c sc tc w A B : tabular g c sc tc A B -> edges_data g <> [] ->
  exists h, tables_to_graph repr (TFrame (make_frame nan (map (node_line c) (g_nodes g)) None)) (TFrame (make_frame nan (map (plain_edge_line sc tc) (edges_data g)) None)) c sc tc A B false w false (g_dir g) = Ok h
  /\ shown_values nan g h
  /\ (val_eqb VNone nan = false -> (same_values g h <-> clean_columns A (map snd (g_nodes g)) /\ clean_columns B (map snd (edges_data g)))).
Proof.
  intros (W & M & UA & UB & NA & NB & Nc & Ns & Nt & Nst) He.
  assert (Hn : g_nodes g <> []).
  { intros E. destruct (edges_data g) as [|[[u v] a] l] eqn:Q; [congruence|]. assert (I : In (u, v, a) (edges_data g)) by (rewrite Q; left; reflexivity).
    apply (edges_data_attrs g u v a W M) in I. apply edge_attrs_has in I. apply (L_Comp.has_edge_nodes g u v W) in I. unfold nodes in I. rewrite E in I. destruct I as [[] _]. }
  destruct (there_and_back repr nan g c sc tc A B W M NA NB UA UB Nc Ns Nt Nst Hn He w) as (h & E & Dh & Mh & Nh & Ha & Hh & Hb). exists h. split; [exact E|].
  assert (InA : forall n a, node_data g n = Some a -> In a (map snd (g_nodes g))) by (intros n a X; apply dget_Some_In in X; apply in_map_iff; exists (n, a); auto).
  assert (InB : forall u v a, edge_attrs g u v (KInt 0) = Some a -> In a (map snd (edges_data g))).
  { intros u v a X. pose proof X as Y. apply edge_attrs_has in Y. apply has_edge_edges in Y; [|assumption]. 
    assert (Z : exists p q, In (p, q, a) (edges_data g)).
    { destruct Y as [Y|[D Y]]; rewrite <- (edges_data_simple_fst g W M) in Y; apply in_map_iff in Y as ([[p q] a'] & Ep & I); cbn [fst] in Ep; inversion Ep; subst p q; pose proof I as J; apply (edges_data_attrs g _ _ _ W M) in J.
      - exists u, v. congruence.
      - exists v, u. rewrite (edge_attrs_sym g) in J by assumption. congruence. }
    destruct Z as (p & q & I). apply in_map_iff. exists (p, q, a). auto. }
  split; [|intros Nn; split].
  - split; [assumption|]. split; [congruence|]. split; [assumption|]. split; [|split; [assumption|]].
    + intros n a X. destruct (Ha n a X) as (b & Eb & R). exists b. split; [assumption|]. exact (by_shown nan A _ a b UA (InA n a X) R).
    + intros u v a X. destruct (Hb u v a X) as (b & Eb & R). exists b. split; [assumption|]. exact (by_shown nan B _ a b UB (InB u v a X) R).
  - intros (_ & _ & _ & Va & _ & Vb). split; apply (same_by nan); try assumption; intros a I.
    + apply in_map_iff in I as ([n a'] & <- & I). cbn [snd]. assert (X : node_data g n = Some a') by (apply (dget_In n a' (g_nodes g) (wf_nodes g W)); assumption).
      destruct (Ha n a' X) as (b & Eb & R). destruct (Va n a' X) as (b' & Eb' & R'). assert (b' = b) as -> by congruence. exists b. split; assumption.
    + apply in_map_iff in I as ([[u v] a'] & <- & I). cbn [snd]. pose proof I as X. apply (edges_data_attrs g _ _ _ W M) in X.
      destruct (Hb u v a' X) as (b & Eb & R). destruct (Vb u v a' X) as (b' & Eb' & R'). assert (b' = b) as -> by congruence. exists b. split; assumption.
  - intros [CA CB]. split; [assumption|]. split; [congruence|]. split; [assumption|]. split; [|split; [assumption|]].
    + intros n a X. destruct (Ha n a X) as (b & Eb & R). exists b. split; [assumption|]. exact (by_same nan A _ a b UA CA (InA n a X) R).
    + intros u v a X. destruct (Hb u v a X) as (b & Eb & R). exists b. split; [assumption|]. exact (by_same nan B _ a b UB CB (InB u v a X) R).
Qed.
