(** * Lemmas on sparsifiers *)
From Coq Require Import List Relations ZArith QArith Lia Bool Permutation Sorted.
From Verif Require Import PyBase PyNum S_Num NxGraph L_Base L_Nx L_Nx2 M_UnionFind S_Partition L_Partition M_Graph S_Graph L_Graph L_Graph2 L_Graph3 L_Comp
  M_Umst S_Umst L_Forest L_Umst M_Disparity M_Sparse S_Sparse.
Import ListNotations.
Close Scope Q_scope.

Lemma pair_eqb_spec p q : reflect (p = q) (pair_eqb p q).
Proof.
  destruct p as [a b], q as [c d]. unfold pair_eqb. cbn. keq a c; keq b d; constructor; congruence.
Qed.

Lemma pmem_In p l : pmem p l = true <-> In p l.
Proof.
  unfold pmem. rewrite existsb_exists. split.
  - intros (x & Hx & E). destruct (pair_eqb_spec p x); [subst; assumption|discriminate].
  - intros H. exists p. split; [assumption|]. destruct (pair_eqb_spec p p); congruence.
Qed.

(** ** partition *)
Definition answer (r : res bool) : bool := match r with Ok b => b | Err _ => false end.

Lemma filterM_both {A} (f : A -> res bool) l :
  (exists e, filterM f l = Err e /\ filterM (fun a => notM (f a)) l = Err e) \/
  ((forall a, In a l -> exists b, f a = Ok b)
   /\ filterM f l = Ok (filter (fun a => answer (f a)) l)
   /\ filterM (fun a => notM (f a)) l = Ok (filter (fun a => negb (answer (f a))) l)).
Proof.
  induction l as [|a l IH]; [right; cbn; tauto|]. cbn [filterM]. destruct (f a) as [b|e] eqn:E.
  - cbn [notM bind]. destruct IH as [(e & -> & ->)|(H & -> & ->)].
    + left. exists e. auto.
    + right. split.
      * intros x [<-|Hx]; eauto.
      * cbn [bind filter]. rewrite E. cbn [answer]. destruct b; auto.
  - left. exists e. auto.
Qed.

Lemma filterM_ext {A} (f f' : A -> res bool) l : (forall a, f a = f' a) -> filterM f l = filterM f' l.
Proof. intros H. induction l as [|a l IH]; [reflexivity|]. cbn [filterM]. rewrite H, IH. reflexivity. Qed.

Definition uncurry3 (p : edge_predicate) (e : edge3) : res bool := p (fst (fst e)) (snd (fst e)) (snd e).

Lemma make_predicate lib pf f keep sp : make_sparsifier lib pf (Some f) None None keep = Ok sp ->
  sp = mkSP (Some (if keep then decorate lib pf (Some f) else f)) None None.
Proof. unfold make_sparsifier. intros E. inversion E. destruct keep; reflexivity. Qed.

Section FromPredicate.
  Context (sp : sparsifier) (g : graph) (F : sp_relevant sp = None) (F' : sp_redundant sp = None).

  Lemma partition_edges :
    (exists e, relevant_edges sp g = Err e /\ redundant_edges sp g = Err e) \/
    (exists p, sp_predicate sp g = Ok p
      /\ (forall u v a, In (u, v, a) (edges_data g) -> p u v a = Ok (answer (p u v a)))
      /\ relevant_edges sp g = Ok (filter (on_edge (fun u v a => answer (p u v a))) (edges_data g))
      /\ redundant_edges sp g = Ok (filter (fun e => negb (on_edge (fun u v a => answer (p u v a)) e)) (edges_data g))).
  Proof.
    unfold relevant_edges, redundant_edges. rewrite F, F'. destruct (sp_predicate sp g) as [p|e]; [|left; exists e; auto].
    cbn [bind]. rewrite (filterM_ext _ (uncurry3 p)) by (intros [[u v] a]; reflexivity).
    rewrite (filterM_ext (fun e : edge3 => let '(u, v, a) := e in notM (p u v a)) (fun e => notM (uncurry3 p e))) by (intros [[u v] a]; reflexivity).
    destruct (filterM_both (uncurry3 p) (edges_data g)) as [(e & -> & ->)|(H & -> & ->)]; [left; eauto|].
    right. exists p. split; [reflexivity|]. split; [|auto].
    intros u v a I. destruct (H _ I) as (b & E). unfold uncurry3 in E. cbn in E. rewrite E. reflexivity.
  Qed.

  Lemma partition_test p t : sp_predicate sp g = Ok p -> edge_test g p t ->
    relevant_edges sp g = Ok (filter (on_edge t) (edges_data g))
    /\ redundant_edges sp g = Ok (filter (fun e => negb (on_edge t e)) (edges_data g)).
  Proof.
    intros P T. unfold relevant_edges, redundant_edges. rewrite F, F', P. cbn [bind]. split.
    - apply filterM_Ok. intros [[u v] a] I. apply T, I.
    - apply filterM_not. exact T.
  Qed.
End FromPredicate.

(** ** filter *)
Lemma add_edge_kw_at h u v a h' : add_edge_kw h u v a = Ok h' -> exists k a', h' = add_edge_at h u v k a'.
Proof.
  unfold add_edge_kw. destruct (kwargs_ok _ a); [|discriminate]. unfold add_edge.
  destruct (g_multi h); [destruct (dget (K "key") a) as [[| | |]|]|]; intros E; inversion E; eauto.
Qed.

Lemma foldM_kw_links l : forall h h',
  foldM (fun filtered (e : edge3) => let '(u, v, a) := e in add_edge_kw filtered u v a) l h = Ok h' ->
  (forall u v a, In (u, v, a) l -> In u (nodes h) /\ In v (nodes h)) ->
  same_but_edges h h' /\
  forall x y, has_edge h' x y = has_edge h x y || existsb (fun e => jn (g_dir h) (fst (fst e)) (snd (fst e)) x y) l.
Proof.
  induction l as [|[[u v] a] l IH]; intros h h' E N; cbn [foldM] in E.
  - inversion E; subst. split; [repeat split|]. intros. cbn. rewrite orb_false_r. reflexivity.
  - destruct (add_edge_kw h u v a) as [h1|] eqn:E1; [|discriminate]. cbn [bind] in E.
    apply add_edge_kw_at in E1 as (k & a' & ->).
    destruct (N u v a (or_introl eq_refl)) as [Nu Nv].
    assert (S : same_but_edges h (add_edge_at h u v k a')).
    { unfold add_edge_at. rewrite !ensure_present by (rewrite ?ensure_present; assumption). repeat split. }
    destruct S as ((S1 & S2) & S3 & S4).
    destruct (IH _ _ E) as (((T1 & T2) & T3 & T4) & H).
    + intros x y b I. unfold nodes. rewrite <- S4. apply (N x y b). right. exact I.
    + split; [repeat split; congruence|]. intros x y. rewrite H. cbn [existsb fst snd]. rewrite <- S1.
      unfold has_edge at 1. rewrite edge_data_add_edge_at. unfold has_edge.
      destruct (jn (g_dir h) u v x y); [rewrite orb_true_r; reflexivity|reflexivity].
Qed.

Lemma foldM_kw_all l : forall h, (forall u v a, In (u, v, a) l -> edge_names_ok (g_multi h) a = true) ->
  foldM (fun filtered (e : edge3) => let '(u, v, a) := e in add_edge_kw filtered u v a) l h = Ok (add_all l h).
Proof.
  induction l as [|[[u v] a] l IH]; intros h N; cbn [foldM]; [reflexivity|].
  rewrite add_edge_kw_Ok by (eapply N; left; reflexivity). cbn [bind]. rewrite IH; [reflexivity|].
  intros x y b I. rewrite multi_add_edge. eapply N. right. eassumption.
Qed.

Lemma sparsifier_filter_spec sp g q : WF g -> edge_names g ->
  relevant_edges sp g = Ok (filter q (edges_data g)) ->
  exists h, sparsifier_filter sp g = Ok h /\ WF h /\ same_but_edges g h /\ edges_data h = filter q (edges_data g).
Proof.
  intros W N R. unfold sparsifier_filter. rewrite R. cbn [bind].
  exists (add_all (filter q (edges_data g)) (create_empty_copy g)). split.
  - apply foldM_kw_all. intros u v a I. apply filter_In in I. eapply (edge_names_data g); [exact N|apply I].
  - destruct (rebuild_filter g q W) as (H1 & H2 & H3 & H4 & H5 & H6 & H7).
    split; [assumption|]. split; [repeat split; congruence|assumption].
Qed.

Lemma closure_ext (es es' : list (key * key)) : (forall p, In p es -> In p es') -> forall x y, closure es x y -> closure es' x y.
Proof.
  intros H x y. unfold closure. apply rst_iff. intros a b I. apply rst_step. apply H, I.
Qed.

Lemma closure_iff_links h (es : list (key * key)) : (forall x y, has_edge h x y = true <-> In (x, y) es \/ (g_dir h = false /\ In (y, x) es)) ->
  forall x y, connected h x y <-> closure es x y.
Proof.
  intros H x y. unfold connected, closure. split; apply rst_iff; intros a b I.
  - apply H in I as [I|[_ I]]; [|apply rst_sym]; apply rst_step; exact I.
  - apply rst_step. apply H. left. exact I.
Qed.

Lemma filter_links sp g l h : WF g -> relevant_edges sp g = Ok l -> incl l (edges_data g) ->
  sparsifier_filter sp g = Ok h ->
  same_but_edges g h
  /\ (forall x y, has_edge h x y = true <-> In (x, y) (map fst l) \/ (g_dir h = false /\ In (y, x) (map fst l)))
  /\ (forall x y, connected h x y <-> closure (map fst l) x y).
Proof.
  intros W R I E. unfold sparsifier_filter in E. rewrite R in E. cbn [bind] in E.
  apply foldM_kw_links in E as (S & H).
  - assert (S' : same_but_edges g h) by (destruct S as ((S1 & S2) & S3 & S4); repeat split; cbn in *; congruence).
    assert (L : forall x y, has_edge h x y = true <-> In (x, y) (map fst l) \/ (g_dir h = false /\ In (y, x) (map fst l))).
    { intros x y. rewrite H. change (has_edge (create_empty_copy g) x y) with false. cbn [orb].
      assert (g_dir h = g_dir g) as -> by (destruct S' as ((? & _) & _); congruence).
      rewrite existsb_exists. cbn [create_empty_copy g_dir]. split.
      - intros (e & He & J). apply jn_iff in J. destruct e as [[u v] a]. cbn in J.
        assert (In (u, v) (map fst l)) by (apply in_map_iff; exists (u, v, a); auto).
        destruct J as [[-> ->]|(D & -> & ->)]; [left|right]; auto.
      - intros [J|[D J]]; apply in_map_iff in J as ([[u v] a] & Eq & J); cbn in Eq; inversion Eq; subst;
          (eexists; split; [exact J|]); apply jn_iff; cbn; auto. }
    split; [exact S'|]. split; [exact L|]. apply closure_iff_links, L.
  - intros u v a J. apply I in J. cbn. apply (edges_nodes g u v W). eapply edges_data_edges; eassumption.
Qed.

(** ** remove *)
Lemma sparsifier_remove_spec sp g p : WF g -> g_multi g = false ->
  redundant_edges sp g = Ok (filter (fun e => negb (on_edge p e)) (edges_data g)) ->
  exists g', sparsifier_remove sp g = (g', Ok tt) /\ WF g' /\ same_but_edges g g'
    /\ edges_data g' = filter (on_edge p) (edges_data g).
Proof.
  intros W M R. unfold sparsifier_remove, sbind, sread. rewrite R, M.
  destruct (remove_edges_spec g (fun u v a => Ok (p u v a)) p W M ltac:(intros ? ? ? ?; reflexivity)) as (g' & E & H).
  rewrite (remove_edges_ok g _ p) in E by (intros ? ? ? ?; reflexivity). inversion E as [E']. rewrite E'. eauto.
Qed.

(** ** keep_connected *)
Lemma mapM_Ok_inv {A B} (f : A -> res B) l l' : mapM f l = Ok l' -> Forall2 (fun a b => f a = Ok b) l l'.
Proof.
  revert l'. induction l as [|a l IH]; intros l' E; cbn [mapM] in E; [inversion E; constructor|].
  destruct (f a) eqn:Ea; [|discriminate]. cbn [bind] in E. destruct (mapM f l) eqn:El; [|discriminate]. cbn [bind] in E.
  inversion E; subst. constructor; [assumption|apply IH; reflexivity].
Qed.

Lemma umst_Ok_weighted lib pf g attr out : union_of_maximum_spanning_trees lib pf g attr = Ok out ->
  exists E, weighted_edges attr (edges_data g) E.
Proof.
  unfold union_of_maximum_spanning_trees, umst_run. destruct (Nat.eqb_spec (size g) 0) as [Z|Z].
  - intros _. exists []. rewrite size_edges_data in Z. destruct (edges_data g); [constructor|discriminate].
  - destruct (mapM _ (edges_data g)) as [l|] eqn:E; [|discriminate]. intros _. apply mapM_Ok_inv in E.
    exists (map (fun we => (fst (snd we), value (fst we))) l). unfold weighted_edges. clear Z.
    induction E as [|e [w e'] es l H F IH]; cbn [map]; constructor; [|apply IH].
    unfold weight_of in H. cbn [fst snd]. rewrite edge_number_weight. unfold edge_number.
    destruct (dget attr (snd e)) as [v|]; cbn [bind] in H.
    + unfold as_number in H. destruct (pynum_of v) as [x|]; cbn in H; [|discriminate]. inversion H; subst. eauto.
    + inversion H; subst. eauto.
Qed.

Lemma umst_incl lib pf g attr E out : WF g -> weighted_edges attr (edges_data g) E ->
  union_of_maximum_spanning_trees lib pf g attr = Ok out -> incl out (edges_data g).
Proof.
  intros W WE U. destruct (numbers_exist _ _ _ WE) as (ws & EN).
  destruct (umst_any lib pf g attr E ws W WE EN out U) as (p & sel & _ & -> & _ & _ & B & _).
  intros e He. apply in_map_iff in He as (i & <- & Hi). apply nth_In. rewrite (we_length g attr E WE). apply B, Hi.
Qed.

Lemma umst_closure lib pf g attr out : WF g -> union_of_maximum_spanning_trees lib pf g attr = Ok out ->
  forall a b, closure (map fst out) a b <-> closure (map fst (edges_data g)) a b.
Proof.
  intros W U. destruct (umst_Ok_weighted _ _ _ _ _ U) as (E & WE). destruct (numbers_exist _ _ _ WE) as (ws & EN).
  destruct (umst_any lib pf g attr E ws W WE EN out U) as (p & sel & _ & Eo & _ & _ & B & C & _).
  assert (P : map fst out = map (edge_at E) sel).
  { rewrite Eo. unfold at_positions. rewrite map_map. apply map_ext_in. intros i Hi.
    apply (we_nth g attr E WE i), B, Hi. }
  intros a b. rewrite P, (we_ends g attr E WE). apply C.
Qed.

Lemma closure_edges_data g x y : WF g -> (closure (map fst (edges_data g)) x y <-> closure (edges g) x y).
Proof.
  intros W. split; apply closure_ext; intros [u v] I.
  - apply in_map_iff in I as ([[u' v'] a] & E & I). cbn in E. inversion E; subst. eapply edges_data_edges; eassumption.
  - apply edges_edges_data in I as (a & I); [|assumption]. apply in_map_iff. exists (u, v, a). auto.
Qed.

Lemma decorate_Ok lib pf f g p : decorate lib pf (Some f) g = Ok p ->
  exists p0 out, f g = Ok p0 /\ union_of_maximum_spanning_trees lib pf g (K "weight") = Ok out
    /\ p = (fun u v a => let* b := p0 u v a in Ok (b || pmem (u, v) (map fst out))).
Proof.
  unfold decorate. destruct (f g) as [p0|]; [|discriminate]. cbn [bind].
  destruct (union_of_maximum_spanning_trees lib pf g (K "weight")) as [out|]; [|discriminate]. cbn [bind].
  intros E. inversion E. eauto.
Qed.

Lemma decorated_relevant lib pf f g l :
  relevant_edges (mkSP (Some (decorate lib pf (Some f))) None None) g = Ok l ->
  exists p out, f g = Ok p /\ union_of_maximum_spanning_trees lib pf g (K "weight") = Ok out
    /\ (forall u v a, In (u, v, a) (edges_data g) -> exists b, p u v a = Ok b)
    /\ l = filter (fun e => answer (p (fst (fst e)) (snd (fst e)) (snd e)) || pmem (fst e) (map fst out)) (edges_data g).
Proof.
  intros R. unfold relevant_edges, sp_predicate in R. cbn [sp_relevant sp_factory] in R.
  destruct (decorate lib pf (Some f) g) as [q|] eqn:D; [|discriminate]. cbn [bind] in R.
  apply decorate_Ok in D as (p & out & Ef & U & ->). exists p, out. split; [exact Ef|]. split; [exact U|].
  apply filterM_Ok_inv in R as (A & ->). split.
  - intros u v a I. destruct (A _ I) as (b & Eb). cbn in Eb. destruct (p u v a); [eauto|discriminate].
  - apply filter_ext_in'. intros [[u v] a] I. destruct (A _ I) as (b & Eb). cbn in *. destruct (p u v a); [reflexivity|discriminate].
Qed.

Lemma undecorated_relevant f g l :
  relevant_edges (mkSP (Some f) None None) g = Ok l ->
  exists p, f g = Ok p
    /\ l = filter (fun e => answer (p (fst (fst e)) (snd (fst e)) (snd e))) (edges_data g).
Proof.
  intros R. unfold relevant_edges, sp_predicate in R. cbn [sp_relevant sp_factory] in R.
  destruct (f g) as [q|] eqn:D; [|discriminate]. cbn [bind] in R. exists q. split; [reflexivity|].
  apply filterM_Ok_inv in R as (A & ->).
  apply filter_ext_in'. intros [[u v] a] I. destruct (A _ I) as (b & Eb). cbn in *. destruct (q u v a); [reflexivity|discriminate].
Qed.

Lemma keep_connected_components lib pf f g h : WF g ->
  sparsifier_filter (mkSP (Some (decorate lib pf (Some f))) None None) g = Ok h ->
  same_but_edges g h /\ (forall x y, connected h x y <-> connected g x y)
  /\ (forall h0, sparsifier_filter (mkSP (Some f) None None) g = Ok h0 ->
        forall x y, has_edge h0 x y = true -> has_edge h x y = true).
Proof.
  intros W E. destruct (relevant_edges (mkSP (Some (decorate lib pf (Some f))) None None) g) as [l|] eqn:R;
    [|unfold sparsifier_filter in E; rewrite R in E; discriminate].
  destruct (decorated_relevant _ _ _ _ _ R) as (p & out & Ef & U & A & El).
  assert (I : incl l (edges_data g)) by (rewrite El; intros e He; apply filter_In in He; apply He).
  destruct (filter_links _ g l h W R I E) as (S & L & C).
  destruct (umst_Ok_weighted _ _ _ _ _ U) as (EE & WE).
  pose proof (umst_incl _ _ _ _ _ _ W WE U) as Io.
  split; [exact S|]. split.
  - intros x y. rewrite C, connected_closure, <- closure_edges_data by assumption. split.
    + apply closure_ext. intros q Hq. apply in_map_iff in Hq as (e & <- & He). apply in_map, I, He.
    + rewrite <- (umst_closure lib pf g (K "weight") out W U). apply closure_ext. intros q Hq.
      apply in_map_iff in Hq as (e & <- & He). apply in_map_iff. exists e. split; [reflexivity|].
      rewrite El. apply filter_In. split; [apply Io, He|]. apply orb_true_iff. right. apply pmem_In, in_map, He.
  - intros h0 E0 x y. destruct (relevant_edges (mkSP (Some f) None None) g) as [l0|] eqn:R0;
      [|unfold sparsifier_filter in E0; rewrite R0 in E0; discriminate].
    destruct (undecorated_relevant _ _ _ R0) as (p' & Ef' & El0). assert (p' = p) by congruence. subst p'.
    assert (I0 : incl l0 (edges_data g)) by (rewrite El0; intros e He; apply filter_In in He; apply He).
    destruct (filter_links _ g l0 h0 W R0 I0 E0) as (S0 & L0 & _).
    assert (LL : forall q, In q (map fst l0) -> In q (map fst l)).
    { intros q Hq. apply in_map_iff in Hq as (e & <- & He). apply in_map. rewrite El0 in He. apply filter_In in He as (He & Pe).
      rewrite El. apply filter_In. split; [exact He|]. rewrite Pe. reflexivity. }
    rewrite L, L0. assert (g_dir h0 = g_dir h) as -> by (destruct S as ((? & _) & _), S0 as ((? & _) & _); congruence).
    intros [H|[D H]]; [left|right]; auto.
Qed.

(** ** flags *)
Definition same_edge (dir : bool) (u v k : key) (e : key * key * key) : bool :=
  jn dir u v (fst (fst e)) (snd (fst e)) && key_eqb k (snd e).

Lemma map_edge_rewrite g u v k f :
  map_edge g u v k f = with_adj g (rewrite_adj (fun x y kd => Some (if jn (g_dir g) u v x y
     then map (fun ka => if key_eqb k (fst ka) then (fst ka, f (snd ka)) else ka) kd else kd)) (g_adj g)).
Proof.
  unfold map_edge, with_adj. f_equal. unfold rewrite_adj. induction (g_adj g) as [|b l IH]; [reflexivity|].
  cbn [map flat_map app]. rewrite <- IH. f_equal. rewrite same_ends_jn. destruct b as [x y kd]. cbn.
  destruct (jn (g_dir g) u v x y); reflexivity.
Qed.

Lemma jn_swap u v x y : jn false u v x y = jn false u v y x.
Proof. apply Bool.eq_iff_eq_true. rewrite !jn_iff. intuition congruence. Qed.

Lemma edges_keys_map_edge g u v k f :
  edges_keys (map_edge g u v k f) =
  map (fun e => if same_edge (g_dir g) u v k (fst e) then (fst e, f (snd e)) else e) (edges_keys g).
Proof.
  rewrite map_edge_rewrite. unfold edges_keys. rewrite edge_pairs_rewrite.
  - induction (edge_pairs g) as [|[[x y] kd] l IH]; [reflexivity|]. cbn [rewrite_pairs flat_map app fst snd].
    rewrite map_app. fold (rewrite_pairs (fun x y kd => Some (if jn (g_dir g) u v x y
     then map (fun ka => if key_eqb k (fst ka) then (fst ka, f (snd ka)) else ka) kd else kd)) l). rewrite IH. f_equal.
    rewrite map_map. unfold same_edge. cbn [fst snd]. destruct (jn (g_dir g) u v x y); cbn [andb].
    + rewrite map_map. apply map_ext. intros [k' a]. cbn. destruct (key_eqb k k'); reflexivity.
    + reflexivity.
  - intros D x y kd. rewrite D, jn_swap. reflexivity.
Qed.

Lemma WF_map_edge g u v k f : WF g -> (forall a, NoDup (dkeys a) -> NoDup (dkeys (f a))) -> WF (map_edge g u v k f).
Proof.
  intros W H. rewrite map_edge_rewrite. apply WF_rewrite; [exact W|].
  intros x y kd kd' (N & D & A & M) E. inversion E; subst. clear E.
  destruct (jn (g_dir g) u v x y); [|repeat split; assumption].
  assert (K : dkeys (map (fun ka => if key_eqb k (fst ka) then (fst ka, f (snd ka)) else ka) kd) = dkeys kd).
  { unfold dkeys. rewrite map_map. apply map_ext. intros [k' a]. cbn. destruct (key_eqb k k'); reflexivity. }
  split; [|split; [|split]].
  - destruct kd; [contradiction|discriminate].
  - change (NoDup (dkeys (map (fun ka => if key_eqb k (fst ka) then (fst ka, f (snd ka)) else ka) kd))). rewrite K. exact D.
  - intros k' a I. apply in_map_iff in I as ([k0 a0] & E & I). cbn in E. destruct (key_eqb k k0); inversion E; subst.
    + apply H. eapply A; eassumption.
    + eapply A; eassumption.
  - intros Mu. destruct (M Mu) as (a & ->). cbn. destruct (key_eqb k (KInt 0)); eauto.
Qed.

Lemma edges_keys_NoDup g : WF g -> NoDup (map fst (edges_keys g)).
Proof.
  intros W. unfold edges_keys. pose proof (edges_NoDup g W) as N. unfold edges in N.
  assert (KD : forall p, In p (edge_pairs g) -> NoDup (dkeys (snd p))).
  { intros [[u v] kd] I. apply edge_pairs_data in I; [|assumption]. eapply edge_data_keys; eassumption. }
  induction (edge_pairs g) as [|[[u v] kd] l IH]; cbn [flat_map]; [constructor|].
  cbn [map fst] in N. inversion N as [|? ? NI ND]; subst. rewrite map_app. apply NoDup_app_iff. split; [|split].
  - rewrite map_map. cbn [fst snd]. specialize (KD _ (or_introl eq_refl)). cbn [snd] in KD. unfold dkeys in KD.
    clear -KD. induction kd as [|[k a] kd IH]; cbn [map]; [constructor|]. cbn [map fst] in KD. inversion KD as [|? ? NI ND]; subst.
    constructor; [|apply IH; assumption]. intros I. apply NI. apply in_map_iff in I as ([k' a'] & E & I). cbn in E.
    inversion E; subst. apply in_map_iff. exists (k, a'). auto.
  - apply IH; [assumption|]. intros; apply KD; right; assumption.
  - intros x I J. apply NI. rewrite map_map in I. apply in_map_iff in I as ([k a] & <- & I). cbn in J.
    apply in_map_iff in J as ([[[x y] k'] a'] & E & J). cbn in E. inversion E; subst.
    apply in_flat_map in J as ([[x y] kd'] & J & J'). apply in_map_iff in J' as ([k'' a''] & E' & J'). cbn in E'. inversion E'; subst.
    apply in_map_iff. exists (u, v, kd'). auto.
Qed.

(** two listed edges which are the same edge are listed at the same place *)
Lemma same_edge_listed g e e' : WF g -> In e (edges_keys g) -> In e' (edges_keys g) ->
  same_edge (g_dir g) (fst (fst (fst e))) (snd (fst (fst e))) (snd (fst e)) (fst e') = true -> fst e = fst e'.
Proof.
  destruct e as [[[u v] k] a], e' as [[[x y] k'] a']. cbn. intros W I J S. apply andb_true_iff in S as [S E]. cbn in S, E.
  apply key_eqb_eq in E. subst k'. apply jn_iff in S as [[-> ->]|(D & -> & ->)]; [reflexivity|].
  apply edges_keys_In in I as (kd & I & _). apply edges_keys_In in J as (kd' & J & _).
  assert (u = v); [|subst; reflexivity].
  apply (edges_oriented g u v W D); unfold edges; apply in_map_iff; [exists (u, v, kd)|exists (v, u, kd')]; auto.
Qed.

Definition flag_edge (attr : key) (want : key -> key -> attrs -> option bool) (e : key * key * key * attrs) : key * key * key * attrs :=
  match want (fst (fst (fst e))) (snd (fst (fst e))) (snd e) with
  | Some b => (fst e, dset attr (VBool b) (snd e))
  | None => e
  end.

Lemma flag_edge_fst attr want e : fst (flag_edge attr want e) = fst e.
Proof. unfold flag_edge. destruct (want _ _ _); reflexivity. Qed.

Lemma flag_loop_app p t attr flag g r : WF g ->
  forall l2, (forall u v k a, In (u, v, k, a) l2 -> p u v a = Ok (t u v a)) ->
  forall l1 h, edges_keys g = l1 ++ l2 ++ r ->
  WF h -> same_but_edges g h -> edges_keys h = map (flag_edge attr (fun u v a => flag (t u v a))) l1 ++ l2 ++ r ->
  exists h', flag_loop p attr flag (l2 ++ r) h = flag_loop p attr flag r h' /\ WF h' /\ same_but_edges g h'
    /\ edges_keys h' = map (flag_edge attr (fun u v a => flag (t u v a))) (l1 ++ l2) ++ r.
Proof.
  intros W. set (want := fun u v a => flag (t u v a)).
  induction l2 as [|[[[u v] k] a] l2 IH]; intros T l1 h E Wh S EK; cbn [flag_loop app].
  - exists h. rewrite app_nil_r in *. auto.
  - unfold sbind at 1, sread at 1.
    assert (I : In (u, v, k, a) (edges_keys g)) by (rewrite E; apply in_or_app; right; left; reflexivity).
    rewrite (T u v k a (or_introl eq_refl)).
    assert (E' : edges_keys g = (l1 ++ [(u, v, k, a)]) ++ l2 ++ r) by (rewrite <- app_assoc; exact E).
    replace (l1 ++ (u, v, k, a) :: l2) with ((l1 ++ [(u, v, k, a)]) ++ l2) by (rewrite <- app_assoc; reflexivity).
    unfold sbind at 1. destruct (flag (t u v a)) as [b|] eqn:Fl; cbn [smodify sret].
    + unfold smodify. apply IH; [intros u0 v0 k0 a0 J; apply (T u0 v0 k0); right; exact J|exact E'| | |].
      * apply WF_map_edge; [exact Wh|]. intros a0. apply NoDup_dset.
      * destruct S as ((S1 & S2) & S3 & S4). repeat split; assumption.
      * rewrite edges_keys_map_edge, EK.
        assert (D : g_dir h = g_dir g) by (destruct S as ((? & _) & _); congruence). rewrite D.
        pose proof (edges_keys_NoDup g W) as ND. rewrite E, map_app in ND. cbn [map fst app] in ND.
        pose proof (NoDup_remove_2 _ _ _ ND) as NI.
        assert (Oth : forall e, In e (l1 ++ l2 ++ r) -> same_edge (g_dir g) u v k (fst e) = false).
        { intros e He. apply not_true_iff_false. intros Sm.
          apply (same_edge_listed g (u, v, k, a) e W I) in Sm.
          - apply NI. cbn in Sm. rewrite Sm, <- map_app. apply in_map, He.
          - rewrite E. apply in_app_iff in He. apply in_app_iff. cbn [In app]. tauto. }
        rewrite !map_app, <- app_assoc. cbn [map app].
        f_equal; [|f_equal].
        -- rewrite map_map. apply map_ext_in. intros e He. rewrite flag_edge_fst, (Oth e) by (apply in_app_iff; tauto). reflexivity.
        -- unfold same_edge. cbn [fst snd]. rewrite jn_refl, key_eqb_refl. cbn [andb].
           unfold flag_edge, want. cbn [fst snd]. rewrite Fl. reflexivity.
        -- rewrite <- ?map_app. transitivity (map (fun e => e) (l2 ++ r)); [|apply map_id]. apply map_ext_in. intros e He. rewrite (Oth e) by (apply in_app_iff; tauto). reflexivity.
    + apply IH; [intros u0 v0 k0 a0 J; apply (T u0 v0 k0); right; exact J|exact E'|exact Wh|exact S|].
      rewrite EK, map_app, <- app_assoc. cbn [map app]. do 2 f_equal. unfold flag_edge, want. cbn [fst snd]. rewrite Fl. reflexivity.
Qed.

Lemma flag_loop_spec p t attr flag g : WF g ->
  (forall u v k a, In (u, v, k, a) (edges_keys g) -> p u v a = Ok (t u v a)) ->
  forall l2 l1 h, edges_keys g = l1 ++ l2 ->
  WF h -> same_but_edges g h -> edges_keys h = map (flag_edge attr (fun u v a => flag (t u v a))) l1 ++ l2 ->
  exists h', flag_loop p attr flag l2 h = (h', Ok tt) /\ WF h' /\ same_but_edges g h'
    /\ edges_keys h' = map (flag_edge attr (fun u v a => flag (t u v a))) (l1 ++ l2).
Proof.
  intros W T l2 l1 h E Wh S EK. destruct (flag_loop_app p t attr flag g [] W l2) with (l1 := l1) (h := h) as (h' & F & W' & S' & K'); try assumption.
  - intros u v k a I. apply (T u v k a). rewrite E. apply in_or_app. right. exact I.
  - rewrite app_nil_r. exact E.
  - rewrite app_nil_r. exact EK.
  - rewrite !app_nil_r in *. exists h'. auto.
Qed.

Lemma same_but_edges_refl g : same_but_edges g g.
Proof. repeat split. Qed.

Lemma flag_with_spec sp p t attr flag g : WF g -> sp_predicate sp g = Ok p -> edge_test g p t ->
  exists g', flag_with sp attr flag g = (g', Ok tt) /\ WF g' /\ flagged attr (fun u v a => flag (t u v a)) g g'.
Proof.
  intros W P T. unfold flag_with, sbind, sread. rewrite P.
  assert (T' : forall u v k a, In (u, v, k, a) (edges_keys g) -> p u v a = Ok (t u v a)).
  { intros u v k a I. apply T. apply edges_data_In. eauto. }
  destruct (flag_loop_spec p t attr flag g W T' (edges_keys g) [] g eq_refl W (same_but_edges_refl g) eq_refl) as (g' & E & W' & S & K).
  exists g'. split; [exact E|]. split; [exact W'|]. split; [exact S|]. cbn [app] in K. split.
  - rewrite K, map_map. apply map_ext. intros; apply flag_edge_fst.
  - intros u v k a I. exists (snd (flag_edge attr (fun u v a => flag (t u v a)) (u, v, k, a))). split.
    + apply edges_keys_attrs; [exact W'|]. rewrite K. apply in_map_iff. exists (u, v, k, a). split; [|exact I].
      unfold flag_edge. cbn. destruct (flag (t u v a)); reflexivity.
    + intros name. unfold flag_edge. cbn. destruct (flag (t u v a)); cbn [snd].
      * rewrite dget_dset. destruct (key_eqb name attr); reflexivity.
      * destruct (key_eqb name attr); reflexivity.
Qed.

(** ** generators *)
Lemma key_gt_total l a b : comparable l -> In a l -> In b l -> exists r, key_gt a b = Ok r.
Proof. intros C Ha Hb. unfold key_gt. apply (comparable_lt l); assumption. Qed.

Lemma key_gt_asym l a b : comparable l -> In a l -> In b l -> key_gt a b = Ok true -> key_gt b a = Ok true -> False.
Proof.
  intros C Ha Hb H H'. unfold key_gt in *. pose proof (key_lt_trans a b a H' H) as H0. apply key_lt_irrefl in H0. discriminate.
Qed.

Lemma key_gt_antisym l a b : comparable l -> In a l -> In b l -> key_gt a b = Ok false -> key_gt b a = Ok false -> a = b.
Proof.
  intros [C|C] Ha Hb; destruct (C a Ha) as (x & ->); destruct (C b Hb) as (y & ->); cbn; intros H H'; inversion H; inversion H'.
  - f_equal. apply Z.ltb_ge in H1, H2. lia.
  - f_equal. unfold String.ltb in *. pose proof (String.compare_antisym x y) as A.
    destruct (String.compare x y) eqn:Ex; [apply String.compare_eq_iff; assumption| |]; destruct (String.compare y x); discriminate.
Qed.

Lemma normalize_total g u v : comparable (nodes g) -> In u (nodes g) -> In v (nodes g) -> exists q, normalize g u v = Ok q.
Proof.
  intros C U V. unfold normalize. destruct (g_dir g); [eauto|]. destruct (key_gt_total _ u v C U V) as (b & ->). cbn. eauto.
Qed.

Lemma normalize_same g u v x y q q' : comparable (nodes g) -> In u (nodes g) -> In v (nodes g) -> In x (nodes g) -> In y (nodes g) ->
  normalize g u v = Ok q -> normalize g x y = Ok q' -> (q = q' <-> jn (g_dir g) u v x y = true).
Proof.
  intros C U V X Y. unfold normalize. rewrite jn_iff. destruct (g_dir g).
  - intros E E'. inversion E; inversion E'; subst. split; [intros H; inversion H; auto|]. intros [[-> ->]|[? _]]; [reflexivity|discriminate].
  - destruct (key_gt u v) as [b|] eqn:B; [|discriminate]. destruct (key_gt x y) as [b'|] eqn:B'; [|discriminate]. cbn.
    intros E E'. inversion E; inversion E'; subst. split.
    + destruct b, b'; intros H; inversion H; subst; auto.
    + intros [[-> ->]|(_ & -> & ->)].
      * assert (b = b') by congruence. subst. reflexivity.
      * destruct b, b'; try reflexivity.
        -- exfalso. exact (key_gt_asym _ _ _ C U V B B').
        -- rewrite (key_gt_antisym _ _ _ C U V B B'). reflexivity.
Qed.

Section Generators.
  Context (g : graph) (W : WF g) (C : comparable (nodes g)) (l : list edge3).
  Context (L : forall u v a, In (u, v, a) l -> has_edge g u v = true).

  Definition mentionedb (u v : key) : bool := existsb (fun e => jn (g_dir g) (fst (fst e)) (snd (fst e)) u v) l.

  Lemma mentionedb_iff u v : mentionedb u v = true <-> mentioned g l u v.
  Proof.
    unfold mentionedb, mentioned. rewrite existsb_exists. split.
    - intros ([[x y] a] & I & J). cbn in J. apply jn_iff in J as [[-> ->]|(D & -> & ->)]; exists a; auto.
    - intros (a & [I|[D I]]); [exists (u, v, a)|exists (v, u, a)]; (split; [exact I|]); apply jn_iff; cbn; auto.
  Qed.

  Lemma normalized : exists s, mapM (fun e => normalize g (fst (fst e)) (snd (fst e))) l = Ok s
    /\ forall u v, In u (nodes g) -> In v (nodes g) ->
       exists q, normalize g u v = Ok q /\ pmem q s = mentionedb u v.
  Proof.
    assert (N : forall u v a, In (u, v, a) l -> In u (nodes g) /\ In v (nodes g)).
    { intros u v a I. apply L in I. unfold has_edge in I. destruct (edge_data g u v) eqn:D; [|discriminate].
      eapply edge_data_nodes; eassumption. }
    unfold mentionedb. clear L. induction l as [|[[x y] a] l' IH].
    - exists []. split; [reflexivity|]. intros u v U V. destruct (normalize_total g u v C U V) as (q & Q). exists q. auto.
    - destruct IH as (s & E & H); [intros; eapply N; right; eassumption|].
      destruct (N x y a (or_introl eq_refl)) as [X Y]. destruct (normalize_total g x y C X Y) as (q0 & Q0).
      exists (q0 :: s). split; [cbn; rewrite Q0; cbn; rewrite E; reflexivity|].
      intros u v U V. destruct (H u v U V) as (q & Q & M). exists q. split; [exact Q|].
      unfold pmem. cbn [existsb fst snd]. fold (pmem q s). rewrite M. f_equal.
      apply Bool.eq_iff_eq_true. rewrite <- (normalize_same g x y u v q0 q C X Y U V Q0 Q).
      destruct (pair_eqb_spec q q0); split; congruence.
  Qed.

  Lemma from_relevant_test gen : gen g = Ok l -> exists p, from_relevant gen g = Ok p /\ edge_test g p (fun u v _ => mentionedb u v).
  Proof.
    intros G. destruct normalized as (s & E & H). unfold from_relevant. rewrite G. cbn [bind]. rewrite E. cbn [bind].
    eexists. split; [reflexivity|]. intros u v a I. apply edges_data_edges in I. apply edges_nodes in I; [|assumption].
    destruct (H u v (proj1 I) (proj2 I)) as (q & Q & M). rewrite Q. cbn. rewrite M. reflexivity.
  Qed.

  Lemma from_redundant_test gen : gen g = Ok l ->
    exists p, from_redundant gen g = Ok p /\ edge_test g p (fun u v _ => negb (mentionedb u v)).
  Proof.
    intros G. destruct normalized as (s & E & H). unfold from_redundant. rewrite G. cbn [bind]. rewrite E. cbn [bind].
    eexists. split; [reflexivity|]. intros u v a I. apply edges_data_edges in I. apply edges_nodes in I; [|assumption].
    destruct (H u v (proj1 I) (proj2 I)) as (q & Q & M). rewrite Q. cbn. rewrite M. reflexivity.
  Qed.
End Generators.
