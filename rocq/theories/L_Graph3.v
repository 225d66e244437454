(** * Lemmas about parallel edges *)
From Coq Require Import List ZArith Lia Bool Permutation.
From Verif Require Import PyBase NxGraph L_Base L_Nx L_Nx2 M_UnionFind M_Graph S_Graph L_Graph L_Graph2.
Import ListNotations.

(** the number of listed edges between two nodes *)
Definition listed_between (g : graph) (l : list (key * key * attrs)) (u v : key) : nat :=
  List.length (filter (fun e => jn (g_dir g) u v (fst (fst e)) (snd (fst e))) l).

Lemma sum_find dir u v l : ForallOrdPairs (apart dir) l ->
  match option_map b_data (List.find (same_ends dir u v) l) with Some kd => List.length kd | None => 0 end =
  sum_nat (map (fun b => if jn dir u v (b_src b) (b_dst b) then List.length (b_data b) else 0) l).
Proof.
  induction 1 as [|b l H F IH]; [reflexivity|]. cbn [List.find map]. unfold sum_nat in *. cbn [fold_right]. rewrite <- IH. clear IH.
  assert (E : jn dir u v (b_src b) (b_dst b) = same_ends dir u v b) by reflexivity. rewrite E. clear E.
  destruct (same_ends dir u v b) eqn:S; [|lia].
  assert (NF : List.find (same_ends dir u v) l = None).
  { apply find_none_iff. intros c Hc. destruct (same_ends dir u v c) eqn:E3; [|reflexivity].
    rewrite Forall_forall in H. specialize (H c Hc). unfold apart in H. rewrite (same_ends_trans _ _ _ _ _ S E3) in H. discriminate. }
  rewrite NF. cbn. lia.
Qed.

Lemma multiplicity_listed g u v : WF g -> multiplicity g u v = listed_between g (edges_data g) u v.
Proof.
  intros W. unfold multiplicity, listed_between.
  transitivity (sum_nat (map (fun b => if jn (g_dir g) u v (b_src b) (b_dst b) then List.length (b_data b) else 0) (g_adj g))).
  - apply (sum_find (g_dir g) u v (g_adj g)). apply (wf_distinct g W).
  - transitivity (sum_nat (map (fun e => if jn (g_dir g) u v (fst (fst e)) (snd (fst e)) then List.length (snd e) else 0) (edge_pairs g))).
    + symmetry. apply (sum_pairs_adj g (fun x y kd => if jn (g_dir g) u v x y then List.length kd else 0) W).
      intros D x y kd. assert (jn (g_dir g) u v x y = jn (g_dir g) u v y x) as ->; [|reflexivity].
      apply eq_true_iff_eq. rewrite !jn_iff, D. intuition congruence.
    + rewrite edges_data_pairs. generalize (g_dir g) as dir. intros dir. induction (edge_pairs g) as [|[[x y] kd] l IH]; [reflexivity|].
      cbn [flat_map map fst snd]. unfold sum_nat in *. cbn [fold_right]. rewrite IH. rewrite filter_app, app_length. f_equal. clear IH.
      unfold data_of. cbn [fst snd]. induction kd as [|ka kd IH]; [cbn; destruct (jn dir u v x y); reflexivity|].
      cbn [map filter fst snd List.length]. destruct (jn dir u v x y) eqn:J; cbn [List.length]; rewrite <- IH; reflexivity.
Qed.

(** ** removing parallel edges *)
Definition cut (dir : bool) (es : list (key * key)) (x y : key) (kd : dict attrs) : option (dict attrs) :=
  match firstn (List.length kd - List.length (filter (fun uv => jn dir (fst uv) (snd uv) x y) es)) kd with
  | [] => None
  | kd' => Some kd'
  end.

Lemma cut_some dir es x y kd : cut dir es x y kd =
  let kd' := firstn (List.length kd - List.length (filter (fun uv => jn dir (fst uv) (snd uv) x y) es)) kd in
  if Nat.eqb (List.length kd') 0 then None else Some kd'.
Proof. unfold cut. cbn zeta. destruct (firstn _ kd); reflexivity. Qed.

Lemma rewrite_adj_ext F G l : (forall b, In b l -> F (b_src b) (b_dst b) (b_data b) = G (b_src b) (b_dst b) (b_data b)) ->
  rewrite_adj F l = rewrite_adj G l.
Proof.
  intros H. unfold rewrite_adj. induction l as [|b l IH]; [reflexivity|]. cbn. rewrite (H b (or_introl eq_refl)). f_equal.
  apply IH. intros; apply H; right; assumption.
Qed.

Lemma rewrite_adj_some l : rewrite_adj (fun _ _ kd => Some kd) l = l.
Proof. induction l as [|b l IH]; [reflexivity|]. cbn. unfold rewrite_adj in IH. rewrite IH. destruct b; reflexivity. Qed.

Lemma rewrite_adj_comp F G l : rewrite_adj F (rewrite_adj G l) =
  rewrite_adj (fun u v kd => match G u v kd with Some kd' => F u v kd' | None => None end) l.
Proof.
  unfold rewrite_adj. induction l as [|b l IH]; [reflexivity|]. cbn [flat_map]. rewrite flat_map_app, IH. f_equal.
  destruct (G (b_src b) (b_dst b) (b_data b)); cbn; [|reflexivity]. apply app_nil_r.
Qed.

Lemma cut_nil dir x y kd : kd <> [] -> cut dir [] x y kd = Some kd.
Proof. intros H. unfold cut. cbn. rewrite Nat.sub_0_r, firstn_all. destruct kd; [congruence|reflexivity]. Qed.

Lemma cut_cons dir e es x y kd :
  cut dir (e :: es) x y kd = match cut dir [e] x y kd with Some kd' => cut dir es x y kd' | None => None end.
Proof.
  rewrite !cut_some. cbn zeta. cbn [filter].
  set (n := List.length (filter (fun uv => jn dir (fst uv) (snd uv) x y) es)).
  assert (G : forall c, (let kd' := firstn (List.length kd - (c + n)) kd in if Nat.eqb (List.length kd') 0 then None else Some kd') =
     match (if Nat.eqb (List.length (firstn (List.length kd - c) kd)) 0 then None else Some (firstn (List.length kd - c) kd)) with
     | Some kd' => cut dir es x y kd' | None => None end).
  { intros c. cbn zeta. destruct (Nat.eqb (List.length (firstn (List.length kd - c) kd)) 0) eqn:E.
    - apply Nat.eqb_eq in E. rewrite firstn_length in *. 
      assert (Nat.min (List.length kd - (c + n)) (List.length kd) = 0) as -> by lia. reflexivity.
    - rewrite cut_some. cbn zeta. fold n. rewrite firstn_firstn.
      replace (Nat.min (List.length (firstn (List.length kd - c) kd) - n) (List.length kd - c)) with (List.length kd - (c + n))
        by (rewrite firstn_length; lia).
      reflexivity. }
  destruct (jn dir (fst e) (snd e) x y); cbn [List.length]; [apply (G 1)|apply (G 0)].
Qed.

Lemma drop_pair_cut dir u v l : ForallOrdPairs (apart dir) l -> (forall b, In b l -> b_data b <> []) ->
  drop_pair dir true u v l = rewrite_adj (cut dir [(u, v)]) l.
Proof.
  induction 1 as [|b l H F IH]; intros NE; [reflexivity|]. cbn [drop_pair].
  assert (J : jn dir u v (b_src b) (b_dst b) = same_ends dir u v b) by reflexivity.
  unfold rewrite_adj. cbn [flat_map]. unfold cut at 1. cbn [filter fst snd]. rewrite J.
  destruct (same_ends dir u v b) eqn:S; cbn [List.length].
  - assert (R : flat_map (fun b => match cut dir [(u, v)] (b_src b) (b_dst b) (b_data b) with
                     | Some kd => [mkB (b_src b) (b_dst b) kd] | None => [] end) l = l).
    { etransitivity; [|exact (rewrite_adj_some l)]. apply rewrite_adj_ext. intros c Hc.
      unfold cut. cbn [filter fst snd]. rewrite Forall_forall in H. specialize (H c Hc). unfold apart in H.
      assert (jn dir u v (b_src c) (b_dst c) = false) as ->.
      { destruct (jn dir u v (b_src c) (b_dst c)) eqn:E; [|reflexivity]. change (same_ends dir u v c = true) in E.
        rewrite (same_ends_trans _ _ _ _ _ S E) in H. discriminate. }
      cbn [List.length]. rewrite Nat.sub_0_r, firstn_all. specialize (NE c (or_intror Hc)). destruct (b_data c); [congruence|reflexivity]. }
    rewrite R. rewrite removelast_firstn_len, <- Nat.sub_1_r. destruct (firstn _ (b_data b)); reflexivity.
  - rewrite Nat.sub_0_r, firstn_all. rewrite IH by (intros; apply NE; right; assumption).
    specialize (NE b (or_introl eq_refl)). destruct b as [s d kd]. cbn in *. destruct kd; [congruence|reflexivity].
Qed.

Lemma rewrite_adj_apart dir F l : ForallOrdPairs (apart dir) l -> ForallOrdPairs (apart dir) (rewrite_adj F l).
Proof.
  induction 1 as [|b l H O IH]; [constructor|]. unfold rewrite_adj in *. cbn [flat_map].
  destruct (F (b_src b) (b_dst b) (b_data b)) as [kd|]; [|exact IH]. cbn. constructor; [|exact IH].
  rewrite Forall_forall in *. intros c Hc. apply in_flat_map in Hc as (d & Hd & Hc).
  destruct (F (b_src d) (b_dst d) (b_data d)); [|contradiction]. destruct Hc as [<-|[]]. apply (H d Hd).
Qed.

Lemma cut_ne dir es x y kd kd' : cut dir es x y kd = Some kd' -> kd' <> [].
Proof. unfold cut. destruct (firstn _ kd); [discriminate|]. intros E; inversion E; discriminate. Qed.

Lemma rewrite_cut_ne dir es l b : In b (rewrite_adj (cut dir es) l) -> b_data b <> [].
Proof.
  unfold rewrite_adj. intros H. apply in_flat_map in H as (c & _ & H).
  destruct (cut dir es (b_src c) (b_dst c) (b_data c)) eqn:E; [|contradiction]. destruct H as [<-|[]]. cbn. eapply cut_ne; eassumption.
Qed.

Lemma drop_pairs_cut dir es : forall l, ForallOrdPairs (apart dir) l -> (forall b, In b l -> b_data b <> []) ->
  fold_left (fun acc uv => drop_pair dir true (fst uv) (snd uv) acc) es l = rewrite_adj (cut dir es) l.
Proof.
  induction es as [|[u v] es IH]; intros l O NE; cbn [fold_left fst snd].
  - symmetry. etransitivity; [|exact (rewrite_adj_some l)]. apply rewrite_adj_ext. intros b Hb. apply cut_nil. auto.
  - rewrite drop_pair_cut by assumption. rewrite IH.
    + rewrite rewrite_adj_comp. apply rewrite_adj_ext. intros b _. symmetry. apply cut_cons.
    + apply rewrite_adj_apart. assumption.
    + apply rewrite_cut_ne.
Qed.

Lemma filter_length_split {A} (p q : A -> bool) l :
  List.length (filter p l) = List.length (filter (fun x => p x && q x) l) + List.length (filter (fun x => p x && negb (q x)) l).
Proof. induction l as [|a l IH]; [reflexivity|]. cbn. destruct (p a), (q a); cbn; lia. Qed.

(** remove_edges on a multigraph keeps, between two nodes, as many edges as were accepted, the ones
    inserted first *)
Definition kept_between (g : graph) (p : key -> key -> attrs -> bool) (u v : key) : nat :=
  listed_between g (filter (on_edge p) (edges_data g)) u v.

Lemma filter_filter {A} (p q : A -> bool) l : filter p (filter q l) = filter (fun x => p x && q x) l.
Proof. induction l as [|a l IH]; [reflexivity|]. cbn. destruct (q a) eqn:E; cbn; rewrite IH; destruct (p a); reflexivity. Qed.

Lemma filterM_not g f p : edge_test g f p ->
  filterM (fun e => let '(u, v, a) := e in notM (f u v a)) (edges_data g)
  = Ok (filter (fun e => negb (on_edge p e)) (edges_data g)).
Proof.
  intros T. unfold edge_test in T. revert T. induction (edges_data g) as [|[[u v] a] l IH]; intros T; [reflexivity|].
  cbn [filterM]. rewrite (T u v a (or_introl eq_refl)). cbn [notM bind]. rewrite IH by (intros; apply T; right; assumption).
  cbn [bind filter]. change (on_edge p (u, v, a)) with (p u v a). destruct (p u v a); reflexivity.
Qed.

Lemma cut_data_ok multi dir es x y kd kd' : multi = true -> data_ok multi kd -> cut dir es x y kd = Some kd' -> data_ok multi kd'.
Proof.
  intros M (NE & ND & AT & _) E. rewrite cut_some in E. cbn zeta in E. set (n := List.length kd - _) in E.
  destruct (Nat.eqb_spec (List.length (firstn n kd)) 0) as [|L]; [discriminate|]. inversion E; subst kd'. clear E.
  split; [intros Z; rewrite Z in L; apply L; reflexivity|]. split; [|split; [|congruence]].
  - unfold dkeys in *. rewrite <- firstn_map. rewrite <- (firstn_skipn n (map fst kd)) in ND. apply NoDup_app_iff in ND. apply ND.
  - intros k a H. apply (AT k a). rewrite <- (firstn_skipn n kd). apply in_or_app. left. assumption.
Qed.

Lemma remove_edges_multi g f p : WF g -> g_multi g = true -> edge_test g f p ->
  exists g', remove_edges f g = (g', Ok tt) /\ WF g' /\ same_but_edges g g' /\
    forall u v, edge_data g' u v =
      match edge_data g u v with
      | Some kd => match firstn (kept_between g p u v) kd with [] => None | kd' => Some kd' end
      | None => None
      end.
Proof.
  intros W M T. unfold remove_edges, sbind, sread, smodify. rewrite (filterM_not g f p T). cbn [bind].
  set (es := map fst (filter (fun e => negb (on_edge p e)) (edges_data g))).
  assert (E : remove_edges_from g es = with_adj g (rewrite_adj (cut (g_dir g) es) (g_adj g))).
  { unfold remove_edges_from, with_adj. rewrite M. f_equal. apply drop_pairs_cut; [apply (wf_distinct g W)|apply (wf_ne g W)]. }
  exists (remove_edges_from g es). split; [reflexivity|]. rewrite E. split; [|split].
  - apply WF_rewrite; [assumption|]. intros u v kd kd' K C. eapply cut_data_ok; eassumption.
  - repeat split.
  - assert (Sy : g_dir g = false -> forall u v kd, cut (g_dir g) es u v kd = cut (g_dir g) es v u kd).
    { intros D u v kd. unfold cut. assert (X : filter (fun uv => jn (g_dir g) (fst uv) (snd uv) u v) es = filter (fun uv => jn (g_dir g) (fst uv) (snd uv) v u) es).
      { apply filter_ext. intros e. apply eq_true_iff_eq. rewrite !jn_iff, D. intuition congruence. }
      rewrite X. reflexivity. }
    intros u v. rewrite edge_data_rewrite by assumption. destruct (edge_data g u v) as [kd|] eqn:ED; [|reflexivity].
    unfold cut. assert (N : List.length kd - List.length (filter (fun uv => jn (g_dir g) (fst uv) (snd uv) u v) es) = kept_between g p u v).
    { assert (L : List.length kd = listed_between g (edges_data g) u v).
      { rewrite <- multiplicity_listed by assumption. unfold multiplicity. rewrite ED. reflexivity. }
      unfold listed_between in L. rewrite (filter_length_split _ (on_edge p)) in L.
      unfold kept_between, listed_between. rewrite filter_filter. unfold es.
      assert (X : List.length (filter (fun uv => jn (g_dir g) (fst uv) (snd uv) u v) (map fst (filter (fun e => negb (on_edge p e)) (edges_data g))))
        = List.length (filter (fun x => jn (g_dir g) u v (fst (fst x)) (snd (fst x)) && negb (on_edge p x)) (edges_data g))).
      { clear. induction (edges_data g) as [|e l IH]; [reflexivity|]. cbn [filter]. 
        destruct (on_edge p e) eqn:O; cbn [negb map filter]; rewrite ?andb_false_r, ?andb_true_r; [exact IH|].
        rewrite (jn_sym (g_dir g) (fst (fst e))). destruct (jn (g_dir g) u v (fst (fst e)) (snd (fst e))); cbn [List.length]; rewrite IH; reflexivity. }
      rewrite X, L. lia. }
    rewrite N. reflexivity.
Qed.

Lemma remove_filter_multiplicity g f p : WF g -> g_multi g = true -> edge_names g -> edge_test g f p ->
  exists g' h, remove_edges f g = (g', Ok tt) /\ filter_edges g f = Ok h /\ same_but_edges g g' /\ same_but_edges g h
    /\ forall u v, multiplicity g' u v = multiplicity h u v.
Proof.
  intros W M N T. destruct (remove_edges_multi g f p W M T) as (g' & E & W' & S & D).
  destruct (filter_edges_spec g f p W N T) as (h & E' & W'' & S' & D' & _). exists g', h. repeat (split; [assumption|]).
  intros u v. rewrite (multiplicity_listed h) by assumption.
  assert (KD : g_dir h = g_dir g) by (destruct S' as ((X & _) & _); congruence).
  unfold listed_between. rewrite D', KD. fold (listed_between g (filter (on_edge p) (edges_data g)) u v). fold (kept_between g p u v).
  unfold multiplicity. rewrite D. destruct (edge_data g u v) as [kd|] eqn:ED.
  - assert (LE : kept_between g p u v <= List.length kd).
    { assert (L : List.length kd = listed_between g (edges_data g) u v).
      { rewrite <- multiplicity_listed by assumption. unfold multiplicity. rewrite ED. reflexivity. }
      rewrite L. unfold kept_between, listed_between. rewrite filter_filter. rewrite (filter_length_split (fun e => jn (g_dir g) u v (fst (fst e)) (snd (fst e))) (on_edge p)). lia. }
    destruct (firstn (kept_between g p u v) kd) eqn:F.
    + apply (f_equal (@List.length _)) in F. rewrite firstn_length in F. cbn in F. lia.
    + rewrite <- F, firstn_length. lia.
  - assert (L : listed_between g (edges_data g) u v = 0).
    { rewrite <- multiplicity_listed by assumption. unfold multiplicity. rewrite ED. reflexivity. }
    unfold kept_between, listed_between in *. rewrite filter_filter. rewrite (filter_length_split _ (on_edge p)) in L. lia.
Qed.

(** ** comparing multigraphs *)
Lemma size_multiplicity g : WF g -> size g = sum_nat (map (fun e => multiplicity g (fst e) (snd e)) (edges g)).
Proof.
  intros W. rewrite size_pairs. unfold edges. rewrite map_map. apply sum_ext. intros [[u v] kd] H. cbn [fst snd].
  apply edge_pairs_data in H; [|assumption]. unfold multiplicity. rewrite H. reflexivity.
Qed.

Lemma NoDup_incl_split {A} (eq_dec : forall a b : A, {a = b} + {a <> b}) (l l' : list A) : NoDup l -> NoDup l' -> incl l l' ->
  Permutation l' (l ++ filter (fun x => if in_dec eq_dec x l then false else true) l').
Proof.
  intros N N' I. apply NoDup_Permutation; [assumption| |].
  - apply NoDup_app_iff. split; [assumption|]. split; [apply NoDup_filter; assumption|].
    intros x Hx Hy. apply filter_In in Hy as [_ Hy]. destruct (in_dec eq_dec x l); [discriminate|contradiction].
  - intros x. rewrite in_app_iff, filter_In. destruct (in_dec eq_dec x l) as [i|i]; split; [tauto| |tauto|tauto].
    intros _. apply I. assumption.
Qed.

Lemma multiplicity_sym g u v : g_dir g = false -> multiplicity g u v = multiplicity g v u.
Proof. intros D. unfold multiplicity. rewrite edge_data_sym by assumption. reflexivity. Qed.

Lemma multiplicity_pos g u v : WF g -> (has_edge g u v = true <-> 0 < multiplicity g u v).
Proof.
  intros W. unfold has_edge, multiplicity. destruct (edge_data g u v) as [kd|] eqn:E; [|split; [discriminate|lia]].
  pose proof (edge_data_ne _ _ _ _ W E). destruct kd; [congruence|]. cbn. split; [lia|reflexivity].
Qed.

Lemma oriented_multiplicity A B : g_dir A = g_dir B -> WF A -> WF B ->
  (forall u v, In (u, v) (edges A) -> has_edge B u v = true) ->
  forall e, In e (edges A) -> multiplicity B (fst (orient (edges B) e)) (snd (orient (edges B) e)) = multiplicity B (fst e) (snd e).
Proof.
  intros D WA WB H [u v] He. unfold orient. destruct (in_dec pair_eq_dec (u, v) (edges B)) as [i|i]; [reflexivity|]. cbn.
  apply H in He. apply has_edge_edges in He; [|assumption]. destruct He as [He|[DB He]]; [contradiction|]. apply multiplicity_sym. assumption.
Qed.

Lemma multiplicities_le A B : g_dir A = g_dir B -> WF A -> WF B ->
  (forall u v, In (u, v) (edges A) -> has_edge B u v = true) ->
  sum_nat (map (fun e => multiplicity B (fst e) (snd e)) (edges A))
  + sum_nat (map (fun e => multiplicity B (fst e) (snd e))
      (filter (fun x => if in_dec pair_eq_dec x (map (orient (edges B)) (edges A)) then false else true) (edges B))) = size B.
Proof.
  intros D WA WB H. rewrite (size_multiplicity B WB). destruct (orient_edges A B WA WB D H) as [N I].
  pose proof (NoDup_incl_split pair_eq_dec _ _ N (edges_NoDup B WB) I) as P.
  apply (Permutation_map (fun e => multiplicity B (fst e) (snd e))) in P. apply sum_nat_perm in P. rewrite P.
  rewrite map_app. unfold sum_nat. rewrite sum_nat_app. f_equal. rewrite map_map. f_equal. apply map_ext_in.
  intros e He. symmetry. exact (oriented_multiplicity A B D WA WB H e He).
Qed.

Lemma sum_pointwise {A} (f h : A -> nat) l : (forall a, In a l -> f a <= h a) -> sum_nat (map h l) <= sum_nat (map f l) ->
  forall a, In a l -> f a = h a.
Proof.
  unfold sum_nat. induction l as [|x l IH]; intros H E a Ha; [destruct Ha|]. cbn in E.
  assert (LE : forall l, (forall a, In a l -> f a <= h a) -> fold_right Nat.add 0 (map f l) <= fold_right Nat.add 0 (map h l)).
  { clear. induction l as [|x l IH]; intros H; cbn; [lia|]. pose proof (H x (or_introl eq_refl)).
    assert (fold_right Nat.add 0 (map f l) <= fold_right Nat.add 0 (map h l)) by (apply IH; intros; apply H; right; assumption). lia. }
  pose proof (H x (or_introl eq_refl)). pose proof (LE l (fun a Ha => H a (or_intror Ha))).
  destruct Ha as [<-|Ha]; [lia|]. apply IH; [intros; apply H; right; assumption|lia|assumption].
Qed.

Lemma sum_mono {A} (f h : A -> nat) l : (forall a, In a l -> f a <= h a) -> sum_nat (map f l) <= sum_nat (map h l).
Proof.
  unfold sum_nat. induction l as [|x l IH]; intros H; cbn; [lia|]. pose proof (H x (or_introl eq_refl)).
  assert (fold_right Nat.add 0 (map f l) <= fold_right Nat.add 0 (map h l)) by (apply IH; intros; apply H; right; assumption). lia.
Qed.

Lemma are_same_multigraphs A B : WF A -> WF B -> same_kind A B ->
  (forall u v, has_edge B u v = true -> multiplicity A u v <= multiplicity B u v) ->
  (are_same_graphs A B false = true <-> same_node_set A B /\ forall u v, multiplicity A u v = multiplicity B u v).
Proof.
  intros WA WB [D M'] LE. unfold are_same_graphs. rewrite andb_true_iff, (have_same_nodes_iff A B false WA WB).
  assert (X : have_same_edges A B false = true <-> forall u v, multiplicity A u v = multiplicity B u v).
  { unfold have_same_edges. rewrite andb_true_iff, Nat.eqb_eq, forallb_forall. split.
    - intros [S F].
      assert (H : forall u v, In (u, v) (edges A) -> has_edge B u v = true).
      { intros u v H. apply edges_edges_data in H as (a & H); [|assumption]. apply F in H. apply andb_true_iff in H. tauto. }
      pose proof (multiplicities_le A B D WA WB H) as T.
      assert (P : forall e, In e (edges A) -> multiplicity A (fst e) (snd e) <= multiplicity B (fst e) (snd e)).
      { intros [u v] He. apply LE, H. assumption. }
      pose proof (sum_mono _ _ _ P) as SM. rewrite <- size_multiplicity in SM by assumption.
      assert (EQ : forall e, In e (edges A) -> multiplicity A (fst e) (snd e) = multiplicity B (fst e) (snd e)).
      { apply (sum_pointwise (fun e => multiplicity A (fst e) (snd e)) (fun e => multiplicity B (fst e) (snd e))); [exact P|]. rewrite <- (size_multiplicity A WA). lia. }
      assert (Z : sum_nat (map (fun e => multiplicity B (fst e) (snd e))
        (filter (fun x => if in_dec pair_eq_dec x (map (orient (edges B)) (edges A)) then false else true) (edges B))) = 0) by lia.
      assert (EA : forall u v, has_edge A u v = true -> multiplicity A u v = multiplicity B u v).
      { intros u v E. apply has_edge_edges in E; [|assumption]. destruct E as [E|[DA E]]; [apply (EQ (u, v) E)|].
        rewrite (multiplicity_sym A), (multiplicity_sym B) by congruence. apply (EQ (v, u) E). }
      assert (EB : forall u v, In (u, v) (edges B) -> has_edge A u v = true).
      { intros u v E. destruct (in_dec pair_eq_dec (u, v) (map (orient (edges B)) (edges A))) as [i|i].
        - apply in_map_iff in i as ([x y] & Eo & Hxy). unfold orient in Eo.
          assert (HA : has_edge A x y = true) by (apply has_edge_edges; tauto).
          destruct (in_dec pair_eq_dec (x, y) (edges B)) as [j|j]; [congruence|]. cbn in Eo. inversion Eo; subst.
          specialize (H v u Hxy). apply has_edge_edges in H; [|assumption]. destruct H as [H|[DB H]]; [contradiction|].
          rewrite has_edge_sym by congruence. assumption.
        - exfalso. assert (I : In (u, v) (filter (fun x => if in_dec pair_eq_dec x (map (orient (edges B)) (edges A)) then false else true) (edges B))).
          { apply filter_In. split; [assumption|]. destruct (in_dec pair_eq_dec (u, v) _); [contradiction|reflexivity]. }
          assert (HB : has_edge B u v = true) by (apply has_edge_edges; tauto). apply multiplicity_pos in HB; [|assumption].
          assert (LEs : multiplicity B u v <= 0); [|lia]. rewrite <- Z.
          revert I. generalize (filter (fun x => if in_dec pair_eq_dec x (map (orient (edges B)) (edges A)) then false else true) (edges B)).
          clear. intros l I. unfold sum_nat. induction l as [|e l IH]; [destruct I|]. destruct I as [->|I]; cbn; [lia|]. apply IH in I. lia. }
      intros u v. destruct (has_edge A u v) eqn:E; [auto|].
      assert (has_edge B u v = false).
      { destruct (has_edge B u v) eqn:E'; [|reflexivity]. apply has_edge_edges in E'; [|assumption].
        destruct E' as [E'|[DB E']]; apply EB in E'; [congruence|]. rewrite has_edge_sym in E' by congruence. congruence. }
      assert (Q : forall G, WF G -> has_edge G u v = false -> multiplicity G u v = 0).
      { intros G WG HG. destruct (multiplicity G u v) eqn:Em; [reflexivity|]. exfalso. assert (has_edge G u v = true) by (apply multiplicity_pos; [assumption|lia]). congruence. }
      rewrite !Q by assumption. reflexivity.
    - intros EQ. assert (HE : forall u v, has_edge A u v = has_edge B u v).
      { intros u v. apply eq_true_iff_eq. rewrite !multiplicity_pos by assumption. rewrite EQ. tauto. }
      assert (H1 : forall u v, In (u, v) (edges A) -> has_edge B u v = true) by (intros u v H; rewrite <- HE; apply has_edge_edges; tauto).
      assert (H2 : forall u v, In (u, v) (edges B) -> has_edge A u v = true) by (intros u v H; rewrite HE; apply has_edge_edges; tauto).
      split.
      + pose proof (multiplicities_le A B D WA WB H1) as T1. pose proof (multiplicities_le B A (eq_sym D) WB WA H2) as T2.
        rewrite (size_multiplicity A WA) in *. rewrite (size_multiplicity B WB) in *.
        assert (E1 : sum_nat (map (fun e => multiplicity A (fst e) (snd e)) (edges A)) = sum_nat (map (fun e => multiplicity B (fst e) (snd e)) (edges A))) by (apply sum_ext; intros; apply EQ).
        assert (E2 : sum_nat (map (fun e => multiplicity A (fst e) (snd e)) (edges B)) = sum_nat (map (fun e => multiplicity B (fst e) (snd e)) (edges B))) by (apply sum_ext; intros; apply EQ).
        lia.
      + intros [[u v] a] H. rewrite andb_true_r. apply H1. eapply edges_data_edges. eassumption. }
  rewrite X. intuition discriminate.
Qed.
