(** * Proofs about monopartite_projection: the links of the result *)
From Coq Require Import Lia QArith Qminmax Lqa.
From Verif Require Import PyBase PyNum L_Base NxGraph L_Nx L_Nx2 S_Graph L_Graph L_Graph2 M_Proj S_Partition L_Partition S_Sparse L_Disparity S_Num L_Num S_Proj L_Proj L_Proj2 L_Proj3.
Close Scope Q_scope.

Lemma names_metric name m : In (name, m) metric_names <-> instantiate_online_metric name = Ok m.
Proof.
  split.
  - cbn. intros H. repeat (destruct H as [H|H]; [inversion H; reflexivity|]). destruct H.
  - unfold instantiate_online_metric. destruct name as [| | |[| |]]; try discriminate.
    + intros H; inversion H. left; reflexivity.
    + intros H. unfold metric_names, VStr. cbn [In].
      repeat match type of H with (if String.eqb ?a ?b then _ else _) = _ => destruct (String.eqb_spec a b) as [->|]; [inversion H; tauto|] end.
      discriminate.
Qed.

Lemma unknown_metric name : (forall m, ~ In (name, m) metric_names) -> instantiate_online_metric name = Err TypeError.
Proof.
  intros H. destruct (instantiate_online_metric name) as [m|e] eqn:E; [apply names_metric in E; elim (H m E)|].
  unfold instantiate_online_metric in E. destruct name as [| | |[| |]]; try congruence.
  repeat match type of E with (if ?c then _ else _) = _ => destruct c; try discriminate end. congruence.
Qed.

Lemma stored_wlink x : stored_weight (K "weight") (wlink x) = Some (value x).
Proof. destruct x; reflexivity. Qed.

Lemma graph_empty_WF : WF (empty_graph false false).
Proof. apply wf_WF. reflexivity. Qed.

Section Links.
Variables (lib : libm) (g : graph) (p : part) (attr wattr : key) (chk : bool).
Hypothesis W : WF g.
Hypothesis D : g_dir g = false.
Hypothesis M : g_multi g = false.
Hypothesis L : lib_ok lib.

(** what the first loop adds up for a node, and the second one for two nodes *)
Definition acc_of (m : metric) (n : key) : pynum := total lib (map (fun tta => inc lib m (get_weight wattr (snd tta))) (items g n)).
Definition inter_of (m : metric) (u v : key) : pynum := total lib (hits lib m wattr v (entries g u)).
Definition computed (m : metric) (u v : key) (x : pynum) : Prop :=
  compute_metric lib m (inter_of m u v) (finalize_norm lib m (acc_of m u)) (finalize_norm lib m (acc_of m v)) = Ok x.

Lemma norm_eq m norms h0 ex n norm : phase1 lib m g p attr wattr chk (g_nodes g) (norms, h0, ex) -> dget n norms = Some norm ->
  norm = finalize_norm lib m (acc_of m n).
Proof.
  intros (_ & _ & N & V & Kd) E. destruct (Kd n (dget_Some_key _ _ _ E)) as (a & I1 & I2).
  destruct (V n a I1 I2) as (acc & A1 & _ & A2). rewrite E in A2. destruct (should_keep_norm m acc); [|discriminate]. inversion A2; subst.
  apply accumulated_inv in A1 as (-> & _). reflexivity.
Qed.

Lemma link_eq m norms h0 ex n1 ls l : phase1 lib m g p attr wattr chk (g_nodes g) (norms, h0, ex) ->
  links_of lib m g wattr norms n1 = Ok ls -> In l ls ->
  computed m (fst (fst l)) (snd (fst l)) (snd l) /\ (exists t, shared g (fst (fst l)) (snd (fst l)) t) /\ fst (fst l) <> snd (fst l).
Proof.
  intros P E I. destruct (links_of_inv _ _ _ _ _ _ _ E) as (norm1 & inter & E1 & EI & _ & H).
  destruct (H l I) as (F & i & norm2 & H1 & H2 & H3). rewrite F.
  rewrite intersections_flat in EI. apply intersections_inv in EI as (_ & Kd & V).
  destruct (Kd (snd (fst l)) (dget_Some_key _ _ _ H1)) as [NE LT]. specialize (V _ LT). rewrite H1 in V. destruct V as [V1 V2].
  rewrite (norm_eq _ _ _ _ _ _ P E1), (norm_eq _ _ _ _ _ _ P H2), V2 in H3.
  split; [exact H3|]. split; [|congruence]. apply hits_shared in V1; assumption.
Qed.

Lemma computed_similarity m u v x : (weighted m = true -> exact_sums lib wattr g) -> computed m u v x ->
  similarity lib m wattr g u v (value x).
Proof.
  intros XS E. eapply (compute_similarity lib g wattr m W M L); [| | |exact E].
  - apply hits_value; assumption.
  - apply sum_value; assumption.
  - apply sum_value; assumption.
Qed.

Lemma computed_stored m u v x : computed m u v x -> stored_as m (val_of x) (value x).
Proof.
  apply compute_stored with (g := g) (u := u) (v := v). intros Wm. apply hits_count; assumption.
Qed.

Lemma concat_link {f : key -> res (list link)} ns ls l : mapM f ns = Ok ls -> In l (List.concat ls) ->
  exists n l0, In n ns /\ f n = Ok l0 /\ In l l0.
Proof.
  intros E I. apply mapM_inv in E. apply in_concat in I as (l0 & I0 & I). induction E as [|n l1 ns ls H E IH]; [destruct I0|].
  destruct I0 as [->|I0].
  - exists n, l0. split; [left; reflexivity|]. split; assumption.
  - destruct (IH I0) as (n' & l' & A & B & C). exists n', l'. split; [right; assumption|]. split; assumption.
Qed.

Lemma concat_link_of {f : key -> res (list link)} ns ls n l0 l : mapM f ns = Ok ls -> In n ns -> f n = Ok l0 -> In l l0 ->
  In l (List.concat ls).
Proof.
  intros E I F Il. apply mapM_inv in E. induction E as [|n' l1 ns ls H E IH]; [destruct I|]. cbn [List.concat]. apply in_or_app.
  destruct I as [->|I]; [left; congruence|right; auto].
Qed.

Lemma projection_links name thr m h u v a : In (name, m) metric_names -> order g <> 0 ->
  monopartite_projection lib g p attr wattr name chk thr = Ok h -> edge_attrs h u v (KInt 0) = Some a ->
  exists x, a = wlink x /\ (computed m u v x \/ computed m v u x) /\ (exists t, shared g u v t) /\ u <> v.
Proof.
  intros Hn O E EA. destruct (projection_inv _ _ _ _ _ _ _ _ _ W O E) as (m' & t & norms & h0 & ls & Em & Et & P & El & Eh).
  destruct (assembled _ _ _ _ _ _ _ _ _ _ _ t W P El) as (F & _ & _ & _ & _ & _ & EE). rewrite <- Eh in EE.
  apply names_metric in Hn. rewrite Hn in Em. inversion Em; subst m'. rewrite EE in EA.
  destruct (List.find (joins u v) (List.concat ls)) as [l|] eqn:Fl; [|discriminate]. destruct (passes t l); [|discriminate].
  inversion EA; subst a. apply find_some in Fl as [I J]. destruct (concat_link _ _ _ El I) as (n & l0 & _ & E0 & I0).
  destruct (link_eq _ _ _ _ _ _ _ P E0 I0) as (S & (t' & Sh) & NE).
  exists (snd l). split; [reflexivity|]. unfold joins in J. apply jn_iff in J. destruct J as [[-> ->]|(_ & -> & ->)].
  - split; [left; assumption|]. split; [eauto|assumption].
  - split; [right; assumption|]. split; [exists t'; unfold shared in *; tauto|congruence].
Qed.

Lemma projection_weights name thr m h u v a : (weighted m = true -> exact_sums lib wattr g) -> In (name, m) metric_names -> order g <> 0 ->
  monopartite_projection lib g p attr wattr name chk thr = Ok h -> edge_attrs h u v (KInt 0) = Some a ->
  exists x, a = wlink x /\ similarity lib m wattr g u v (value x) /\ stored_as m (val_of x) (value x) /\ (exists t, shared g u v t) /\ u <> v.
Proof.
  intros XS Hn O E EA. destruct (projection_links name thr m h u v a Hn O E EA) as (x & Ex & H & S & NE).
  exists x. split; [exact Ex|]. split; [|split; [destruct H; eapply computed_stored; eassumption|split; assumption]].
  destruct H as [H|H]; apply computed_similarity in H; try assumption. destruct L as (R & LS & LL & _). apply similarity_sym; assumption.
Qed.

Lemma same_part_unmarked : usable p = true -> bipartite g p attr -> unmarked g p attr -> forall n t a,
  kept g p attr n -> edge_attrs g n t (KInt 0) = Some a -> same_part p attr t a = false.
Proof.
  intros U B UM n t a Kn E. unfold same_part. destruct p as [v|[|] l]; [|discriminate|].
  - destruct (val_eqb (get_or_none attr a) v) eqn:V; [|reflexivity]. elim (UM v eq_refl n t a Kn E). cbn. apply get_keeps. assumption.
  - apply mem_nIn. intros C. apply (B n t (edge_attrs_has _ _ _ _ _ E)); [assumption|].
    assert (I : In t (nodes g)).
    { unfold edge_attrs in E. destruct (edge_data g n t) eqn:ED; [|discriminate]. eapply edge_data_nodes in ED; [|assumption]. tauto. }
    apply node_data_In in I as (a' & I). exists a'. split; assumption.
Qed.

Lemma numeric_weight : numeric wattr g -> forall u t a, edge_attrs g u t (KInt 0) = Some a -> num_of (get_weight wattr a) <> None.
Proof.
  intros N u t a E. unfold get_weight. destruct (dget wattr a) eqn:F; [eapply N; eassumption|discriminate].
Qed.

Lemma projection_runs name m :
  usable p = true -> In (name, m) metric_names -> bipartite g p attr -> (exists n, kept g p attr n) -> comparable_part g p attr ->
  part_names g p attr -> (chk = true -> unmarked g p attr) -> (weighted m = true -> numeric wattr g) ->
  (forall u t, kept g p attr u -> has_edge g u t = true -> should_keep_norm m (acc_of m u) = true) ->
  (forall u v t, kept g p attr u -> kept g p attr v -> shared g u v t -> exists x, computed m u v x) ->
  exists h, monopartite_projection lib g p attr wattr name chk VNone = Ok h
  /\ forall u v t, kept g p attr u -> kept g p attr v -> u <> v -> shared g u v t -> has_edge h u v = true.
Proof.
  intros U Hn B (n0 & K0) C PN UM NU KP CT. apply names_metric in Hn.
  assert (O : order g <> 0).
  { destruct K0 as (a & E & _). apply node_data_Some_In in E. unfold order, nodes, dkeys in *. destruct (g_nodes g); [destruct E|discriminate]. }
  destruct (phase1_total lib m g p attr wattr chk W) as ([[norms h0] ex] & E1).
  { intros n a I Pn. assert (Kn : kept g p attr n) by (apply kept_In; eauto). split.
    - apply accumulated_total.
      + intros Hc t' a' I'. apply (same_part_unmarked U B (UM Hc) n); [assumption|apply items_In; assumption].
      + intros Hw t' a' I'. apply (numeric_weight (NU Hw) n t'). apply items_In; assumption.
    - apply kwargs_ok_iff. intros k Ik. apply (PN n a).
      + apply dget_In; [apply (wf_nodes g W)|assumption].
      + apply in_part_keeps; assumption.
      + apply In_dkeys in Ik as (v & Ik). apply filter_In in Ik as [Ik _]. apply In_dkeys. eauto.
      + intros ->. apply In_dkeys in Ik as (v & Ik). apply filter_In in Ik as [_ Ik]. cbn in Ik. rewrite key_eqb_refl in Ik. discriminate. }
  pose proof (phase1_inv _ _ _ _ _ _ _ _ W E1) as P. pose proof P as (Hh & Hex & N & V & Kd).
  assert (ex = true) as ->.
  { apply Hex. intros C0. apply kept_In in K0; [|assumption|assumption]. destruct K0 as (a & I & Pn).
    assert (I' : In (n0, a) (filter (selected p attr) (g_nodes g))) by (apply filter_In; split; assumption).
    rewrite C0 in I'. destruct I'. }
  assert (HN : forall n t, kept g p attr n -> has_edge g n t = true -> dget n norms = Some (finalize_norm lib m (acc_of m n))).
  { intros n t Kn He. pose proof Kn as Kn'. apply kept_In in Kn'; [|assumption|assumption]. destruct Kn' as (a & I & Pn).
    destruct (V n a I Pn) as (acc & EA & _ & Hd). apply accumulated_inv in EA as (EA & _). fold (acc_of m n) in EA. subst acc.
    rewrite Hd, (KP n t Kn He). reflexivity. }
  assert (KN : forall n, In n (dkeys norms) -> kept g p attr n).
  { intros n I. destruct (Kd n I) as (a & I1 & I2). apply kept_In; eauto. }
  assert (SH : forall u v t, kept g p attr u -> shared g u v t -> kept g p attr v).
  { intros u v t Ku [S1 S2]. apply (B u t S1) in Ku.
    destruct (has_edge_attrs g v t W M S2) as (a & E). unfold edge_attrs in E. destruct (edge_data g v t) eqn:ED; [|discriminate].
    apply edge_data_nodes in ED; [|assumption]. destruct ED as [ED _]. apply node_data_In in ED as (av & ED).
    destruct (in_part p attr v av) eqn:Pv.
    - exists av. split; [assumption|apply in_part_keeps; assumption].
    - exfalso. apply Ku. rewrite has_edge_sym in S2 by assumption. apply (B t v S2). intros (av' & E' & K').
      rewrite E' in ED. inversion ED; subst. apply in_part_keeps in K'; [|assumption]. congruence. }
  assert (LO : forall n, In n (dkeys norms) -> exists l, links_of lib m g wattr norms n = Ok l
     /\ forall v t, key_lt n v = Ok true -> shared g n v t -> exists x, In (n, v, x) l).
  { intros n I. destruct (dkeys_dget _ _ I) as (norm1 & D1).
    pose proof (norm_eq _ _ _ _ _ _ P D1) as ->.
    assert (exists inter, intersections_of lib m g wattr n = Ok inter) as (inter & EI).
    { rewrite intersections_flat.
      assert (EN : forall e, In e (entries g n) -> edge_attrs g n (fst (fst e)) (KInt 0) = Some (snd (fst e)) /\ edge_attrs g (fst (fst e)) (fst (snd e)) (KInt 0) = Some (snd (snd e))).
      { intros e Ie. unfold entries in Ie. apply in_flat_map in Ie as ([t a] & It & Ie). apply in_map_iff in Ie as ([v b] & <- & Iv). cbn in *.
        split; apply items_In; assumption. }
      apply intersections_total.
      - intros e Ie NE. destruct (EN e Ie) as [X1 X2]. unfold key_gt.
        assert (Kv : kept g p attr (fst (snd e))).
        { apply (SH n _ (fst (fst e))); [apply KN; assumption|]. split; [eapply edge_attrs_has; eassumption|].
          rewrite has_edge_sym by assumption. eapply edge_attrs_has; eassumption. }
        pose proof (KN n I) as Kn. destruct C as [C|C]; destruct (C _ Kn) as (x & ->); destruct (C _ Kv) as (y & ->); cbn; eauto.
      - intros Hw e Ie. destruct (EN e Ie) as [X1 X2]. split; apply pynum_num; eapply numeric_weight; eauto. }
    assert (IV : NoDup (dkeys inter) /\ (forall k, In k (dkeys inter) -> k <> n /\ key_lt n k = Ok true)
       /\ (forall n2, key_lt n n2 = Ok true -> match dget n2 inter with
            | Some q => hits lib m wattr n2 (entries g n) <> [] /\ q = total lib (hits lib m wattr n2 (entries g n))
            | None => hits lib m wattr n2 (entries g n) = [] end)).
    { rewrite intersections_flat in EI. apply intersections_inv in EI. exact EI. }
    destruct IV as (NI & KI & VI).
    assert (MN : exists l, metric_neighbors lib m norms (finalize_norm lib m (acc_of m n)) inter = Ok l).
    { apply mapM_total. intros [n2 q] Iq. cbn [fst snd].
      assert (Dq : dget n2 inter = Some q) by (apply dget_In; assumption).
      destruct (KI n2 (dget_Some_key _ _ _ Dq)) as [NE LT]. specialize (VI n2 LT). rewrite Dq in VI. destruct VI as [V1 V2].
      apply hits_shared in V1; try assumption. destruct V1 as (t & S). pose proof (KN n I) as Kn.
      assert (Kv : kept g p attr n2) by (eapply SH; eassumption).
      rewrite (HN n2 t Kv (proj2 S)). destruct (CT n n2 t Kn Kv S) as (x & Ex). unfold computed in Ex. fold (inter_of m n n2) in V2. rewrite V2, Ex.
      cbn. eauto. }
    destruct MN as (l & El).
    assert (EL : links_of lib m g wattr norms n = Ok (map (fun ns => (n, fst ns, snd ns)) l)).
    { unfold links_of. rewrite D1, EI. cbn [bind]. rewrite El. reflexivity. }
    exists (map (fun ns => (n, fst ns, snd ns)) l). split; [assumption|]. intros v t LT S.
    destruct (links_of_inv _ _ _ _ _ _ _ EL) as (norm1' & inter' & _ & EI' & EK & _). rewrite EI in EI'. inversion EI'; subst inter'.
    assert (In v (dkeys inter)) as Iv.
    { specialize (VI v LT). destruct (dget v inter) eqn:Dv; [eapply dget_Some_key; eassumption|].
      exfalso. assert (H : hits lib m wattr v (entries g n) <> []) by (apply hits_shared; eauto). congruence. }
    rewrite <- EK in Iv. apply in_map_iff in Iv as ([[n' v'] x] & Ev & Il). cbn in Ev. subst v'. exists x.
    destruct (links_of_lt _ _ _ _ _ _ _ EL _ Il) as (F & _). cbn in F. subst n'. assumption. }
  destruct (mapM_total (links_of lib m g wattr norms) (dkeys norms)) as (ls & El).
  { intros n I. destruct (LO n I) as (l & E & _). eauto. }
  assert (EQ : monopartite_projection lib g p attr wattr name chk VNone =
     Ok (put_links (filter (passes None) (List.concat ls)) h0)).
  { unfold monopartite_projection. rewrite Hn. cbn [bind check_threshold]. apply Nat.eqb_neq in O. rewrite O. rewrite E1.
    cbn [bind]. rewrite project_all, El. reflexivity. }
  eexists. split; [exact EQ|].
  destruct (assembled _ _ _ _ _ _ _ _ _ _ _ None W P El) as (F & Wh & Dh & _ & _ & _ & EE).
  set (h := put_links (filter (passes None) (List.concat ls)) h0) in *.
  assert (LT : forall u v t, kept g p attr u -> shared g u v t -> key_lt u v = Ok true -> has_edge h u v = true).
  { intros u v t Ku S Luv. pose proof (HN u t Ku (proj1 S)) as Du. apply dget_Some_key in Du.
    destruct (LO u Du) as (l & Eu & Hl). destruct (Hl v t Luv S) as (x & Ix).
    pose proof (concat_link_of _ _ _ _ _ El Du Eu Ix) as Ic.
    apply (edge_attrs_has h u v (KInt 0) (wlink x)). rewrite EE.
    rewrite (find_joins_In u v (u, v, x) _ F Ic); [reflexivity|]. unfold joins. apply jn_refl. }
  intros u v t Ku Kv NE S. assert (exists b, key_lt u v = Ok b) as (b & Eb).
  { destruct C as [C|C]; destruct (C _ Ku) as (x & ->); destruct (C _ Kv) as (y & ->); cbn; eauto. }
  destruct b; [eapply LT; eassumption|]. destruct (key_lt_ok_sym _ _ _ Eb) as ([|] & Eb').
  - rewrite has_edge_sym by assumption. eapply (LT v u t); [assumption|unfold shared in *; tauto|assumption].
  - exfalso. apply NE. apply key_lt_total; assumption.
Qed.

Lemma projection_total name m :
  (weighted m = true -> exact_sums lib wattr g) -> (m = PMI -> (0 < m_round lib (1 / (nq (order g) * nq (order g))))%Q) ->
  usable p = true -> In (name, m) metric_names -> bipartite g p attr -> (exists n, kept g p attr n) -> comparable_part g p attr ->
  part_names g p attr -> (chk = true -> unmarked g p attr) -> (weighted m = true -> numeric wattr g) ->
  (m = Cosine -> forall u t, kept g p attr u -> has_edge g u t = true -> exists t', ~ (bond wattr g u t' == 0)%Q) ->
  exists h, monopartite_projection lib g p attr wattr name chk VNone = Ok h
  /\ forall u v t, kept g p attr u -> kept g p attr v -> u <> v -> shared g u v t -> has_edge h u v = true.
Proof.
  intros XS PO U Hn B Kn C PN UM NU CZ.
  assert (SP : m = Cosine -> forall u t, kept g p attr u -> has_edge g u t = true -> (0 < scalar wattr g u u)%Q).
  { intros Hm u t Ku Hu. destruct (CZ Hm u t Ku Hu) as (t' & NZ). eapply scalar_pos; eassumption. }
  apply projection_runs with (m := m); try assumption.
  - intros u t Ku Hu. apply (keeps_norm lib g wattr m W M u t); [assumption| |apply sum_value; assumption]. intros Hm. eapply SP; eassumption.
  - intros u v t Ku Kv S. apply (compute_total lib g wattr m W M L u v t); [assumption| |assumption|apply hits_value; assumption|apply sum_value; assumption..].
    intros Hm. split; [apply (SP Hm u t Ku (proj1 S))|apply (SP Hm v t Kv (proj2 S))].
Qed.

(** ** nodes *)
Lemma stripped_dget (f : key * attrs -> bool) l n : NoDup (dkeys l) ->
  dget n (map (stripped attr) (filter f l)) =
  match dget n l with Some a => if f (n, a) then Some (dremove [attr] a) else None | None => None end.
Proof.
  induction l as [|[k a] l IH]; intros N; [reflexivity|]. inversion N as [|? ? NI ND]; subst. cbn [filter dget].
  keq n k.
  - destruct (f (k, a)).
    + cbn. rewrite key_eqb_refl. reflexivity.
    + rewrite IH by assumption. cbn in NI. apply dget_None in NI. rewrite NI. reflexivity.
  - destruct (f (k, a)); [|apply IH; assumption]. cbn. apply key_eqb_neq in n0. rewrite n0. apply IH; assumption.
Qed.

Lemma projection_nodes name thr h : order g <> 0 ->
  monopartite_projection lib g p attr wattr name chk thr = Ok h ->
  WF h /\ g_dir h = false /\ g_multi h = false /\ g_attr h = []
  /\ g_nodes h = map (stripped attr) (filter (selected p attr) (g_nodes g))
  /\ filter (selected p attr) (g_nodes g) <> [].
Proof.
  intros O E. destruct (projection_inv _ _ _ _ _ _ _ _ _ W O E) as (m & t & norms & h0 & ls & Em & Et & P & El & Eh).
  destruct (assembled _ _ _ _ _ _ _ _ _ _ _ t W P El) as (F & W1 & D1 & M1 & A1 & G1 & EE). rewrite <- Eh in *.
  split; [assumption|]. split; [assumption|]. split; [assumption|]. split; [assumption|]. split; [assumption|].
  destruct P as (_ & Hex & _). apply Hex. reflexivity.
Qed.

Lemma accumulated_raises m n : (exists acc, accumulated lib m g p attr wattr chk n = Ok acc) \/ accumulated lib m g p attr wattr chk n = Err TypeError.
Proof.
  unfold accumulated. apply foldM_raises. intros s [t a] _. cbn [fst snd]. destruct (chk && same_part p attr t a); [right; reflexivity|].
  unfold accumulate, as_number. destruct m; eauto. destruct (pynum_of _); cbn; eauto.
Qed.

Lemma norms_step_raises m s na : (exists s', norms_step lib m g p attr wattr chk s na = Ok s') \/ norms_step lib m g p attr wattr chk s na = Err TypeError.
Proof.
  destruct s as [[norms h] ex]. unfold norms_step. destruct (in_part p attr (fst na) (snd na)); [|eauto].
  destruct (accumulated_raises m (fst na)) as [(acc & ->)| ->]; [|right; reflexivity]. cbn [bind].
  unfold add_node_kw. destruct (kwargs_ok _ _); cbn; eauto.
Qed.

Lemma check_threshold_raises thr : (exists t, check_threshold thr = Ok t) \/ check_threshold thr = Err TypeError.
Proof.
  unfold check_threshold. destruct thr; eauto; destruct (num_of _); eauto; destruct (q_leb _ _); eauto.
Qed.

Lemma metric_raises name : (exists m, instantiate_online_metric name = Ok m) \/ instantiate_online_metric name = Err TypeError.
Proof.
  destruct (instantiate_online_metric name) as [m|e] eqn:E; [eauto|]. right. rewrite <- E. apply unknown_metric.
  intros m I. apply names_metric in I. congruence.
Qed.

Lemma empty_part_raises name thr : order g <> 0 -> filter (selected p attr) (g_nodes g) = [] ->
  monopartite_projection lib g p attr wattr name chk thr = Err TypeError.
Proof.
  intros O H. destruct (monopartite_projection lib g p attr wattr name chk thr) as [h|e] eqn:E.
  - destruct (projection_nodes _ _ _ O E) as (_ & _ & _ & _ & _ & C). contradiction.
  - unfold monopartite_projection in E. destruct (metric_raises name) as [(m & Em)|Em]; rewrite Em in E; cbn [bind] in E; [|congruence].
    destruct (check_threshold_raises thr) as [(t & Et)|Et]; rewrite Et in E; cbn [bind] in E; [|congruence].
    apply Nat.eqb_neq in O. rewrite O in E.
    destruct (foldM_raises (norms_step lib m g p attr wattr chk) (g_nodes g) ([], empty_graph false false, false) TypeError) as [([[norms h0] ex] & Es)|Es];
      [intros; apply norms_step_raises| |]; rewrite Es in E; cbn [bind] in E; [|congruence].
    apply phase1_inv in Es; [|assumption]. destruct Es as (_ & Hex & _). destruct ex; [|congruence].
    exfalso. apply (proj1 Hex eq_refl). assumption.
Qed.

Lemma collection_check name thr l u v : p = ByCollection false l -> chk = true -> In u l -> In v l -> has_edge g u v = true ->
  monopartite_projection lib g p attr wattr name chk thr = Err TypeError.
Proof.
  intros Hp Hc Iu Iv He. unfold monopartite_projection.
  destruct (metric_raises name) as [(m & ->)| ->]; cbn [bind]; [|reflexivity].
  destruct (check_threshold_raises thr) as [(t & ->)| ->]; cbn [bind]; [|reflexivity].
  destruct (has_edge_attrs g u v W M He) as (a & Ea).
  assert (Nu : exists au, In (u, au) (g_nodes g)).
  { unfold edge_attrs in Ea. destruct (edge_data g u v) eqn:ED; [|discriminate]. eapply edge_data_nodes in ED; [|assumption].
    apply In_dkeys. tauto. }
  destruct Nu as (au & Nu).
  assert (O : Nat.eqb (order g) 0 = false) by (apply Nat.eqb_neq; unfold order; destruct (g_nodes g); [destruct Nu|discriminate]).
  rewrite O. rewrite (foldM_raises_at _ _ _ TypeError (u, au)); [reflexivity|intros; apply norms_step_raises|assumption|].
  intros [[norms h] ex]. unfold norms_step. cbn [fst snd]. rewrite Hp at 1. cbn [in_part]. rewrite (proj2 (mem_In u l) Iu).
  assert (EA : accumulated lib m g p attr wattr chk u = Err TypeError); [|rewrite EA; reflexivity].
  unfold accumulated. apply (foldM_raises_at _ _ _ _ (v, a)).
  - intros s [t' a'] _. cbn [fst snd]. destruct (chk && same_part p attr t' a'); [right; reflexivity|].
    unfold accumulate, as_number. destruct m; eauto. destruct (pynum_of _); cbn; eauto.
  - apply items_In; assumption.
  - intros s. cbn [fst snd]. rewrite Hc, Hp. cbn [same_part]. rewrite (proj2 (mem_In v l) Iv). reflexivity.
Qed.

(** ** threshold *)
Lemma threshold_spec name thr t : check_threshold thr = Ok t ->
  match monopartite_projection lib g p attr wattr name chk VNone, monopartite_projection lib g p attr wattr name chk thr with
  | Err e, Err e' => e = e'
  | Ok h, Ok h' =>
      WF h' /\ g_dir h' = g_dir h /\ g_multi h' = g_multi h /\ g_nodes h' = g_nodes h /\ g_attr h' = g_attr h
      /\ forall u v, edge_attrs h' u v (KInt 0) =
          match edge_attrs h u v (KInt 0) with
          | Some a => match t with
                      | Some t => match stored_weight (K "weight") a with Some x => if q_ltb x t then None else Some a | None => Some a end
                      | None => Some a
                      end
          | None => None
          end
  | _, _ => False
  end.
Proof.
  intros Et. destruct (Nat.eqb (order g) 0) eqn:O.
  { unfold monopartite_projection. destruct (instantiate_online_metric name) as [m|e]; cbn [bind]; [|reflexivity].
    rewrite Et. cbn [check_threshold bind]. rewrite O. split; [apply graph_empty_WF|]. repeat split. }
  unfold monopartite_projection.
  destruct (instantiate_online_metric name) as [m|e] eqn:Em; cbn [bind]; [|reflexivity].
  rewrite Et. cbn [check_threshold bind]. rewrite O.
  destruct (foldM (norms_step lib m g p attr wattr chk) (g_nodes g) ([], empty_graph false false, false)) as [[[norms h0] ex]|e] eqn:Es; cbn [bind]; [|reflexivity].
  apply phase1_inv in Es; [|assumption]. destruct ex; [|reflexivity]. rewrite !project_all.
  destruct (mapM (links_of lib m g wattr norms) (dkeys norms)) as [ls|e] eqn:El; cbn [bind]; [|reflexivity].
  destruct (assembled _ _ _ _ _ _ _ _ _ _ _ None W Es El) as (F & W1 & D1 & M1 & A1 & G1 & E1).
  destruct (assembled _ _ _ _ _ _ _ _ _ _ _ t W Es El) as (_ & W2 & D2 & M2 & A2 & G2 & E2).
  split; [assumption|]. split; [congruence|]. split; [congruence|]. split; [congruence|]. split; [congruence|].
  intros u v. rewrite E1, E2. destruct (List.find (joins u v) (List.concat ls)) as [l|]; [|reflexivity].
  unfold passes. cbn [negb]. destruct t as [t|]; [|reflexivity]. rewrite stored_wlink. destruct (q_ltb (value (snd l)) t); reflexivity.
Qed.
End Links.
