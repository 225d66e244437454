(** * Projections of simple graphs, directed or not, for all metrics *)
From Coq Require Import List ZArith QArith Qminmax Lia Lqa Bool.
From Verif Require Import PyBase PyNum S_Num L_Num L_Sqrt NxGraph L_Base L_Nx L_Nx2 L_Graph L_Graph2 M_Traversal M_Proj S_Partition L_Partition S_Proj L_Proj L_Proj2 L_Proj3 L_Proj4 L_Proj5 L_Proj6 L_Proj7 L_Proj8.
Import ListNotations.
Close Scope Q_scope.

Lemma mapM_errs {A B} (f : A -> res B) l e : (forall a, In a l -> (exists b, f a = Ok b) \/ f a = Err e) ->
  (exists l', mapM f l = Ok l') \/ mapM f l = Err e.
Proof.
  induction l as [|a l IH]; intros H; [left; cbn; eauto|]. cbn [mapM]. destruct (H a (or_introl eq_refl)) as [(b & ->)| ->]; [|right; reflexivity].
  cbn [bind]. destruct IH as [(l' & ->)| ->]; [intros; apply H; right; assumption|left; cbn; eauto|right; reflexivity].
Qed.

Lemma mapM_ext {A B} (f h : A -> res B) l : (forall a, In a l -> f a = h a) -> mapM f l = mapM h l.
Proof.
  induction l as [|a l IH]; intros H; [reflexivity|]. cbn [mapM]. rewrite (H a (or_introl eq_refl)), IH; [reflexivity|].
  intros; apply H; right; assumption.
Qed.

Lemma key_gt_lt_ok u v : (exists b, key_lt v u = Ok b) <-> exists b, key_lt u v = Ok b.
Proof. destruct u, v; cbn; split; intros (b & E); try discriminate; eauto. Qed.

Lemma comparable_part_pairs lib m wattr g p attr : WF g -> g_multi g = false -> usable p = true -> bipartite g p attr ->
  comparable_part g p attr -> comparable_pairs lib m g p attr wattr.
Proof.
  intros W M U B C u v t Ku _ [S1 S2] _. assert (Kv : kept g p attr v).
  { pose proof Ku as Ku'. apply (B u t S1) in Ku'.
    destruct (has_edge_attrs g t v W M S2) as (a & E). unfold edge_attrs in E. destruct (edge_data g t v) eqn:ED; [|discriminate].
    apply edge_data_nodes in ED; [|assumption]. destruct ED as [_ ED]. apply node_data_In in ED as (av & ED).
    destruct (in_part p attr v av) eqn:Pv; [exists av; split; [assumption|apply in_part_keeps; assumption]|].
    exfalso. apply Ku'. apply (B t v S2). intros (av' & E' & K'). rewrite E' in ED. inversion ED; subst. apply in_part_keeps in K'; [|assumption]. congruence. }
  destruct C as [C|C]; destruct (C _ Ku) as (x & ->); destruct (C _ Kv) as (y & ->); cbn; eauto.
Qed.

Section Run.
Variables (lib : libm) (g : graph) (p : part) (attr wattr : key) (chk : bool) (m : metric).
Hypothesis W : WF g.
Hypothesis M : g_multi g = false.

Definition keep (n : key) : bool := should_keep_norm m (acc_of lib g wattr m n).
Definition outcome (u v : key) : res pynum :=
  if keep v then compute_metric lib m (inter_of lib g wattr m u v) (finalize_norm lib m (acc_of lib g wattr m u)) (finalize_norm lib m (acc_of lib g wattr m v))
  else Err KeyError.
Definition candidate (u v : key) : Prop :=
  kept g p attr u /\ keep u = true /\ key_lt u v = Ok true /\ exists t, between g u v t.

Lemma simple_run name : usable p = true -> In (name, m) metric_names -> bipartite g p attr -> (exists n, kept g p attr n) ->
  (forall u v t, kept g p attr u -> keep u = true -> between g u v t -> u <> v -> exists b, key_lt u v = Ok b) -> part_names g p attr -> (chk = true -> unmarked g p attr) -> (weighted m = true -> numeric wattr g) ->
  (forall e, (exists u v, candidate u v /\ outcome u v = Err e) ->
     (forall u v, candidate u v -> (exists x, outcome u v = Ok x) \/ outcome u v = Err e) ->
     monopartite_projection lib g p attr wattr name chk VNone = Err e)
  /\ ((forall u v, candidate u v -> exists x, outcome u v = Ok x) ->
      exists h, monopartite_projection lib g p attr wattr name chk VNone = Ok h /\ WF h /\ g_dir h = false /\ g_multi h = false
      /\ (forall u v, has_edge h u v = true -> key_lt u v = Ok true \/ key_lt v u = Ok true)
      /\ forall u v a, key_lt u v = Ok true ->
           (edge_attrs h u v (KInt 0) = Some a <-> candidate u v /\ exists x, outcome u v = Ok x /\ a = wlink x)).
Proof.
  intros U Hn B (n0 & K0) C PN UM NU. apply names_metric in Hn.
  assert (NUM : weighted m = true -> forall u t a, In (t, a) (items g u) -> num_of (get_weight wattr a) <> None).
  { intros Wm u t a I. apply items_In in I; [|assumption..]. unfold get_weight. destruct (dget wattr a) as [w|] eqn:Dw; [|discriminate].
    eapply NU; eassumption. }
  assert (O : order g <> 0).
  { destruct K0 as (a & E & _). apply node_data_Some_In in E. unfold order, nodes, dkeys in *. destruct (g_nodes g); [destruct E|discriminate]. }
  destruct (phase1_total lib m g p attr wattr chk W) as ([[norms h0] ex] & E1).
  { intros n a I Pn. assert (Kn : kept g p attr n) by (apply kept_In; eauto). split.
    - apply accumulated_total.
      + intros Hc t' a' I'. apply (same_part_unmarked g p attr W U B (UM Hc) n); [assumption|apply items_In; assumption].
      + intros Hw t a' I'. eapply NUM; eassumption.
    - apply kwargs_ok_iff. intros k Ik. apply (PN n a).
      + apply dget_In; [apply (wf_nodes g W)|assumption].
      + apply in_part_keeps; assumption.
      + apply In_dkeys in Ik as (v & Ik). apply filter_In in Ik as [Ik _]. apply In_dkeys. eauto.
      + intros ->. apply In_dkeys in Ik as (v & Ik). apply filter_In in Ik as [_ Ik]. cbn in Ik. rewrite key_eqb_refl in Ik. discriminate. }
  pose proof (phase1_inv _ _ _ _ _ _ _ _ W E1) as P. pose proof P as (Hh & Hex & N & V & Kd).
  assert (ex = true) as ->.
  { apply Hex. intros C0. apply kept_In in K0; [|assumption|assumption]. destruct K0 as (a & I & Pn).
    assert (I' : In (n0, a) (filter (selected p attr) (g_nodes g))) by (apply filter_In; split; assumption).
    rewrite C0 in I'. destruct I'. }
  assert (HN : forall n, kept g p attr n -> dget n norms = if keep n then Some (finalize_norm lib m (acc_of lib g wattr m n)) else None).
  { intros n Kn. apply kept_In in Kn; [|assumption|assumption]. destruct Kn as (a & I & Pn).
    destruct (V n a I Pn) as (acc & EA & _ & Hd). apply accumulated_inv in EA as (EA & _). fold (acc_of lib g wattr m n) in EA.
    subst acc. exact Hd. }
  assert (KN : forall n, In n (dkeys norms) <-> kept g p attr n /\ keep n = true).
  { intros n. split.
    - intros I. destruct (Kd n I) as (a & I1 & I2). assert (Kn : kept g p attr n) by (apply kept_In; eauto). split; [exact Kn|].
      apply dkeys_dget in I as (x & E). rewrite (HN n Kn) in E. destruct (keep n); [reflexivity|discriminate].
    - intros [Kn Kp]. pose proof (HN n Kn) as E. rewrite Kp in E. eapply dget_Some_key; eassumption. }
  assert (SH : forall u v t, kept g p attr u -> between g u v t -> kept g p attr v).
  { intros u v t Ku [S1 S2]. apply (B u t S1) in Ku.
    destruct (has_edge_attrs g t v W M S2) as (a & E). unfold edge_attrs in E. destruct (edge_data g t v) eqn:ED; [|discriminate].
    apply edge_data_nodes in ED; [|assumption]. destruct ED as [_ ED]. apply node_data_In in ED as (av & ED).
    destruct (in_part p attr v av) eqn:Pv.
    - exists av. split; [assumption|apply in_part_keeps; assumption].
    - exfalso. apply Ku. apply (B t v S2). intros (av' & E' & K').
      rewrite E' in ED. inversion ED; subst. apply in_part_keeps in K'; [|assumption]. congruence. }
  assert (II : forall n, In n (dkeys norms) -> exists inter, intersections_of lib m g wattr n = Ok inter
     /\ NoDup (dkeys inter) /\ (forall k q, dget k inter = Some q -> candidate n k /\ q = inter_of lib g wattr m n k)
     /\ forall k, candidate n k -> In k (dkeys inter)).
  { intros n I. pose proof I as I0. apply KN in I0 as [Kn Kp].
    assert (exists inter, intersections_of lib m g wattr n = Ok inter) as (inter & EI).
    { rewrite intersections_flat. apply intersections_total.
      - intros e Ie NE. unfold entries in Ie. apply in_flat_map in Ie as ([t a] & It & Ie). apply in_map_iff in Ie as ([v b] & <- & Iv). cbn in *.
        unfold key_gt. rewrite key_gt_lt_ok. apply (C n v t Kn Kp); [split; apply items_edge, In_dkeys; eauto|congruence].
      - intros Wm e Ie. unfold entries in Ie. apply in_flat_map in Ie as ([t a] & It & Ie). apply in_map_iff in Ie as ([v b] & <- & Iv). cbn in *.
        split; apply pynum_num; eapply NUM; eassumption. }
    exists inter. split; [exact EI|]. rewrite intersections_flat in EI. apply intersections_inv in EI as (NI & KI & VI).
    split; [exact NI|]. split.
    - intros k q Dk. destruct (KI k (dget_Some_key _ _ _ Dk)) as [NE LT]. specialize (VI k LT). rewrite Dk in VI. destruct VI as [V1 V2].
      split; [|exact V2]. split; [exact Kn|]. split; [exact Kp|]. split; [exact LT|]. eapply hits_between; eassumption.
    - intros k (_ & _ & LT & Bt). specialize (VI k LT). destruct (dget k inter) eqn:Dk; [eapply dget_Some_key; eassumption|].
      exfalso. assert (H : hits lib m wattr k (entries g n) <> []) by (apply hits_between; assumption). congruence. }
  assert (LO : forall n, In n (dkeys norms) -> exists inter, NoDup (dkeys inter)
     /\ (forall k, In k (dkeys inter) <-> candidate n k)
     /\ links_of lib m g wattr norms n = let* l := mapM (fun ni : key * pynum => let* x := outcome n (fst ni) in Ok (fst ni, x)) inter in Ok (map (fun ns => (n, fst ns, snd ns)) l)).
  { intros n I. destruct (II n I) as (inter & EI & NI & KI & VI). pose proof I as I0. apply KN in I0 as [Kn Kp].
    exists inter. split; [exact NI|]. split.
    { intros k. split; [|apply VI]. intros Ik. apply dkeys_dget in Ik as (q & Dq). apply (KI k q Dq). }
    unfold links_of. rewrite (HN n Kn), Kp, EI. cbn [bind]. unfold metric_neighbors. erewrite mapM_ext; [reflexivity|].
    intros [k q] Iq. apply dget_In in Iq; [|exact NI]. destruct (KI k q Iq) as [Cd ->]. destruct Cd as (_ & _ & _ & t & Bt). cbn [fst snd].
    rewrite (HN k (SH n k t Kn Bt)). unfold outcome. destruct (keep k); reflexivity. }
  assert (EQ : monopartite_projection lib g p attr wattr name chk VNone =
     let* ls := mapM (links_of lib m g wattr norms) (dkeys norms) in Ok (put_links (filter (passes None) (List.concat ls)) h0)).
  { unfold monopartite_projection. rewrite Hn. cbn [bind check_threshold]. apply Nat.eqb_neq in O. rewrite O. rewrite E1.
    cbn [bind]. rewrite project_all. reflexivity. }
  split.
  - intros e (u & v & Cd & Ee) OE. rewrite EQ, (mapM_raises _ _ e); [reflexivity| |].
    + intros n I. destruct (LO n I) as (inter & NI & KI & ->).
      destruct (mapM_errs (fun ni : key * pynum => let* x := outcome n (fst ni) in Ok (fst ni, x)) inter e) as [(l & ->)| ->]; [|left; cbn; eauto|right; reflexivity].
      intros [k q] Iq. cbn [fst]. destruct (OE n k) as [(x & ->)| ->]; [apply KI, In_dkeys; eauto|left; cbn; eauto|right; reflexivity].
    + assert (Iu : In u (dkeys norms)) by (apply KN; destruct Cd as (A1 & A2 & _); auto). exists u. split; [exact Iu|].
      destruct (LO u Iu) as (inter & NI & KI & ->). rewrite (mapM_raises _ inter e); [reflexivity| |].
      * intros [k q] Iq. cbn [fst]. destruct (OE u k) as [(x & ->)| ->]; [apply KI, In_dkeys; eauto|left; cbn; eauto|right; reflexivity].
      * apply KI, In_dkeys in Cd as (q & Iq). exists (v, q). split; [exact Iq|]. cbn [fst]. rewrite Ee. reflexivity.
  - intros OK. assert (GO : forall n, In n (dkeys norms) -> exists l, links_of lib m g wattr norms n = Ok l
         /\ forall v x, In (n, v, x) l <-> candidate n v /\ outcome n v = Ok x).
    { intros n I. destruct (LO n I) as (inter & NI & KI & ->).
      destruct (mapM_total (fun ni : key * pynum => let* x := outcome n (fst ni) in Ok (fst ni, x)) inter) as (l & EM).
      { intros [k q] Iq. cbn [fst]. destruct (OK n k) as (x & ->); [apply KI, In_dkeys; eauto|cbn; eauto]. }
      rewrite EM. cbn [bind]. eexists. split; [reflexivity|]. apply mapM_inv in EM.
      assert (HL : forall v x, In (v, x) l <-> In v (dkeys inter) /\ outcome n v = Ok x).
      { clear - EM. intros v x. induction EM as [|[k q] [k' y] inter l H EM IH]; [cbn; tauto|]. cbn [fst] in H.
        destruct (outcome n k) as [z|e] eqn:Ez; [|discriminate]. cbn [bind] in H. inversion H; subst k' y. cbn [In dkeys map fst]. fold (dkeys inter).
        rewrite IH. split.
        - intros [E|[I E]]; [inversion E; subst; auto|auto].
        - intros [[E|I] E']; [subst; left; congruence|auto]. }
      intros v x. rewrite <- KI, <- HL, in_map_iff. split.
      - intros ([v' x'] & E & I'). cbn [fst snd] in E. inversion E; subst. exact I'.
      - intros I'. exists (v, x). split; [reflexivity|exact I']. }
    destruct (mapM_total (links_of lib m g wattr norms) (dkeys norms)) as (ls & El).
    { intros n I. destruct (GO n I) as (l & E & _). eauto. }
    rewrite EQ, El. cbn [bind]. eexists. split; [reflexivity|].
    destruct (assembled _ _ _ _ _ _ _ _ _ _ _ None W P El) as (F & Wh & Dh & Mh & _ & _ & EE).
    set (h := put_links (filter (passes None) (List.concat ls)) h0) in *.
    split; [exact Wh|]. split; [exact Dh|]. split; [exact Mh|]. split.
    { intros u v He. apply has_edge_attrs in He as (a & Ea); [|assumption|exact Mh]. rewrite EE in Ea.
      destruct (List.find (joins u v) (List.concat ls)) as [l|] eqn:Fl; [|discriminate].
      apply find_some in Fl as [I J]. destruct (concat_link _ _ _ El I) as (n & l0 & In0 & E0 & I0).
      destruct (links_of_lt _ _ _ _ _ _ _ E0 _ I0) as (<- & Ln & _). unfold joins in J. apply jn_iff in J.
      destruct J as [[-> ->]|(_ & -> & ->)]; [left|right]; exact Ln. }
    intros u v a LT. rewrite EE. split.
    + intros Ea. destruct (List.find (joins u v) (List.concat ls)) as [l|] eqn:Fl; [|discriminate]. cbn [passes negb] in Ea.
      apply find_some in Fl as [I J]. destruct (concat_link _ _ _ El I) as (n & l0 & In0 & E0 & I0).
      destruct (links_of_lt _ _ _ _ _ _ _ E0 _ I0) as (Fn & Ln & _).
      destruct l as [[x1 b] x]. cbn [fst snd] in *. subst x1. unfold joins in J. cbn [fst snd] in J. apply jn_iff in J.
      assert (Hnb : n = u /\ b = v).
      { destruct J as [[-> ->]|(_ & -> & ->)]; [split; reflexivity|]. exfalso. pose proof (key_lt_asym _ _ LT). congruence. }
      destruct Hnb as [-> ->]. destruct (GO u In0) as (l1 & E2 & Hx). rewrite E0 in E2. inversion E2; subst l1.
      apply Hx in I0 as [Cd Ox]. split; [exact Cd|]. exists x. split; [exact Ox|]. inversion Ea. reflexivity.
    + intros (Cd & x & Ox & ->). assert (Iu : In u (dkeys norms)) by (apply KN; destruct Cd as (A1 & A2 & _); auto).
      destruct (GO u Iu) as (l & Eu & Hl). assert (Ix : In (u, v, x) l) by (apply Hl; auto).
      pose proof (concat_link_of _ _ _ _ _ El Iu Eu Ix) as Ic.
      rewrite (find_joins_In u v (u, v, x) _ F Ic); [reflexivity|]. unfold joins. apply jn_refl.
Qed.
End Run.

(** ** the metrics *)
Lemma metric_eq_dec (a b : metric) : {a = b} + {a <> b}.
Proof. decide equality. Qed.

Section Metrics.
Variables (lib : libm) (g : graph) (p : part) (attr wattr : key) (chk : bool) (m : metric).
Hypothesis W : WF g.
Hypothesis M : g_multi g = false.
Hypothesis B64 : binary64 lib.

Lemma inter_mid u v : weighted m = false -> inter_of lib g wattr m u v = NInt (Z.of_nat (mid g u v)).
Proof.
  intros Wm. unfold inter_of.
  assert (LH : List.length (hits lib m wattr v (entries g u)) = mid g u v).
  { rewrite hits_eq by assumption. unfold mid, dkeys. induction (items g u) as [|[t a] l IH]; [reflexivity|]. cbn [map filter flat_map fst snd].
    rewrite app_length, IH. unfold adds.
    destruct (edge_attrs g t v (KInt 0)) as [a2|] eqn:E.
    - rewrite (edge_attrs_has _ _ _ _ _ E). reflexivity.
    - assert (H : has_edge g t v = false).
      { destruct (has_edge g t v) eqn:H; [|reflexivity]. destruct (has_edge_attrs g t v W M H). congruence. }
      rewrite H. reflexivity. }
  rewrite <- LH, <- (map_id (hits lib m wattr v (entries g u))) at 1. rewrite count_total; [reflexivity|].
  intros x I. unfold hits in I. apply in_flat_map in I as (e & _ & I). destruct (key_eqb _ _); [|destruct I]. destruct I as [<-|[]].
  unfold iw. rewrite Wm. reflexivity.
Qed.

Lemma inter_paths u v : weighted m = true -> paths_scalar lib wattr g u v (inter_of lib g wattr m u v).
Proof.
  intros Wm. unfold paths_scalar, inter_of. rewrite hits_eq by assumption.
  exists (filter (fun t => has_edge g t v) (dkeys (items g u))). split; [apply NoDup_filter, items_NoDup; assumption|]. split.
  - intros t. rewrite filter_In, items_edge by assumption. unfold between. tauto.
  - unfold total. f_equal. unfold dkeys.
    assert (Y : forall l, incl l (items g u) -> flat_map (fun tta => adds lib g wattr m v (fst tta) (snd tta)) l =
      map (fun t => n_mul lib (bond_number wattr g u t) (bond_number wattr g t v)) (filter (fun t => has_edge g t v) (map fst l))); [|apply Y, incl_refl].
    induction l as [|[t a] l IH]; intros I; [reflexivity|]. cbn [flat_map map filter fst snd]. rewrite IH by (intros x Ix; apply I; right; exact Ix).
    assert (Ia : edge_attrs g u t (KInt 0) = Some a) by (apply items_In; try assumption; apply I; left; reflexivity).
    unfold adds. destruct (edge_attrs g t v (KInt 0)) as [b|] eqn:Eb.
    + rewrite (edge_attrs_has _ _ _ _ _ Eb). cbn [map app]. f_equal. unfold iw. rewrite Wm, (number_items g wattr u t a Ia), (number_items g wattr t v b Eb). reflexivity.
    + destruct (has_edge g t v) eqn:H; [|reflexivity]. destruct (has_edge_attrs g t v W M H) as (b & E). congruence.
Qed.

Lemma acc_live u : (0 < value (acc_of lib g wattr m u))%Q <-> live lib m wattr g u.
Proof.
  assert (DG : forall m', m' <> Cosine -> (0 < value (acc_of lib g wattr m' u))%Q <-> exists t, has_edge g u t = true).
  { intros m' NC. unfold acc_of. rewrite norm_count by exact NC. cbn [value]. unfold deg. split.
    - intros H. destruct (items g u) as [|[t a] l] eqn:E; [unfold Qlt in H; cbn in H; lia|]. exists t. apply items_edge; [assumption..|]. rewrite E. left; reflexivity.
    - intros (t & H). apply items_edge in H; [|assumption..]. destruct (items g u); [destruct H|]. apply (nq_lt 0). cbn; lia. }
  unfold live. destruct (binary64_ok lib B64) as (R & _).
  assert (NM : m <> Cosine -> (exists t, has_edge g u t = true) <->
    exists t, has_edge g u t = true /\ (m = Cosine -> 0 < value (n_mul lib (bond_number wattr g u t) (bond_number wattr g u t)))%Q).
  { intros NC. split; intros (t & H); exists t; [split; [exact H|intros; contradiction]|apply H]. }
  destruct m eqn:Em; try (rewrite DG by discriminate; apply NM; discriminate).
  destruct (acc_fine lib g wattr W M u R) as [F Pos]. split.
  - intros H. assert (X : exists x, In x (map (fun tta => inc lib Cosine (get_weight wattr (snd tta))) (items g u)) /\ (0 < value x)%Q).
    { destruct (List.existsb (fun x => q_ltb 0 (value x)) (map (fun tta => inc lib Cosine (get_weight wattr (snd tta))) (items g u))) eqn:Ex.
      - apply existsb_exists in Ex as (x & I & Px). apply q_ltb_iff in Px. eauto.
      - exfalso. assert (Z : forall x, In x (map (fun tta => inc lib Cosine (get_weight wattr (snd tta))) (items g u)) -> (value x == 0)%Q).
        { intros x I. assert (Nx : q_ltb 0 (value x) = false).
          { destruct (q_ltb 0 (value x)) eqn:Q; [|reflexivity]. assert (existsb (fun x => q_ltb 0 (value x)) (map (fun tta => inc lib Cosine (get_weight wattr (snd tta))) (items g u)) = true) by (apply existsb_exists; eauto). congruence. }
          assert (Fx : fine lib x) by (apply in_map_iff in I as (ta & <- & _); apply square_fine, R).
          destruct Fx as [Fx _]. apply not_true_iff_false in Nx. rewrite q_ltb_iff in Nx. lra. }
        assert (T : (value (acc_of lib g wattr Cosine u) == 0)%Q); [|lra].
        unfold acc_of. revert Z. generalize (map (fun tta => inc lib Cosine (get_weight wattr (snd tta))) (items g u)). intros l.
        induction l as [|x l IH] using rev_ind; intros Z; [reflexivity|]. rewrite total_snoc.
        assert (A : (value (total lib l) == 0)%Q) by (apply IH; intros; apply Z, in_or_app; left; assumption).
        assert (Zx : (value x == 0)%Q) by (apply Z, in_or_app; right; left; reflexivity).
        assert (TF : forall y, (value y == 0)%Q -> (to_float lib y == 0)%Q).
        { intros [z|q] H0; cbn [value to_float] in *; [|exact H0]. rewrite (rnd_eq _ R _ _ H0). apply (rnd_0 _ R). }
        pose proof (TF _ A) as TA. pose proof (TF _ Zx) as TX.
        assert (SUM : (m_round lib (to_float lib (total lib l) + to_float lib x) == 0)%Q).
        { transitivity (m_round lib 0); [|apply (rnd_0 _ R)]. apply (rnd_eq _ R). rewrite TA, TX. reflexivity. }
        destruct (total lib l) as [a|a], x as [b|b]; cbn [n_add value] in *; try exact SUM. rewrite inject_Z_plus, A, Zx. reflexivity. }
    destruct X as (x & I & Px). apply in_map_iff in I as ([t a] & <- & I). apply items_In in I; [|assumption..]. cbn [snd inc] in Px.
    exists t. split; [eapply edge_attrs_has; eassumption|]. intros _. rewrite (number_items g wattr u t a I). exact Px.
  - intros (t & _ & H). apply Pos. exists t. apply H. reflexivity.
Qed.

Lemma keep_live u : m <> PMI -> keep lib g wattr m u = true <-> live lib m wattr g u.
Proof.
  intros NP. rewrite <- acc_live. unfold keep, should_keep_norm, n_ltb. destruct m; try contradiction; apply q_ltb_iff.
Qed.

Lemma keep_pmi u : m = PMI -> keep lib g wattr m u = true.
Proof.
  intros ->. unfold keep, should_keep_norm, acc_of, n_leb. rewrite norm_count by discriminate. apply q_leb_iff. cbn [value]. apply (nq_le 0). lia.
Qed.

Lemma computed_paths u v x : computed lib g wattr m u v x -> live lib m wattr g u -> live lib m wattr g v -> (exists t, between g u v t) ->
  paths_similarity lib m wattr g u v (value x) /\ stored_as m (val_of x) (value x).
Proof.
  intros E Lu Lv (t & Bt). destruct (binary64_ok lib B64) as (R & LS & LL & _). pose proof (mid_le g W M u v t Bt) as Hm.
  assert (RP : forall x y, (x == y)%Q -> (m_round lib x == m_round lib y)%Q) by (apply (rnd_eq _ R)).
  assert (CN : weighted m = false -> inter_of lib g wattr m u v = NInt (Z.of_nat (mid g u v)) /\ acc_of lib g wattr m u = NInt (Z.of_nat (deg g u))
     /\ acc_of lib g wattr m v = NInt (Z.of_nat (deg g v))).
  { intros Wm. split; [apply inter_mid; exact Wm|]. split; apply norm_count; destruct m; discriminate. }
  pose proof (deg_size g W M u) as Su. pose proof (deg_size g W M v) as Sv. pose proof (mid_size g W M u v) as Si.
  unfold computed in E. destruct m eqn:Em; cbn [weighted] in CN; try (destruct (CN eq_refl) as (E1 & E2 & E3); rewrite E1, E2, E3 in E; clear E1 E2 E3);
    cbn [compute_metric finalize_norm n_add n_sub n_mul] in E.
  - inversion E; subst x. split; [|cbn; eauto]. exists (deg g u), (deg g v), (mid g u v). repeat split; try assumption; reflexivity.
  - apply bind_Ok in E as (y & E & Ey). inversion Ey; subst x. apply div_Ok in E as [_ ->]. split; [|reflexivity].
    exists (deg g u), (deg g v), (mid g u v). do 3 (split; [assumption|]). cbn [value]. apply RP. unfold nq. rewrite <- !inject_Z_plus. unfold Qminus. rewrite <- inject_Z_opp, <- inject_Z_plus. reflexivity.
  - rewrite min_ints in E. apply bind_Ok in E as (y & E & Ey). inversion Ey; subst x. apply div_Ok in E as [_ ->]. split; [|reflexivity].
    exists (deg g u), (deg g v), (mid g u v). do 3 (split; [assumption|]). cbn [value]. apply RP. fold (nq (mid g u v)) (nq (Nat.min (deg g u) (deg g v))). rewrite nq_min. reflexivity.
  - apply bind_Ok in E as (y & E & Ey). inversion Ey; subst x. apply div_Ok in E as [_ ->]. split; [|reflexivity].
    exists (deg g u), (deg g v), (mid g u v). do 3 (split; [assumption|]). cbn [value]. apply RP. rewrite inject_Z_mult, inject_Z_plus. unfold nq.
    rewrite (Qmult_comm (inject_Z (Z.of_nat (mid g u v)))). reflexivity.
  - apply bind_Ok in E as (y & E & Ey). inversion Ey; subst x. split; [|reflexivity]. exists (deg g u), (deg g v), (mid g u v). do 3 (split; [assumption|]).
    cbn [value]. change (NFloat (m_round lib (to_float lib (NFloat (m_sqrt lib (to_float lib (NInt (Z.of_nat (deg g u)))))) * to_float lib (NFloat (m_sqrt lib (to_float lib (NInt (Z.of_nat (deg g v))))))))%Q) with (n_mul lib (NFloat (m_sqrt lib (to_float lib (NInt (Z.of_nat (deg g u)))))) (NFloat (m_sqrt lib (to_float lib (NInt (Z.of_nat (deg g v))))))) in E.
    eapply (cosine_of lib (binary64_ok lib B64)); [| | |exact E]; apply faithful_nat.
  - inversion E; subst x. split; [|destruct (inter_of lib g wattr DotProduct u v); reflexivity].
    exists (inter_of lib g wattr DotProduct u v). split; [|reflexivity]. rewrite <- Em. apply inter_paths. rewrite Em. reflexivity.
  - apply bind_Ok in E as (y & E & Ey). inversion Ey; subst x. split; [|reflexivity].
    exists (inter_of lib g wattr Cosine u v), (acc_of lib g wattr Cosine u), (acc_of lib g wattr Cosine v).
    split; [rewrite <- Em; apply inter_paths; rewrite Em; reflexivity|]. split; [apply acc_python; assumption|]. split; [apply acc_python; assumption|].
    apply div_Ok in E as [_ ->]. cbn [to_float]. destruct (inter_of lib g wattr Cosine u v); reflexivity.
  - apply bind_Ok in E as (y & E & Ey). destruct (q_ltb 0 y); [|discriminate]. inversion Ey; subst x. apply div_Ok in E as [_ ->]. split; [|reflexivity].
    exists (deg g u), (deg g v), (mid g u v). do 3 (split; [assumption|]). cbn [value]. apply LL, RP. rewrite inject_Z_mult. reflexivity.
Qed.

Lemma computes_live u v t : between g u v t -> live lib m wattr g u -> live lib m wattr g v -> (m = PMI -> Z.of_nat (order g) <= 2 ^ 500)%Z ->
  exists x, computed lib g wattr m u v x.
Proof.
  intros Bt Lu Lv PO. pose proof (binary64_ok lib B64) as L. pose proof (mid_le g W M u v t Bt) as Hm.
  assert (Dv : 1 <= deg g v).
  { destruct Lv as (s & Hs & _). destruct (deg g v) eqn:Z; [|lia]. rewrite (proj1 (deg_zero g Jaccard W M eq_refl v) Z s) in Hs. discriminate. }
  destruct (counting m) eqn:CM.
  - destruct (computes lib g m W M L CM u v t (deg g v) Bt Dv) as (x & E & _). exists x. unfold computed.
    rewrite inter_mid by (apply (counting_plain m CM)). rewrite !(acc_deg lib g wattr m CM). exact E.
  - unfold computed. destruct m eqn:Em; try discriminate; cbn [compute_metric finalize_norm].
    + eauto.
    + pose proof (proj2 (acc_live u)) as Pu. rewrite Em in Pu. specialize (Pu Lu). pose proof (proj2 (acc_live v)) as Pv. rewrite Em in Pv. specialize (Pv Lv).
      destruct L as (R & _). destruct (acc_fine lib g wattr W M u R) as [Fu _], (acc_fine lib g wattr W M v R) as [Fv _].
      destruct (float_fine lib R _ Fu) as (_ & Ru & Qu), (float_fine lib R _ Fv) as (_ & Rv & Qv).
      assert (RR : (0 < m_round lib (m_sqrt lib (to_float lib (acc_of lib g wattr Cosine u)) * m_sqrt lib (to_float lib (acc_of lib g wattr Cosine v))))%Q).
      { pose proof B64 as (BR & BS & _). rewrite BR, !BS. unfold representable in Ru, Rv. rewrite BR in Ru, Rv. apply roots64; auto. }
      cbn [n_mul]. rewrite div_total; [cbn; eauto|]. cbn [value to_float]. intros H0. rewrite H0 in RR. apply (Qlt_irrefl 0). exact RR.
    + pose proof (inter_mid u v) as IM. rewrite Em in IM. rewrite (IM eq_refl). unfold acc_of. rewrite !norm_count by discriminate. cbn [n_mul].
      rewrite div_total.
      2: { cbn [value]. intros H0. unfold Qeq in H0. cbn in H0. nia. }
      cbn [bind]. assert (Pq : q_ltb 0 (m_round lib (inject_Z (Z.of_nat (mid g u v)) / inject_Z (Z.of_nat (deg g u) * Z.of_nat (deg g v)))) = true); [|rewrite Pq; eauto].
      apply q_ltb_iff. pose proof B64 as (BR & _). rewrite BR. apply round64_pos. specialize (PO eq_refl).
      assert (DO : forall n, deg g n <= order g).
      { intros n. unfold deg, order. rewrite <- (map_length fst (items g n)), <- (map_length fst (g_nodes g)). apply NoDup_incl_length; [apply items_NoDup; assumption|].
        apply (items_incl g W M n). }
      pose proof (DO u) as Du. pose proof (DO v) as Dv'. rewrite inject_Z_mult. fold (nq (mid g u v)) (nq (deg g u)) (nq (deg g v)).
      assert (Q1 : (1 <= nq (mid g u v))%Q) by (apply (nq_le 1); lia). assert (Q2 : (0 < nq (deg g u))%Q) by (apply nq_pos; lia). assert (Q3 : (0 < nq (deg g v))%Q) by (apply nq_pos; lia).
      assert (Q4 : (nq (deg g u) <= inject_Z (2 ^ 500))%Q) by (unfold nq; rewrite <- Zle_Qle; lia). assert (Q5 : (nq (deg g v) <= inject_Z (2 ^ 500))%Q) by (unfold nq; rewrite <- Zle_Qle; lia).
      revert Q1 Q2 Q3 Q4 Q5. generalize (nq (mid g u v)) (nq (deg g u)) (nq (deg g v)). intros i a b Q1 Q2 Q3 Q4 Q5.
      apply Qle_shift_div_l; [apply Qmult_lt_0_compat; assumption|]. eapply Qle_trans; [|exact Q1].
      apply Qle_trans with (unit_of 0 * (inject_Z (2 ^ 500) * inject_Z (2 ^ 500)))%Q; [|vm_compute; discriminate].
      apply Qmult_le_l; [apply unit_pos; lia|]. apply Qmult_le_compat_nonneg; (split; [apply Qlt_le_weak|]; assumption).
Qed.

Lemma live_dec v : {live lib m wattr g v} + {~ live lib m wattr g v}.
Proof. destruct (Qlt_le_dec 0 (value (acc_of lib g wattr m v))) as [H|H]; [left; apply acc_live; exact H|right; rewrite <- acc_live; lra]. Qed.

(** whether some pair is in the way can be decided by looking at all triples of nodes *)
Lemma blocked_dec : usable p = true ->
  blocked lib m g p attr wattr \/ ~ blocked lib m g p attr wattr.
Proof.
  intros U.
  set (test := fun u v t => match node_data g u with Some a => in_part p attr u a | None => false end
     && (if live_dec u then true else false) && has_edge g u t && has_edge g t v
     && (match key_lt u v with Ok b => b | Err _ => false end) && negb (if live_dec v then true else false)).
  destruct (existsb (fun u => existsb (fun v => existsb (test u v) (nodes g)) (nodes g)) (nodes g)) eqn:Ex.
  - left. apply existsb_exists in Ex as (u & _ & Ex). apply existsb_exists in Ex as (v & _ & Ex). apply existsb_exists in Ex as (t & _ & Ex).
    unfold test in Ex. repeat (apply andb_prop in Ex as [Ex ?]). exists u, v, t.
    destruct (node_data g u) as [a|] eqn:Eu; [|discriminate]. split; [exists a; split; [exact Eu|apply in_part_keeps; assumption]|].
    destruct (live_dec u); [|discriminate]. split; [assumption|]. split; [split; assumption|].
    destruct (key_lt u v) as [[|]|]; try discriminate. split; [reflexivity|]. destruct (live_dec v); [discriminate|assumption].
  - right. intros (u & v & t & (a & Eu & Ka) & Lu & [B1 B2] & LT & NL). apply not_true_iff_false in Ex. apply Ex.
    assert (HN : forall x y, has_edge g x y = true -> In x (nodes g) /\ In y (nodes g)).
    { intros x y H. unfold has_edge in H. destruct (edge_data g x y) eqn:E; [|discriminate]. eapply edge_data_nodes; eassumption. }
    destruct (HN u t B1) as [Iu It]. destruct (HN t v B2) as [_ Iv].
    apply existsb_exists. exists u. split; [exact Iu|]. apply existsb_exists. exists v. split; [exact Iv|]. apply existsb_exists. exists t. split; [exact It|].
    unfold test. rewrite Eu, B1, B2, LT. apply in_part_keeps in Ka; [|exact U]. rewrite Ka.
    destruct (live_dec u); [|contradiction]. destruct (live_dec v); [contradiction|reflexivity].
Qed.

Definition missing : exc := match m with PMI => ZeroDivisionError | _ => KeyError end.

Lemma exact_run name : usable p = true -> In (name, m) metric_names -> bipartite g p attr -> (exists n, kept g p attr n) ->
  comparable_pairs lib m g p attr wattr -> part_names g p attr -> (chk = true -> unmarked g p attr) -> (weighted m = true -> numeric wattr g) ->
  (m = PMI -> Z.of_nat (order g) <= 2 ^ 500)%Z ->
  (blocked lib m g p attr wattr -> monopartite_projection lib g p attr wattr name chk VNone = Err missing)
  /\ (~ blocked lib m g p attr wattr -> exists h, monopartite_projection lib g p attr wattr name chk VNone = Ok h /\ WF h /\ g_dir h = false
      /\ (forall u v, has_edge h u v = true -> key_lt u v = Ok true \/ key_lt v u = Ok true)
      /\ forall u v, key_lt u v = Ok true ->
           (has_edge h u v = true <-> kept g p attr u /\ live lib m wattr g u /\ exists t, between g u v t)
           /\ forall a, edge_attrs h u v (KInt 0) = Some a ->
                exists w x, a = [(K "weight", w)] /\ stored_as m w x /\ paths_similarity lib m wattr g u v x).
Proof.
  intros U Hn B Kn C PN UM NU PO.
  assert (CK : forall u v t, kept g p attr u -> keep lib g wattr m u = true -> between g u v t -> u <> v -> exists b, key_lt u v = Ok b).
  { intros u v t Ku Kp Bt NE. apply (C u v t); try assumption. destruct (metric_eq_dec m PMI) as [E|E]; [|apply keep_live; assumption].
    destruct Bt as [Ht _]. exists t. split; [exact Ht|]. rewrite E. discriminate. }
  destruct (simple_run lib g p attr wattr chk m W M name U Hn B Kn CK PN UM NU) as [RE RO].
  assert (LV : forall u v, candidate lib g p attr wattr m u v <-> kept g p attr u /\ live lib m wattr g u /\ key_lt u v = Ok true /\ exists t, between g u v t).
  { intros u v. unfold candidate. split; intros (A1 & A2 & A3 & A4); (split; [exact A1|]); (split; [|split; assumption]).
    - destruct (metric_eq_dec m PMI) as [E|E]; [|apply keep_live; assumption]. destruct A4 as (t & Ht & _). exists t. split; [exact Ht|]. rewrite E. discriminate.
    - destruct (metric_eq_dec m PMI) as [E|E]; [apply keep_pmi; exact E|]. apply keep_live; assumption. }
  assert (LD : forall v, live lib m wattr g v \/ ~ live lib m wattr g v).
  { intros v. destruct (Qlt_le_dec 0 (value (acc_of lib g wattr m v))) as [H|H]; [left; apply acc_live; exact H|right; rewrite <- acc_live; lra]. }
  assert (OC : forall u v, candidate lib g p attr wattr m u v ->
     (live lib m wattr g v -> exists x, outcome lib g wattr m u v = Ok x /\ computed lib g wattr m u v x)
     /\ (~ live lib m wattr g v -> outcome lib g wattr m u v = Err missing)).
  { intros u v Cd. apply LV in Cd as (Ku & Lu & LT & t & Bt). split.
    - intros Lv. destruct (computes_live u v t Bt Lu Lv PO) as (x & E). exists x. split; [|exact E]. unfold outcome.
      assert (KV : keep lib g wattr m v = true) by (destruct (metric_eq_dec m PMI) as [Em|Em]; [apply keep_pmi; exact Em|apply keep_live; assumption]).
      rewrite KV. exact E.
    - intros NL. unfold outcome, missing. destruct (metric_eq_dec m PMI) as [Em|Em].
      + rewrite keep_pmi by exact Em. assert (AZ : acc_of lib g wattr m v = NInt 0).
        { rewrite Em. unfold acc_of. rewrite norm_count by discriminate. do 2 f_equal. change 0%Z with (Z.of_nat 0). f_equal. apply (deg_zero g Jaccard W M eq_refl).
          intros s. destruct (has_edge g v s) eqn:Hs; [|reflexivity]. exfalso. apply NL. exists s. split; [exact Hs|]. rewrite Em. discriminate. }
        rewrite AZ, Em. cbn [compute_metric finalize_norm]. unfold n_div.
        assert (Z : q_eqb (value (n_mul lib (acc_of lib g wattr PMI u) (NInt 0))) 0 = true).
        { unfold acc_of. rewrite norm_count by discriminate. cbn [n_mul value]. rewrite Z.mul_0_r. reflexivity. }
        rewrite Z. reflexivity.
      + assert (KV : keep lib g wattr m v = false).
        { destruct (keep lib g wattr m v) eqn:KV; [|reflexivity]. exfalso. apply NL. apply keep_live; assumption. }
        rewrite KV. destruct m; try reflexivity. contradiction. }
  split.
  - intros (u & v & t & Ku & Lu & Bt & LT & NL). apply RE.
    + exists u, v. assert (Cd : candidate lib g p attr wattr m u v) by (apply LV; eauto). split; [exact Cd|]. apply (OC u v Cd), NL.
    + intros u' v' Cd. destruct (LD v') as [Lv|Lv]; [left; destruct (proj1 (OC u' v' Cd) Lv) as (x & E & _); eauto|right; apply (OC u' v' Cd), Lv].
  - intros NB. assert (LA : forall u v, candidate lib g p attr wattr m u v -> live lib m wattr g v).
    { intros u v Cd. destruct (LD v) as [Lv|Lv]; [exact Lv|]. exfalso. apply NB. apply LV in Cd as (Ku & Lu & LT & t & Bt). exists u, v, t. auto. }
    destruct RO as (h & E & Wh & Dh & Mh & HK & HE).
    { intros u v Cd. destruct (proj1 (OC u v Cd) (LA u v Cd)) as (x & Ex & _). eauto. }
    exists h. split; [exact E|]. split; [exact Wh|]. split; [exact Dh|]. split; [exact HK|]. intros u v LT. split.
    + split.
      * intros He. apply has_edge_attrs in He as (a & Ea); [|assumption..]. apply HE in Ea as [Cd _]; [|exact LT].
        apply LV in Cd as (A1 & A2 & _ & A4). auto.
      * intros (A1 & A2 & A4). assert (Cd : candidate lib g p attr wattr m u v) by (apply LV; auto).
        destruct (proj1 (OC u v Cd) (LA u v Cd)) as (x & Ex & _). eapply edge_attrs_has. apply HE; [exact LT|]. split; [exact Cd|]. exists x. split; [exact Ex|reflexivity].
    + intros a Ea. apply HE in Ea as (Cd & x & Ox & ->); [|exact LT]. destruct (proj1 (OC u v Cd) (LA u v Cd)) as (x' & Ex & Cx).
      rewrite Ex in Ox. inversion Ox; subst x'. pose proof (LA u v Cd) as Lv. apply LV in Cd as (A1 & A2 & _ & A4).
      destruct (computed_paths u v x Cx A2 Lv A4) as [S1 S2]. exists (val_of x), (value x). split; [reflexivity|]. split; assumption.
Qed.
End Metrics.
