(** * Projections of directed graphs *)
From Coq Require Import List ZArith QArith Lia Lqa Bool.
From Verif Require Import PyBase PyNum S_Num L_Num NxGraph L_Base L_Nx L_Nx2 L_Graph L_Graph2 M_Traversal M_Proj S_Partition L_Partition S_Proj L_Proj L_Proj2 L_Proj3 L_Proj4 L_Proj5 L_Proj7.
Import ListNotations.
Close Scope Q_scope.

Lemma mapM_raises {A B} (f : A -> res B) l e : (forall a, In a l -> (exists b, f a = Ok b) \/ f a = Err e) ->
  (exists a, In a l /\ f a = Err e) -> mapM f l = Err e.
Proof.
  induction l as [|a l IH]; intros H (x & I & X); [destruct I|]. cbn [mapM].
  destruct (H a (or_introl eq_refl)) as [(b & E)|E]; rewrite E; [|reflexivity]. cbn [bind]. destruct I as [->|I]; [congruence|].
  rewrite IH; [reflexivity|intros; apply H; right; assumption|eauto].
Qed.

Section Directed.
Variables (lib : libm) (g : graph) (p : part) (attr wattr : key) (chk : bool) (m : metric).
Hypothesis W : WF g.
Hypothesis M : g_multi g = false.
Hypothesis L : lib_ok lib.
Hypothesis CM : counting m = true.

Lemma counting_plain : weighted m = false /\ m <> Cosine.
Proof. destruct m; try discriminate; split; [reflexivity|discriminate|reflexivity|discriminate|reflexivity|discriminate|reflexivity|discriminate|reflexivity|discriminate]. Qed.

Lemma hits_between u v : hits lib m wattr v (entries g u) <> [] <-> exists t, between g u v t.
Proof.
  rewrite hits_eq by assumption. split.
  - intros H. destruct (flat_map (fun tta => adds lib g wattr m v (fst tta) (snd tta)) (items g u)) as [|q r] eqn:E; [congruence|].
    assert (I : In q (flat_map (fun tta => adds lib g wattr m v (fst tta) (snd tta)) (items g u))) by (rewrite E; left; reflexivity).
    apply in_flat_map in I as ([t a] & I & J). cbn in J. unfold adds in J. destruct (edge_attrs g t v (KInt 0)) eqn:E2; [|destruct J].
    exists t. split; [apply items_edge, In_dkeys; eauto|]. eapply edge_attrs_has; eassumption.
  - intros (t & H1 & H2) C. destruct (has_edge_attrs g u t W M H1) as (a & E).
    destruct (has_edge_attrs g t v W M H2) as (a2 & E2).
    assert (I : In (iw lib m (get_weight wattr a) (get_weight wattr a2)) (flat_map (fun tta => adds lib g wattr m v (fst tta) (snd tta)) (items g u))).
    { apply in_flat_map. exists (t, a). split; [apply items_In; assumption|]. cbn. unfold adds. rewrite E2. left; reflexivity. }
    rewrite C in I. destruct I.
Qed.

Definition mid (u v : key) : nat := List.length (filter (fun t => has_edge g t v) (dkeys (items g u))).
Lemma mid_size u v : has_size (between g u v) (mid u v).
Proof.
  exists (filter (fun t => has_edge g t v) (dkeys (items g u))). split; [|reflexivity].
  split; [apply NoDup_filter, items_NoDup; assumption|]. intros t. rewrite filter_In, items_edge by assumption. unfold between. tauto.
Qed.

Lemma hits_mid u v : total lib (hits lib m wattr v (entries g u)) = NInt (Z.of_nat (mid u v)).
Proof.
  destruct counting_plain as [Wm _].
  assert (LH : List.length (hits lib m wattr v (entries g u)) = mid u v).
  { rewrite hits_eq by assumption. unfold mid, dkeys. induction (items g u) as [|[t a] l IH]; [reflexivity|]. cbn [map filter flat_map fst snd].
    rewrite app_length, IH. unfold adds.
    destruct (edge_attrs g t v (KInt 0)) as [a2|] eqn:E.
    - rewrite (edge_attrs_has _ _ _ _ _ E). reflexivity.
    - assert (H : has_edge g t v = false).
      { destruct (has_edge g t v) eqn:H; [|reflexivity]. destruct (has_edge_attrs g t v W M H). congruence. }
      rewrite H. reflexivity. }
  rewrite <- LH, <- (map_id (hits lib m wattr v (entries g u))) at 1. rewrite count_total; [reflexivity|].
  intros x I. unfold hits in I. apply in_flat_map in I as (e & _ & I). destruct (key_eqb _ _); [|destruct I]. destruct I as [<-|[]].
  unfold iw. rewrite Wm. reflexivity.
Qed.

Lemma acc_deg n : acc_of lib g wattr m n = NInt (Z.of_nat (deg g n)).
Proof. apply norm_count. apply counting_plain. Qed.

Lemma keeps_deg k : should_keep_norm m (NInt (Z.of_nat k)) = negb (Nat.eqb k 0).
Proof.
  assert (H : should_keep_norm m (NInt (Z.of_nat k)) = n_ltb (NInt 0) (NInt (Z.of_nat k))) by (destruct m; try discriminate; reflexivity).
  rewrite H. unfold n_ltb. cbn [value]. destruct k; [reflexivity|]. cbn [Nat.eqb negb]. apply q_ltb_iff. unfold Qlt. cbn. lia.
Qed.

Lemma deg_zero n : deg g n = 0 <-> forall s, has_edge g n s = false.
Proof.
  unfold deg. split.
  - intros H s. destruct (has_edge g n s) eqn:E; [|reflexivity]. apply (items_edge g W M) in E.
    destruct (items g n); [destruct E|discriminate].
  - intros H. destruct (items g n) as [|[t a] l] eqn:E; [reflexivity|].
    assert (I : In t (dkeys (items g n))) by (rewrite E; left; reflexivity). apply (items_edge g W M) in I. congruence.
Qed.

Lemma mid_le u v t : between g u v t -> 1 <= mid u v <= deg g u.
Proof.
  intros [B1 B2]. split.
  - unfold mid. assert (I : In t (filter (fun t => has_edge g t v) (dkeys (items g u)))).
    { apply filter_In. split; [apply items_edge; assumption|assumption]. }
    destruct (filter _ _); [destruct I|cbn; lia].
  - unfold mid, deg. rewrite <- (map_length fst (items g u)). clear. unfold dkeys. induction (map fst (items g u)) as [|x l IH]; [reflexivity|].
    cbn [filter]. destruct (has_edge g x v); cbn [List.length]; lia.
Qed.

Lemma computes u v t n : between g u v t -> 1 <= n -> exists x,
  compute_metric lib m (NInt (Z.of_nat (mid u v))) (finalize_norm lib m (NInt (Z.of_nat (deg g u)))) (finalize_norm lib m (NInt (Z.of_nat n))) = Ok x
  /\ (m = Intersection -> x = NInt (Z.of_nat (mid u v))).
Proof.
  intros B Hn. pose proof (mid_le u v t B) as Hm.
  assert (NZ : forall z, (1 <= z)%Z -> ~ (value (NInt z) == 0)%Q) by (intros z Hz E; cbn in E; unfold Qeq in E; cbn in E; lia).
  destruct m; try discriminate; cbn [compute_metric finalize_norm].
  - eauto.
  - cbn [n_add n_sub]. rewrite div_total by (apply NZ; lia). cbn [bind]. eexists. split; [reflexivity|discriminate].
  - rewrite min_ints. rewrite div_total by (apply NZ; lia). cbn [bind]. eexists. split; [reflexivity|discriminate].
  - cbn [n_add]. rewrite div_total by (apply NZ; lia). cbn [bind]. eexists. split; [reflexivity|discriminate].
  - destruct (cosine_total lib L (NInt (Z.of_nat (mid u v))) (NInt (Z.of_nat (deg g u))) (NInt (Z.of_nat n)) (nq (deg g u)) (nq n)) as (x & E);
      [apply faithful_nat|apply faithful_nat|apply nq_pos; lia|apply nq_pos; lia|]. 
    rewrite E. cbn [bind]. eexists. split; [reflexivity|discriminate].
Qed.

Lemma directed_run name : usable p = true -> In (name, m) metric_names -> bipartite g p attr -> (exists n, kept g p attr n) ->
  comparable_part g p attr -> part_names g p attr -> (chk = true -> unmarked g p attr) ->
  (dead_end g p attr -> monopartite_projection lib g p attr wattr name chk VNone = Err KeyError)
  /\ (~ dead_end g p attr -> exists h, monopartite_projection lib g p attr wattr name chk VNone = Ok h /\ WF h /\ g_dir h = false
      /\ (forall u v, has_edge h u v = true -> key_lt u v = Ok true \/ key_lt v u = Ok true)
      /\ forall u v, key_lt u v = Ok true ->
           (has_edge h u v = true <-> kept g p attr u /\ kept g p attr v /\ exists t, between g u v t)
           /\ (m = Intersection -> forall a, edge_attrs h u v (KInt 0) = Some a ->
                exists i, a = [(K "weight", VInt (Z.of_nat i))] /\ has_size (between g u v) i)).
Proof.
  intros U Hn B (n0 & K0) C PN UM. apply names_metric in Hn. destruct counting_plain as [Wm NC].
  assert (O : order g <> 0).
  { destruct K0 as (a & E & _). apply node_data_Some_In in E. unfold order, nodes, dkeys in *. destruct (g_nodes g); [destruct E|discriminate]. }
  destruct (phase1_total lib m g p attr wattr chk W) as ([[norms h0] ex] & E1).
  { intros n a I Pn. assert (Kn : kept g p attr n) by (apply kept_In; eauto). split.
    - apply accumulated_total.
      + intros Hc t' a' I'. apply (same_part_unmarked g p attr W U B (UM Hc) n); [assumption|apply items_In; assumption].
      + intros Hw. congruence.
    - apply kwargs_ok_iff. intros k Ik. apply (PN n a).
      + apply dget_In; [apply (wf_nodes g W)|assumption].
      + apply in_part_keeps; assumption.
      + apply In_dkeys in Ik as (v & Ik). apply filter_In in Ik as [Ik _]. apply In_dkeys. eauto.
      + intros ->. apply In_dkeys in Ik as (v & Ik). apply filter_In in Ik as [_ Ik]. cbn in Ik. rewrite key_eqb_refl in Ik. discriminate. }
  pose proof (phase1_inv _ _ _ _ _ _ _ _ W E1) as P. pose proof P as (Hh & Hex & N & V & Kd).
  assert (ex = true) as ->.
  { apply Hex. intros C0. apply kept_In in K0; [|assumption|assumption]. destruct K0 as (a & I & Pn).
    assert (I' : In (n0, a) (filter (selected p attr) (g_nodes g))) by (apply filter_In; split; assumption).
    rewrite C0 in I'. destruct I'. }
  assert (HN : forall n, kept g p attr n -> dget n norms = if Nat.eqb (deg g n) 0 then None else Some (finalize_norm lib m (NInt (Z.of_nat (deg g n))))).
  { intros n Kn. apply kept_In in Kn; [|assumption|assumption]. destruct Kn as (a & I & Pn).
    destruct (V n a I Pn) as (acc & EA & _ & Hd). apply accumulated_inv in EA as (EA & _). fold (acc_of lib g wattr m n) in EA.
    rewrite acc_deg in EA. subst acc. rewrite Hd, keeps_deg. destruct (Nat.eqb (deg g n) 0); reflexivity. }
  assert (KN : forall n, In n (dkeys norms) -> kept g p attr n /\ 1 <= deg g n).
  { intros n I. destruct (Kd n I) as (a & I1 & I2). assert (Kn : kept g p attr n) by (apply kept_In; eauto). split; [exact Kn|].
    apply dkeys_dget in I as (x & E). rewrite (HN n Kn) in E. destruct (Nat.eqb_spec (deg g n) 0); [discriminate|lia]. }
  assert (SH : forall u v t, kept g p attr u -> between g u v t -> kept g p attr v).
  { intros u v t Ku [S1 S2]. apply (B u t S1) in Ku.
    destruct (has_edge_attrs g t v W M S2) as (a & E). unfold edge_attrs in E. destruct (edge_data g t v) eqn:ED; [|discriminate].
    apply edge_data_nodes in ED; [|assumption]. destruct ED as [_ ED]. apply node_data_In in ED as (av & ED).
    destruct (in_part p attr v av) eqn:Pv.
    - exists av. split; [assumption|apply in_part_keeps; assumption].
    - exfalso. apply Ku. apply (B t v S2). intros (av' & E' & K').
      rewrite E' in ED. inversion ED; subst. apply in_part_keeps in K'; [|assumption]. congruence. }
  assert (CMP : forall u v, kept g p attr u -> kept g p attr v -> exists b, key_lt u v = Ok b).
  { intros u v Ku Kv. destruct C as [C|C]; destruct (C _ Ku) as (x & ->); destruct (C _ Kv) as (y & ->); cbn; eauto. }
  assert (II : forall n, In n (dkeys norms) -> exists inter, intersections_of lib m g wattr n = Ok inter
     /\ NoDup (dkeys inter) /\ (forall k q, dget k inter = Some q -> key_lt n k = Ok true /\ (exists t, between g n k t) /\ q = NInt (Z.of_nat (mid n k)))
     /\ forall k t, key_lt n k = Ok true -> between g n k t -> In k (dkeys inter)).
  { intros n I. destruct (KN n I) as [Kn Dn].
    assert (exists inter, intersections_of lib m g wattr n = Ok inter) as (inter & EI).
    { rewrite intersections_flat. apply intersections_total; [|intros; congruence].
      intros e Ie NE. unfold entries in Ie. apply in_flat_map in Ie as ([t a] & It & Ie). apply in_map_iff in Ie as ([v b] & <- & Iv). cbn in *.
      unfold key_gt. assert (Kv : kept g p attr v).
      { apply (SH n v t Kn). split; apply items_edge, In_dkeys; eauto. }
      apply CMP; assumption. }
    exists inter. split; [exact EI|]. rewrite intersections_flat in EI. apply intersections_inv in EI as (NI & KI & VI).
    split; [exact NI|]. split.
    - intros k q Dk. destruct (KI k (dget_Some_key _ _ _ Dk)) as [NE LT]. specialize (VI k LT). rewrite Dk in VI. destruct VI as [V1 V2].
      split; [exact LT|]. split; [apply hits_between; assumption|]. rewrite V2. apply hits_mid.
    - intros k t LT Bt. specialize (VI k LT). destruct (dget k inter) eqn:Dk; [eapply dget_Some_key; eassumption|].
      exfalso. assert (H : hits lib m wattr k (entries g n) <> []) by (apply hits_between; eauto). congruence. }
  assert (EV : forall n inter q k, In n (dkeys norms) -> intersections_of lib m g wattr n = Ok inter -> dget k inter = Some q ->
     match dget k norms with
     | None => (forall s, has_edge g k s = false)
     | Some norm2 => exists x, compute_metric lib m q (finalize_norm lib m (NInt (Z.of_nat (deg g n)))) norm2 = Ok x /\ (m = Intersection -> x = q)
     end).
  { intros n inter q k I EI Dk. destruct (II n I) as (inter' & EI' & NI & KI & _). rewrite EI in EI'. inversion EI'; subst inter'.
    destruct (KI k q Dk) as (LT & (t & Bt) & ->). destruct (KN n I) as [Kn Dn]. rewrite (HN k (SH n k t Kn Bt)).
    destruct (Nat.eqb_spec (deg g k) 0) as [Z|Z]; [apply deg_zero; exact Z|]. apply (computes n k t); [exact Bt|lia]. }
  assert (LO : forall n, In n (dkeys norms) ->
     ((exists l, links_of lib m g wattr norms n = Ok l) \/ links_of lib m g wattr norms n = Err KeyError)
     /\ ((exists v t, key_lt n v = Ok true /\ between g n v t /\ forall s, has_edge g v s = false) -> links_of lib m g wattr norms n = Err KeyError)
     /\ ((forall v t, key_lt n v = Ok true -> between g n v t -> exists s, has_edge g v s = true) ->
         exists l, links_of lib m g wattr norms n = Ok l
         /\ (forall v t, key_lt n v = Ok true -> between g n v t -> exists x, In (n, v, x) l)
         /\ forall v x, In (n, v, x) l -> (exists t, between g n v t) /\ (m = Intersection -> x = NInt (Z.of_nat (mid n v))))).
  { intros n I. destruct (II n I) as (inter & EI & NI & KI & VI). destruct (KN n I) as [Kn Dn].
    assert (D1 : dget n norms = Some (finalize_norm lib m (NInt (Z.of_nat (deg g n))))).
    { rewrite (HN n Kn). destruct (Nat.eqb_spec (deg g n) 0); [lia|reflexivity]. }
    unfold links_of. rewrite D1, EI. cbn [bind]. unfold metric_neighbors.
    set (F := fun ni : key * pynum => match dget (fst ni) norms with
       | Some norm2 => let* similarity := compute_metric lib m (snd ni) (finalize_norm lib m (NInt (Z.of_nat (deg g n)))) norm2 in Ok (fst ni, similarity)
       | None => Err KeyError end).
    assert (EF : forall k q, In (k, q) inter -> (exists x, F (k, q) = Ok (k, x) /\ (m = Intersection -> x = q))
       \/ (F (k, q) = Err KeyError /\ forall s, has_edge g k s = false)).
    { intros k q Iq. apply dget_In in Iq; [|assumption]. pose proof (EV n inter q k I EI Iq) as H. unfold F. cbn [fst snd].
      destruct (dget k norms); [|right; split; [reflexivity|exact H]]. destruct H as (x & -> & Hx). left. exists x. split; [reflexivity|exact Hx]. }
    assert (ER : forall a, In a inter -> (exists b, F a = Ok b) \/ F a = Err KeyError).
    { intros [k q] Iq. destruct (EF k q Iq) as [(x & H & _)|[H _]]; [left; eauto|right; exact H]. }
    split; [|split].
    - destruct (mapM F inter) as [l|e] eqn:EM; cbn [bind]; [eauto|]. right.
      assert (Hr : (exists l, mapM F inter = Ok l) \/ mapM F inter = Err KeyError).
      { clear - ER. induction inter as [|a l IH]; [left; cbn; eauto|]. cbn [mapM].
        destruct (ER a (or_introl eq_refl)) as [(b & ->)| ->]; [|right; reflexivity]. cbn [bind].
        destruct IH as [(l' & ->)| ->]; [intros; apply ER; right; assumption|left; cbn; eauto|right; reflexivity]. }
      destruct Hr as [(l & E)|E]; rewrite EM in E; [discriminate|inversion E; reflexivity].
    - intros (v & t & LT & Bt & NS). rewrite (mapM_raises F inter KeyError); [reflexivity|exact ER|].
      apply VI with (t := t) in LT; [|exact Bt]. apply In_dkeys in LT as (q & Iq). exists (v, q). split; [exact Iq|].
      unfold F. cbn [fst]. assert (Kv : kept g p attr v) by (apply (SH n v t); assumption). rewrite (HN v Kv).
      apply deg_zero in NS. rewrite NS. reflexivity.
    - intros OKs. destruct (mapM_total F inter) as (l & EM).
      { intros [k q] Iq. destruct (EF k q Iq) as [(x & -> & _)|[_ H]]; [eauto|]. apply dget_In in Iq; [|exact NI].
        destruct (KI k q Iq) as (LT & (t & Bt) & _). destruct (OKs k t LT Bt) as (s & Hs). rewrite (H s) in Hs. discriminate. }
      rewrite EM. cbn [bind]. eexists. split; [reflexivity|]. apply mapM_inv in EM.
      assert (FW : forall k q, In (k, q) inter -> exists x, In (k, x) l).
      { intros k q. clear - EM EF. revert EF. induction EM as [|a b inter l H EM IH]; intros EF Iq; [destruct Iq|]. destruct Iq as [->|Iq].
        - destruct (EF k q (or_introl eq_refl)) as [(x & E & _)|[E _]]; rewrite E in H; [|discriminate]. inversion H; subst. exists x. left; reflexivity.
        - destruct (IH (fun k q I => EF k q (or_intror I)) Iq) as (x & Ix). exists x. right; exact Ix. }
      assert (BW : forall k x, In (k, x) l -> exists q, In (k, q) inter /\ (m = Intersection -> x = q)).
      { intros k x. clear - EM EF. revert EF. induction EM as [|[k' q] b inter l H EM IH]; intros EF Ix; [destruct Ix|]. destruct Ix as [->|Ix].
        - destruct (EF k' q (or_introl eq_refl)) as [(x' & E & Hx)|[E _]]; rewrite E in H; [|discriminate]. inversion H; subst.
          exists q. split; [left; reflexivity|exact Hx].
        - destruct (IH (fun k q I => EF k q (or_intror I)) Ix) as (q' & Iq & Hx). exists q'. split; [right; exact Iq|exact Hx]. }
      split.
      + intros v t LT Bt. apply VI with (t := t) in LT; [|exact Bt]. apply In_dkeys in LT as (q & Iq). destruct (FW v q Iq) as (x & Ix).
        exists x. apply in_map_iff. exists (v, x). split; [reflexivity|exact Ix].
      + intros v x Iv. apply in_map_iff in Iv as ([v' x'] & E & Ix). cbn [fst snd] in E. inversion E; subst v' x'.
        destruct (BW v x Ix) as (q & Iq & Hx). apply dget_In in Iq; [|exact NI]. destruct (KI v q Iq) as (LT & Bt & ->). split; [exact Bt|exact Hx]. }
  assert (EQ : monopartite_projection lib g p attr wattr name chk VNone =
     let* ls := mapM (links_of lib m g wattr norms) (dkeys norms) in Ok (put_links (filter (passes None) (List.concat ls)) h0)).
  { unfold monopartite_projection. rewrite Hn. cbn [bind check_threshold]. apply Nat.eqb_neq in O. rewrite O. rewrite E1.
    cbn [bind]. rewrite project_all. reflexivity. }
  assert (IK : forall u v t, kept g p attr u -> between g u v t -> In u (dkeys norms)).
  { intros u v t Ku [B1 _]. assert (Du : dget u norms <> None).
    { rewrite (HN u Ku). destruct (Nat.eqb_spec (deg g u) 0) as [Z|Z]; [|discriminate]. rewrite (proj1 (deg_zero u) Z t) in B1. discriminate. }
    destruct (dget u norms) eqn:E; [eapply dget_Some_key; eassumption|congruence]. }
  split.
  - intros (u & v & t & Ku & Bt & LT & NS). rewrite EQ, (mapM_raises _ _ KeyError); [reflexivity| |].
    + intros n I. apply (LO n I).
    + exists u. split; [eapply IK; eassumption|]. apply (LO u (IK u v t Ku Bt)). eauto.
  - intros ND. assert (GO : forall n, In n (dkeys norms) -> exists l, links_of lib m g wattr norms n = Ok l
         /\ (forall v t, key_lt n v = Ok true -> between g n v t -> exists x, In (n, v, x) l)
         /\ forall v x, In (n, v, x) l -> (exists t, between g n v t) /\ (m = Intersection -> x = NInt (Z.of_nat (mid n v)))).
    { intros n I. apply (LO n I). intros v t LT Bt. destruct (deg g v) eqn:Dv.
      - exfalso. apply ND. exists n, v, t. split; [apply KN; exact I|]. split; [exact Bt|]. split; [exact LT|]. apply deg_zero; exact Dv.
      - unfold deg in Dv. destruct (items g v) as [|[s a] r] eqn:Ei; [discriminate|]. exists s. apply items_edge; [assumption..|]. rewrite Ei. left; reflexivity. }
    destruct (mapM_total (links_of lib m g wattr norms) (dkeys norms)) as (ls & El).
    { intros n I. destruct (GO n I) as (l & E & _). eauto. }
    rewrite EQ, El. cbn [bind]. eexists. split; [reflexivity|].
    destruct (assembled _ _ _ _ _ _ _ _ _ _ _ None W P El) as (F & Wh & Dh & Mh & _ & _ & EE).
    set (h := put_links (filter (passes None) (List.concat ls)) h0) in *.
    split; [exact Wh|]. split; [exact Dh|]. split.
    { intros u v He. apply has_edge_attrs in He as (a & Ea); [|assumption|exact Mh]. rewrite EE in Ea.
      destruct (List.find (joins u v) (List.concat ls)) as [l|] eqn:Fl; [|discriminate].
      apply find_some in Fl as [I J]. destruct (concat_link _ _ _ El I) as (n & l0 & In0 & E0 & I0).
      destruct (links_of_lt _ _ _ _ _ _ _ E0 _ I0) as (<- & Ln & _). unfold joins in J. apply jn_iff in J.
      destruct J as [[-> ->]|(_ & -> & ->)]; [left|right]; exact Ln. }
    intros u v LT.
    assert (FR : forall l, List.find (joins u v) (List.concat ls) = Some l -> fst (fst l) = u /\ snd (fst l) = v
       /\ In u (dkeys norms) /\ (exists t, between g u v t) /\ (m = Intersection -> snd l = NInt (Z.of_nat (mid u v)))).
    { intros l Fl. apply find_some in Fl as [I J]. destruct (concat_link _ _ _ El I) as (n & l0 & In0 & E0 & I0).
      destruct (links_of_lt _ _ _ _ _ _ _ E0 _ I0) as (Fn & Ln & _).
      destruct l as [[a b] x]. cbn [fst snd] in *. subst a. unfold joins in J. cbn [fst snd] in J. apply jn_iff in J.
      assert (Hnb : n = u /\ b = v).
      { destruct J as [[-> ->]|(_ & -> & ->)]; [split; reflexivity|]. exfalso.
        pose proof (key_lt_asym _ _ LT). congruence. }
      destruct Hnb as [-> ->]. destruct (GO u In0) as (l1 & E2 & _ & Hx). rewrite E0 in E2. inversion E2; subst l1.
      destruct (Hx v x I0) as [X1 X2]. split; [reflexivity|]. split; [reflexivity|]. split; [exact In0|]. split; [exact X1|exact X2]. }
    split; [split|].
    + intros He. apply has_edge_attrs in He as (a & Ea); [|assumption|exact Mh]. rewrite EE in Ea.
      destruct (List.find (joins u v) (List.concat ls)) as [l|] eqn:Fl; [|discriminate].
      destruct (FR l eq_refl) as (_ & _ & Iu & (t & Bt) & _). destruct (KN u Iu) as [Ku _]. split; [exact Ku|]. split; [eapply SH; eassumption|eauto].
    + intros (Ku & Kv & t & Bt). pose proof (IK u v t Ku Bt) as Iu. destruct (GO u Iu) as (l & Eu & Hl & _). destruct (Hl v t LT Bt) as (x & Ix).
      pose proof (concat_link_of _ _ _ _ _ El Iu Eu Ix) as Ic.
      apply (edge_attrs_has h u v (KInt 0) (wlink x)). rewrite EE.
      rewrite (find_joins_In u v (u, v, x) _ F Ic); [reflexivity|]. unfold joins. apply jn_refl.
    + intros Hm a Ea. rewrite EE in Ea. destruct (List.find (joins u v) (List.concat ls)) as [l|] eqn:Fl; [|discriminate].
      destruct (FR l eq_refl) as (_ & _ & _ & _ & Hx). cbn [passes negb] in Ea. inversion Ea; subst a. exists (mid u v).
      split; [unfold wlink; rewrite (Hx Hm); reflexivity|apply mid_size].
Qed.
End Directed.
