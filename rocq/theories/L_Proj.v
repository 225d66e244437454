(** * Proofs about monopartite_projection: shape of the result *)
From Coq Require Import Lia QArith Qminmax.
From Verif Require Import PyBase PyNum L_Base NxGraph L_Nx L_Nx2 L_Graph L_Graph2 M_Proj S_Partition S_Sparse L_Disparity S_Proj.
Close Scope Q_scope.

Definition wlink (x : pynum) : attrs := [(K "weight", val_of x)].
Definition link : Type := key * key * pynum.
Definition put_links (L : list link) (h : graph) : graph :=
  fold_left (fun h l => add_edge h (fst (fst l)) (snd (fst l)) (wlink (snd l))) L h.
Definition other_pair (l l' : link) : Prop := jn false (fst (fst l)) (snd (fst l)) (fst (fst l')) (snd (fst l')) = false.
Definition joins (u v : key) (l : link) : bool := jn false (fst (fst l)) (snd (fst l)) u v.

Lemma ensure_both g u v : In u (nodes g) -> In v (nodes g) -> ensure_node (ensure_node g u) v = g.
Proof. intros U V. rewrite (ensure_present g u) by assumption. apply ensure_present; assumption. Qed.

Lemma g_nodes_add_edge_at g u v k a : In u (nodes g) -> In v (nodes g) -> g_nodes (add_edge_at g u v k a) = g_nodes g.
Proof. intros U V. unfold add_edge_at. rewrite ensure_both by assumption. reflexivity. Qed.

Lemma edge_attrs_no_edge g u v k : has_edge g u v = false -> edge_attrs g u v k = None.
Proof. unfold has_edge, edge_attrs. destruct (edge_data g u v); [discriminate|reflexivity]. Qed.

Lemma put_links_spec L : forall h, WF h -> g_dir h = false -> g_multi h = false ->
  (forall l, In l L -> In (fst (fst l)) (nodes h) /\ In (snd (fst l)) (nodes h)) ->
  ForallOrdPairs other_pair L ->
  (forall l, In l L -> has_edge h (fst (fst l)) (snd (fst l)) = false) ->
  let h' := put_links L h in
  WF h' /\ g_dir h' = false /\ g_multi h' = false /\ g_nodes h' = g_nodes h /\ g_attr h' = g_attr h
  /\ forall u v, edge_attrs h' u v (KInt 0) =
       match List.find (joins u v) L with Some l => Some (wlink (snd l)) | None => edge_attrs h u v (KInt 0) end.
Proof.
  induction L as [|[[a b] x] L IH]; intros h W D M E F N; cbn [put_links fold_left].
  { cbn zeta. do 3 (split; [assumption|]). split; [reflexivity|]. split; reflexivity. }
  cbn [fst snd]. set (h1 := add_edge h a b (wlink x)).
  destruct (E (a, b, x)) as [Ia Ib]; [left; reflexivity|]. cbn [fst snd] in Ia, Ib.
  pose proof (N (a, b, x) (or_introl eq_refl)) as NE. cbn [fst snd] in NE.
  inversion F as [|? ? F1 F2]; subst. rewrite Forall_forall in F1.
  assert (G1 : g_nodes h1 = g_nodes h) by (unfold h1, add_edge; apply g_nodes_add_edge_at; assumption).
  assert (ED : forall u v, edge_data h1 u v = if jn false a b u v then Some (set_data (KInt 0) (wlink x) (edge_data h u v)) else edge_data h u v).
  { intros u v. unfold h1, add_edge. rewrite M, edge_data_add_edge_at, D. reflexivity. }
  assert (ND : forall u v, jn false a b u v = true -> edge_data h u v = None).
  { intros u v J. apply jn_iff in J. unfold has_edge in NE.
    assert (edge_data h a b = None) by (destruct (edge_data h a b); [discriminate|reflexivity]).
    destruct J as [[-> ->]|(_ & -> & ->)]; [assumption|]. rewrite edge_data_sym by assumption. assumption. }
  destruct (IH h1) as (W' & D' & M' & G' & A' & E').
  - apply WF_add_edge; assumption.
  - unfold h1. rewrite dir_add_edge. assumption.
  - unfold h1. rewrite multi_add_edge. assumption.
  - intros l Hl. unfold nodes. rewrite G1. apply E. right; assumption.
  - assumption.
  - intros l Hl. specialize (F1 l Hl). unfold other_pair in F1. cbn [fst snd] in F1.
    unfold has_edge. rewrite ED, F1. apply (N l). right; assumption.
  - do 3 (split; [assumption|]). split; [|split].
    + etransitivity; [exact G'|exact G1].
    + etransitivity; [exact A'|]. unfold h1, add_edge. rewrite attr_add_edge_at. reflexivity.
    + intros u v. etransitivity; [apply E'|]. cbn [List.find]. unfold joins at 2. cbn [fst snd].
      destruct (jn false a b u v) eqn:J.
      * rewrite (proj2 (find_none_iff (joins u v) L)).
        -- unfold edge_attrs. rewrite ED, J, ND by assumption. cbn. reflexivity.
        -- intros l Hl. specialize (F1 l Hl). unfold other_pair in F1. cbn [fst snd] in F1. unfold joins.
           destruct (jn false (fst (fst l)) (snd (fst l)) u v) eqn:J2; [|reflexivity].
           exfalso. rewrite <- not_true_iff_false in F1. apply F1. apply jn_iff in J, J2. apply jn_iff.
           intuition congruence.
      * destruct (List.find (joins u v) L); [reflexivity|]. unfold edge_attrs. rewrite ED, J. reflexivity.
Qed.

Lemma joins_sym u v l : joins u v l = joins v u l.
Proof.
  unfold joins. apply Bool.eq_iff_eq_true. rewrite !jn_iff. intuition.
Qed.

Lemma find_joins_filter (f : link -> bool) u v L : ForallOrdPairs other_pair L ->
  List.find (joins u v) (filter f L) =
  match List.find (joins u v) L with Some l => if f l then Some l else None | None => None end.
Proof.
  induction 1 as [|l L H F IH]; [reflexivity|]. cbn [filter List.find]. destruct (joins u v l) eqn:J.
  - destruct (f l) eqn:Fl; cbn [List.find]; [rewrite J; reflexivity|].
    rewrite Forall_forall in H. apply find_none_iff. intros l' Hl'. apply filter_In in Hl' as [Hl' _].
    specialize (H l' Hl'). destruct (joins u v l') eqn:J'; [|reflexivity]. exfalso.
    unfold other_pair in H. rewrite <- not_true_iff_false in H. apply H. unfold joins in *. apply jn_iff in J, J'. apply jn_iff.
    intuition congruence.
  - destruct (f l); cbn [List.find]; [rewrite J|]; exact IH.
Qed.

Lemma find_joins_In u v l L : ForallOrdPairs other_pair L -> In l L -> joins u v l = true -> List.find (joins u v) L = Some l.
Proof.
  induction 1 as [|l' L H F IH]; [intros []|]. intros I J. cbn [List.find]. destruct I as [->|I].
  - rewrite J. reflexivity.
  - destruct (joins u v l') eqn:J'; [|apply IH; assumption]. exfalso.
    rewrite Forall_forall in H. specialize (H l I). unfold other_pair in H. rewrite <- not_true_iff_false in H. apply H.
    unfold joins in *. apply jn_iff in J, J'. apply jn_iff. intuition congruence.
Qed.

(** ** the second loop *)
Definition links_of lib m g wattr norms (n1 : key) : res (list link) :=
  match dget n1 norms with
  | None => Err KeyError
  | Some norm1 =>
      let* inter := intersections_of lib m g wattr n1 in
      let* l := metric_neighbors lib m norms norm1 inter in
      Ok (map (fun ns => (n1, fst ns, snd ns)) l)
  end.
Definition passes (t : option Q) (l : link) : bool :=
  negb (match t with Some t => q_ltb (value (snd l)) t | None => false end).

Lemma project_node_eq lib m g wattr t norms h n1 :
  project_node lib m g wattr t norms h n1 =
  let* l := links_of lib m g wattr norms n1 in Ok (put_links (filter (passes t) l) h).
Proof.
  unfold project_node, links_of. destruct (dget n1 norms) as [norm1|]; [|reflexivity].
  destruct (intersections_of lib m g wattr n1) as [inter|e]; [|reflexivity]. cbn [bind].
  destruct (metric_neighbors lib m norms norm1 inter) as [l|e]; [|reflexivity]. cbn [bind]. f_equal.
  revert h. induction l as [|[n2 x] l IH]; intros h; [reflexivity|]. cbn [fold_left map filter].
  rewrite IH. unfold passes at 2. cbn [fst snd].
  destruct (match t with Some t0 => q_ltb (value x) t0 | None => false end); reflexivity.
Qed.

Lemma project_all lib m g wattr t norms ns : forall h,
  foldM (project_node lib m g wattr t norms) ns h =
  let* ls := mapM (links_of lib m g wattr norms) ns in Ok (put_links (filter (passes t) (List.concat ls)) h).
Proof.
  induction ns as [|n ns IH]; intros h; [reflexivity|]. cbn [foldM mapM]. rewrite project_node_eq.
  destruct (links_of lib m g wattr norms n) as [l|e]; [|reflexivity]. cbn [bind]. rewrite IH.
  destruct (mapM _ ns) as [ls|e]; [|reflexivity]. cbn [bind List.concat]. f_equal.
  rewrite filter_app. unfold put_links. rewrite fold_left_app. reflexivity.
Qed.

(** ** intersections *)
Definition entry : Type := (key * attrs) * (key * attrs).
Definition entries (g : graph) (n1 : key) : list entry :=
  flat_map (fun tta => map (pair tta) (items g (fst tta))) (items g n1).
Definition inter_step (lib : libm) (m : metric) (wattr n1 : key) (inter : dict pynum) (e : entry) : res (dict pynum) :=
  let n2 := fst (snd e) in
  if key_eqb n2 n1 then Ok inter
  else
    let* skip := key_gt n1 n2 in
    if skip then Ok inter else intersect lib m inter n2 (get_weight wattr (snd (fst e))) (get_weight wattr (snd (snd e))).

Lemma foldM_nested {A B S} (f : S -> A * B -> res S) (h : A -> list B) l : forall s,
  foldM (fun s a => foldM (fun s b => f s (a, b)) (h a) s) l s = foldM f (flat_map (fun a => map (pair a) (h a)) l) s.
Proof.
  induction l as [|a l IH]; intros s; [reflexivity|]. cbn [foldM flat_map]. rewrite foldM_app.
  assert (E : forall bs s, foldM (fun s b => f s (a, b)) bs s = foldM f (map (pair a) bs) s).
  { induction bs as [|b bs IHb]; intros s0; [reflexivity|]. cbn. destruct (f s0 (a, b)); [apply IHb|reflexivity]. }
  rewrite E. destruct (foldM f (map (pair a) (h a)) s); [apply IH|reflexivity].
Qed.

Lemma intersections_flat lib m g wattr n1 : intersections_of lib m g wattr n1 = foldM (inter_step lib m wattr n1) (entries g n1) [].
Proof. unfold intersections_of, entries. apply (foldM_nested (inter_step lib m wattr n1) (fun tta => items g (fst tta))). Qed.

(** numeric value of a weight, and what one common neighbour adds *)
Definition pn (v : val) : pynum := match pynum_of v with Some n => n | None => NInt 0 end.
Definition iw (lib : libm) (m : metric) (w1 w2 : val) : pynum := if weighted m then n_mul lib (pn w1) (pn w2) else NInt 1.
Definition hits (lib : libm) (m : metric) (wattr n2 : key) (l : list entry) : list pynum :=
  flat_map (fun e => if key_eqb (fst (snd e)) n2
                     then [iw lib m (get_weight wattr (snd (fst e))) (get_weight wattr (snd (snd e)))] else []) l.
(** adding numbers up, from 0 *)
Definition total (lib : libm) (l : list pynum) : pynum := fold_left (n_add lib) l (NInt 0).

Lemma total_snoc lib l x : total lib (l ++ [x]) = n_add lib (total lib l) x.
Proof. unfold total. apply fold_left_app. Qed.

Lemma intersection_weight_iw lib m w1 w2 q : intersection_weight lib m w1 w2 = Ok q -> q = iw lib m w1 w2.
Proof.
  unfold intersection_weight, iw, pn, as_number. destruct m; cbn; try (intros H; inversion H; reflexivity);
    destruct (pynum_of w1), (pynum_of w2); cbn; intros H; inversion H; reflexivity.
Qed.

Lemma intersections_inv lib m wattr n1 l inter : foldM (inter_step lib m wattr n1) l [] = Ok inter ->
  NoDup (dkeys inter)
  /\ (forall k, In k (dkeys inter) -> k <> n1 /\ key_lt n1 k = Ok true)
  /\ (forall n2, key_lt n1 n2 = Ok true ->
        match dget n2 inter with
        | Some q => hits lib m wattr n2 l <> [] /\ q = total lib (hits lib m wattr n2 l)
        | None => hits lib m wattr n2 l = []
        end).
Proof.
  apply (foldM_inv (fun l inter => NoDup (dkeys inter)
    /\ (forall k, In k (dkeys inter) -> k <> n1 /\ key_lt n1 k = Ok true)
    /\ (forall n2, key_lt n1 n2 = Ok true ->
        match dget n2 inter with
        | Some q => hits lib m wattr n2 l <> [] /\ q = total lib (hits lib m wattr n2 l)
        | None => hits lib m wattr n2 l = []
        end))).
  - split; [constructor|]. split; [intros k []|]. intros n2 _. reflexivity.
  - intros done e todo st st' _ (N & Kd & V) E. unfold inter_step in E.
    assert (HA : forall n2, hits lib m wattr n2 (done ++ [e]) = hits lib m wattr n2 done ++ hits lib m wattr n2 [e])
      by (intros; unfold hits; apply flat_map_app).
    assert (SK : st' = st -> (forall n2, key_lt n1 n2 = Ok true -> fst (snd e) <> n2) -> NoDup (dkeys st')
      /\ (forall k, In k (dkeys st') -> k <> n1 /\ key_lt n1 k = Ok true)
      /\ (forall n2, key_lt n1 n2 = Ok true ->
          match dget n2 st' with
          | Some q => hits lib m wattr n2 (done ++ [e]) <> [] /\ q = total lib (hits lib m wattr n2 (done ++ [e]))
          | None => hits lib m wattr n2 (done ++ [e]) = []
          end)).
    { intros -> H. split; [assumption|]. split; [assumption|]. intros n2 L. rewrite HA.
      unfold hits at 2 4 6. cbn [flat_map]. rewrite (proj2 (key_eqb_neq _ _) (H n2 L)). cbn [app]. rewrite !app_nil_r. apply V, L. }
    keq (fst (snd e)) n1.
    { inversion E; subst st'. apply SK; [reflexivity|]. intros n2 L C. rewrite <- C in L.
      apply key_lt_irrefl in L. discriminate. }
    destruct (key_gt n1 (fst (snd e))) as [[|]|x] eqn:G; cbn [bind] in E; [| |discriminate].
    { inversion E; subst st'. apply SK; [reflexivity|]. intros n2 L C. subst n2. unfold key_gt in G.
      apply key_lt_asym in G. congruence. }
    unfold intersect in E. apply bind_Ok in E as (w & EW & E). apply intersection_weight_iw in EW. inversion E; subst st'. clear E SK.
    assert (LT : key_lt n1 (fst (snd e)) = Ok true).
    { unfold key_gt in G. destruct (key_lt_ok_sym _ _ _ G) as ([|] & L); [assumption|].
      exfalso. apply n. symmetry. apply key_lt_total; assumption. }
    split; [apply NoDup_dset; assumption|]. split.
    + intros k I. apply In_dkeys_dset in I as [->|I]; [split; assumption|apply Kd, I].
    + intros n2 L. rewrite dget_dset, HA. specialize (V n2 L). unfold hits at 2 4 6. cbn [flat_map].
      rewrite (key_eqb_sym (fst (snd e)) n2). keq n2 (fst (snd e)).
      * split; [intros C; destruct (hits lib m wattr (fst (snd e)) done); discriminate|].
        cbn [app]. rewrite total_snoc. destruct (dget (fst (snd e)) st) as [q|].
        -- destruct V as [_ V]. rewrite V. reflexivity.
        -- rewrite V. reflexivity.
      * cbn [app]. rewrite !app_nil_r. exact V.
Qed.

Lemma intersections_total lib m wattr n1 l :
  (forall e, In e l -> fst (snd e) <> n1 -> exists b, key_gt n1 (fst (snd e)) = Ok b) ->
  (weighted m = true -> forall e, In e l -> pynum_of (get_weight wattr (snd (fst e))) <> None /\ pynum_of (get_weight wattr (snd (snd e))) <> None) ->
  exists inter, foldM (inter_step lib m wattr n1) l [] = Ok inter.
Proof.
  intros C N. destruct (foldM_total (fun _ _ => True) (inter_step lib m wattr n1) l []) as (i & E & _); [exact I| |eauto].
  intros done e todo st -> _. assert (I : In e (done ++ e :: todo)) by (apply in_or_app; right; left; reflexivity).
  unfold inter_step. keq (fst (snd e)) n1; [eauto|]. destruct (C e I n) as (b & ->). cbn [bind]. destruct b; [eauto|].
  unfold intersect. assert (exists w, intersection_weight lib m (get_weight wattr (snd (fst e))) (get_weight wattr (snd (snd e))) = Ok w) as (w & ->).
  { unfold intersection_weight, as_number. destruct (weighted m) eqn:Wm.
    - destruct (N eq_refl e I) as [N1 N2].
      destruct (pynum_of (get_weight wattr (snd (fst e)))); [|congruence]. destruct (pynum_of (get_weight wattr (snd (snd e)))); [|congruence].
      destruct m; cbn; eauto.
    - destruct m; try discriminate; eauto. }
  cbn. eauto.
Qed.

(** ** links of one node, when there is no exception *)
Lemma mapM_inv {A B} (f : A -> res B) l l' : mapM f l = Ok l' -> Forall2 (fun a b => f a = Ok b) l l'.
Proof.
  revert l'. induction l as [|a l IH]; intros l' E; cbn in E; [inversion E; constructor|].
  apply bind_Ok in E as (b & Eb & E). apply bind_Ok in E as (bs & Ebs & E). inversion E; subst. constructor; auto.
Qed.

Lemma mapM_total {A B} (f : A -> res B) l : (forall a, In a l -> exists b, f a = Ok b) -> exists l', mapM f l = Ok l'.
Proof.
  induction l as [|a l IH]; intros H; cbn; [eauto|]. destruct (H a (or_introl eq_refl)) as (b & ->). cbn.
  destruct IH as (l' & ->); [intros; apply H; right; assumption|]. cbn. eauto.
Qed.

Lemma Forall2_weaken {A B} (R S : A -> B -> Prop) l l' : (forall a b, R a b -> S a b) -> Forall2 R l l' -> Forall2 S l l'.
Proof. intros H F. induction F; constructor; auto. Qed.

Lemma links_of_inv lib m g wattr norms n1 L : links_of lib m g wattr norms n1 = Ok L ->
  exists norm1 inter, dget n1 norms = Some norm1 /\ intersections_of lib m g wattr n1 = Ok inter
    /\ map (fun l => snd (fst l)) L = dkeys inter
    /\ forall l, In l L -> fst (fst l) = n1 /\ exists i norm2, dget (snd (fst l)) inter = Some i /\ dget (snd (fst l)) norms = Some norm2
         /\ compute_metric lib m i norm1 norm2 = Ok (snd l).
Proof.
  unfold links_of. destruct (dget n1 norms) as [norm1|]; [|discriminate]. intros E.
  apply bind_Ok in E as (inter & EI & E). apply bind_Ok in E as (l & El & E). inversion E; subst L. clear E.
  exists norm1, inter. split; [reflexivity|]. split; [assumption|].
  rewrite intersections_flat in EI. apply intersections_inv in EI as (N & _).
  unfold metric_neighbors in El. apply mapM_inv in El.
  assert (R : Forall2 (fun (ni : key * pynum) (nx : key * pynum) => fst nx = fst ni /\ exists norm2, dget (fst ni) norms = Some norm2
     /\ compute_metric lib m (snd ni) norm1 norm2 = Ok (snd nx)) inter l).
  { eapply Forall2_weaken; [|exact El]. intros [n i] [n' x]. cbn. destruct (dget n norms) as [norm2|]; [|discriminate].
    intros H. apply bind_Ok in H as (s & Hs & H). inversion H; subst. split; [reflexivity|]. eauto. }
  clear El. split.
  - rewrite map_map. cbn. clear N. induction R as [|ni nx inter l [H _] R IH]; [reflexivity|]. cbn. f_equal; assumption.
  - intros l0 I. apply in_map_iff in I as ([n2 x] & <- & I). cbn. split; [reflexivity|].
    assert (exists i, In (n2, i) inter /\ exists norm2, dget n2 norms = Some norm2 /\ compute_metric lib m i norm1 norm2 = Ok x) as (i & Ii & norm2 & H1 & H2).
    { clear N. induction R as [|[n i] [n' x'] inter l [H1 H2] R IH]; [destruct I|]. cbn in H1, H2. subst n'. destruct I as [I|I].
      - inversion I; subst. exists i. split; [left; reflexivity|assumption].
      - destruct (IH I) as (i' & Ii & H). exists i'. split; [right; assumption|assumption]. }
    exists i, norm2. split; [apply dget_In; assumption|]. split; assumption.
Qed.

Lemma links_of_lt lib m g wattr norms n1 L : links_of lib m g wattr norms n1 = Ok L ->
  forall l, In l L -> fst (fst l) = n1 /\ key_lt n1 (snd (fst l)) = Ok true /\ In n1 (dkeys norms) /\ In (snd (fst l)) (dkeys norms).
Proof.
  intros E l I. destruct (links_of_inv _ _ _ _ _ _ _ E) as (norm1 & inter & E1 & EI & EK & H).
  rewrite intersections_flat in EI. apply intersections_inv in EI as (N & Kd & _).
  destruct (H l I) as (F & i & norm2 & D1 & D2 & _). split; [assumption|].
  split; [apply Kd; eapply dget_Some_key; eassumption|]. split; eapply dget_Some_key; eassumption.
Qed.

Lemma FOP_concat {A} (R : A -> A -> Prop) (ls : list (list A)) :
  (forall l, In l ls -> ForallOrdPairs R l) ->
  ForallOrdPairs (fun l l' => forall x y, In x l -> In y l' -> R x y) ls -> ForallOrdPairs R (List.concat ls).
Proof.
  intros H F. induction F as [|l ls F1 F2 IH]; cbn [List.concat]; [constructor|].
  apply FOP_app. split; [apply H; left; reflexivity|]. split; [apply IH; intros; apply H; right; assumption|].
  intros x y Ix Iy. apply in_concat in Iy as (l' & Il' & Iy). rewrite Forall_forall in F1. eapply F1; eassumption.
Qed.

Lemma all_links lib m g wattr norms ns ls : NoDup ns -> mapM (links_of lib m g wattr norms) ns = Ok ls ->
  ForallOrdPairs other_pair (List.concat ls)
  /\ (forall l, In l (List.concat ls) -> key_lt (fst (fst l)) (snd (fst l)) = Ok true
        /\ In (fst (fst l)) (dkeys norms) /\ In (snd (fst l)) (dkeys norms)).
Proof.
  intros N E. apply mapM_inv in E. split.
  - apply FOP_concat.
    + intros L IL. assert (exists n, links_of lib m g wattr norms n = Ok L) as (n & EL).
      { clear N. induction E as [|n L' ns ls H E IH]; [destruct IL|]. destruct IL as [->|IL]; eauto. }
      destruct (links_of_inv _ _ _ _ _ _ _ EL) as (norm1 & inter & E1 & EI & EK & H).
      rewrite intersections_flat in EI. apply intersections_inv in EI as (ND & _). rewrite <- EK in ND.
      pose proof (links_of_lt _ _ _ _ _ _ _ EL) as LT. clear -ND LT.
      induction L as [|l L IH]; [constructor|]. inversion ND as [|? ? NI ND']; subst.
      constructor; [|apply IH; [assumption|]; intros; apply LT; right; assumption].
      apply Forall_forall. intros l' I'. unfold other_pair. destruct (jn _ _ _ _ _) eqn:J; [|reflexivity]. exfalso.
      destruct (LT l (or_introl eq_refl)) as (A1 & A2 & _). destruct (LT l' (or_intror I')) as (B1 & B2 & _).
      apply jn_iff in J. destruct J as [[_ J]|(_ & _ & J)].
      * apply NI. rewrite <- J. apply in_map_iff. exists l'. split; [reflexivity|assumption].
      * rewrite J, A1 in B2. apply key_lt_irrefl in B2. discriminate.
    + clear -N E. induction E as [|n L ns ls H E IH]; [constructor|]. inversion N as [|? ? NI ND]; subst.
      constructor; [|apply IH; assumption]. apply Forall_forall. intros L' IL' x y Ix Iy.
      assert (exists n', In n' ns /\ links_of lib m g wattr norms n' = Ok L') as (n' & In' & EL').
      { clear -E IL'. induction E as [|n L2 ns ls H E IH]; [destruct IL'|]. destruct IL' as [->|I].
        - exists n. split; [left; reflexivity|assumption].
        - destruct (IH I) as (n' & A & B). exists n'. split; [right; assumption|assumption]. }
      destruct (links_of_lt _ _ _ _ _ _ _ H x Ix) as (A1 & A2 & _). destruct (links_of_lt _ _ _ _ _ _ _ EL' y Iy) as (B1 & B2 & _).
      unfold other_pair. destruct (jn _ _ _ _ _) eqn:J; [|reflexivity]. exfalso. apply jn_iff in J.
      destruct J as [[J _]|(_ & J1 & J2)].
      * apply NI. congruence.
      * rewrite <- B1, J1, J2, A1 in B2. apply key_lt_asym in A2. congruence.
  - intros l Il. apply in_concat in Il as (L & IL & Il).
    assert (exists n, links_of lib m g wattr norms n = Ok L) as (n & EL).
    { clear N. induction E as [|n L' ns ls H E IH]; [destruct IL|]. destruct IL as [->|IL]; eauto. }
    destruct (links_of_lt _ _ _ _ _ _ _ EL l Il) as (A1 & A2 & A3 & A4). rewrite A1. tauto.
Qed.
