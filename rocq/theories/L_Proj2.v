(** * Proofs about monopartite_projection: the first loop and the meaning of the weights *)
From Coq Require Import Lia QArith Qminmax Lqa.
From Verif Require Import PyBase PyNum L_Base NxGraph L_Nx L_Nx2 S_Graph L_Graph L_Graph2 M_Proj S_Partition L_Partition S_Sparse L_Disparity S_Num L_Num S_Proj L_Proj.
Close Scope Q_scope.

(** ** the part *)
Lemma get_keeps attr a v : val_eqb (get_or_none attr a) v = true <->
  (exists w, dget attr a = Some w /\ val_eqb w v = true) \/ (dget attr a = None /\ v = VNone).
Proof.
  unfold get_or_none. destruct (dget attr a) as [w|]; split.
  - intros H. left. eauto.
  - intros [(w' & E & H)|[E _]]; [inversion E; subst; assumption|discriminate].
  - intros H. right. split; [reflexivity|]. destruct v as [|[|]| |[| |]]; try discriminate. reflexivity.
  - intros [(w' & E & H)|[_ ->]]; [discriminate|reflexivity].
Qed.

Lemma in_part_keeps p attr n a : usable p = true -> (in_part p attr n a = true <-> keeps p attr n a).
Proof.
  destruct p as [v|[|] l]; cbn; try discriminate; intros _; [apply get_keeps|apply mem_In].
Qed.

Lemma kept_In g p attr n : WF g -> usable p = true ->
  (kept g p attr n <-> exists a, In (n, a) (g_nodes g) /\ in_part p attr n a = true).
Proof.
  intros W U. unfold kept. split; intros (a & E & H); exists a.
  - split; [apply dget_Some_In; exact E|apply in_part_keeps; assumption].
  - split; [apply dget_In; [apply (wf_nodes g W)|exact E]|apply in_part_keeps; assumption].
Qed.

(** ** the norm of one node *)
Definition inc (lib : libm) (m : metric) (w : val) : pynum := match m with Cosine => n_mul lib (pn w) (pn w) | _ => NInt 1 end.

Lemma pynum_num v : num_of v <> None -> pynum_of v <> None.
Proof. destruct v as [|[|]| |[| |]]; cbn; congruence. Qed.

Lemma accumulated_inv lib m g p attr wattr chk n acc : accumulated lib m g p attr wattr chk n = Ok acc ->
  acc = total lib (map (fun tta => inc lib m (get_weight wattr (snd tta))) (items g n))
  /\ (chk = true -> forall t a, In (t, a) (items g n) -> same_part p attr t a = false).
Proof.
  unfold accumulated.
  apply (foldM_inv (fun l acc => acc = total lib (map (fun tta => inc lib m (get_weight wattr (snd tta))) l)
     /\ (chk = true -> forall t a, In (t, a) l -> same_part p attr t a = false))).
  - split; [reflexivity|]. intros _ t a [].
  - intros done [t a] todo st st' _ (V & S) E. cbn [fst snd] in E.
    destruct (chk && same_part p attr t a) eqn:C; [discriminate|]. split.
    + rewrite map_app. cbn [map snd]. rewrite total_snoc, <- V. unfold accumulate in E. unfold inc.
      destruct m; try (inversion E; subst; reflexivity).
      unfold as_number in E. unfold pn. destruct (pynum_of (get_weight wattr a)); [|discriminate]. inversion E; subst. reflexivity.
    + intros H t' a' I. apply in_app_iff in I as [I|[I|[]]]; [apply S; assumption|]. inversion I; subst t' a'.
      rewrite H in C. exact C.
Qed.

Lemma accumulated_total lib m g p attr wattr chk n :
  (chk = true -> forall t a, In (t, a) (items g n) -> same_part p attr t a = false) ->
  (weighted m = true -> forall t a, In (t, a) (items g n) -> num_of (get_weight wattr a) <> None) ->
  exists acc, accumulated lib m g p attr wattr chk n = Ok acc.
Proof.
  intros S N. unfold accumulated.
  destruct (foldM_total (fun _ _ => True) (fun (acc : pynum) (tta : key * attrs) => if chk && same_part p attr (fst tta) (snd tta) then Err TypeError
     else accumulate lib m acc (get_weight wattr (snd tta))) (items g n) (NInt 0)) as (acc & E & _); [exact I| |eauto].
  intros done [t a] todo st El _. assert (I : In (t, a) (items g n)) by (rewrite El; apply in_or_app; right; left; reflexivity).
  cbn [fst snd]. destruct chk; cbn [andb].
  - rewrite (S eq_refl t a I). unfold accumulate, as_number. destruct m; eauto. specialize (N eq_refl t a I). apply pynum_num in N.
    destruct (pynum_of _); [cbn; eauto|congruence].
  - unfold accumulate, as_number. destruct m; eauto. specialize (N eq_refl t a I). apply pynum_num in N. destruct (pynum_of _); [cbn; eauto|congruence].
Qed.

(** ** the first loop *)
Definition stripped (attr : key) (na : key * attrs) : key * attrs := (fst na, dremove [attr] (snd na)).
Definition selected (p : part) (attr : key) (na : key * attrs) : bool := in_part p attr (fst na) (snd na).

Definition phase1 lib m g p attr wattr chk (l : dict attrs) (s : dict pynum * graph * bool) : Prop :=
  let '(norms, h, ex) := s in
  h = mkG false false [] (map (stripped attr) (filter (selected p attr) l)) []
  /\ (ex = true <-> filter (selected p attr) l <> [])
  /\ NoDup (dkeys norms)
  /\ (forall n a, In (n, a) l -> in_part p attr n a = true -> exists acc, accumulated lib m g p attr wattr chk n = Ok acc
        /\ kwargs_ok node_reserved (dremove [attr] a) = true
        /\ dget n norms = if should_keep_norm m acc then Some (finalize_norm lib m acc) else None)
  /\ (forall n, In n (dkeys norms) -> exists a, In (n, a) l /\ in_part p attr n a = true).

Lemma dkeys_stripped attr f l : dkeys (map (stripped attr) (filter f l)) = map fst (filter f l).
Proof. unfold dkeys. rewrite map_map. reflexivity. Qed.

Lemma add_fresh h n a : ~ In n (nodes h) -> NoDup (dkeys a) ->
  add_node h n a = mkG (g_dir h) (g_multi h) (g_attr h) (g_nodes h ++ [(n, a)]) (g_adj h).
Proof.
  intros NI ND. unfold add_node. assert (E : node_data h n = None) by (apply dget_None; exact NI).
  rewrite E, dupdate_nil by assumption. rewrite dset_notin by exact NI. reflexivity.
Qed.

Lemma phase1_step lib m g p attr wattr chk l na todo s s' : g_nodes g = l ++ na :: todo -> WF g ->
  phase1 lib m g p attr wattr chk l s -> norms_step lib m g p attr wattr chk s na = Ok s' ->
  phase1 lib m g p attr wattr chk (l ++ [na]) s'.
Proof.
  destruct s as [[norms h] ex]. destruct na as [n a]. intros G W (Hh & Hex & N & V & Kd) E.
  unfold norms_step in E. cbn [fst snd] in E.
  assert (NI : ~ In n (map fst l)).
  { pose proof (wf_nodes g W) as NN. unfold nodes, dkeys in NN. rewrite G, map_app in NN. cbn in NN.
    apply NoDup_remove_2 in NN. intros C. apply NN. apply in_or_app. left; exact C. }
  assert (NA : NoDup (dkeys a)).
  { apply (wf_nattrs g W n). rewrite G. apply in_or_app. right; left; reflexivity. }
  unfold phase1. rewrite filter_app. cbn [filter]. unfold selected at 2 4. cbn [fst snd].
  destruct (in_part p attr n a) eqn:P.
  - apply bind_Ok in E as (acc & EA & E). apply bind_Ok in E as (h' & EH & E). inversion E; subst s'. clear E.
    apply add_node_kw_Ok in EH as [EK EH].
    split; [|split; [|split; [|split]]].
    + rewrite EH. rewrite add_fresh.
      * rewrite Hh. cbn. rewrite map_app. reflexivity.
      * rewrite Hh. unfold nodes. cbn [g_nodes]. rewrite dkeys_stripped. intros C. apply NI.
        apply in_map_iff in C as (x & <- & C). apply filter_In in C. apply in_map. tauto.
      * apply NoDup_dkeys_filter; assumption.
    + split; [|reflexivity]. intros _ C. destruct (filter (selected p attr) l); discriminate.
    + unfold add_norm. destruct (should_keep_norm m acc); [apply NoDup_dset|]; assumption.
    + intros n' a' I P'. apply in_app_iff in I as [I|[I|[]]].
      * destruct (V n' a' I P') as (acc' & A1 & A2 & A3). exists acc'. split; [assumption|]. split; [assumption|].
        unfold add_norm. destruct (should_keep_norm m acc); [|assumption]. rewrite dget_dset. keq n' n; [|assumption].
        exfalso. apply NI. change n with (fst (n, a')). apply in_map. assumption.
      * inversion I; subst n' a'. exists acc. split; [assumption|]. split; [assumption|].
        assert (D0 : dget n norms = None).
        { apply dget_None. intros C. destruct (Kd n C) as (a0 & I0 & _). apply NI. change n with (fst (n, a0)). apply in_map. assumption. }
        unfold add_norm. destruct (should_keep_norm m acc); [rewrite dget_dset, key_eqb_refl; reflexivity|assumption].
    + intros n' I. assert (n' = n \/ In n' (dkeys norms)) as [->|I'].
      { unfold add_norm in I. destruct (should_keep_norm m acc); [apply In_dkeys_dset in I; assumption|tauto]. }
      * exists a. split; [apply in_or_app; right; left; reflexivity|assumption].
      * destruct (Kd n' I') as (a' & I1 & I2). exists a'. split; [apply in_or_app; left; assumption|assumption].
  - inversion E; subst s'. clear E. rewrite app_nil_r. split; [assumption|]. split; [assumption|]. split; [assumption|]. split.
    + intros n' a' I P'. apply in_app_iff in I as [I|[I|[]]]; [apply V; assumption|]. inversion I; subst. congruence.
    + intros n' I. destruct (Kd n' I) as (a' & I1 & I2). exists a'. split; [apply in_or_app; left; assumption|assumption].
Qed.

Lemma phase1_start lib m g p attr wattr chk : phase1 lib m g p attr wattr chk [] ([], empty_graph false false, false).
Proof.
  split; [reflexivity|]. split; [split; [discriminate|intros C; elim C; reflexivity]|]. split; [constructor|].
  split; [intros n a []|intros n []].
Qed.

Lemma phase1_inv lib m g p attr wattr chk s : WF g ->
  foldM (norms_step lib m g p attr wattr chk) (g_nodes g) ([], empty_graph false false, false) = Ok s ->
  phase1 lib m g p attr wattr chk (g_nodes g) s.
Proof.
  intros W. apply (foldM_inv (phase1 lib m g p attr wattr chk)); [apply phase1_start|].
  intros done a todo st st' G. apply phase1_step with (todo := todo); assumption.
Qed.

Lemma phase1_total lib m g p attr wattr chk : WF g ->
  (forall n a, In (n, a) (g_nodes g) -> in_part p attr n a = true ->
     (exists acc, accumulated lib m g p attr wattr chk n = Ok acc) /\ kwargs_ok node_reserved (dremove [attr] a) = true) ->
  exists s, foldM (norms_step lib m g p attr wattr chk) (g_nodes g) ([], empty_graph false false, false) = Ok s.
Proof.
  intros W H. destruct (foldM_total (fun _ _ => True) (norms_step lib m g p attr wattr chk) (g_nodes g) ([], empty_graph false false, false)) as (s & E & _);
    [exact I| |eauto].
  intros done [n a] todo [[norms h] ex] G _. unfold norms_step. cbn [fst snd]. destruct (in_part p attr n a) eqn:P; [|eauto].
  destruct (H n a) as ((acc & ->) & KW); [rewrite G; apply in_or_app; right; left; reflexivity|assumption|]. cbn [bind].
  unfold add_node_kw. rewrite KW. cbn [bind]. eauto.
Qed.

(** ** the whole function *)
Lemma WF_plain attr f l : NoDup (map fst l) -> (forall n a, In (n, a) l -> NoDup (dkeys a)) ->
  WF (mkG false false [] (map (stripped attr) (filter f l)) []).
Proof.
  intros N A. constructor.
  - unfold nodes. cbn [g_nodes]. rewrite dkeys_stripped. apply (NoDup_dkeys_filter f l). exact N.
  - intros n a I. cbn [g_nodes] in I. apply in_map_iff in I as ([n' a'] & E & I). inversion E; subst. apply filter_In in I as [I _].
    apply NoDup_dkeys_filter. eapply A; eassumption.
  - constructor.
  - intros b [].
  - intros b [].
  - intros b [].
  - intros b k a [].
  - intros _ b [].
  - constructor.
Qed.

Lemma assembled lib m g p attr wattr chk norms h0 ex ls t : WF g ->
  phase1 lib m g p attr wattr chk (g_nodes g) (norms, h0, ex) ->
  mapM (links_of lib m g wattr norms) (dkeys norms) = Ok ls ->
  let h := put_links (filter (passes t) (List.concat ls)) h0 in
  ForallOrdPairs other_pair (List.concat ls)
  /\ WF h /\ g_dir h = false /\ g_multi h = false /\ g_attr h = []
  /\ g_nodes h = map (stripped attr) (filter (selected p attr) (g_nodes g))
  /\ forall u v, edge_attrs h u v (KInt 0) =
       match List.find (joins u v) (List.concat ls) with
       | Some l => if passes t l then Some (wlink (snd l)) else None
       | None => None
       end.
Proof.
  intros W (Hh & Hex & N & V & Kd) El. destruct (all_links _ _ _ _ _ _ _ N El) as (F & B). cbn zeta.
  split; [assumption|].
  assert (W0 : WF h0) by (rewrite Hh; apply WF_plain; [apply (wf_nodes g W)|apply (wf_nattrs g W)]).
  assert (NN : forall n, In n (dkeys norms) -> In n (nodes h0)).
  { intros n I. destruct (Kd n I) as (a & I1 & I2). rewrite Hh. unfold nodes. cbn [g_nodes]. rewrite dkeys_stripped.
    change n with (fst (n, a)). apply in_map. apply filter_In. split; assumption. }
  assert (AE : g_adj h0 = []) by (rewrite Hh; reflexivity).
  assert (NE : forall u v, edge_data h0 u v = None) by (intros; unfold edge_data; rewrite AE; reflexivity).
  destruct (put_links_spec (filter (passes t) (List.concat ls)) h0 W0) as (W1 & D1 & M1 & G1 & A1 & E1).
  - rewrite Hh; reflexivity.
  - rewrite Hh; reflexivity.
  - intros l I. apply filter_In in I as [I _]. destruct (B l I) as (_ & I1 & I2). auto.
  - apply FOP_filter; assumption.
  - intros l _. unfold has_edge. rewrite NE. reflexivity.
  - split; [assumption|]. split; [assumption|]. split; [assumption|].
    split; [etransitivity; [exact A1|rewrite Hh; reflexivity]|].
    split; [etransitivity; [exact G1|rewrite Hh; reflexivity]|].
    intros u v. etransitivity; [apply E1|]. rewrite find_joins_filter by assumption.
    unfold edge_attrs. rewrite NE. destruct (List.find (joins u v) (List.concat ls)) as [l|]; [|reflexivity].
    destruct (passes t l); reflexivity.
Qed.

Lemma projection_inv lib g p attr wattr name chk thr h : WF g -> order g <> 0 ->
  monopartite_projection lib g p attr wattr name chk thr = Ok h ->
  exists m t norms h0 ls, instantiate_online_metric name = Ok m /\ check_threshold thr = Ok t
  /\ phase1 lib m g p attr wattr chk (g_nodes g) (norms, h0, true)
  /\ mapM (links_of lib m g wattr norms) (dkeys norms) = Ok ls
  /\ h = put_links (filter (passes t) (List.concat ls)) h0.
Proof.
  intros W O. unfold monopartite_projection. intros E. apply bind_Ok in E as (m & Em & E). apply bind_Ok in E as (t & Et & E).
  apply Nat.eqb_neq in O. rewrite O in E. apply bind_Ok in E as ([[norms h0] ex] & Es & E).
  apply phase1_inv in Es; [|assumption].
  destruct ex; [|discriminate]. rewrite project_all in E. apply bind_Ok in E as (ls & El & E). inversion E as [E']. clear E.
  exists m, t, norms, h0, ls. split; [assumption|]. split; [assumption|]. split; [assumption|]. split; [assumption|reflexivity].
Qed.

(** ** meaning of the sums *)
Section Meaning.
Variables (lib : libm) (g : graph) (wattr : key).
Hypothesis W : WF g.
Hypothesis D : g_dir g = false.
Hypothesis M : g_multi g = false.

Lemma items_In u t a : In (t, a) (items g u) <-> edge_attrs g u t (KInt 0) = Some a.
Proof.
  unfold items. rewrite M, in_map_iff. split.
  - intros ([t' kd] & E & I). cbn in E. apply adj_items_In in I; [|assumption].
    destruct (edge_data_simple g u t' kd W M I) as (a' & ->). cbn in E. inversion E; subst.
    unfold edge_attrs. rewrite I. reflexivity.
  - intros E. unfold edge_attrs in E. destruct (edge_data g u t) as [kd|] eqn:ED; [|discriminate].
    exists (t, kd). split; [|apply adj_items_In; assumption]. cbn [fst snd].
    destruct (edge_data_simple g u t kd W M ED) as (a' & ->). cbn in E |- *. inversion E; reflexivity.
Qed.

Lemma items_keys u : dkeys (items g u) = map fst (adj_items g u).
Proof. unfold items, dkeys. rewrite map_map. reflexivity. Qed.
Lemma items_NoDup u : NoDup (dkeys (items g u)).
Proof. rewrite items_keys. apply adj_items_NoDup, W. Qed.

Lemma dget_items u t : dget t (items g u) = edge_attrs g u t (KInt 0).
Proof.
  destruct (edge_attrs g u t (KInt 0)) as [a|] eqn:E.
  - apply dget_In; [apply items_NoDup|]. apply items_In. assumption.
  - apply dget_None. intros C. apply In_dkeys in C as (a & C). apply items_In in C. congruence.
Qed.

Lemma items_incl u : incl (dkeys (items g u)) (nodes g).
Proof.
  intros t I. apply In_dkeys in I as (a & I). apply items_In in I. unfold edge_attrs in I.
  destruct (edge_data g u t) eqn:E; [|discriminate]. eapply edge_data_nodes in E; [|assumption]. tauto.
Qed.

Lemma items_edge u t : In t (dkeys (items g u)) <-> has_edge g u t = true.
Proof.
  split.
  - intros I. apply In_dkeys in I as (a & I). apply items_In in I. eapply edge_attrs_has; eassumption.
  - intros H. destruct (has_edge_attrs g u t W M H) as (a & E). apply In_dkeys. exists a. apply items_In. assumption.
Qed.

Lemma bond_items u t a : edge_attrs g u t (KInt 0) = Some a -> (bond wattr g u t == value (pn (get_weight wattr a)))%Q.
Proof.
  intros E. unfold bond, pn, get_weight. rewrite E. destruct (dget wattr a) as [v|]; [|reflexivity].
  destruct v as [|[|]| |[| |]]; reflexivity.
Qed.

Lemma bond_none u t : edge_attrs g u t (KInt 0) = None -> (bond wattr g u t == 0)%Q.
Proof. intros E. unfold bond. rewrite E. reflexivity. Qed.

Lemma bond_sym u t : bond wattr g u t = bond wattr g t u.
Proof. unfold bond. rewrite edge_attrs_sym by assumption. reflexivity. Qed.

Lemma sum_q_dict2 {A} (F : key -> A -> Q) (N : list key) (l : dict A) : NoDup N -> NoDup (dkeys l) -> incl (dkeys l) N ->
  (sum_q (map (fun x => match dget x l with Some d => F x d | None => 0 end) N) == sum_q (map (fun md => F (fst md) (snd md)) l))%Q.
Proof.
  intros N1 N2 I. set (l' := map (fun md => (fst md, md)) l).
  assert (K' : dkeys l' = dkeys l) by (unfold l', dkeys; rewrite map_map; reflexivity).
  pose proof (sum_q_dict (fun md => F (fst md) (snd md)) N l' N1 ltac:(rewrite K'; assumption) ltac:(rewrite K'; assumption)) as H.
  unfold l' in H at 2. rewrite map_map in H. cbn [snd] in H. rewrite <- H. apply sum_q_ext. intros x _.
  assert (E : dget x l' = option_map (pair x) (dget x l)).
  { unfold l'. clear. induction l as [|[k d] l IH]; [reflexivity|]. cbn. keq x k; [reflexivity|exact IH]. }
  rewrite E. destruct (dget x l); reflexivity.
Qed.

(** sums and products without rounding *)
Definition plain (l : list pynum) : Prop := exact lib \/ forall x, In x l -> exists z, x = NInt z.

(** [n] is the number [q], without rounding *)
Definition faithful (n : pynum) (q : Q) : Prop := (value n == q)%Q /\ (exact lib \/ exists z, n = NInt z).

Lemma total_value l : plain l -> faithful (total lib l) (sum_q (map value l)).
Proof.
  intros [E|H].
  - split; [|left; exact E]. induction l as [|x l IH] using rev_ind; [reflexivity|].
    rewrite total_snoc, map_app, sum_q_app, (value_add lib E), IH. cbn. ring.
  - assert (Y : exists z, total lib l = NInt z /\ (inject_Z z == sum_q (map value l))%Q);
      [|destruct Y as (z & -> & Y); split; [exact Y|right; eauto]].
    induction l as [|x l IH] using rev_ind; [exists 0%Z; split; reflexivity|].
    destruct IH as (z & Ez & Vz); [intros y I; apply H, in_or_app; left; exact I|].
    destruct (H x) as (y & ->); [apply in_or_app; right; left; reflexivity|]. exists (z + y)%Z. rewrite total_snoc, Ez. split; [reflexivity|].
    rewrite map_app, sum_q_app, <- Vz, inject_Z_plus. cbn. ring.
Qed.

Lemma faithful_eq n p q : faithful n p -> (p == q)%Q -> faithful n q.
Proof. intros [E H] Q. split; [rewrite E; exact Q|exact H]. Qed.

Hypothesis X : exact_sums lib wattr g.

Lemma mul_value u t a v s b : edge_attrs g u t (KInt 0) = Some a -> edge_attrs g v s (KInt 0) = Some b ->
  (value (n_mul lib (pn (get_weight wattr a)) (pn (get_weight wattr b))) == bond wattr g u t * bond wattr g v s)%Q
  /\ (exact lib \/ exists z, n_mul lib (pn (get_weight wattr a)) (pn (get_weight wattr b)) = NInt z).
Proof.
  intros Ea Eb. rewrite (bond_items u t a Ea), (bond_items v s b Eb).
  destruct X as [X0|H]; [split; [apply value_mul, X0|left; exact X0]|].
  assert (I : forall u t a, edge_attrs g u t (KInt 0) = Some a -> exists z, pn (get_weight wattr a) = NInt z).
  { intros u' t' a' E. unfold get_weight, pn. destruct (dget wattr a') as [w|] eqn:D1; [|exists 1%Z; reflexivity].
    destruct (H u' t' a' w E D1) as (z & ->). exists z. reflexivity. }
  destruct (I u t a Ea) as (x & ->), (I v s b Eb) as (y & ->). cbn [n_mul value]. split; [rewrite inject_Z_mult; reflexivity|right; eauto].
Qed.

Lemma plain_of l : (forall x, In x l -> exact lib \/ exists z, x = NInt z) -> plain l.
Proof.
  intros H. destruct X as [E|_]; [left; exact E|]. induction l as [|x l IH]; [right; intros x []|].
  destruct IH as [E|IH]; [intros y I; apply H; right; exact I|left; exact E|].
  destruct (H x (or_introl eq_refl)) as [E|Hx]; [left; exact E|right]. intros y [<-|I]; auto.
Qed.

Lemma norm_weighted u : faithful (total lib (map (fun tta => inc lib Cosine (get_weight wattr (snd tta))) (items g u))) (scalar wattr g u u).
Proof.
  eapply faithful_eq; [apply total_value|].
  2: { rewrite map_map. unfold scalar. rewrite <- (sum_q_dict (fun a => value (inc lib Cosine (get_weight wattr a))) (nodes g) (items g u));
      [|apply (wf_nodes g W)|apply items_NoDup|apply items_incl].
    apply sum_q_ext. intros t _. rewrite dget_items. destruct (edge_attrs g u t (KInt 0)) as [a|] eqn:E.
    + apply (mul_value u t a u t a); assumption.
    + rewrite bond_none by assumption. reflexivity. }
  apply plain_of. intros x I. apply in_map_iff in I as ([t a] & <- & I). apply items_In in I. apply (mul_value u t a u t a); assumption.
Qed.

Lemma sum_ones {A} (f : A -> Q) l : (forall x, In x l -> f x == 1)%Q -> (sum_q (map f l) == nq (List.length l))%Q.
Proof.
  intros H. induction l as [|x l IH]; [reflexivity|]. cbn [map List.length]. unfold sum_q. cbn [fold_right].
  fold (sum_q (map f l)). rewrite IH by (intros; apply H; right; assumption). rewrite H by (left; reflexivity).
  unfold nq. rewrite Nat2Z.inj_succ. unfold Z.succ. rewrite inject_Z_plus. apply Qplus_comm.
Qed.

Definition deg (u : key) : nat := List.length (items g u).

Lemma deg_size u : has_size (fun t => has_edge g u t = true) (deg u).
Proof.
  exists (dkeys (items g u)). split; [|unfold deg, dkeys; apply map_length]. split; [apply items_NoDup|]. apply items_edge.
Qed.

Lemma count_total {A} (f : A -> pynum) l : (forall x, In x l -> f x = NInt 1) -> total lib (map f l) = NInt (Z.of_nat (List.length l)).
Proof.
  induction l as [|x l IH] using rev_ind; intros H; [reflexivity|]. rewrite map_app, app_length. cbn [map List.length].
  rewrite total_snoc, IH by (intros; apply H, in_or_app; left; assumption). rewrite (H x) by (apply in_or_app; right; left; reflexivity).
  cbn [n_add]. f_equal. lia.
Qed.

Lemma norm_count m u : m <> Cosine -> total lib (map (fun tta => inc lib m (get_weight wattr (snd tta))) (items g u)) = NInt (Z.of_nat (deg u)).
Proof.
  intros NC. apply count_total. intros [t a] _. unfold inc. destruct m; try reflexivity. congruence.
Qed.

(** what the common neighbour [t] of [u] and [v] adds *)
Definition adds (m : metric) (v t : key) (a : attrs) : list pynum :=
  match edge_attrs g t v (KInt 0) with Some a2 => [iw lib m (get_weight wattr a) (get_weight wattr a2)] | None => [] end.

Lemma flat_map_one {A B} (f : key -> A -> list B) (l : dict A) v : NoDup (dkeys l) ->
  flat_map (fun ka => if key_eqb (fst ka) v then f (fst ka) (snd ka) else []) l =
  match dget v l with Some a => f v a | None => [] end.
Proof.
  induction l as [|[k a] l IH]; intros N; [reflexivity|]. inversion N as [|? ? NI ND]; subst. cbn [flat_map fst snd dget].
  rewrite (key_eqb_sym v k). keq k v.
  - rewrite IH by assumption. cbn in NI. apply dget_None in NI. rewrite NI. apply app_nil_r.
  - apply IH; assumption.
Qed.

Lemma hits_eq m u v : hits lib m wattr v (entries g u) = flat_map (fun tta => adds m v (fst tta) (snd tta)) (items g u).
Proof.
  unfold hits, entries. induction (items g u) as [|[t a] l IH]; [reflexivity|]. cbn [flat_map]. rewrite flat_map_app, IH. f_equal.
  cbn [fst snd]. unfold adds. rewrite <- dget_items.
  rewrite <- (flat_map_one (fun _ a2 => [iw lib m (get_weight wattr a) (get_weight wattr a2)]) (items g t) v) by apply items_NoDup.
  rewrite flat_map_concat_map, map_map, <- flat_map_concat_map. reflexivity.
Qed.

Lemma hits_shared m u v : hits lib m wattr v (entries g u) <> [] <-> exists t, shared g u v t.
Proof.
  rewrite hits_eq. split.
  - intros H. destruct (flat_map (fun tta => adds m v (fst tta) (snd tta)) (items g u)) as [|q r] eqn:E; [congruence|].
    assert (I : In q (flat_map (fun tta => adds m v (fst tta) (snd tta)) (items g u))) by (rewrite E; left; reflexivity).
    apply in_flat_map in I as ([t a] & I & J). cbn in J. unfold adds in J. destruct (edge_attrs g t v (KInt 0)) eqn:E2; [|destruct J].
    exists t. split; [apply items_edge, In_dkeys; eauto|]. rewrite has_edge_sym by assumption. eapply edge_attrs_has; eassumption.
  - intros (t & H1 & H2) C. destruct (has_edge_attrs g u t W M H1) as (a & E).
    rewrite has_edge_sym in H2 by assumption. destruct (has_edge_attrs g t v W M H2) as (a2 & E2).
    assert (I : In (iw lib m (get_weight wattr a) (get_weight wattr a2)) (flat_map (fun tta => adds m v (fst tta) (snd tta)) (items g u))).
    { apply in_flat_map. exists (t, a). split; [apply items_In; assumption|]. cbn. unfold adds. rewrite E2. left; reflexivity. }
    rewrite C in I. destruct I.
Qed.

Lemma sum_flat {A} (f : A -> list Q) l : (sum_q (flat_map f l) == sum_q (map (fun x => sum_q (f x)) l))%Q.
Proof.
  induction l as [|x l IH]; [reflexivity|]. cbn [flat_map map]. rewrite sum_q_app, IH. reflexivity.
Qed.

Lemma map_flat_map {A B C} (f : B -> C) (h : A -> list B) l : map f (flat_map h l) = flat_map (fun x => map f (h x)) l.
Proof. induction l as [|x l IH]; [reflexivity|]. cbn. rewrite map_app, IH. reflexivity. Qed.

Lemma hits_weighted m u v : weighted m = true -> faithful (total lib (hits lib m wattr v (entries g u))) (scalar wattr g u v).
Proof.
  intros Wm. rewrite hits_eq. eapply faithful_eq; [apply total_value|].
  2: { rewrite map_flat_map, sum_flat.
    rewrite <- (sum_q_dict2 (fun t a => sum_q (map value (adds m v t a))) (nodes g) (items g u));
      [|apply (wf_nodes g W)|apply items_NoDup|apply items_incl].
    apply sum_q_ext. intros t _. rewrite dget_items. destruct (edge_attrs g u t (KInt 0)) as [a|] eqn:E.
    + unfold adds, iw. rewrite Wm. rewrite (bond_sym v t).
      destruct (edge_attrs g t v (KInt 0)) as [a2|] eqn:E2.
      * cbn [map]. unfold sum_q. cbn [fold_right]. rewrite (proj1 (mul_value u t a t v a2 E E2)). ring.
      * rewrite (bond_none t v E2). cbn. ring.
    + rewrite (bond_none u t E). ring. }
  apply plain_of. intros x I. apply in_flat_map in I as ([t a] & I & J). apply items_In in I. cbn [fst snd] in J. unfold adds, iw in J.
    rewrite Wm in J. destruct (edge_attrs g t v (KInt 0)) as [a2|] eqn:E2; [|destruct J]. destruct J as [<-|[]].
    apply (mul_value u t a t v a2); assumption.
Qed.

Definition com (u v : key) : nat := List.length (filter (fun t => has_edge g v t) (dkeys (items g u))).

Lemma com_size u v : has_size (shared g u v) (com u v).
Proof.
  exists (filter (fun t => has_edge g v t) (dkeys (items g u))). split; [|reflexivity].
  split; [apply NoDup_filter, items_NoDup|]. intros t. rewrite filter_In, items_edge. unfold shared. tauto.
Qed.

Lemma hits_count m u v : weighted m = false -> total lib (hits lib m wattr v (entries g u)) = NInt (Z.of_nat (com u v)).
Proof.
  intros Wm. assert (L : List.length (hits lib m wattr v (entries g u)) = com u v).
  { rewrite hits_eq. unfold com, dkeys. induction (items g u) as [|[t a] l IH]; [reflexivity|]. cbn [map filter flat_map fst snd].
    rewrite app_length, IH. unfold adds. rewrite (has_edge_sym g v t) by assumption.
    destruct (edge_attrs g t v (KInt 0)) as [a2|] eqn:E.
    - rewrite (edge_attrs_has _ _ _ _ _ E). reflexivity.
    - assert (H : has_edge g t v = false).
      { destruct (has_edge g t v) eqn:H; [|reflexivity]. destruct (has_edge_attrs g t v W M H). congruence. }
      rewrite H. reflexivity. }
  rewrite <- L, <- (map_id (hits lib m wattr v (entries g u))) at 1. rewrite count_total; [reflexivity|].
  intros x I. unfold hits in I. apply in_flat_map in I as (e & _ & I). destruct (key_eqb _ _); [|destruct I]. destruct I as [<-|[]].
  unfold iw. rewrite Wm. reflexivity.
Qed.

(** sizes *)
Lemma union_size u v : has_size (fun t => has_edge g u t = true \/ has_edge g v t = true) (deg u + deg v - com u v)
  /\ com u v <= deg u /\ com u v <= deg v.
Proof.
  set (A := dkeys (items g u)). set (B := dkeys (items g v)).
  set (C := filter (fun t => has_edge g v t) A).
  set (R := filter (fun t => negb (has_edge g u t)) B).
  assert (LB : List.length C + List.length R = List.length B).
  { assert (P : List.length C = List.length (filter (fun t => has_edge g u t) B)).
    { apply (has_size_unique (shared g u v)).
      - exists C. split; [|reflexivity]. split; [apply NoDup_filter, items_NoDup|]. intros t. unfold C, A. rewrite filter_In, items_edge. unfold shared. tauto.
      - exists (filter (fun t => has_edge g u t) B). split; [|reflexivity]. split; [apply NoDup_filter, items_NoDup|].
        intros t. unfold B. rewrite filter_In, items_edge. unfold shared. tauto. }
    rewrite P. unfold R. clear. induction B as [|x l IH]; [reflexivity|]. cbn [filter]. destruct (has_edge g u x); cbn; lia. }
  assert (LC : List.length C <= List.length A) by apply filter_len.
  assert (LA : deg u = List.length A) by (unfold A, deg, dkeys; rewrite map_length; reflexivity).
  assert (LB' : deg v = List.length B) by (unfold B, deg, dkeys; rewrite map_length; reflexivity).
  change (com u v) with (List.length C). split; [|lia].
  exists (A ++ R). split; [|rewrite app_length; lia]. split.
  - apply NoDup_app_iff. split; [apply items_NoDup|]. split; [apply NoDup_filter, items_NoDup|].
    intros t I1 I2. apply items_edge in I1. unfold R in I2. apply filter_In in I2 as [_ I2]. rewrite I1 in I2. discriminate.
  - intros t. rewrite in_app_iff. unfold R, A, B. rewrite filter_In, !items_edge. destruct (has_edge g u t); cbn; intuition congruence.
Qed.

Lemma com_pos u v t : shared g u v t -> 1 <= com u v.
Proof.
  intros [H1 H2]. unfold com. assert (I : In t (filter (fun t => has_edge g v t) (dkeys (items g u)))).
  { apply filter_In. split; [apply items_edge|]; assumption. }
  destruct (filter _ _); [destruct I|cbn; lia].
Qed.

Lemma com_sym u v : com u v = com v u.
Proof.
  eapply has_size_unique; [apply com_size|]. eapply has_size_ext; [|apply com_size]. intros t. unfold shared. tauto.
Qed.
Lemma scalar_sym u v : (scalar wattr g u v == scalar wattr g v u)%Q.
Proof. apply sum_q_ext. intros t _. ring. Qed.

Lemma has_size_swap {A} (P Q : A -> Prop) n : (forall x, P x <-> Q x) -> (has_size P n <-> has_size Q n).
Proof. intros H. split; apply has_size_ext; intros x; [apply H|symmetry; apply H]. Qed.

Lemma similarity_sym m u v x : rounding (m_round lib) -> (forall x y, (x == y)%Q -> (m_sqrt lib x == m_sqrt lib y)%Q) ->
  (forall x y, (x == y)%Q -> (m_log lib x == m_log lib y)%Q) ->
  similarity lib m wattr g u v x -> similarity lib m wattr g v u x.
Proof.
  intros R LS LL.
  assert (RE : forall x y, (x == y)%Q -> (m_round lib x == m_round lib y)%Q) by exact (rnd_eq _ R).
  assert (SS : forall n, has_size (shared g u v) n <-> has_size (shared g v u) n).
  { intros n. apply has_size_swap. intros t. unfold shared. tauto. }
  assert (G : forall (f : nat -> nat -> nat -> Q), (forall a b i, f a b i == f b a i)%Q ->
     (exists a b i, neighbourhood_sizes g u v a b i /\ (x == f a b i)%Q) ->
     exists a b i, neighbourhood_sizes g v u a b i /\ (x == f a b i)%Q).
  { intros f Hf (a & b & i & (H1 & H2 & H3) & E). exists b, a, i. split; [|rewrite E; apply Hf].
    split; [assumption|]. split; [assumption|]. apply SS; assumption. }
  unfold similarity. destruct m.
  - apply (G (fun a b i => nq i)). reflexivity.
  - intros (i & n & H1 & H2 & E). exists i, n. split; [apply SS; assumption|]. split; [|assumption].
    eapply has_size_ext; [|exact H2]. intros t. cbn. tauto.
  - apply (G (fun a b i => m_round lib (nq i / Qmin (nq a) (nq b)))%Q). intros a b i. apply RE. rewrite Q.min_comm. reflexivity.
  - apply (G (fun a b i => m_round lib (2 * nq i / (nq a + nq b)))%Q). intros a b i. apply RE. rewrite (Qplus_comm (nq a)). reflexivity.
  - apply (G (fun a b i => m_round lib (m_round lib (nq i) / m_round lib (root lib (nq a) * root lib (nq b))))%Q). intros a b i. apply RE.
    rewrite (RE _ _ (Qmult_comm (root lib (nq a)) (root lib (nq b)))). reflexivity.
  - intros E. rewrite E. apply scalar_sym.
  - intros E. rewrite E. apply RE. rewrite (RE _ _ (Qmult_comm (root lib (scalar wattr g u u)) (root lib (scalar wattr g v v)))).
    rewrite (RE _ _ (scalar_sym u v)). reflexivity.
  - apply (G (fun a b i => m_log lib (m_round lib (nq i / (nq a * nq b))))%Q). intros a b i. apply LL, RE. rewrite (Qmult_comm (nq a)). reflexivity.
Qed.
End Meaning.
