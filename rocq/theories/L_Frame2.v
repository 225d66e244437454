(** * Graphs to tables and back *)
From Coq Require Import List ZArith QArith Lia Bool String.
From Verif Require Import PyBase NxGraph L_Base L_Nx L_Nx2 M_Graph M_Shim M_Json M_Tabular S_Graph S_Json S_Tabular L_Graph L_Graph2 L_Sparse L_Rename L_Json L_Tab L_Bip L_Bip2 L_Bip3 L_Edges L_Frame.
Import ListNotations.
Open Scope list_scope.

Lemma kept_names repr cols r a : (forall c, In c cols -> exists s, c = KStr s) -> kept repr cols r a -> forall k v, dget k a = Some v <-> In k cols /\ row_item r k = Ok v.
Proof.
  intros S Kp k v. rewrite (Kp k v). split.
  - intros (l1 & c & l2 & -> & E & H & _). assert (I : In c (l1 ++ c :: l2)) by (apply in_or_app; right; left; reflexivity).
    destruct (S c I) as [s ->]. cbn in E. subst k. auto.
  - intros [I H]. destruct (split_last k cols I) as (l1 & l2 & -> & N). destruct (S k I) as [s ->]. exists l1, (KStr s), l2. split; [reflexivity|]. split; [reflexivity|]. split; [assumption|].
    intros c' Hc E. destruct (S c') as [s' ->]; [apply in_or_app; right; right; assumption|]. cbn in E. apply N. congruence.
Qed.

Lemma Forall2_map_in {A B C} (R : A -> C -> Prop) (f : B -> C) (l : list A) (l' : list B) : Forall2 (fun a b => R a (f b)) l l' -> Forall2 R l (map f l').
Proof. induction 1; constructor; assumption. Qed.

Lemma values_uniform names l k : uniform names l -> In k names -> map (fun a => dget k a) l = map Some (values k l).
Proof.
  intros U I. induction l as [|a l IH]; [reflexivity|]. unfold values. cbn [map flat_map]. assert (Ik : In k (dkeys a)) by (apply (U a); [left; reflexivity|assumption]).
  destruct (dkeys_dget k a Ik) as [v E]. rewrite E. cbn [app map]. f_equal. apply IH. intros a' Ha. apply U. right. assumption.
Qed.

Lemma values_nth names l k i a v : uniform names l -> In k names -> nth_error l i = Some a -> dget k a = Some v -> nth_error (values k l) i = Some v.
Proof.
  intros U I Ha Hv. pose proof (f_equal (fun x => nth_error x i) (values_uniform names l k U I)) as E. cbv beta in E. erewrite map_nth_error in E by exact Ha.
  rewrite nth_error_map in E. destruct (nth_error (values k l) i); cbn in E; congruence.
Qed.

(** the same names, with related values *)
Definition attrs_by (R : key -> val -> val -> Prop) (a b : attrs) : Prop :=
  forall k, match dget k a, dget k b with
            | Some x, Some y => R k x y
            | None, None => True
            | _, _ => False
            end.

(** the data read from a row of the frame is that of the attributes *)
Lemma data_same Rel repr names l f i a r data : (forall c, In c names -> exists s, c = KStr s) -> uniform names l -> nth_error l i = Some a ->
  (forall k v, In k names -> dget k a = Some v -> exists v', cell f k i = Some v' /\ Rel k v v') ->
  (forall c, In c names -> row_item r c = match cell f c i with Some v => Ok v | None => Err KeyError end) ->
  row_data repr names r = Ok data -> attrs_by Rel a data.
Proof.
  intros S U Ha H R D k. destruct (row_data_spec _ _ _ _ D) as (Kp & _ & _). pose proof (kept_names _ _ _ _ S Kp) as G.
  destruct (in_dec key_eq_dec k names) as [I|N].
  - assert (Ik : In k (dkeys a)) by (apply (U a); [eapply nth_error_In; eassumption|assumption]). destruct (dkeys_dget k a Ik) as [v E]. rewrite E.
    destruct (H k v I E) as (v' & C & V). assert (X : dget k data = Some v') by (apply G; split; [assumption|]; rewrite R, C by assumption; reflexivity). rewrite X. exact V.
  - assert (E : dget k a = None) by (apply dget_None; intros X; apply N; apply (U a) in X; [assumption|eapply nth_error_In; eassumption]). rewrite E.
    destruct (dget k data) eqn:X; [|exact I]. apply G in X. tauto.
Qed.

Section RoundTrip.
Variables (repr : nat -> string) (nan : val) (g : graph) (c sc tc : key) (A B : list key).
Hypotheses (W : WF g) (M : g_multi g = false).
Hypotheses (NA : forall k, In k A -> node_name k) (NB : forall k, In k B -> edge_name k).
Hypotheses (UA : uniform A (map snd (g_nodes g))) (UB : uniform B (map snd (edges_data g))).
Hypotheses (Nc : ~ In c A) (Ns : ~ In sc B) (Nt : ~ In tc B) (Nst : sc <> tc).
Hypotheses (Hn : g_nodes g <> []) (He : edges_data g <> []).

Let nf := make_frame nan (map (node_line c) (g_nodes g)) None.
Let ef := make_frame nan (map (plain_edge_line sc tc) (edges_data g)) None.

(** what becomes of a value *)
Definition becomes (l : list attrs) (k : key) (v v' : val) : Prop := v' = turned nan (map Some (values k l)) (Some v).
Let RA := becomes (map snd (g_nodes g)).
Let RB := becomes (map snd (edges_data g)).

Lemma node_nodup n a : In (n, a) (g_nodes g) -> NoDup (dkeys a).
Proof. eapply wf_nattrs; eassumption. Qed.
Lemma edge_nodup u v a : In (u, v, a) (edges_data g) -> NoDup (dkeys a).
Proof. intros H. eapply edge_attrs_nodup; [exact W|]. apply edges_data_attrs; eassumption. Qed.

Lemma nf_attr i n a k v : nth_error (g_nodes g) i = Some (n, a) -> In k A -> dget k a = Some v -> exists v', cell nf k i = Some v' /\ RA k v v'.
Proof.
  intros Hi Hk Hv. eexists. split; [|reflexivity]. apply (attr_column nan _ None k (values k (map snd (g_nodes g)))).
  - rewrite <- (values_uniform A) by assumption. rewrite !map_map. apply map_ext_in. intros [m b] I. rewrite node_line_get by (eapply node_nodup; eassumption). cbn [fst snd].
    destruct (dget k b) eqn:E; [reflexivity|]. apply dget_None in E. exfalso. apply E. apply (UA b); [apply in_map_iff; exists (m, b); auto|assumption].
  - eapply values_nth; [exact UA|assumption| |exact Hv]. rewrite nth_error_map, Hi. reflexivity.
Qed.

Lemma nf_key i n : nth_error (nodes g) i = Some n -> cell nf c i = Some (VKey n).
Proof. apply node_keys; [assumption|]. intros m a I X. apply Nc. apply (UA a); [apply in_map_iff; exists (m, a); auto|assumption]. Qed.

Lemma ef_attr i u v a k x : nth_error (edges_data g) i = Some (u, v, a) -> In k B -> dget k a = Some x -> exists x', cell ef k i = Some x' /\ RB k x x'.
Proof.
  intros Hi Hk Hv. eexists. split; [|reflexivity]. apply (attr_column nan _ None k (values k (map snd (edges_data g)))).
  - rewrite <- (values_uniform B) by assumption. rewrite !map_map. apply map_ext_in. intros [[p q] b] I. rewrite edge_line_get by (eapply edge_nodup; eassumption). cbn [fst snd].
    destruct (dget k b) eqn:E; [reflexivity|]. apply dget_None in E. exfalso. apply E. apply (UB b); [apply in_map_iff; exists (p, q, b); auto|assumption].
  - eapply values_nth; [exact UB|assumption| |exact Hv]. rewrite nth_error_map, Hi. reflexivity.
Qed.

Lemma ef_ends i u v a : nth_error (edges_data g) i = Some (u, v, a) -> cell ef sc i = Some (VKey u) /\ cell ef tc i = Some (VKey v).
Proof.
  intros Hi. assert (Out : forall k, ~ In k B -> forall p q b, In (p, q, b) (edges_data g) -> dget k b = None).
  { intros k Nk p q b I. apply dget_None. intros X. apply Nk. apply (UB b); [apply in_map_iff; exists (p, q, b); auto|assumption]. }
  split.
  - apply (key_column nan _ None sc (map (fun e => fst (fst e)) (edges_data g))).
    + rewrite !map_map. apply map_ext_in. intros [[p q] b] I. rewrite edge_line_get by (eapply edge_nodup; eassumption). rewrite (Out sc Ns p q b I). apply key_eqb_neq in Nst. rewrite Nst, key_eqb_refl. reflexivity.
    + rewrite nth_error_map, Hi. reflexivity.
  - apply (key_column nan _ None tc (map (fun e => snd (fst e)) (edges_data g))).
    + rewrite !map_map. apply map_ext_in. intros [[p q] b] I. rewrite edge_line_get by (eapply edge_nodup; eassumption). rewrite (Out tc Nt p q b I), key_eqb_refl. reflexivity.
    + rewrite nth_error_map, Hi. reflexivity.
Qed.

Lemma nf_rect : rectangular nf.
Proof.
  apply frame_rectangular. intros _. destruct (g_nodes g) as [|[n a] l] eqn:E; [contradiction|]. exists c, (node_line c (n, a)). split; [left; reflexivity|].
  unfold node_line. apply In_dkeys_dupdate. right. left. reflexivity.
Qed.
Lemma ef_rect : rectangular ef.
Proof.
  apply frame_rectangular. intros _. destruct (edges_data g) as [|[[u v] a] l] eqn:E; [contradiction|]. exists sc, (plain_edge_line sc tc (u, v, a)). split; [left; reflexivity|].
  unfold plain_edge_line. apply In_dkeys_dupdate. right. apply In_dkeys_dupdate. left. left. reflexivity.
Qed.

Lemma cell_col f k i v : cell f k i = Some v -> In k (dkeys (f_cols f)).
Proof. unfold cell. destruct (dget k (f_cols f)) eqn:E; [|discriminate]. intros _. eapply dget_Some_key; eassumption. Qed.

Lemma nf_cols k : In k (c :: A) -> In k (dkeys (f_cols nf)).
Proof.
  intros Hk. assert (X : exists n a l, g_nodes g = (n, a) :: l) by (destruct (g_nodes g) as [|[n a] l]; [contradiction|eauto]). destruct X as (n & a & l & E). destruct Hk as [<- |Hk].
  - apply (cell_col nf c 0 (VKey n)). apply nf_key. unfold nodes. rewrite E. reflexivity.
  - assert (Ik : In k (dkeys a)) by (apply (UA a); [rewrite E; left; reflexivity|assumption]). destruct (dkeys_dget k a Ik) as [v Ev].
    destruct (nf_attr 0 n a k v ltac:(rewrite E; reflexivity) Hk Ev) as (v' & C & _). eapply cell_col; eassumption.
Qed.
Lemma ef_cols k : In k ([sc; tc] ++ B) -> In k (dkeys (f_cols ef)).
Proof.
  intros Hk. assert (Z : exists u v a l, edges_data g = (u, v, a) :: l) by (destruct (edges_data g) as [|[[u v] a] l]; [contradiction|eauto 6]). destruct Z as (u & v & a & l & E). destruct (ef_ends 0 u v a) as [X Y]; [rewrite E; reflexivity|]. cbn in Hk. destruct Hk as [<- |[<- |Hk]].
  - eapply cell_col; eassumption.
  - eapply cell_col; eassumption.
  - assert (Ik : In k (dkeys a)) by (apply (UB a); [rewrite E; left; reflexivity|assumption]). destruct (dkeys_dget k a Ik) as [x Ex].
    destruct (ef_attr 0 u v a k x ltac:(rewrite E; reflexivity) Hk Ex) as (x' & C & _). eapply cell_col; eassumption.
Qed.

Lemma Forall2_build {X Y Z} (R : X -> Z -> Prop) (Q : Y -> Z -> Prop) l l' : List.length l = List.length l' ->
  (forall i x y, nth_error l i = Some x -> nth_error l' i = Some y -> exists z, R x z /\ Q y z) -> exists T, Forall2 R l T /\ Forall2 Q l' T.
Proof.
  revert l'. induction l as [|x l IH]; intros [|y l'] Le H; try discriminate; [exists []; split; constructor|].
  destruct (H 0 x y eq_refl eq_refl) as (z & Rz & Qz). destruct (IH l' ltac:(cbn in Le; lia) (fun i => H (Datatypes.S i))) as (T & F1 & F2). exists (z :: T). split; constructor; assumption.
Qed.

Lemma names_str l : (forall k, In k l -> node_name k) -> forall k, In k l -> exists s, k = KStr s.
Proof. intros H k Hk. apply H in Hk as [X _]. exact X. Qed.
Lemma names_str' l : (forall k, In k l -> edge_name k) -> forall k, In k l -> exists s, k = KStr s.
Proof. intros H k Hk. apply H in Hk as [X _]. exact X. Qed.

Lemma frame_row_item rows cols f i r k : (forall i r, nth_error rows i = Some r -> exists d, r = RDict d /\ NoDup (dkeys d) /\ forall c, dget c d = if mem c cols then cell f c i else None) ->
  nth_error rows i = Some r -> In k cols -> row_item r k = match cell f k i with Some v => Ok v | None => Err KeyError end.
Proof. intros H Hr Hk. destruct (H i r Hr) as (d & -> & _ & G). cbn. rewrite G. apply mem_In in Hk. rewrite Hk. reflexivity. Qed.

Theorem there_and_back w : exists h, tables_to_graph repr (TFrame nf) (TFrame ef) c sc tc A B false w false (g_dir g) = Ok h
  /\ g_dir h = g_dir g /\ g_multi h = false /\ nodes h = nodes g
  /\ (forall n a, node_data g n = Some a -> exists b, node_data h n = Some b /\ attrs_by RA a b)
  /\ (forall u v, has_edge h u v = has_edge g u v)
  /\ (forall u v a, edge_attrs g u v (KInt 0) = Some a -> exists b, edge_attrs h u v (KInt 0) = Some b /\ attrs_by RB a b).
Proof.
  unfold tables_to_graph. destruct (iterate nf (c :: A) nf_rect ltac:(discriminate) nf_cols) as (rn & En & Ln & Dn). destruct (iterate ef ([sc; tc] ++ B) ef_rect ltac:(discriminate) ef_cols) as (re & Ee & Le & De).
  rewrite En, Ee. cbn [bind].
  assert (Ln' : List.length rn = List.length (g_nodes g)) by (rewrite Ln; unfold nf, make_frame; cbn [f_rows]; apply map_length).
  assert (Le' : List.length re = List.length (edges_data g)) by (rewrite Le; unfold ef, make_frame; cbn [f_rows]; apply map_length).
  destruct (Forall2_build (reads_node repr c A) (fun na t => fst t = fst na /\ attrs_by RA (snd na) (snd t)) rn (g_nodes g) Ln') as (TN & FN & QN).
  { intros i r [n a] Hr Hi.
    assert (It : forall k, In k (c :: A) -> row_item r k = match cell nf k i with Some v => Ok v | None => Err KeyError end) by (intros k; eapply frame_row_item; eassumption).
    destruct (row_data_ok repr A r) as [data D].
    { intros k Hk. rewrite It by (right; assumption). assert (Ik : In k (dkeys a)) by (apply (UA a); [apply in_map_iff; exists (n, a); split; [reflexivity|eapply nth_error_In; eassumption]|assumption]).
      destruct (dkeys_dget k a Ik) as [v Ev]. destruct (nf_attr i n a k v Hi Hk Ev) as (v' & -> & _). eauto. }
    exists (n, data). split; [|split; [reflexivity|]].
    - split; [|exact D]. rewrite It by (left; reflexivity). rewrite (nf_key i n); [reflexivity|]. unfold nodes, dkeys. rewrite nth_error_map, Hi. reflexivity.
    - cbn [snd]. eapply (data_same RA repr A (map snd (g_nodes g)) nf i a r data); [apply names_str; assumption|assumption|rewrite nth_error_map, Hi; reflexivity| |intros; apply It; right; assumption|exact D].
      intros k v Hk Hv. eapply nf_attr; eassumption. }
  destruct (Forall2_build (reads_edge repr sc tc B) (fun e t => fst t = fst e /\ attrs_by RB (snd e) (snd t)) re (edges_data g) Le') as (TE & FE & QE).
  { intros i r [[u v] a] Hr Hi.
    assert (It : forall k, In k ([sc; tc] ++ B) -> row_item r k = match cell ef k i with Some v => Ok v | None => Err KeyError end) by (intros k; eapply frame_row_item; eassumption).
    destruct (row_data_ok repr B r) as [data D].
    { intros k Hk. rewrite It by (right; right; assumption). assert (Ik : In k (dkeys a)) by (apply (UB a); [apply in_map_iff; exists (u, v, a); split; [reflexivity|eapply nth_error_In; eassumption]|assumption]).
      destruct (dkeys_dget k a Ik) as [x Ex]. destruct (ef_attr i u v a k x Hi Hk Ex) as (x' & -> & _). eauto. }
    exists (u, v, data). split; [|split; [reflexivity|]].
    - destruct (ef_ends i u v a Hi) as [X Y]. split; [|exact D]. split; cbn [fst snd]; [rewrite It by (left; reflexivity); rewrite X|rewrite It by (right; left; reflexivity); rewrite Y]; reflexivity.
    - cbn [snd]. eapply (data_same RB repr B (map snd (edges_data g)) ef i a r data); [apply names_str'; assumption|assumption|rewrite nth_error_map, Hi; reflexivity| |intros; apply It; right; right; assumption|exact D].
      intros k x Hk Hx. eapply ef_attr; eassumption. }
  assert (NA' : forall k, In k A -> node_name (KStr (py_str repr k))) by (intros k Hk; destruct (names_str A NA k Hk) as [s ->]; apply (NA _ Hk)).
  assert (NB' : forall k, In k B -> edge_name (KStr (py_str repr k))) by (intros k Hk; destruct (names_str' B NB k Hk) as [s ->]; apply (NB _ Hk)).
  destruct (nodes_ok repr c A (g_dir g) rn TN NA' FN [] _ (ninv_start repr A (g_dir g))) as (g0 & E0 & I0). rewrite E0. cbn [bind]. cbn [app] in I0.
  destruct I0 as (S0 & Ad0 & N0 & _ & Nd0).
  assert (Fst : map fst TN = nodes g).
  { unfold nodes, dkeys. clear - QN. induction QN as [|na t l T [E _] F IH]; [reflexivity|]. cbn. congruence. }
  assert (Nodes0 : nodes g0 = nodes g).
  { rewrite N0, Fst. assert (G : forall l acc, NoDup (acc ++ l) -> fold_left add_id l acc = acc ++ l).
    { clear. induction l as [|x l IH]; intros acc N; [rewrite app_nil_r; reflexivity|]. cbn [fold_left]. assert (Nx : ~ In x acc).
      { apply NoDup_app_iff in N as (_ & _ & X). intros Hx. apply (X x Hx). left. reflexivity. }
      unfold add_id at 2. apply mem_nIn in Nx. rewrite Nx. rewrite IH; rewrite <- app_assoc; [reflexivity|exact N]. }
    apply (G (nodes g) []). apply (wf_nodes g W). }
  assert (Ends : forall t, In t TE -> In (fst (fst t)) (nodes g0) /\ In (snd (fst t)) (nodes g0)).
  { intros t Ht. rewrite Nodes0. apply In_nth_error in Ht as [i Hi]. destruct (Forall2_nth_ex _ _ _ _ _ QE Hi) as ([[u v] a] & Hg & Ef & _). rewrite Ef. cbn [fst snd].
    apply nth_error_In in Hg. apply (edges_data_attrs g u v a W M) in Hg. apply edge_attrs_has in Hg. unfold has_edge, edge_data in Hg. destruct (List.find _ (g_adj g)) as [b|] eqn:Fb; [|discriminate].
    apply find_some in Fb as [Ib Sb]. destruct (wf_ends g W b Ib) as [X Y]. apply same_ends_iff in Sb. destruct Sb as [[<- <-]|(_ & <- & <-)]; auto. }
  pose proof (einv_start repr B false w false (g_dir g) g0 S0 Ad0) as I1.
  destruct (edges_ok repr sc tc B false w false (g_dir g) g0 re TE NB' ltac:(discriminate) FE (fun _ => Ends) [] g0 I1) as [h Eh].
  exists h. split; [exact Eh|]. destruct (edges_spec repr sc tc B false w false (g_dir g) g0 re [] g0 h I1 Eh) as (T2 & F2 & (Sh & L & _ & _ & Gn) & _). cbn [app] in L.
  assert (T2 = TE) as ->.
  { eapply Forall2_fun; [|exact F2|exact FE]. intros r [[u v] a] [[u' v'] a'] [[E1 E2] D1] [[E3 E4] D2]. cbn [fst snd] in *. congruence. }
  pose proof Sh as (Wh & Dh & Mh). split; [assumption|]. split; [assumption|]. specialize (Gn eq_refl). split; [unfold nodes in *; congruence|]. split; [|split].
  - intros n a Ha. unfold node_data. rewrite Gn. fold (node_data g0 n). rewrite Nd0. pose proof Ha as Ha'. apply dget_Some_In in Ha. apply In_nth_error in Ha as [i Hi].
    destruct (rev (filter (fun t => key_eqb n (fst t)) TN)) as [|t l] eqn:P.
    + exfalso. assert (Hin : In n (map fst TN)) by (rewrite Fst; eapply dget_Some_key; exact Ha'). apply in_map_iff in Hin as (t & Ef & Ht).
      assert (X : In t (rev (filter (fun t => key_eqb n (fst t)) TN))) by (apply -> in_rev; apply filter_In; split; [assumption|rewrite Ef; apply key_eqb_refl]). rewrite P in X. destruct X.
    + assert (X : In t (rev (filter (fun t => key_eqb n (fst t)) TN))) by (rewrite P; left; reflexivity). apply in_rev in X. apply filter_In in X as [Ht Et]. apply key_eqb_eq in Et.
      apply In_nth_error in Ht as [j Hj]. destruct (Forall2_nth_ex _ _ _ _ _ QN Hj) as ([m b] & Hg & Ef & Sa). cbn [fst snd] in *. assert (m = n) as -> by congruence. apply nth_error_In in Hg.
      apply (dget_In n b (g_nodes g) (wf_nodes g W)) in Hg. unfold node_data in Ha'. assert (b = a) as -> by congruence. eauto.
  - intros u v. apply Bool.eq_iff_eq_true. destruct (last_spec _ _ _ _ Sh L) as [HE _]. rewrite HE, has_edge_edges by assumption. rewrite <- (edges_data_simple_fst g W M).
    replace (map fst TE) with (map fst (edges_data g)); [unfold joins; split|].
    + intros (e & I & [->|[D ->]]); auto.
    + intros [I|[D I]]; eauto.
    + clear - QE. induction QE as [|e t l T [E _] F IH]; [reflexivity|]. cbn. congruence.
  - intros u v a Ha. destruct (last_spec _ _ _ _ Sh L) as [HE HA].
    assert (X : has_edge h u v = true).
    { apply HE. replace (map fst TE) with (map fst (edges_data g)); [|clear - QE; induction QE as [|e t l T [E _] F IH]; [reflexivity|]; cbn; congruence].
      rewrite (edges_data_simple_fst g W M). apply edge_attrs_has in Ha. apply has_edge_edges in Ha; [|assumption]. unfold joins. destruct Ha as [I|[D I]]; eauto. }
    destruct (has_edge_attrs h u v Wh Mh X) as [b Eb]. exists b. split; [assumption|]. destruct (HA u v b Eb) as (i & t & Ht & [(e & He' & J) _] & ->).
    rewrite nth_error_map, Ht in He'. inversion He'; subst e. destruct (Forall2_nth_ex _ _ _ _ _ QE Ht) as ([[p q] a'] & Hg & Ef & Sa). cbn [snd] in Sa.
    apply nth_error_In in Hg. apply (edges_data_attrs g p q a' W M) in Hg. rewrite Ef in J. cbn [fst] in J.
    assert (edge_attrs g u v (KInt 0) = Some a') as Ha2.
    { rewrite <- Hg. apply edge_attrs_jn. rewrite jn_sym. apply (jn_joins (g_dir g) u v (p, q)). exact J. }
    assert (a' = a) as -> by congruence. exact Sa.
Qed.
End RoundTrip.
