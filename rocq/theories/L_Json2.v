(** * Which graphs can be written and read back *)
From Coq Require Import List ZArith Lia Bool String.
Import ListNotations.
Open Scope list_scope.
From Verif Require Import PyBase NxGraph L_Base L_Nx L_Nx2 S_Graph L_Graph M_Json S_Json L_Json.

(** ** the names accepted when reading *)
Lemma parse_nodes_names ss : forall g h, foldM parse_node ss g = Ok h ->
  forall s, In s ss -> kwargs_ok node_reserved (get_default [] (sn_attributes s)) = true.
Proof.
  induction ss as [|s0 ss IH]; intros g h H s I; [destruct I|]. cbn [foldM] in H.
  apply bind_Ok in H as (g1 & H1 & H2). destruct I as [<-|I]; [|eapply IH; eassumption].
  unfold parse_node in H1. destruct (sn_key s0); cbn [get_item bind] in H1; [|discriminate].
  unfold add_node_kw in H1. destruct (kwargs_ok _ _); [reflexivity|discriminate].
Qed.

Lemma add_edge_kw_multi g u v a h : add_edge_kw g u v a = Ok h -> g_multi h = g_multi g.
Proof. intros H. apply add_edge_kw_at in H as (k & b & -> & _). apply multi_add_edge_at. Qed.

Lemma parse_edge_names must und g s h : parse_edge must und (g_multi g) g s = Ok h ->
  kwargs_ok (edge_reserved (g_multi g)) (get_default [] (se_attributes s)) = true.
Proof.
  unfold parse_edge. destruct (se_source s), (se_target s); cbn [get_item bind]; try discriminate.
  destruct (must && _); [discriminate|].
  assert (A : forall u v, add_edge_kw g u v (get_default [] (se_attributes s)) = Ok h ->
    kwargs_ok (edge_reserved (g_multi g)) (get_default [] (se_attributes s)) = true).
  { intros u v. unfold add_edge_kw. destruct (kwargs_ok _ _); [reflexivity|discriminate]. }
  destruct (se_key s); [|apply A]. destruct (g_multi g) eqn:M; [|apply A].
  unfold add_edge_key_kw. destruct (kwargs_ok (K "key" :: edge_reserved true) _) eqn:Q; [|discriminate]. intros _.
  apply kwargs_ok_iff. intros k' Hk. apply (proj1 (kwargs_ok_iff _ _) Q) in Hk as [B C]. split; [exact B|]. intros I. apply C. right. exact I.
Qed.

Lemma parse_edge_multi must und multi g s h : parse_edge must und multi g s = Ok h -> g_multi h = g_multi g.
Proof. intros H. apply parse_edge_at in H as (u & v & k & a & _ & _ & -> & _). apply multi_add_edge_at. Qed.

Lemma parse_edges_names must und ss : forall g h, foldM (parse_edge must und (g_multi g)) ss g = Ok h ->
  forall s, In s ss -> kwargs_ok (edge_reserved (g_multi g)) (get_default [] (se_attributes s)) = true.
Proof.
  induction ss as [|s0 ss IH]; intros g h H s I; [destruct I|]. cbn [foldM] in H.
  apply bind_Ok in H as (g1 & H1 & H2). destruct I as [<-|I].
  - eapply parse_edge_names; eassumption.
  - pose proof (parse_edge_multi _ _ _ _ _ _ H1) as M. rewrite <- M in H2 |- *. eapply IH; eassumption.
Qed.

(** ** the attribute "key" never comes back *)
Definition no_key (g : graph) : Prop :=
  forall b k a, In b (g_adj g) -> In (k, a) (b_data b) -> ~ In (K "key") (dkeys a).

Lemma adj_ensure g n : g_adj (ensure_node g n) = g_adj g.
Proof. unfold ensure_node. destruct (has_node g n); reflexivity. Qed.

Lemma no_key_set dir u v k a l : ~ In (K "key") (dkeys a) ->
  (forall b k a, In b l -> In (k, a) (b_data b) -> ~ In (K "key") (dkeys a)) ->
  forall b k' a', In b (set_bundle dir u v k a l) -> In (k', a') (b_data b) -> ~ In (K "key") (dkeys a').
Proof.
  intros NA. induction l as [|b0 l IH]; intros H b k' a'; cbn [set_bundle].
  - intros [<-|[]] [E|[]]. inversion E; subst. intros Q. apply In_dkeys_dupdate in Q as [Q|[]]. contradiction.
  - destruct (same_ends dir u v b0).
    + intros [<-|Hb]; [|apply (H b); right; exact Hb]. cbn [b_data]. intros I. apply In_dset in I as [E|I].
      * inversion E; subst. intros Q. apply In_dkeys_dupdate in Q as [Q|Q]; [contradiction|].
        destruct (dget k (b_data b0)) as [o|] eqn:G; [|destruct Q]. apply dget_Some_In in G.
        apply (H b0 k o); [left; reflexivity|exact G|exact Q].
      * apply (H b0 k' a'); [left; reflexivity|exact I].
    + intros [<-|Hb]; [apply (H b0); left; reflexivity|]. apply IH; [|exact Hb]. intros; eapply H; [right|]; eassumption.
Qed.

Lemma no_key_add g u v k a : no_key g -> ~ In (K "key") (dkeys a) -> no_key (add_edge_at g u v k a).
Proof.
  intros H NA b k' a'. cbn [add_edge_at g_adj]. rewrite !adj_ensure. apply no_key_set; assumption.
Qed.

Lemma no_key_parse must und g s h : g_multi g = true -> no_key g -> parse_edge must und true g s = Ok h -> no_key h.
Proof.
  intros M H. unfold parse_edge. destruct (se_source s) as [u|], (se_target s) as [v|]; cbn [get_item bind]; try discriminate.
  destruct (must && _); [discriminate|].
  assert (A : forall u v, add_edge_kw g u v (get_default [] (se_attributes s)) = Ok h -> no_key h).
  { intros x y. unfold add_edge_kw, add_edge. rewrite M. destruct (kwargs_ok _ _); [|discriminate].
    assert (R : forall a : attrs, ~ In (K "key") (dkeys (dremove [K "key"] a))).
    { intros a. apply dget_None. rewrite dget_dremove. reflexivity. }
    destruct (dget (K "key") _) as [[]|] eqn:G; intros E; inversion E; apply no_key_add; auto.
    apply dget_None. exact G. }
  destruct (se_key s) as [k|]; [|apply A].
  unfold add_edge_key_kw. destruct (kwargs_ok (K "key" :: edge_reserved true) _) eqn:Q; [|discriminate]. intros E; inversion E.
  apply no_key_add; [exact H|]. intros I. apply (proj1 (kwargs_ok_iff _ _) Q) in I as [_ C]. apply C. left. reflexivity.
Qed.

Lemma no_key_fold must und ss : forall g h, g_multi g = true -> no_key g -> foldM (parse_edge must und true) ss g = Ok h -> no_key h.
Proof.
  induction ss as [|s ss IH]; intros g h M N H; cbn [foldM] in H; [inversion H; subst; exact N|].
  apply bind_Ok in H as (g1 & H1 & H2). apply (IH g1); [|eapply no_key_parse; eassumption|exact H2].
  rewrite (parse_edge_multi _ _ _ _ _ _ H1). exact M.
Qed.

Lemma Forall2_In_l {A B} (R : A -> B -> Prop) l m : Forall2 R l m -> forall x, In x l -> exists y, In y m /\ R x y.
Proof.
  induction 1 as [|a b l m H F IH]; intros x [].
  - subst. exists b. cbn. tauto.
  - destruct (IH x) as (y & Hy & Q); [assumption|]. exists y. cbn. tauto.
Qed.

(** ** what can be read back is [passable] *)
Lemma kept_passable repr g mixed allow d h : WF g -> str_names g ->
  write_graphology_json repr g mixed allow = Ok d -> parse_graphology_json d = Ok h -> g_attr h = g_attr g ->
  (g_multi g = true -> forall u v, In (u, v) (edges g) -> exists u' v', parallel h u' v' = parallel g u v) -> passable g.
Proof.
  intros W [SN1 SN2] E F SA PA. pose proof (write_res repr g mixed allow) as R. destruct (writable mixed allow g); [|congruence].
  destruct R as (ns & es & E' & FN & FE). rewrite E in E'. injection E' as ->.
  destruct (parse_spec _ _ F) as (o & t & m & _ & _ & _ & _ & _ & GA & WH & _). cbn [d_attributes] in GA.
  revert F. unfold parse_graphology_json. cbn [d_options o_type o_multi get_item bind d_attributes d_nodes d_edges get_default].
  match type of GA with context [get_default [] ?m] =>
    assert (GD : get_default [] m = g_attr g) by (destruct (g_attr g); reflexivity) end.
  rewrite GD in GA. rewrite GD.
  set (t' := if g_dir g then "directed"%string else "undirected"%string).
  assert (Ht : actual_type t' (Some es) = t' /\ String.eqb t' "mixed" = false) by (unfold t'; destruct (g_dir g); split; reflexivity).
  destruct Ht as (-> & ->). intros F.
  apply bind_Ok in F as (g0 & G0 & F). apply bind_Ok in F as (g1 & G1 & F).
  assert (KI : dget (K "incoming_graph_data") (g_attr g) = None).
  { rewrite <- SA, GA. apply dget_None. intros Q. apply In_dkeys_dupdate in Q as [Q|[]].
    revert Q. apply dget_None. rewrite dget_dremove. reflexivity. }
  assert (M0 : g_multi g0 = g_multi g /\ g_adj g0 = [] /\ kwargs_ok [K "self"] (g_attr g) = true).
  { unfold new_graph_kw in G0. rewrite KI in G0. destruct (kwargs_ok _ _); [|discriminate]. injection G0 as <-. auto. }
  destruct M0 as (M0 & A0 & KG).
  destruct (parse_nodes_spec _ _ _ G1) as ((_ & M1 & _) & _ & A1 & _). rewrite M0 in M1. rewrite A0 in A1.
  split; [|split].
  - intros k Hk. apply dget_None in KI. pose proof (proj1 (kwargs_ok_iff _ _) KG k Hk) as [A B]. split; [assumption|]. cbn in B.
    split; intros ->; tauto.
  - intros n a k Hn Hk.
    assert (exists s, In s ns /\ get_default [] (sn_attributes s) = a) as (s & Hs & Ea).
    { destruct (Forall2_In_l _ _ _ FN _ Hn) as (s & Hs & _ & C). cbn [snd] in C. exists s. split; [exact Hs|].
      destruct (coerced_str repr allow a) as (o' & C1 & C2); [apply (wf_nattrs g W n a Hn)|intros k0 Hk0; apply (SN1 n a k0 Hn Hk0)|].
      rewrite C1 in C. injection C as ->. exact C2. }
    pose proof (parse_nodes_names ns g0 g1 G1 s Hs) as Kw. rewrite Ea in Kw. apply (proj1 (kwargs_ok_iff _ _) Kw k Hk).
  - intros u v a k Hn Hk.
    assert (exists s, In s es /\ get_default [] (se_attributes s) = a) as (s & Hs & Ea).
    { destruct (Forall2_In_l _ _ _ FE _ Hn) as (s & Hs & o' & C & ->). cbn [snd] in C. eexists. split; [exact Hs|]. cbn [se_attributes].
      destruct (coerced_str repr allow a) as (o'' & C1 & C2); [apply (edges_data_NoDup g u v a W Hn)|intros k0 Hk0; apply (SN2 u v a k0 Hn Hk0)|].
      rewrite C1 in C. injection C as ->. exact C2. }
    rewrite <- M1 in F. pose proof (parse_edges_names _ _ es g1 h F s Hs) as Kw. rewrite M1, Ea in Kw.
    destruct (proj1 (kwargs_ok_iff _ _) Kw k Hk) as [A B]. split; [exact A|]. split; [exact B|].
    intros M ->. rewrite M in M1.
    assert (NK : no_key h).
    { rewrite M1 in F. eapply no_key_fold; [exact M1| |exact F]. intros b k' a' Hb. rewrite A1 in Hb. destruct Hb. }
    apply edges_data_In in Hn as (k' & Hn). apply edges_keys_In in Hn as (kd & Hn & Hd).
    destruct (PA M u v) as (u' & v' & P). { unfold edges. apply in_map_iff. exists (u, v, kd). auto. }
    apply edge_pairs_In in Hn; [|exact W]. destruct Hn as [Hn _].
    assert (I : In a (parallel h u' v')).
    { rewrite P. unfold parallel. rewrite Hn. apply in_map_iff. exists (k', a). auto. }
    unfold parallel in I. destruct (edge_data h u' v') as [kd'|] eqn:Eh; [|destruct I].
    apply edge_data_Some in Eh as (b & Hb & _ & <-); [|exact WH]. apply in_map_iff in I as ([k2 a2] & <- & I).
    exact (NK b k2 a2 Hb I Hk).
Qed.
