(** * When filter_nodes returns *)
From Coq Require Import List Bool.
From Verif Require Import PyBase NxGraph L_Base L_Nx L_Nx2 M_Graph S_Graph L_Graph L_Graph2.
Import ListNotations.

Section Fit.
Variables (g : graph) (f : node_predicate) (p : key -> attrs -> bool).
Hypothesis W : WF g.
Hypothesis T : node_test g f p.

Lemma test_accepted v : In v (nodes g) -> test_node g f v = Ok (accepted g p v).
Proof.
  intros H. unfold test_node, accepted. apply node_data_In in H as (a & H). rewrite H. apply T. apply dget_Some_In. assumption.
Qed.

(** the only exception is TypeError *)
Lemma edge_step_raises h u v k a : In v (nodes g) ->
  (exists h', filter_nodes_edge g f h (u, v, k, a) = Ok h') \/ filter_nodes_edge g f h (u, v, k, a) = Err TypeError.
Proof.
  intros Iv. unfold filter_nodes_edge. rewrite (test_accepted v Iv).
  assert (O : (exists o, (if g_dir g then Ok true else key_gt u v) = Ok o) \/ (if g_dir g then Ok true else key_gt u v) = Err TypeError).
  { destruct (g_dir g); [eauto|]. unfold key_gt. destruct u, v; cbn; eauto. }
  destruct O as [(o & ->)| ->]; [|right; reflexivity]. cbn [bind]. destruct o; cbn [bind]; [|eauto].
  destruct (accepted g p v); [|eauto]. destruct (g_multi g).
  - unfold add_edge_key_kw. destruct (kwargs_ok _ a); eauto.
  - unfold add_edge_kw. destruct (kwargs_ok _ a); [|right; reflexivity]. destruct (g_multi h); [|eauto]. destruct (dget (K "key") a) as [[| | |]|]; eauto.
Qed.

Definition kind (h : graph) : Prop := g_multi h = g_multi g.
Lemma edge_step_kind h e h' : filter_nodes_edge g f h e = Ok h' -> kind h -> kind h'.
Proof.
  destruct e as [[[u v] k] a]. unfold filter_nodes_edge, kind. intros E Hk. apply bind_Ok in E as (o & _ & E). apply bind_Ok in E as (b & _ & E).
  destruct b; [|congruence]. destruct (g_multi g) eqn:M.
  - unfold add_edge_key_kw in E. destruct (kwargs_ok _ a); [|discriminate]. inversion E; subst. rewrite multi_add_edge_at. exact Hk.
  - unfold add_edge_kw in E. destruct (kwargs_ok _ a); [|discriminate]. rewrite Hk in E. inversion E; subst. rewrite multi_add_edge. exact Hk.
Qed.

Lemma foldM_keeps {A S} (P : S -> Prop) (h : S -> A -> res S) l : (forall s a s', In a l -> P s -> h s a = Ok s' -> P s') ->
  forall s s', P s -> foldM h l s = Ok s' -> P s'.
Proof.
  induction l as [|a l IH]; intros H s s' Ps E; cbn in E; [congruence|]. apply bind_Ok in E as (s1 & E1 & E).
  apply (IH (fun s a s' J => H s a s' (or_intror J)) s1 s'); [eapply H; [left; reflexivity|eassumption..]|assumption].
Qed.

Lemma node_step_kind h na h' : filter_nodes_step g f h na = Ok h' -> kind h -> kind h'.
Proof.
  destruct na as [n a]. unfold filter_nodes_step. intros E Hk. apply bind_Ok in E as (b & _ & E). destruct b; [|congruence].
  apply bind_Ok in E as (h1 & E1 & E). revert E. apply foldM_keeps; [intros; eapply edge_step_kind; eassumption|].
  unfold add_node_kw in E1. destruct (kwargs_ok _ a); [|discriminate]. inversion E1; subst. exact Hk.
Qed.

Lemma step_ran h0 h n a : kind h0 -> foldM (filter_nodes_step g f) (g_nodes g) h0 = Ok h -> In (n, a) (g_nodes g) -> p n a = true ->
  exists h1 h2 h3, kind h2 /\ add_node_kw h1 n a = Ok h2 /\ foldM (filter_nodes_edge g f) (edges_of g n) h2 = Ok h3.
Proof.
  intros Hk E I Pn. destruct (foldM_ran_inv kind _ _ (n, a) (fun s na s' _ K E => node_step_kind s na s' E K) _ _ Hk E I) as (s1 & s2 & K1 & Es).
  unfold filter_nodes_step in Es. rewrite (T n a I), Pn in Es. cbn [bind] in Es. apply bind_Ok in Es as (h2 & E2 & Es).
  exists s1, h2, s2. split; [|split; assumption]. unfold add_node_kw in E2. destruct (kwargs_ok _ a); [|discriminate]. inversion E2; subst. exact K1.
Qed.

Lemma accepted_In n : accepted g p n = true -> exists a, In (n, a) (g_nodes g) /\ p n a = true.
Proof. unfold accepted. destruct (node_data g n) as [a|] eqn:E; [|discriminate]. intros Pn. exists a. split; [apply dget_Some_In; exact E|exact Pn]. Qed.

Lemma edge_ran h0 h u v k a : kind h0 -> foldM (filter_nodes_step g f) (g_nodes g) h0 = Ok h -> accepted g p u = true -> edge_attrs g u v k = Some a ->
  exists h1 h2, kind h1 /\ filter_nodes_edge g f h1 (u, v, k, a) = Ok h2.
Proof.
  intros Hk E Pu Ea. apply accepted_In in Pu as (b & Iu & Pu). destruct (step_ran h0 h u b Hk E Iu Pu) as (h1 & h2 & h3 & K2 & _ & E2).
  apply (foldM_ran_inv kind (filter_nodes_edge g f) _ (u, v, k, a) (fun s e s' _ K E => edge_step_kind s e s' E K) h2 h3 K2 E2).
  apply edges_of_In; auto.
Qed.

Lemma filtered_fits h : filter_nodes g f = Ok h -> fit_edges g p /\ fit_nodes g p /\ fit_order g p.
Proof.
  unfold filter_nodes. intros E. apply bind_Ok in E as (h0 & E0 & E).
  assert (K0 : kind h0).
  { unfold create_null_copy, new_graph_kw in E0. destruct (kwargs_ok _ _); [|discriminate]. destruct (dget _ _) as [[| | |]|]; inversion E0; reflexivity. }
  assert (FO : fit_order g p).
  { intros D u v Pu He. unfold has_edge in He. destruct (edge_data g u v) as [kd|] eqn:ED; [|discriminate].
    assert (exists k a, edge_attrs g u v k = Some a) as (k & a & Ea).
    { pose proof (edge_data_ne g u v kd W ED) as NN. destruct kd as [|[k a] kd]; [congruence|]. exists k, a. unfold edge_attrs. rewrite ED.
      cbn. rewrite key_eqb_refl. reflexivity. }
    destruct (edge_ran h0 h u v k a K0 E Pu Ea) as (h1 & h2 & _ & Es). unfold filter_nodes_edge in Es. rewrite D in Es.
    apply bind_Ok in Es as (o & Es & _). unfold key_gt in Es. eauto. }
  split; [|split; [|exact FO]].
  - assert (ORI : forall u v k a, (g_dir g = true \/ key_lt v u = Ok true) -> accepted g p u = true -> accepted g p v = true -> edge_attrs g u v k = Some a ->
      edge_names_ok (g_multi g) a = true).
    { intros u v k a O Pu Pv Ea. destruct (edge_ran h0 h u v k a K0 E Pu Ea) as (h1 & h2 & K1 & Es). unfold filter_nodes_edge in Es.
      assert (OK : (if g_dir g then Ok true else key_gt u v) = Ok true) by (destruct (g_dir g); [reflexivity|]; destruct O as [O|O]; [discriminate|exact O]).
      rewrite OK in Es. cbn [bind] in Es. assert (Iv : In v (nodes g)) by (apply accepted_In in Pv as (b & Iv & _); apply In_dkeys; eauto).
      rewrite (test_accepted v Iv), Pv in Es. cbn [bind] in Es. apply edge_names_ok_iff. intros x Ix. destruct (g_multi g) eqn:M.
      - unfold add_edge_key_kw in Es. destruct (kwargs_ok _ a) eqn:KW; [|discriminate]. apply kwargs_ok_iff with (k := x) in KW as [A B]; [|exact Ix].
        split; [exact A|]. split; [intros C; apply B; right; exact C|]. intros _ ->. apply B. left. reflexivity.
      - unfold add_edge_kw in Es. unfold kind in K1. rewrite K1, M in Es. destruct (kwargs_ok _ a) eqn:KW; [|discriminate].
        apply kwargs_ok_iff with (k := x) in KW as [A B]; [|exact Ix]. split; [exact A|]. split; [exact B|discriminate]. }
    intros u v k a x Ea Pu Pv L Ix. assert (N : edge_names_ok (g_multi g) a = true).
    { destruct (g_dir g) eqn:D; [eapply (ORI u v); eauto|]. destruct L as [L|NE]; [discriminate|].
      assert (He : has_edge g u v = true) by (eapply edge_attrs_has; eassumption).
      destruct (FO D u v Pu He) as ([|] & E1); [eapply (ORI u v); eauto|].
      destruct (FO D v u Pv) as ([|] & E2); [rewrite has_edge_sym by exact D; exact He| |elim NE; apply key_lt_total; assumption].
      apply (ORI v u k a); auto. rewrite edge_attrs_sym by exact D. exact Ea. }
    rewrite edge_names_ok_iff in N. exact (N x Ix).
  - intros n a k I Pn Ik. destruct (step_ran h0 h n a K0 E I Pn) as (h1 & h2 & h3 & _ & E1 & _). unfold add_node_kw in E1.
    destruct (kwargs_ok node_reserved a) eqn:KW; [|discriminate]. apply kwargs_ok_iff with (k := k) in KW; assumption.
Qed.

Lemma filter_raises : graph_names g -> (exists h, filter_nodes g f = Ok h) \/ filter_nodes g f = Err TypeError.
Proof.
  intros GN. unfold filter_nodes, create_null_copy. rewrite new_graph_plain by exact GN. cbn [bind]. apply foldM_raises.
  intros s [n a] I. unfold filter_nodes_step. rewrite (T n a I). cbn [bind]. destruct (p n a); [|eauto]. unfold add_node_kw.
  destruct (kwargs_ok node_reserved a); [|right; reflexivity]. cbn [bind]. apply foldM_raises. intros s' [[[u v] k] b] Ie. apply edge_step_raises.
  apply edges_of_In in Ie as [_ Ie]; [|exact W]. unfold edge_attrs in Ie. destruct (edge_data g n v) eqn:ED; [|discriminate].
  apply edge_data_nodes in ED; tauto.
Qed.
End Fit.
