(** * Lemmas on edge_disparity *)
From Coq Require Import List ZArith QArith Qminmax Qpower Lia Lqa Bool.
From Verif Require Import PyBase PyNum S_Num L_Num NxGraph L_Base L_Nx L_Nx2 M_Graph S_Graph L_Graph L_Graph2 M_UnionFind M_Umst M_Disparity M_Sparse S_Sparse L_Sparse.
Import ListNotations.
Close Scope Q_scope.

(** ** sums *)
Lemma sum_q_app l1 l2 : (sum_q (l1 ++ l2) == sum_q l1 + sum_q l2)%Q.
Proof. unfold sum_q. induction l1 as [|a l IH]; cbn [app fold_right]; lra. Qed.

Lemma sum_q_add {A} (f h : A -> Q) l : (sum_q (map (fun x => f x + h x) l) == sum_q (map f l) + sum_q (map h l))%Q.
Proof. unfold sum_q. induction l as [|a l IH]; cbn [map fold_right]; lra. Qed.

Lemma sum_q_ext {A} (f h : A -> Q) l : (forall x, In x l -> f x == h x)%Q -> (sum_q (map f l) == sum_q (map h l))%Q.
Proof.
  unfold sum_q. induction l as [|a l IH]; cbn [map fold_right]; intros H; [lra|].
  specialize (IH (fun x Hx => H x (or_intror Hx))). pose proof (H a (or_introl eq_refl)). lra.
Qed.

Lemma sum_q_0 {A} (l : list A) : (sum_q (map (fun _ => 0) l) == 0)%Q.
Proof. unfold sum_q. induction l; cbn [map fold_right]; lra. Qed.

Lemma sum_q_single (m : key) c N : NoDup N -> In m N -> (sum_q (map (fun x => if key_eqb x m then c else 0) N) == c)%Q.
Proof.
  unfold sum_q. induction N as [|a N IH]; cbn [map fold_right]; [contradiction|]. intros ND I. inversion ND as [|? ? NI ND']; subst.
  destruct (key_eqb_spec a m) as [->|Hne].
  - assert (X : forall l, ~ In m l -> (fold_right Qplus 0 (map (fun x => if key_eqb x m then c else 0) l) == 0)%Q).
    { clear. induction l as [|b l IH]; cbn [map fold_right In]; intros H; [lra|]. destruct (key_eqb_spec b m); [tauto|]. rewrite IH by tauto. lra. }
    rewrite (X N NI). lra.
  - destruct I as [I|I]; [congruence|]. rewrite IH by assumption. lra.
Qed.

Lemma sum_q_dict {A} (F : A -> Q) (N : list key) (l : dict A) : NoDup N -> NoDup (dkeys l) -> incl (dkeys l) N ->
  (sum_q (map (fun x => match dget x l with Some d => F d | None => 0 end) N) == sum_q (map (fun md => F (snd md)) l))%Q.
Proof.
  intros ND. induction l as [|[m d] l IH]; intros NK I.
  - apply (sum_q_0 N).
  - unfold dkeys in NK, I. cbn [map fst] in NK, I. inversion NK as [|? ? NI NK']; subst.
    rewrite (sum_q_ext _ (fun x => (if key_eqb x m then F d else 0) + match dget x l with Some d => F d | None => 0 end)%Q).
    + rewrite sum_q_add, sum_q_single by (try assumption; apply I; left; reflexivity).
      rewrite IH by (try assumption; intros x Hx; apply I; right; exact Hx). unfold sum_q. cbn [map fold_right snd]. lra.
    + intros x _. cbn [dget]. destruct (key_eqb_spec x m) as [->|].
      * assert (dget m l = None) as -> by (apply dget_None; exact NI). lra.
      * lra.
Qed.

Lemma sum_q_nonneg {A} (f : A -> Q) l : (forall x, In x l -> 0 <= f x)%Q -> (0 <= sum_q (map f l))%Q.
Proof.
  unfold sum_q. induction l as [|a l IH]; cbn [map fold_right]; intros H; [lra|].
  specialize (IH (fun x Hx => H x (or_intror Hx))). pose proof (H a (or_introl eq_refl)). lra.
Qed.

Lemma sum_q_le {A} (f : A -> Q) l x : In x l -> (forall x, In x l -> 0 <= f x)%Q -> (f x <= sum_q (map f l))%Q.
Proof.
  intros I H. induction l as [|a l IH]; [contradiction|].
  pose proof (sum_q_nonneg f l (fun y Hy => H y (or_intror Hy))) as P. unfold sum_q in *. cbn [map fold_right].
  destruct I as [->|I].
  - lra.
  - specialize (IH I (fun y Hy => H y (or_intror Hy))). pose proof (H a (or_introl eq_refl)). lra.
Qed.

(** ** powers *)
Lemma qpower_S x n : (x ^ Z.of_nat (S n) == x * x ^ Z.of_nat n)%Q.
Proof.
  replace (Z.of_nat (S n)) with (1 + Z.of_nat n)%Z by lia. rewrite Qpower_plus' by lia. rewrite Qpower_1_r. lra.
Qed.

Lemma qpower_unit x n : (0 <= x <= 1)%Q -> (0 <= x ^ Z.of_nat n <= 1)%Q.
Proof.
  intros H. induction n as [|n IH].
  - cbn. lra.
  - rewrite qpower_S. set (y := (x ^ Z.of_nat n)%Q) in *. clearbody y. split; nra.
Qed.

(** ** order of keys *)
Definition linked_comparable (g : graph) : Prop := forall u v, has_edge g u v = true -> exists b, key_gt u v = Ok b.

Lemma comparable_linked g : WF g -> comparable (nodes g) -> linked_comparable g.
Proof.
  intros W C u v H. unfold has_edge in H. destruct (edge_data g u v) as [kd|] eqn:E; [|discriminate].
  destruct (edge_data_nodes g u v kd W E). apply (key_gt_total (nodes g)); assumption.
Qed.

Lemma gt_comparable a b r : key_gt a b = Ok r -> comparable [a; b].
Proof.
  destruct a, b; cbn; intros E; try discriminate; [left|right]; intros k [<-|[<-|[]]]; eauto.
Qed.

Lemma gt_asym a b : key_gt a b = Ok true -> key_gt b a = Ok true -> False.
Proof. intros H. apply (key_gt_asym [a; b]); cbn; auto. eapply gt_comparable, H. Qed.

Lemma gt_antisym a b : key_gt a b = Ok false -> key_gt b a = Ok false -> a = b.
Proof. intros H. apply (key_gt_antisym [a; b]); cbn; auto. eapply gt_comparable, H. Qed.

Lemma gt_Err a b e : key_gt a b = Err e -> e = TypeError.
Proof. destruct a, b; cbn; congruence. Qed.

(** ** weights *)
Section Disparity.
  Context (g : graph) (attr : key) (W : WF g) (M : g_multi g = false) (D : g_dir g = false).
  Context (P : positive_weights attr g).

  Lemma link_positive u v a : edge_attrs g u v (KInt 0) = Some a -> exists w, stored_weight attr a = Some w /\ (0 < w)%Q.
  Proof.
    intros E. apply edge_attrs_edges_data in E as [E|[_ E]]; [| |exact W]; eapply P; exact E.
  Qed.

  Lemma link_weight_some u v a w : edge_attrs g u v (KInt 0) = Some a -> stored_weight attr a = Some w -> link_weight attr g u v = w.
  Proof. intros E H. unfold link_weight. rewrite E, H. reflexivity. Qed.

  Lemma link_nonneg u v : (0 <= link_weight attr g u v)%Q.
  Proof.
    unfold link_weight. destruct (edge_attrs g u v (KInt 0)) as [a|] eqn:E; [|lra].
    destruct (link_positive u v a E) as (w & -> & H). lra.
  Qed.

  Lemma link_sym u v : link_weight attr g u v = link_weight attr g v u.
  Proof. unfold link_weight. rewrite edge_attrs_sym by exact D. reflexivity. Qed.

  Lemma has_edge_pos u v : has_edge g u v = true -> (0 < link_weight attr g u v)%Q.
  Proof.
    intros H. apply has_edge_attrs in H as (a & E); [|assumption..]. destruct (link_positive u v a E) as (w & S & H).
    rewrite (link_weight_some u v a w E S). exact H.
  Qed.

  Lemma strength_bound u v : In v (nodes g) -> (link_weight attr g u v <= strength attr g u)%Q.
  Proof.
    intros I. unfold strength. pose proof (sum_q_le (link_weight attr g u) (nodes g) v I (fun x _ => link_nonneg u x)).
    pose proof (link_nonneg u u). lra.
  Qed.

  (** *** in the given arithmetic *)
  Context (lib : libm) (SD : sound lib) (FO : float_weights lib attr g).
  Let RD : rounding (m_round lib) := proj1 SD.

  Definition data_num (a : attrs) : pynum :=
    match dget attr a with Some v => match pynum_of v with Some n => n | None => NInt 0 end | None => NInt 0 end.
  Definition link_num (u v : key) : pynum := match edge_attrs g u v (KInt 0) with Some a => data_num a | None => NInt 0 end.
  Definition num_of_data (kd : dict attrs) : pynum := match dget (KInt 0) kd with Some a => data_num a | None => NInt 0 end.

  Lemma data_num_value a : value (data_num a) = match stored_weight attr a with Some w => w | None => 0%Q end.
  Proof.
    unfold data_num, stored_weight. destruct (dget attr a) as [v|]; [|reflexivity]. destruct (num_of v) as [q|] eqn:E.
    - apply value_number in E as (n & -> & H). exact H.
    - destruct (pynum_of v) as [n|] eqn:F; [|reflexivity]. assert (num_of v = Some (value n)) by (apply value_number; eauto). congruence.
  Qed.

  Lemma link_num_value u v : value (link_num u v) = link_weight attr g u v.
  Proof. unfold link_num, link_weight. destruct (edge_attrs g u v (KInt 0)); [apply data_num_value|reflexivity]. Qed.

  Lemma link_number u v a : edge_attrs g u v (KInt 0) = Some a -> exists z, dget attr a = Some z /\ as_number z = Ok (data_num a)
    /\ (0 < value (data_num a))%Q /\ num_ok lib (data_num a).
  Proof.
    intros E. destruct (link_positive u v a E) as (w & S & H). rewrite data_num_value, S. unfold stored_weight in S.
    unfold data_num. destruct (dget attr a) as [z|] eqn:Z; [|discriminate]. exists z. split; [reflexivity|].
    apply value_number in S as (n & N & <-). unfold as_number. rewrite N. split; [reflexivity|]. split; [exact H|].
    assert (F : float_ok lib z).
    { apply edge_attrs_edges_data in E as [E|[_ E]]; [| |exact W]; eapply FO; eassumption. }
    destruct n as [k|q]; cbn; [exact I|]. apply F. destruct z as [|[|]| |[]]; cbn in N; congruence.
  Qed.

  Lemma weight_or_one_Ok u v kd : edge_data g u v = Some kd -> weight_or_one attr kd = Ok (num_of_data kd)
    /\ num_of_data kd = link_num u v /\ (0 < value (num_of_data kd))%Q /\ num_ok lib (num_of_data kd).
  Proof.
    intros E. unfold weight_or_one, num_of_data, link_num. destruct (edge_data_simple g u v kd W M E) as (a & ->). cbn [dget key_eqb].
    change (Z.eqb 0 0) with true. cbv iota.
    assert (EA : edge_attrs g u v (KInt 0) = Some a) by (unfold edge_attrs; rewrite E; reflexivity).
    rewrite EA. destruct (link_number u v a EA) as (z & -> & N & H). auto.
  Qed.

  Lemma link_num_int u v : int_weights attr g -> link_num u v <> NInt 0 -> exists z, link_num u v = NInt z.
  Proof.
    intros IW. unfold link_num. destruct (edge_attrs g u v (KInt 0)) as [a|] eqn:E; [|congruence]. intros _.
    assert (X : exists z, dget attr a = Some (VInt z)).
    { apply edge_attrs_edges_data in E as [E|[_ E]]; [| |exact W]; eapply IW; exact E. }
    destruct X as (z & X). unfold data_num. rewrite X. cbn. eauto.
  Qed.

  Lemma foldM_weights u l : forall acc, incl l (adj_items g u) -> num_ok lib acc -> (0 <= value acc)%Q ->
    exists s, foldM (fun acc mk => let* w := weight_or_one attr (snd mk) in Ok (n_add lib acc w)) l acc = Ok s
      /\ num_ok lib s /\ (0 <= value s)%Q
      /\ (forall w, under lib w acc -> under lib w s)
      /\ (forall m kd, In (m, kd) l -> under lib (num_of_data kd) s)
      /\ (exact lib -> (value s == value acc + sum_q (map (fun mk => value (num_of_data (snd mk))) l))%Q)
      /\ (int_weights attr g -> (exists z, acc = NInt z) ->
            (exists z, s = NInt z) /\ (value s == value acc + sum_q (map (fun mk => value (num_of_data (snd mk))) l))%Q).
  Proof.
    induction l as [|[m kd] l IH]; intros acc I O N; cbn [foldM].
    - exists acc. split; [reflexivity|]. split; [exact O|]. split; [exact N|]. split; [auto|]. split; [intros ? ? []|].
      split; intros; [|split; [assumption|]]; unfold sum_q; cbn [map fold_right]; lra.
    - cbn [snd]. destruct (weight_or_one_Ok u m kd) as (-> & _ & H & Ok).
      { apply (adj_items_In g u m kd W), I; left; reflexivity. }
      cbn [bind snd]. set (w := num_of_data kd) in *.
      assert (H' : (0 <= value w)%Q) by lra.
      destruct (IH (n_add lib acc w)) as (s & -> & Os & Ns & Us & Ul & Es & Is).
      { intros x Hx; apply I; right; exact Hx. } { apply n_add_ok; assumption. } { apply add_nonneg; assumption. }
      exists s. split; [reflexivity|]. split; [exact Os|]. split; [exact Ns|]. split; [|split; [|split]].
      + intros x Hx. apply Us, under_add; assumption.
      + intros m' kd' [E|E]; [|eapply Ul; exact E]. inversion E; subst. apply Us, under_added; assumption.
      + intros EX. rewrite (Es EX), (value_add lib EX). unfold sum_q. cbn [map fold_right snd]. subst w. lra.
      + intros IW (z & ->). assert (X : exists z', w = NInt z').
        { destruct (weight_or_one_Ok u m kd) as (_ & E & _); [apply (adj_items_In g u m kd W), I; left; reflexivity|].
          subst w. rewrite E. apply link_num_int; [exact IW|]. intros E'. rewrite E, E' in H. exact (Qlt_irrefl 0 H). }
        destruct X as (z' & Ew). destruct (Is IW) as (Z & V); [rewrite Ew; eexists; reflexivity|]. split; [exact Z|].
        rewrite V, Ew. cbn [n_add value]. rewrite inject_Z_plus. unfold sum_q. cbn [map fold_right snd]. subst w. rewrite Ew. cbn [value]. lra.
  Qed.

  Lemma dget_adj u x : dget x (adj_items g u) = edge_data g u x.
  Proof.
    destruct (edge_data g u x) as [kd|] eqn:E.
    - apply dget_In; [apply adj_items_NoDup, W|]. apply adj_items_In; assumption.
    - apply dget_None. intros I. apply In_dkeys in I as (kd & I). apply adj_items_In in I; [|exact W]. congruence.
  Qed.

  Lemma weighted_degree_Ok u : exists n, weighted_degree lib g attr u = Ok n
    /\ (forall v, has_edge g u v = true -> under lib (link_num u v) n)
    /\ (exact lib -> (value n == strength attr g u)%Q)
    /\ (int_weights attr g -> (exists z, n = NInt z) /\ (value n == strength attr g u)%Q).
  Proof.
    unfold weighted_degree.
    destruct (foldM_weights u (adj_items g u) (NInt 0) (incl_refl _) I (Qle_refl 0)) as (s & -> & O & N & _ & U & EX & IX). cbn [bind].
    assert (U' : forall v, has_edge g u v = true -> under lib (link_num u v) s).
    { intros v H. unfold has_edge in H. destruct (edge_data g u v) as [kd|] eqn:E; [|discriminate].
      destruct (weight_or_one_Ok u v kd E) as (_ & <- & _). apply (U v). apply adj_items_In; assumption. }
    assert (S0 : (sum_q (map (fun mk => value (num_of_data (snd mk))) (adj_items g u)) == sum_q (map (link_weight attr g u) (nodes g)))%Q).
    { rewrite <- (sum_q_dict (fun kd => value (num_of_data kd)) (nodes g) (adj_items g u)).
      - apply sum_q_ext. intros x _. rewrite dget_adj, <- link_num_value.
        unfold num_of_data, link_num, edge_attrs. destruct (edge_data g u x); reflexivity.
      - apply (wf_nodes g W).
      - apply adj_items_NoDup, W.
      - intros x Ix. apply In_dkeys in Ix as (kd & Ix). apply adj_items_In in Ix; [|exact W]. apply (edge_data_nodes g u x kd W Ix). }
    assert (S : exact lib -> (value s == sum_q (map (link_weight attr g u) (nodes g)))%Q).
    { intros X. rewrite (EX X), S0. change (value (NInt 0)) with 0%Q. lra. }
    assert (S' : int_weights attr g -> (exists z, s = NInt z) /\ (value s == sum_q (map (link_weight attr g u) (nodes g)))%Q).
    { intros X. destruct (IX X (ex_intro _ 0%Z eq_refl)) as (Z & V). split; [exact Z|]. rewrite V, S0. change (value (NInt 0)) with 0%Q. lra. }
    unfold strength. destruct (edge_data g u u) as [kd|] eqn:E.
    - destruct (weight_or_one_Ok u u kd E) as (-> & EL & H & Ok). cbn [bind]. eexists. split; [reflexivity|]. split.
      + intros v Hv. apply under_add; try assumption; [lra|]. apply U', Hv.
      + split; [|intros X; destruct (S' X) as ((z & ->) & V); destruct (link_num_int u u X) as (z' & Ez);
          [intros E'; rewrite EL, E' in H; exact (Qlt_irrefl 0 H)|];
          rewrite EL, Ez; split; [eexists; reflexivity|]; cbn [n_add value] in *; rewrite inject_Z_plus, V, <- link_num_value, Ez; reflexivity].
        intros X. rewrite (value_add lib X), (S X), EL, link_num_value. reflexivity.
    - eexists. split; [reflexivity|]. split; [exact U'|].
      assert (L : link_weight attr g u u = 0%Q) by (unfold link_weight, edge_attrs; rewrite E; reflexivity). rewrite L. split.
      + intros X. rewrite (S X). lra.
      + intros X. destruct (S' X) as (Z & V). split; [exact Z|]. lra.
  Qed.

  Definition wd (u : key) : pynum := match weighted_degree lib g attr u with Ok q => q | Err _ => NInt 0 end.
  Lemma wd_Ok u : weighted_degree lib g attr u = Ok (wd u).
  Proof. unfold wd. destruct (weighted_degree_Ok u) as (q & -> & _). reflexivity. Qed.
  Lemma wd_under u v : has_edge g u v = true -> under lib (link_num u v) (wd u).
  Proof. unfold wd. destruct (weighted_degree_Ok u) as (q & -> & H & _). apply H. Qed.
  Lemma wd_strength u : exact lib -> (value (wd u) == strength attr g u)%Q.
  Proof. unfold wd. destruct (weighted_degree_Ok u) as (q & -> & _ & H & _). exact H. Qed.
  Lemma wd_int u : int_weights attr g -> (exists z, wd u = NInt z) /\ (value (wd u) == strength attr g u)%Q.
  Proof. unfold wd. destruct (weighted_degree_Ok u) as (q & -> & _ & _ & H). exact H. Qed.

  (** ** the loops *)
  Definition visits : list (key * (key * option val)) :=
    flat_map (fun s => map (fun tw => (s, tw)) (edges_weight g attr s)) (nodes g).

  Lemma foldM_app {A S} (f : S -> A -> res S) l1 l2 s : foldM f (l1 ++ l2) s = let* s' := foldM f l1 s in foldM f l2 s'.
  Proof. revert s. induction l1 as [|a l IH]; intros s; cbn; [reflexivity|]. destruct (f s a); [apply IH|reflexivity]. Qed.

  Lemma foldM_map {A B S} (f : S -> B -> res S) (h : A -> B) l s : foldM f (map h l) s = foldM (fun s a => f s (h a)) l s.
  Proof. revert s. induction l as [|a l IH]; intros s; cbn; [reflexivity|]. destruct (f s (h a)); [apply IH|reflexivity]. Qed.

  Lemma foldM_nested {S} (step : key -> S -> key * option val -> res S) N s :
    foldM (fun d source => foldM (step source) (edges_weight g attr source) d) N s
    = foldM (fun d x => step (fst x) d (snd x)) (flat_map (fun s => map (fun tw => (s, tw)) (edges_weight g attr s)) N) s.
  Proof.
    revert s. induction N as [|n N IH]; intros s; cbn [flat_map foldM]; [reflexivity|].
    rewrite foldM_app, foldM_map. cbn [fst snd]. destruct (foldM (step n) (edges_weight g attr n) s); [apply IH|reflexivity].
  Qed.

  Lemma edges_weight_In s t w : In (t, w) (edges_weight g attr s) <-> exists a, edge_attrs g s t (KInt 0) = Some a /\ w = dget attr a.
  Proof.
    unfold edges_weight. rewrite in_map_iff. split.
    - intros ([[[s' t'] k] a] & E & I). inversion E; subst. apply edges_of_In in I as (-> & I); [|exact W].
      exists a. split; [|reflexivity]. rewrite <- (edge_attrs_simple_key g s t k a W M I). exact I.
    - intros (a & E & ->). exists (s, t, KInt 0, a). split; [reflexivity|]. apply edges_of_In; auto.
  Qed.

  Lemma edges_weight_fst s : map fst (edges_weight g attr s) = neighbors g s.
  Proof.
    unfold edges_weight, neighbors, edges_of. rewrite map_map.
    assert (S : forall m kd, In (m, kd) (adj_items g s) -> exists a, kd = [(KInt 0, a)]).
    { intros m kd I. apply adj_items_In in I; [|exact W]. apply (edge_data_simple g s m kd W M I). }
    induction (adj_items g s) as [|[m kd] l IH]; [reflexivity|]. cbn [flat_map map fst snd].
    destruct (S m kd (or_introl eq_refl)) as (a & ->). cbn [map app fst]. f_equal. apply IH. intros; eapply S; right; eassumption.
  Qed.

  Definition visit_key (x : key * (key * option val)) : key * key := (fst x, fst (snd x)).

  Lemma visits_NoDup : NoDup (map visit_key visits).
  Proof.
    unfold visits. pose proof (wf_nodes g W) as N. induction (nodes g) as [|n N' IH]; cbn [flat_map]; [constructor|].
    inversion N as [|? ? NI ND]; subst. rewrite map_app. apply NoDup_app_iff. split; [|split].
    - rewrite map_map. unfold visit_key. cbn [fst snd].
      assert (E : NoDup (map fst (edges_weight g attr n))) by (rewrite edges_weight_fst; apply adj_items_NoDup, W).
      clear -E. induction (edges_weight g attr n) as [|[t w] l IH]; cbn [map]; [constructor|]. cbn [map fst] in E. inversion E as [|? ? NI ND]; subst.
      constructor; [|apply IH, ND]. intros I. apply in_map_iff in I as ([t' w'] & Eq & I). cbn in Eq. inversion Eq; subst.
      apply NI. apply in_map_iff. exists (t, w'). auto.
    - apply IH, ND.
    - intros p I J. rewrite map_map in I. apply in_map_iff in I as ([t w] & <- & _). apply NI.
      apply in_map_iff in J as ([s' [t' w']] & Eq & J). unfold visit_key in Eq. cbn in Eq. inversion Eq; subst.
      apply in_flat_map in J as (s0 & Hs & J). apply in_map_iff in J as (tw & Eq' & _). inversion Eq'; subst. exact Hs.
  Qed.

  Lemma visits_In s t w : In (s, (t, w)) visits <-> exists a, edge_attrs g s t (KInt 0) = Some a /\ w = dget attr a.
  Proof.
    unfold visits. rewrite in_flat_map. split.
    - intros (s' & Hs & I). apply in_map_iff in I as (tw & E & I). inversion E; subst. apply edges_weight_In, I.
    - intros (a & E & ->). exists s. split.
      + unfold edge_attrs in E. destruct (edge_data g s t) eqn:ED; [|discriminate]. apply (edge_data_nodes g s t _ W ED).
      + apply in_map. apply edges_weight_In. eauto.
  Qed.

  Lemma dget_wds n : In n (nodes g) -> dget n (map (fun n => (n, wd n)) (nodes g)) = Some (wd n).
  Proof.
    intros I. apply dget_In.
    - unfold dkeys. rewrite map_map. cbn [fst]. rewrite map_id. apply (wf_nodes g W).
    - apply in_map_iff. eauto.
  Qed.

  (** the normalized weight, line 92 *)
  Definition share (u v : key) : Q := match n_div lib (link_num u v) (wd u) with Ok q => q | Err _ => 0%Q end.

  Lemma share_Ok u v a : edge_attrs g u v (KInt 0) = Some a -> div_weight lib (dget attr a) (wd u) = Ok (share u v)
    /\ (0 <= share u v <= 1)%Q /\ (exact lib -> (share u v == link_weight attr g u v / strength attr g u)%Q).
  Proof.
    intros E. destruct (link_number u v a E) as (z & -> & N & H & _). unfold div_weight, share. rewrite N. cbn [bind].
    assert (L : link_num u v = data_num a) by (unfold link_num; rewrite E; reflexivity).
    pose proof (wd_under u v (edge_attrs_has g u v _ a E)) as U. rewrite L in *.
    destruct (div_range lib RD _ _ H U) as (q & Q & B). rewrite Q. split; [reflexivity|]. split; [exact B|].
    intros X. rewrite (value_div lib X _ _ _ Q), (wd_strength u X), <- L, link_num_value. reflexivity.
  Qed.

  Lemma share_int u v a : int_weights attr g -> edge_attrs g u v (KInt 0) = Some a ->
    (share u v == m_round lib (link_weight attr g u v / strength attr g u))%Q.
  Proof.
    intros IW E. destruct (link_number u v a E) as (z & _ & _ & H & _).
    assert (L : link_num u v = data_num a) by (unfold link_num; rewrite E; reflexivity).
    pose proof (wd_under u v (edge_attrs_has g u v _ a E)) as U. destruct (wd_int u IW) as ((s & Es) & V).
    destruct (link_num_int u v IW) as (w & Ew). { rewrite L. intros E'. rewrite E' in H. exact (Qlt_irrefl 0 H). }
    unfold share, n_div. rewrite <- L in H. rewrite (q_eqb_positive _ (under_pos lib RD _ _ H U)).
    rewrite <- link_num_value. rewrite Ew, Es in *. apply (rnd_eq _ RD). cbn [value] in *. rewrite V. reflexivity.
  Qed.

  Lemma link_num_sym u v : link_num u v = link_num v u.
  Proof. unfold link_num. rewrite edge_attrs_sym by exact D. reflexivity. Qed.

  Definition gt_ok (x : key * (key * option val)) : bool := match key_gt (fst x) (fst (snd x)) with Ok _ => true | Err _ => false end.

  Lemma step_Ok reverse s t w b d : In (s, (t, w)) visits -> key_gt s t = Ok b ->
    exists d', disparity_edge lib g reverse (map (fun n => (n, wd n)) (nodes g)) s d (t, w) = Ok d'.
  Proof.
    intros V G. apply visits_In in V as (a & E & ->). pose proof (edge_attrs_has g s t _ a E) as HE.
    assert (N : In s (nodes g) /\ In t (nodes g)).
    { unfold has_edge in HE. destruct (edge_data g s t) as [kd|] eqn:ED; [|discriminate]. apply (edge_data_nodes g s t kd W ED). }
    destruct N as [Ns Nt]. unfold disparity_edge. rewrite G. cbn [bind]. destruct b; [eauto|].
    rewrite !dget_wds by assumption.
    assert (E' : edge_attrs g t s (KInt 0) = Some a) by (rewrite edge_attrs_sym by exact D; exact E).
    rewrite (proj1 (share_Ok s t a E)), (proj1 (share_Ok t s a E')).
    cbn [bind]. eauto.
  Qed.

  Lemma loop_Err reverse l : forall d, incl l visits -> forallb gt_ok l = false ->
    foldM (fun d x => disparity_edge lib g reverse (map (fun n => (n, wd n)) (nodes g)) (fst x) d (snd x)) l d = Err TypeError.
  Proof.
    induction l as [|[s [t w]] l IH]; intros d I F; cbn [forallb] in F; [discriminate|]. cbn [foldM fst snd].
    unfold gt_ok in F. cbn [fst snd] in F. destruct (key_gt s t) as [b|e] eqn:G.
    - destruct (step_Ok reverse s t w b d (I _ (or_introl eq_refl)) G) as (d' & ->). cbn [bind].
      apply IH; [intros x Hx; apply I; right; exact Hx|exact F].
    - unfold disparity_edge. rewrite G. cbn [bind]. rewrite (gt_Err s t e G). reflexivity.
  Qed.

  Lemma edge_disparity_Err reverse : ~ linked_comparable g -> edge_disparity lib g attr reverse = Err TypeError.
  Proof.
    intros NC. unfold edge_disparity. rewrite D, M. cbn [orb].
    rewrite (mapM_Ok _ (fun n => (n, wd n))) by (intros n _; rewrite wd_Ok; reflexivity). cbn [bind].
    rewrite (foldM_nested (fun source => disparity_edge lib g reverse (map (fun n => (n, wd n)) (nodes g)) source)).
    apply loop_Err; [apply incl_refl|]. apply not_true_iff_false. intros F. apply NC. intros u v H.
    apply has_edge_attrs in H as (a & E); [|assumption..].
    rewrite forallb_forall in F. specialize (F (u, (v, dget attr a))).
    assert (V : In (u, (v, dget attr a)) visits) by (apply visits_In; eauto). specialize (F V).
    unfold gt_ok in F. cbn in F. destruct (key_gt u v); [eauto|discriminate].
  Qed.

  Lemma linked_comparable_dec : linked_comparable g \/ ~ linked_comparable g.
  Proof.
    destruct (forallb gt_ok visits) eqn:F.
    - left. intros u v H. apply has_edge_attrs in H as (a & E); [|assumption..].
      rewrite forallb_forall in F. specialize (F (u, (v, dget attr a))).
      assert (V : In (u, (v, dget attr a)) visits) by (apply visits_In; eauto). specialize (F V).
      unfold gt_ok in F. cbn in F. destruct (key_gt u v); [eauto|discriminate].
    - right. intros C. apply not_true_iff_false in F. apply F. apply forallb_forall. intros [s [t w]] I.
      apply visits_In in I as (a & E & _). apply edge_attrs_has in E. destruct (C s t E) as (b & G). unfold gt_ok. cbn. rewrite G. reflexivity.
  Qed.

  Context (C : linked_comparable g).

  Definition gtb (s t : key) : bool := match key_gt s t with Ok b => b | Err _ => false end.
  Definition score_of (reverse : bool) (s t : key) : Q :=
    disparity_score lib reverse (degree g s) (degree g t) (share s t) (share t s).

  Lemma pset_new {A} p (v : A) d : ~ In p (pkeys d) -> pset p v d = d ++ [(p, v)].
  Proof.
    unfold pkeys. induction d as [|[p' v'] d IH]; cbn; [reflexivity|]. intros H. destruct (pair_eqb_spec p p'); [subst; tauto|].
    f_equal. apply IH. tauto.
  Qed.

  Lemma loop_spec reverse l : forall d, incl l visits -> NoDup (map visit_key l) ->
    (forall x, In x l -> ~ In (visit_key x) (pkeys d)) ->
    foldM (fun d x => disparity_edge lib g reverse (map (fun n => (n, wd n)) (nodes g)) (fst x) d (snd x)) l d
    = Ok (d ++ map (fun x => (visit_key x, score_of reverse (fst x) (fst (snd x)))) (filter (fun x => negb (gtb (fst x) (fst (snd x)))) l)).
  Proof.
    induction l as [|[s [t w]] l IH]; intros d I ND F; cbn [foldM filter].
    - cbn. rewrite app_nil_r. reflexivity.
    - cbn [map] in ND. inversion ND as [|? ? NI ND']; subst.
      assert (V : exists a, edge_attrs g s t (KInt 0) = Some a /\ w = dget attr a) by (apply visits_In, I; left; reflexivity).
      destruct V as (a & E & ->). pose proof (edge_attrs_has g s t _ a E) as HE.
      assert (N : In s (nodes g) /\ In t (nodes g)).
      { unfold has_edge in HE. destruct (edge_data g s t) as [kd|] eqn:ED; [|discriminate]. apply (edge_data_nodes g s t kd W ED). }
      destruct N as [Ns Nt]. unfold disparity_edge at 1. cbn [fst snd]. unfold gtb at 1.
      destruct (C s t HE) as (b & G). rewrite G. cbn [bind negb]. destruct b; cbn [negb].
      + cbn [bind]. apply IH; [intros x Hx; apply I; right; exact Hx|exact ND'|intros x Hx; apply F; right; exact Hx].
      + rewrite !dget_wds by assumption.
        assert (E' : edge_attrs g t s (KInt 0) = Some a) by (rewrite edge_attrs_sym by exact D; exact E).
        rewrite (proj1 (share_Ok s t a E)), (proj1 (share_Ok t s a E')).
        cbn [bind]. rewrite pset_new by (apply (F (s, (t, dget attr a))); left; reflexivity).
        rewrite IH.
        * cbn [map]. rewrite <- app_assoc. cbn [app]. unfold score_of, visit_key. cbn [fst snd]. reflexivity.
        * intros x Hx; apply I; right; exact Hx.
        * exact ND'.
        * intros x Hx. unfold pkeys. rewrite map_app. cbn [map fst]. rewrite in_app_iff. intros [H|[H|[]]].
          -- apply (F x); [right; exact Hx|exact H].
          -- apply NI. apply in_map_iff. exists x. split; [symmetry; exact H|exact Hx].
  Qed.

  Definition entries (reverse : bool) : pdict Q :=
    map (fun x => (visit_key x, score_of reverse (fst x) (fst (snd x)))) (filter (fun x => negb (gtb (fst x) (fst (snd x)))) visits).

  Lemma edge_disparity_Ok reverse : edge_disparity lib g attr reverse = Ok (entries reverse).
  Proof.
    unfold edge_disparity. rewrite D, M. cbn [orb].
    rewrite (mapM_Ok _ (fun n => (n, wd n))) by (intros n _; rewrite wd_Ok; reflexivity). cbn [bind].
    rewrite (foldM_nested (fun source => disparity_edge lib g reverse (map (fun n => (n, wd n)) (nodes g)) source)).
    fold visits. rewrite loop_spec; [reflexivity|apply incl_refl|apply visits_NoDup|]. intros x _ [].
  Qed.

  Lemma entries_keys reverse : pkeys (entries reverse) = map visit_key (filter (fun x => negb (gtb (fst x) (fst (snd x)))) visits).
  Proof. unfold entries, pkeys. rewrite map_map. reflexivity. Qed.

  Lemma NoDup_map_filter {A B} (f : A -> B) q l : NoDup (map f l) -> NoDup (map f (filter q l)).
  Proof.
    induction l as [|a l IH]; cbn; [constructor|]. intros N. inversion N as [|? ? NI ND]; subst. destruct (q a); [|auto].
    cbn. constructor; [|auto]. intros I. apply NI. apply in_map_iff in I as (x & E & I). apply filter_In in I. apply in_map_iff. exists x. tauto.
  Qed.

  Lemma entries_NoDup reverse : NoDup (pkeys (entries reverse)).
  Proof. rewrite entries_keys. apply NoDup_map_filter, visits_NoDup. Qed.

  Lemma gtb_smaller s t : has_edge g s t = true -> (negb (gtb s t) = true <-> smaller_first s t).
  Proof.
    intros H. unfold gtb, smaller_first. destruct (C s t H) as (b & G). rewrite G.
    assert (H' : has_edge g t s = true) by (rewrite has_edge_sym; assumption).
    destruct (C t s H') as (b' & G'). change (key_lt s t) with (key_gt t s). rewrite G'.
    destruct b, b'; cbn; split; intros X; try discriminate; auto.
    - exfalso. exact (gt_asym _ _ G G').
    - destruct X as [->|X]; [|discriminate]. congruence.
    - left. exact (gt_antisym _ _ G G').
  Qed.

  Lemma has_edge_nodes u v : has_edge g u v = true -> In u (nodes g) /\ In v (nodes g).
  Proof.
    intros H. unfold has_edge in H. destruct (edge_data g u v) as [kd|] eqn:E; [|discriminate]. apply (edge_data_nodes g u v kd W E).
  Qed.

  Lemma entries_In reverse u v x : In (u, v, x) (entries reverse) <->
    has_edge g u v = true /\ smaller_first u v /\ x = score_of reverse u v.
  Proof.
    unfold entries. rewrite in_map_iff. split.
    - intros ([s [t w]] & E & I). unfold visit_key in E. cbn in E. inversion E; subst. apply filter_In in I as (I & G). cbn in G.
      apply visits_In in I as (a & EA & _). apply edge_attrs_has in EA.
      apply gtb_smaller in G; auto.
    - intros (H & S & ->). pose proof H as H'. apply has_edge_attrs in H as (a & E); [|assumption..].
      exists (u, (v, dget attr a)). split; [reflexivity|]. apply filter_In. split; [apply visits_In; eauto|]. cbn.
      apply gtb_smaller; assumption.
  Qed.

  (** the score of one end *)
  Definition end_of (u v : key) : Q := m_pow lib (m_round lib (1 - share u v)%Q) (Z.of_nat (degree g u) - 1).

  Lemma score_sym u v : (score_of false u v == score_of false v u)%Q.
  Proof. unfold score_of, disparity_score. apply Q.min_comm. Qed.

  Lemma round_rev x y : (x <= y)%Q -> (m_round lib (1 - y) <= m_round lib (1 - x))%Q.
  Proof. intros H. apply (rnd_le _ RD). lra. Qed.

  Lemma score_reverse u v : (score_of true u v == m_round lib (1 - score_of false u v))%Q.
  Proof.
    unfold score_of, disparity_score. fold (end_of u v) (end_of v u). generalize (end_of u v) (end_of v u). intros a b.
    destruct (Q.min_spec a b) as [[L E]|[L E]].
    - rewrite (rnd_eq _ RD (1 - Qmin a b) (1 - a)) by (rewrite E; reflexivity). apply Q.max_l, round_rev. lra.
    - rewrite (rnd_eq _ RD (1 - Qmin a b) (1 - b)) by (rewrite E; reflexivity). apply Q.max_r, round_rev. exact L.
  Qed.

  Lemma end_score_eq u v : exact lib -> has_edge g u v = true -> (end_of u v == end_score attr g u v)%Q.
  Proof.
    intros X H. apply has_edge_attrs in H as (a & E); [|assumption..]. unfold end_of, end_score.
    destruct X as [X1 X2] eqn:Y. rewrite X1, X2. rewrite (proj2 (proj2 (share_Ok u v a E)) X), degree_edge_ends by exact W. reflexivity.
  Qed.

  Lemma score_eq u v : exact lib -> has_edge g u v = true -> (score_of false u v == disparity_formula attr g u v)%Q.
  Proof.
    intros X H. unfold score_of, disparity_score, disparity_formula. fold (end_of u v) (end_of v u).
    rewrite !end_score_eq; try assumption; [reflexivity|]. rewrite has_edge_sym; assumption.
  Qed.

  Lemma edge_ends_pos u v : has_edge g u v = true -> 1 <= edge_ends g u.
  Proof.
    intros H. rewrite <- degree_edge_ends by exact W. unfold degree. rewrite D.
    unfold has_edge in H. destruct (edge_data g u v) as [kd|] eqn:E; [|discriminate].
    pose proof (edge_data_ne g u v kd W E) as NE. apply adj_items_In in E; [|exact W].
    assert (X : 1 <= sum_nat (map (fun mk : key * dict attrs => List.length (snd mk)) (adj_items g u))); [|eapply Nat.le_trans; [exact X|apply Nat.le_add_r]].
    unfold sum_nat. induction (adj_items g u) as [|[m kd'] l IH]; [contradiction|]. cbn [map fold_right snd].
    destruct E as [E|E]; [inversion E; subst; destruct kd; [contradiction|cbn; lia]|]. specialize (IH E). lia.
  Qed.

  Lemma end_score_unit u v : has_edge g u v = true -> (0 <= end_score attr g u v <= 1)%Q.
  Proof.
    intros H. unfold end_score. pose proof (edge_ends_pos u v H) as DG. destruct (edge_ends g u) as [|n] eqn:EE; [lia|].
    replace (Z.of_nat (S n) - 1)%Z with (Z.of_nat n) by lia. apply qpower_unit.
    pose proof (has_edge_pos u v H) as WP. pose proof (strength_bound u v (proj2 (has_edge_nodes u v H))) as B.
    assert (SP : (0 < strength attr g u)%Q) by lra.
    assert (0 <= link_weight attr g u v / strength attr g u)%Q by (apply Qle_shift_div_l; lra).
    assert (link_weight attr g u v / strength attr g u <= 1)%Q by (apply Qle_shift_div_r; lra). lra.
  Qed.

  Lemma formula_unit u v : has_edge g u v = true -> (0 <= disparity_formula attr g u v <= 1)%Q.
  Proof.
    intros H. pose proof (end_score_unit u v H). assert (H' : has_edge g v u = true) by (rewrite has_edge_sym; assumption).
    pose proof (end_score_unit v u H'). unfold disparity_formula.
    destruct (Q.min_spec (end_score attr g u v) (end_score attr g v u)) as [[_ ->]|[_ ->]]; assumption.
  Qed.

  Lemma end_of_unit u v : has_edge g u v = true -> (0 <= end_of u v <= 1)%Q.
  Proof.
    intros H. pose proof (edge_ends_pos u v H) as DG. rewrite <- degree_edge_ends in DG by exact W.
    apply has_edge_attrs in H as (a & E); [|assumption..]. destruct (share_Ok u v a E) as (_ & B & _).
    unfold end_of. apply (proj1 (proj2 SD)); [|lia].
    assert (L : (0 <= 1 - share u v)%Q) by lra. assert (L' : (1 - share u v <= 1)%Q) by lra.
    apply (rnd_le _ RD) in L, L'. pose proof (rnd_0 _ RD). pose proof (rnd_1 _ RD). lra.
  Qed.

  Lemma score_unit u v : has_edge g u v = true -> (0 <= score_of false u v <= 1)%Q.
  Proof.
    intros H. pose proof (end_of_unit u v H). assert (H' : has_edge g v u = true) by (rewrite has_edge_sym; assumption).
    pose proof (end_of_unit v u H'). unfold score_of, disparity_score. fold (end_of u v) (end_of v u).
    destruct (Q.min_spec (end_of u v) (end_of v u)) as [[_ ->]|[_ ->]]; assumption.
  Qed.

  Lemma formula_sym u v : (disparity_formula attr g u v == disparity_formula attr g v u)%Q.
  Proof. unfold disparity_formula. apply Q.min_comm. Qed.

  (** ** backbone *)
  Lemma pget_In {A} p (v : A) d : NoDup (pkeys d) -> In (p, v) d -> pget p d = Some v.
  Proof.
    unfold pkeys. induction d as [|[p' v'] d IH]; cbn; [tauto|]. intros N. inversion N as [|? ? NI ND]; subst. intros [E|I].
    - inversion E; subst. destruct (pair_eqb_spec p p); congruence.
    - destruct (pair_eqb_spec p p') as [->|]; [|auto]. exfalso. apply NI. apply in_map_iff. exists (p', v). auto.
  Qed.

  Lemma backbone_test alpha : exists p, backbone_factory lib alpha attr g = Ok p
    /\ edge_test g p (fun u v _ => q_leb (score_of false u v) alpha).
  Proof.
    unfold backbone_factory. rewrite edge_disparity_Ok. cbn [bind]. eexists. split; [reflexivity|].
    intros u v a I. pose proof (edges_data_attrs g u v a W M I) as EA. apply edge_attrs_has in EA.
    destruct (C u v EA) as (b & G). rewrite G. cbn [bind].
    assert (X : forall x y, has_edge g x y = true -> smaller_first x y -> pget (x, y) (entries false) = Some (score_of false x y)).
    { intros x y H S. apply pget_In; [apply entries_NoDup|]. apply entries_In. auto. }
    assert (Y : forall q, (q == score_of false u v)%Q -> q_leb q alpha = q_leb (score_of false u v) alpha).
    { intros q H. unfold q_leb. apply Bool.eq_iff_eq_true. rewrite !Qle_bool_iff. rewrite H. reflexivity. }
    destruct b.
    - rewrite X; [f_equal; apply Y, score_sym|rewrite has_edge_sym; assumption|]. right. exact G.
    - rewrite X; [reflexivity|exact EA|]. apply gtb_smaller; [assumption|]. unfold gtb. rewrite G. reflexivity.
  Qed.
End Disparity.

(** ** rescaling *)
Lemma Forall2_In_l {A B} (R : A -> B -> Prop) l l' x : Forall2 R l l' -> In x l -> exists y, In y l' /\ R x y.
Proof. induction 1 as [|a b l l' H F IH]; cbn; [tauto|]. intros [->|I]; [eauto|]. destruct (IH I) as (y & ? & ?). eauto. Qed.

Lemma Forall2_In_r {A B} (R : A -> B -> Prop) l l' y : Forall2 R l l' -> In y l' -> exists x, In x l /\ R x y.
Proof. induction 1 as [|a b l l' H F IH]; cbn; [tauto|]. intros [->|I]; [eauto|]. destruct (IH I) as (x & ? & ?). eauto. Qed.

Section Rescale.
  Context (g h : graph) (attr : key) (c : Q) (Hc : (0 < c)%Q).
  Context (Wg : WF g) (Wh : WF h) (Mg : g_multi g = false) (Dg : g_dir g = false).
  Context (P : positive_weights attr g) (R : rescaled attr c g h).

  Lemma rs_multi : g_multi h = false. Proof. destruct R as ((_ & E) & _). congruence. Qed.
  Lemma rs_dir : g_dir h = false. Proof. destruct R as ((E & _) & _). congruence. Qed.
  Lemma rs_nodes : nodes h = nodes g. Proof. destruct R as (_ & E & _). congruence. Qed.

  Lemma rs_positive : positive_weights attr h.
  Proof.
    destruct R as (_ & _ & F). intros u v a I. destruct (Forall2_In_r _ _ _ _ F I) as ([[u' v'] a'] & I' & E & w & w' & S & S' & Q).
    exists w'. split; [exact S'|]. destruct (P u' v' a' I') as (w0 & S0 & H). cbn in S. assert (w0 = w) by congruence. subst.
    rewrite Q. nra.
  Qed.

  Lemma rs_fst : map fst (edges_data g) = map fst (edges_data h).
  Proof. destruct R as (_ & _ & F). induction F as [|e e' l l' (E & _) F IH]; cbn; [reflexivity|]. congruence. Qed.

  Lemma rs_links u v : has_edge h u v = has_edge g u v.
  Proof.
    apply Bool.eq_iff_eq_true. rewrite !has_edge_edges by assumption. rewrite rs_dir, Dg.
    rewrite <- !edges_data_simple_fst by (assumption || apply rs_multi). rewrite rs_fst. reflexivity.
  Qed.

  Lemma rs_ends n : edge_ends h n = edge_ends g n.
  Proof.
    unfold edge_ends. f_equal.
    transitivity (map (fun p : key * key => (if key_eqb (fst p) n then 1 else 0) + (if key_eqb (snd p) n then 1 else 0)) (map fst (edges_data h)));
      [rewrite map_map; reflexivity|]. rewrite <- rs_fst, map_map. reflexivity.
  Qed.

  Lemma rs_link u v : (link_weight attr h u v == c * link_weight attr g u v)%Q.
  Proof.
    pose proof R as (_ & _ & F). unfold link_weight at 2.
    destruct (edge_attrs g u v (KInt 0)) as [a|] eqn:E.
    - pose proof (edge_attrs_edges_data g u v (KInt 0) a Wg E) as I.
      assert (X : exists a' w w', edge_attrs h u v (KInt 0) = Some a' /\ stored_weight attr a = Some w
        /\ stored_weight attr a' = Some w' /\ (w' == c * w)%Q).
      { destruct I as [I|[_ I]]; destruct (Forall2_In_l _ _ _ _ F I) as ([[u' v'] a'] & I' & Eq & w & w' & S & S' & Q);
          cbn in Eq; inversion Eq; subst; apply (edges_data_attrs h) in I'; try assumption; try apply rs_multi;
          exists a', w, w'; cbn in S, S'; (split; [|auto]).
        - exact I'.
        - rewrite edge_attrs_sym by apply rs_dir. exact I'. }
      destruct X as (a' & w & w' & E' & S & S' & Q). unfold link_weight. rewrite E', S, S'. exact Q.
    - unfold link_weight. destruct (edge_attrs h u v (KInt 0)) as [a'|] eqn:E'; [|lra]. exfalso.
      apply edge_attrs_has in E'. rewrite rs_links in E'. apply has_edge_attrs in E' as (a & E'); [|assumption..]. congruence.
  Qed.

  Lemma rs_strength u : (strength attr h u == c * strength attr g u)%Q.
  Proof.
    unfold strength. rewrite rs_nodes, rs_link.
    assert (X : (sum_q (map (link_weight attr h u) (nodes g)) == c * sum_q (map (link_weight attr g u) (nodes g)))%Q).
    { unfold sum_q. induction (nodes g) as [|n l IH]; cbn [map fold_right]; [lra|]. rewrite IH, rs_link. lra. }
    rewrite X. lra.
  Qed.

  Lemma rs_end u v : has_edge g u v = true -> (end_score attr h u v == end_score attr g u v)%Q.
  Proof.
    intros H. unfold end_score. rewrite rs_ends. rewrite rs_link, rs_strength.
    assert (SP : (0 < strength attr g u)%Q).
    { pose proof (has_edge_pos g attr Wg Mg P u v H). pose proof (strength_bound g attr Wg P u v (proj2 (has_edge_nodes g Wg u v H))). lra. }
    assert (E : (c * link_weight attr g u v / (c * strength attr g u) == link_weight attr g u v / strength attr g u)%Q)
      by (field; split; lra).
    rewrite E. reflexivity.
  Qed.

  Lemma rs_formula u v : has_edge g u v = true -> (disparity_formula attr h u v == disparity_formula attr g u v)%Q.
  Proof.
    intros H. unfold disparity_formula. rewrite !rs_end; [reflexivity| |exact H]. rewrite has_edge_sym; assumption.
  Qed.

  (** with any rounding, when all weights are ints *)
  Context (lib : libm) (SD : sound lib) (IG : int_weights attr g) (IH : int_weights attr h)
    (FG : float_weights lib attr g) (FH : float_weights lib attr h).

  Lemma rs_share u v : has_edge g u v = true -> (share h attr lib u v == share g attr lib u v)%Q.
  Proof.
    intros H. assert (SP : (0 < strength attr g u)%Q).
    { pose proof (has_edge_pos g attr Wg Mg P u v H). pose proof (strength_bound g attr Wg P u v (proj2 (has_edge_nodes g Wg u v H))). lra. }
    assert (H' : has_edge h u v = true) by (rewrite rs_links; exact H).
    apply has_edge_attrs in H as (a & E); [|assumption..]. apply has_edge_attrs in H' as (a' & E'); [|assumption|apply rs_multi].
    rewrite (share_int g attr Wg Mg P lib SD FG u v a IG E), (share_int h attr Wh rs_multi rs_positive lib SD FH u v a' IH E').
    apply (rnd_eq _ (proj1 SD)). rewrite rs_link, rs_strength. field. split; lra.
  Qed.

  Lemma rs_end_of u v : has_edge g u v = true -> (end_of h attr lib u v == end_of g attr lib u v)%Q.
  Proof.
    intros H. unfold end_of. rewrite !degree_edge_ends by assumption. rewrite rs_ends. apply (proj2 (proj2 SD)), (rnd_eq _ (proj1 SD)).
    rewrite (rs_share u v H). reflexivity.
  Qed.

  Lemma rs_score u v : has_edge g u v = true -> (score_of h attr lib false u v == score_of g attr lib false u v)%Q.
  Proof.
    intros H. unfold score_of, disparity_score. fold (end_of h attr lib u v) (end_of h attr lib v u) (end_of g attr lib u v) (end_of g attr lib v u).
    rewrite !rs_end_of; [reflexivity| |exact H]. rewrite has_edge_sym; assumption.
  Qed.
End Rescale.
