(** * Multiplying binary64 numbers by powers of two *)
From Coq Require Import List ZArith QArith Qround Lia Lqa Bool.
From Verif Require Import PyBase PyNum S_Num L_Num NxGraph L_Base L_Nx L_Nx2 L_Graph L_Graph2 M_Disparity S_Partition S_Sparse L_Disparity.
Import ListNotations.
Open Scope Q_scope.

(** ** rounding *)
Lemma roundp_scale x z k : 0 <= x -> (0 <= k)%Z -> x * inject_Z (2 ^ 1074) == inject_Z z ->
  roundp (inject_Z (2 ^ k) * x) == inject_Z (2 ^ k) * roundp x.
Proof.
  intros X K G. pose proof (pow2_pos k K) as PK.
  assert (Z0 : (0 <= z)%Z). { rewrite Zle_Qle. change (inject_Z 0) with 0. rewrite <- G. pose proof (pow2_pos 1074 ltac:(lia)). apply Qmult_le_0_compat; lra. }
  assert (X' : 0 <= inject_Z (2 ^ k) * x) by (apply Qmult_le_0_compat; lra).
  assert (F : Qfloor (x * inject_Z (2 ^ 1074)) = z) by (rewrite <- (Qfloor_Z z); apply Qfloor_comp, G).
  assert (F' : Qfloor (inject_Z (2 ^ k) * x * inject_Z (2 ^ 1074)) = (z * 2 ^ k)%Z).
  { rewrite <- (Qfloor_Z (z * 2 ^ k)). apply Qfloor_comp. rewrite <- Qmult_assoc, G, inject_Z_mult. ring. }
  destruct (Z_lt_le_dec z (2 ^ 52)) as [S|S].
  - assert (EX : x == inject_Z z * unit_of 0).
    { rewrite <- G, (unit_eq 0) by lia. change (inject_Z (2 ^ 0)) with 1. pose proof (pow2_pos 1074 ltac:(lia)) as B. revert B.
      generalize (inject_Z (2 ^ 1074)). intros b B. field. lra. }
    assert (EX' : inject_Z (2 ^ k) * x == inject_Z z * unit_of k).
    { rewrite EX. replace k with (k + 0)%Z at 2 by lia. rewrite unit_add by lia. ring. }
    rewrite (roundp_proper _ _ X' EX'), (roundp_float z k), (roundp_proper _ _ X EX), (roundp_float z 0) by lia.
    rewrite <- EX, <- EX'. reflexivity.
  - assert (ZP : (0 < z)%Z) by lia.
    assert (L : (52 <= Z.log2 z)%Z) by (apply Z.log2_le_pow2; lia).
    assert (SC : scale (inject_Z (2 ^ k) * x) = (k + scale x)%Z).
    { rewrite (scale_eq _ X'), (scale_eq _ X), F, F', Z.log2_mul_pow2 by lia. lia. }
    unfold roundp. rewrite SC. pose proof (scale_pos x) as SP. pose proof (unit_pos _ SP) as U.
    assert (N : nearest (inject_Z (2 ^ k) * x / unit_of (k + scale x)) = nearest (x / unit_of (scale x))).
    { apply nearest_proper. rewrite unit_add by lia. field. lra. }
    rewrite N, unit_add by lia. ring.
Qed.

Definition on_grid (x : Q) : Prop := exists z, x * inject_Z (2 ^ 1074) == inject_Z z.

Lemma round64_scale x k : 0 <= x -> (0 <= k)%Z -> on_grid x -> round64 (inject_Z (2 ^ k) * x) == inject_Z (2 ^ k) * round64 x.
Proof.
  intros X K (z & G). pose proof (pow2_pos k K) as PK. assert (X' : 0 <= inject_Z (2 ^ k) * x) by (apply Qmult_le_0_compat; lra).
  rewrite !round64_nonneg by assumption. eapply roundp_scale; eassumption.
Qed.

Lemma grid_add x y : on_grid x -> on_grid y -> on_grid (x + y).
Proof. intros (a & A) (b & B). exists (a + b)%Z. rewrite inject_Z_plus, <- A, <- B. ring. Qed.

Section Powers.
Variables (lib : libm) (k : Z).
Hypothesis R64 : forall x, m_round lib x == round64 x.
Hypothesis K : (0 <= k)%Z.
Let c := inject_Z (2 ^ k).

(** [b] is [a] multiplied, both floats unless they are the initial 0 of sums *)
Definition times (a b : pynum) : Prop :=
  (a = NInt 0 /\ b = NInt 0) \/ exists x y, a = NFloat x /\ b = NFloat y /\ y == c * x /\ 0 <= x /\ on_grid x.

Lemma times_add a b x y : times a b -> y == c * x -> 0 <= x -> on_grid x -> times (n_add lib a (NFloat x)) (n_add lib b (NFloat y)).
Proof.
  intros T E X G. right.
  assert (H : forall x1 y1, y1 == c * x1 -> 0 <= x1 -> on_grid x1 ->
     m_round lib (y1 + y) == c * m_round lib (x1 + x) /\ 0 <= m_round lib (x1 + x) /\ on_grid (m_round lib (x1 + x))).
  { intros x1 y1 E1 X1 G1. assert (S : 0 <= x1 + x) by lra. split; [|split].
    - rewrite !R64. transitivity (round64 (inject_Z (2 ^ k) * (x1 + x))); [|apply (round64_scale (x1 + x) k S K (grid_add _ _ G1 G))].
      apply (rnd_eq _ round64_rounding). fold c. rewrite E1, E. ring.
    - rewrite R64, round64_nonneg by exact S. apply roundp_nonneg, S.
    - destruct (round64_grid (x1 + x)) as (z & Z). exists z. rewrite R64. exact Z. }
  assert (Z0 : m_round lib (inject_Z 0) == 0) by (rewrite R64; apply (rnd_0 _ round64_rounding)).
  destruct T as [[-> ->]|(x1 & y1 & -> & -> & E1 & X1 & G1)]; cbn [n_add to_float].
  - destruct (H (m_round lib (inject_Z 0)) (m_round lib (inject_Z 0))) as (A & B & C).
    + rewrite Z0. ring.
    + rewrite Z0. lra.
    + exists 0%Z. rewrite Z0. ring.
    + do 2 eexists. split; [reflexivity|]. split; [reflexivity|]. auto.
  - destruct (H x1 y1 E1 X1 G1) as (A & B & C). do 2 eexists. split; [reflexivity|]. split; [reflexivity|]. auto.
Qed.

Lemma times_sum l l' : Forall2 (fun x y => y == c * x /\ 0 <= x /\ on_grid x) l l' -> forall a b, times a b ->
  times (fold_left (fun s x => n_add lib s (NFloat x)) l a) (fold_left (fun s x => n_add lib s (NFloat x)) l' b).
Proof.
  induction 1 as [|x y l l' (E & X & G) F IH]; intros a b T; cbn [fold_left]; [exact T|]. apply IH. apply times_add; assumption.
Qed.

(** ** disparity *)
Section Graphs.
Variables (g h : graph) (attr : key).
Hypothesis Wg : WF g.
Hypothesis Wh : WF h.
Hypothesis Mg : g_multi g = false.
Hypothesis Dg : g_dir g = false.
Hypothesis P : positive_weights attr g.
Hypothesis R : rescaled attr c g h.
Hypothesis NB : forall u, neighbors h u = neighbors g u.
Hypothesis OG : only_floats lib attr g.
Hypothesis OH : only_floats lib attr h.
Hypothesis SD : sound lib.

Let Hc : 0 < c := pow2_pos k K.
Let Mh : g_multi h = false := rs_multi g h attr c Mg Dg R.
Let Dh : g_dir h = false := rs_dir g h attr c Dg R.
Let Ph : positive_weights attr h := rs_positive g h attr c Hc P R.

Lemma only_link (f : graph) u v : WF f -> only_floats lib attr f -> has_edge f u v = true -> g_multi f = false -> positive_weights attr f ->
  exists x, link_num f attr u v = NFloat x /\ 0 < x /\ on_grid x.
Proof.
  intros W O H M PO. apply has_edge_attrs in H as (a & E); [|assumption..].
  assert (X : exists q, dget attr a = Some (VFloat q) /\ representable (m_round lib) q).
  { apply edge_attrs_edges_data in E as [E|[_ E]]; [| |exact W]; eapply O; exact E. }
  destruct X as (q & D & Rq). exists q.
  assert (L : link_num f attr u v = NFloat q) by (unfold link_num, data_num; rewrite E, D; reflexivity).
  split; [exact L|]. split.
  - pose proof (link_num_value f attr u v) as V. rewrite L in V. cbn [value] in V. rewrite V. apply has_edge_pos; try assumption.
    eapply edge_attrs_has; exact E.
  - unfold representable in Rq. rewrite R64 in Rq. apply float_grid. exact Rq.
Qed.

Definition weights_from (f : graph) (u : key) : list Q := map (fun v => value (link_num f attr u v)) (neighbors f u).

Lemma degree_sum (f : graph) u : WF f -> g_multi f = false -> positive_weights attr f -> only_floats lib attr f ->
  wd f attr lib u = let s := fold_left (fun s x => n_add lib s (NFloat x)) (weights_from f u) (NInt 0) in
    if has_edge f u u then n_add lib s (NFloat (value (link_num f attr u u))) else s.
Proof.
  intros W M PO O. unfold wd, weighted_degree, weights_from, neighbors.
  assert (FO : float_weights lib attr f).
  { intros a b at' w I E q ->. destruct (O a b at' I) as (q' & E' & Rq). rewrite E in E'. inversion E'; subst. exact Rq. }
  assert (S : forall l acc, incl l (adj_items f u) ->
    foldM (fun acc mk => let* w := weight_or_one attr (snd mk) in Ok (n_add lib acc w)) l acc
    = Ok (fold_left (fun s x => n_add lib s (NFloat x)) (map (fun v => value (link_num f attr u v)) (map fst l)) acc)).
  { induction l as [|[v kd] l IH]; intros acc I; [reflexivity|]. cbn [foldM map fold_left fst snd].
    assert (E : edge_data f u v = Some kd) by (apply (adj_items_In f u v kd W), I; left; reflexivity).
    destruct (weight_or_one_Ok f attr W M PO lib FO u v kd E) as (-> & -> & _). cbn [bind].
    destruct (only_link f u v W O) as (x & -> & _); [unfold has_edge; rewrite E; reflexivity|assumption..|]. cbn [value].
    apply IH. intros y Hy. apply I. right; exact Hy. }
  rewrite S by apply incl_refl. cbn [bind]. cbv zeta. unfold has_edge. destruct (edge_data f u u) as [kd|] eqn:E; [|reflexivity].
  destruct (weight_or_one_Ok f attr W M PO lib FO u u kd E) as (-> & -> & _). cbn [bind].
  destruct (only_link f u u W O) as (x & -> & _); [unfold has_edge; rewrite E; reflexivity|assumption..|]. reflexivity.
Qed.

Lemma times_degree u : times (wd g attr lib u) (wd h attr lib u).
Proof.
  rewrite !degree_sum by assumption. cbv zeta.
  assert (T : times (fold_left (fun s x => n_add lib s (NFloat x)) (weights_from g u) (NInt 0))
                    (fold_left (fun s x => n_add lib s (NFloat x)) (weights_from h u) (NInt 0))).
  { apply times_sum; [|left; split; reflexivity]. unfold weights_from. rewrite NB.
    assert (I : forall v, In v (neighbors g u) -> has_edge g u v = true).
    { intros v Iv. unfold neighbors in Iv. apply in_map_iff in Iv as ([v' kd] & <- & Iv). apply (adj_items_In g u v' kd Wg) in Iv.
      unfold has_edge. cbn [fst]. rewrite Iv. reflexivity. }
    induction (neighbors g u) as [|v l IH]; cbn [map]; constructor.
    - destruct (only_link g u v Wg OG (I v (or_introl eq_refl)) Mg P) as (x & E & X & G).
      rewrite (link_num_value h), (rs_link g h attr c Wg Wh Mg Dg R), <- (link_num_value g), E. cbn [value]. split; [reflexivity|]. split; [lra|exact G].
    - apply IH. intros; apply I; right; assumption. }
  rewrite (rs_links g h attr c Wg Wh Mg Dg R). destruct (has_edge g u u) eqn:L; [|exact T].
  destruct (only_link g u u Wg OG L Mg P) as (x & E & X & G). apply times_add; [exact T| |rewrite E; cbn [value]; lra|rewrite E; exact G].
  rewrite (link_num_value h), (rs_link g h attr c Wg Wh Mg Dg R), (link_num_value g). reflexivity.
Qed.

Lemma times_share u v : has_edge g u v = true -> share h attr lib u v == share g attr lib u v.
Proof.
  intros H. assert (H' : has_edge h u v = true) by (rewrite (rs_links g h attr c Wg Wh Mg Dg R); exact H).
  destruct (only_link g u v Wg OG H Mg P) as (x & E & X & _). destruct (only_link h u v Wh OH H' Mh Ph) as (y & E' & Y & _).
  assert (Q : y == c * x).
  { pose proof (rs_link g h attr c Wg Wh Mg Dg R u v) as Q. rewrite <- !link_num_value, E, E' in Q. exact Q. }
  unfold share. rewrite E, E'. unfold n_div. destruct (times_degree u) as [[-> ->]|(s & t & -> & -> & T & _)]; [reflexivity|].
  cbn [value to_float]. destruct (q_eqb s 0) eqn:Z.
  - apply Qeq_bool_iff in Z. assert (Z' : q_eqb t 0 = true) by (apply Qeq_bool_iff; rewrite T, Z; ring). rewrite Z'. reflexivity.
  - apply not_true_iff_false in Z. assert (NZ : ~ s == 0) by (intros Z'; apply Z, Qeq_bool_iff, Z').
    assert (Z' : q_eqb t 0 = false).
    { apply not_true_iff_false. intros Z'. apply Qeq_bool_iff in Z'. apply NZ. rewrite T in Z'. apply Qmult_integral in Z' as [Z'|Z']; [|exact Z']. lra. }
    rewrite Z'. apply (rnd_eq _ (proj1 SD)). rewrite T, Q. field. split; [exact NZ|]. lra.
Qed.

Lemma times_score reverse u v : has_edge g u v = true -> score_of h attr lib reverse u v == score_of g attr lib reverse u v.
Proof.
  intros H. assert (H' : has_edge g v u = true) by (rewrite has_edge_sym; assumption).
  assert (EN : forall u v, has_edge g u v = true -> end_of h attr lib u v == end_of g attr lib u v).
  { intros a b Hab. unfold end_of. rewrite !degree_edge_ends by assumption. rewrite (rs_ends g h attr c R).
    apply (proj2 (proj2 SD)), (rnd_eq _ (proj1 SD)). rewrite (times_share a b Hab). reflexivity. }
  unfold score_of, disparity_score. fold (end_of h attr lib u v) (end_of h attr lib v u) (end_of g attr lib u v) (end_of g attr lib v u).
  pose proof (EN u v H) as A. pose proof (EN v u H') as B.
  destruct reverse.
  - assert (A' : m_round lib (1 - end_of h attr lib u v) == m_round lib (1 - end_of g attr lib u v)) by (apply (rnd_eq _ (proj1 SD)); rewrite A; reflexivity).
    assert (B' : m_round lib (1 - end_of h attr lib v u) == m_round lib (1 - end_of g attr lib v u)) by (apply (rnd_eq _ (proj1 SD)); rewrite B; reflexivity).
    rewrite A', B'. reflexivity.
  - rewrite A, B. reflexivity.
Qed.
End Graphs.
End Powers.
