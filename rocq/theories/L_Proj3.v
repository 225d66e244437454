(** * Proofs about monopartite_projection: weights of the links, success *)
From Coq Require Import Lia QArith Qminmax Lqa.
From Verif Require Import PyBase PyNum L_Base NxGraph L_Nx L_Nx2 S_Graph L_Graph L_Graph2 M_Proj S_Partition L_Partition S_Sparse L_Disparity S_Num L_Num L_Sqrt S_Proj L_Proj L_Proj2.
Close Scope Q_scope.

Lemma nq_add a b : (nq (a + b) == nq a + nq b)%Q.
Proof. unfold nq. rewrite Nat2Z.inj_add, inject_Z_plus. reflexivity. Qed.
Lemma nq_sub a b : b <= a -> (nq (a - b) == nq a - nq b)%Q.
Proof. intros H. unfold nq. rewrite Nat2Z.inj_sub by lia. unfold Z.sub. rewrite inject_Z_plus, inject_Z_opp. reflexivity. Qed.
Lemma nq_le a b : (nq a <= nq b)%Q <-> a <= b.
Proof. unfold nq. rewrite <- Zle_Qle. lia. Qed.
Lemma nq_lt a b : (nq a < nq b)%Q <-> a < b.
Proof. unfold nq. rewrite <- Zlt_Qlt. lia. Qed.
Lemma nq_pos a : 1 <= a -> (0 < nq a)%Q.
Proof. intros H. apply (nq_lt 0 a). lia. Qed.

Lemma q_eqb_iff x y : q_eqb x y = true <-> (x == y)%Q.
Proof. apply Qeq_bool_iff. Qed.
Lemma q_leb_iff x y : q_leb x y = true <-> (x <= y)%Q.
Proof. apply Qle_bool_iff. Qed.
Lemma q_ltb_iff x y : q_ltb x y = true <-> (x < y)%Q.
Proof.
  unfold q_ltb. rewrite negb_true_iff, <- not_true_iff_false, Qle_bool_iff. split; [apply Qnot_le_lt|apply Qlt_not_le].
Qed.

Lemma div_Ok lib x y z : n_div lib x y = Ok z -> ~ (value y == 0)%Q
  /\ z = m_round lib match x, y with NInt a, NInt b => inject_Z a / inject_Z b | _, _ => to_float lib x / to_float lib y end%Q.
Proof.
  unfold n_div. destruct (q_eqb (value y) 0) eqn:E; [discriminate|]. intros H. inversion H; subst. split; [|reflexivity].
  intros C. apply q_eqb_iff in C. congruence.
Qed.

Lemma div_total lib x y : ~ (value y == 0)%Q -> n_div lib x y = Ok (m_round lib
  match x, y with NInt a, NInt b => inject_Z a / inject_Z b | _, _ => to_float lib x / to_float lib y end)%Q.
Proof.
  intros H. unfold n_div. destruct (q_eqb (value y) 0) eqn:E; [|reflexivity]. apply q_eqb_iff in E. contradiction.
Qed.

Lemma value_min a b : value (n_min a b) = Qmin (value a) (value b).
Proof.
  unfold n_min, n_ltb, Qmin, GenericMinMax.gmin. destruct (q_ltb (value b) (value a)) eqn:E.
  - apply q_ltb_iff in E. apply Qgt_alt in E. rewrite E. reflexivity.
  - destruct (value a ?= value b)%Q eqn:C; try reflexivity. apply Qgt_alt in C. apply q_ltb_iff in C. congruence.
Qed.

Lemma min_ints a b : n_min (NInt (Z.of_nat a)) (NInt (Z.of_nat b)) = NInt (Z.of_nat (Nat.min a b)).
Proof.
  unfold n_min, n_ltb, q_ltb, q_leb. cbn [value]. unfold Qle_bool. cbn [Qnum Qden inject_Z]. rewrite !Z.mul_1_r.
  destruct (Z.leb_spec (Z.of_nat a) (Z.of_nat b)); cbn [negb]; do 2 f_equal; lia.
Qed.

Lemma nq_min a b : (nq (Nat.min a b) == Qmin (nq a) (nq b))%Q.
Proof.
  destruct (Nat.le_ge_cases a b) as [H|H].
  - rewrite Nat.min_l by exact H. rewrite Q.min_l; [reflexivity|]. apply nq_le. exact H.
  - rewrite Nat.min_r by exact H. rewrite Q.min_r; [reflexivity|]. apply nq_le. exact H.
Qed.

(** what is accumulated for a node, and for two nodes *)
Definition acc_is (lib : libm) (g : graph) (wattr : key) (m : metric) (u : key) (acc : pynum) : Prop :=
  match m with Cosine => faithful lib acc (scalar wattr g u u) | _ => acc = NInt (Z.of_nat (deg g u)) end.
Definition inter_is (lib : libm) (g : graph) (wattr : key) (m : metric) (u v : key) (i : pynum) : Prop :=
  if weighted m then faithful lib i (scalar wattr g u v) else i = NInt (Z.of_nat (com g u v)).

Section Values.
Variables (lib : libm) (g : graph) (wattr : key) (m : metric).
Hypothesis W : WF g.
Hypothesis D : g_dir g = false.
Hypothesis M : g_multi g = false.
Hypothesis L : lib_ok lib.

Lemma sum_value n : (weighted m = true -> exact_sums lib wattr g) ->
  acc_is lib g wattr m n (total lib (map (fun tta => inc lib m (get_weight wattr (snd tta))) (items g n))).
Proof.
  intros XS. unfold acc_is. destruct m; try (apply norm_count; discriminate).
  apply norm_weighted; try assumption. apply XS. reflexivity.
Qed.

Lemma hits_value u v : (weighted m = true -> exact_sums lib wattr g) -> inter_is lib g wattr m u v (total lib (hits lib m wattr v (entries g u))).
Proof.
  intros XS. unfold inter_is. destruct (weighted m) eqn:E; [apply hits_weighted; auto|apply hits_count; assumption].
Qed.

Lemma float_of n q : faithful lib n q -> (to_float lib n == m_round lib q)%Q.
Proof.
  destruct L as (R & _). intros [E [H|(z & ->)]].
  - rewrite (to_float_value lib H), (exact_round lib H). exact E.
  - apply (rnd_eq _ R). exact E.
Qed.

Lemma rnd_proper x y : (x == y)%Q -> (m_round lib x == m_round lib y)%Q.
Proof. destruct L as (R & _). apply (rnd_eq _ R). Qed.

Lemma root_of n q : faithful lib n q -> (m_sqrt lib (to_float lib n) == root lib q)%Q.
Proof. destruct L as (R & LS & _). intros H. apply LS, float_of, H. Qed.

Lemma faithful_nat n : faithful lib (NInt (Z.of_nat n)) (nq n).
Proof. split; [reflexivity|right; eauto]. Qed.

(** quotient by the product of the square roots *)
Lemma cosine_of i n1 n2 qi q1 q2 x : faithful lib i qi -> faithful lib n1 q1 -> faithful lib n2 q2 ->
  n_div lib i (n_mul lib (NFloat (m_sqrt lib (to_float lib n1))) (NFloat (m_sqrt lib (to_float lib n2)))) = Ok x ->
  (x == m_round lib (m_round lib qi / m_round lib (root lib q1 * root lib q2)))%Q.
Proof.
  intros Hi H1 H2 E. apply div_Ok in E as [_ ->]. cbn [n_mul].
  assert (F : (to_float lib i == m_round lib qi)%Q) by (apply float_of; exact Hi).
  assert (P : (m_round lib (m_sqrt lib (to_float lib n1) * m_sqrt lib (to_float lib n2)) == m_round lib (root lib q1 * root lib q2))%Q).
  { apply rnd_proper. rewrite (root_of n1 q1 H1), (root_of n2 q2 H2). reflexivity. }
  assert (Y : (to_float lib i / m_round lib (m_sqrt lib (to_float lib n1) * m_sqrt lib (to_float lib n2))
     == m_round lib qi / m_round lib (root lib q1 * root lib q2))%Q) by (rewrite F, P; reflexivity).
  destruct i; apply rnd_proper; exact Y.
Qed.

Lemma compute_similarity u v i acc1 acc2 x :
  inter_is lib g wattr m u v i -> acc_is lib g wattr m u acc1 -> acc_is lib g wattr m v acc2 ->
  compute_metric lib m i (finalize_norm lib m acc1) (finalize_norm lib m acc2) = Ok x ->
  similarity lib m wattr g u v (value x).
Proof.
  destruct L as (R & LS & LL & LP & _).
  pose proof (deg_size g W M u) as S1. pose proof (deg_size g W M v) as S2. pose proof (com_size g W M u v) as S3.
  unfold inter_is, acc_is, finalize_norm, similarity, compute_metric. intros Hi H1 H2 E.
  destruct m; cbn [weighted] in *.
  - inversion E; subst. exists (deg g u), (deg g v), (com g u v). split; [repeat split; assumption|reflexivity].
  - apply bind_Ok in E as (y & E & Ey). inversion Ey; subst x. subst i acc1 acc2. cbn [n_add n_sub] in E. apply div_Ok in E as [NZ ->].
    destruct (union_size g W M u v) as (U & C1 & C2).
    exists (com g u v), (deg g u + deg g v - com g u v). split; [assumption|]. split; [assumption|].
    cbn [value]. unfold nq. rewrite Nat2Z.inj_sub, Nat2Z.inj_add by lia. reflexivity.
  - apply bind_Ok in E as (y & E & Ey). inversion Ey; subst x. subst i acc1 acc2. rewrite min_ints in E. apply div_Ok in E as [NZ ->].
    exists (deg g u), (deg g v), (com g u v). split; [repeat split; assumption|].
    cbn [value]. apply rnd_proper. fold (nq (com g u v)) (nq (Nat.min (deg g u) (deg g v))). rewrite nq_min. reflexivity.
  - apply bind_Ok in E as (y & E & Ey). inversion Ey; subst x. subst i acc1 acc2. cbn [n_add n_mul] in E. apply div_Ok in E as [NZ ->].
    exists (deg g u), (deg g v), (com g u v). split; [repeat split; assumption|].
    cbn [value]. apply rnd_proper. unfold nq. rewrite inject_Z_mult, inject_Z_plus, (Qmult_comm 2). reflexivity.
  - apply bind_Ok in E as (y & E & Ey). inversion Ey; subst x. subst i acc1 acc2.
    exists (deg g u), (deg g v), (com g u v). split; [repeat split; assumption|].
    eapply cosine_of; [apply faithful_nat..|exact E].
  - inversion E; subst. apply Hi.
  - apply bind_Ok in E as (y & E & Ey). inversion Ey; subst x. eapply cosine_of; eassumption.
  - apply bind_Ok in E as (y & Ey & E). subst i acc1 acc2. cbn [n_mul] in Ey. apply div_Ok in Ey as [NZ ->]. destruct (q_ltb 0 _); inversion E; subst.
    exists (deg g u), (deg g v), (com g u v). split; [repeat split; assumption|].
    cbn [value]. apply LL, rnd_proper. unfold nq. rewrite inject_Z_mult. reflexivity.
Qed.

Lemma compute_stored u v i n1 n2 x : (weighted m = false -> i = NInt (Z.of_nat (com g u v))) -> compute_metric lib m i n1 n2 = Ok x -> stored_as m (val_of x) (value x).
Proof.
  unfold compute_metric, stored_as. intros Hi E. destruct m; cbn [weighted] in Hi; try (apply bind_Ok in E as (y & _ & E)).
  - inversion E; subst. rewrite (Hi eq_refl). eexists. split; reflexivity.
  - inversion E; subst. reflexivity.
  - inversion E; subst. reflexivity.
  - inversion E; subst. reflexivity.
  - inversion E; subst. reflexivity.
  - inversion E; subst. destruct x; reflexivity.
  - inversion E; subst. reflexivity.
  - destruct (q_ltb 0 y); inversion E; subst. reflexivity.
Qed.

Lemma shared_pos u v t : shared g u v t -> 1 <= com g u v /\ 1 <= deg g u /\ 1 <= deg g v.
Proof.
  intros H. pose proof (com_pos g W M u v t H). destruct (union_size g W M u v) as (_ & C1 & C2). lia.
Qed.

(** floats which stay positive *)
Lemma root_pos n q : faithful lib n q -> (0 < q)%Q -> (0 < root lib q)%Q /\ (exact lib \/ (1 <= root lib q)%Q).
Proof.
  destruct L as (R & LS & LL & LP & L1). intros [E H] P. unfold root. destruct H as [H|(z & ->)].
  - split; [|left; exact H]. rewrite (exact_round lib H). apply LP; [|exact P]. unfold representable. rewrite (exact_round lib H). reflexivity.
  - assert (P1 : (1 <= q)%Q).
    { rewrite <- E in *. cbn [value] in *. change 1%Q with (inject_Z 1). rewrite <- Zle_Qle. change 0%Q with (inject_Z 0) in P. rewrite <- Zlt_Qlt in P. lia. }
    assert (1 <= m_sqrt lib (m_round lib q))%Q; [|split; [lra|right; assumption]].
    apply L1; [apply (rnd_rnd _ R)|]. rewrite <- (rnd_1 _ R). apply (rnd_le _ R). exact P1.
Qed.

Lemma roots_pos n1 n2 q1 q2 : faithful lib n1 q1 -> faithful lib n2 q2 -> (0 < q1)%Q -> (0 < q2)%Q ->
  (0 < m_round lib (root lib q1 * root lib q2))%Q.
Proof.
  destruct L as (R & _). intros F1 F2 P1 P2. destruct (root_pos n1 q1 F1 P1) as [A1 B1], (root_pos n2 q2 F2 P2) as [A2 B2].
  destruct B1 as [H|B1]; [rewrite (exact_round lib H); apply Qmult_lt_0_compat; assumption|].
  destruct B2 as [H|B2]; [rewrite (exact_round lib H); apply Qmult_lt_0_compat; assumption|].
  assert (P : (1 <= root lib q1 * root lib q2)%Q) by nra. pose proof (rnd_le _ R _ _ P). pose proof (rnd_1 _ R). lra.
Qed.

Lemma cosine_total i n1 n2 q1 q2 : faithful lib n1 q1 -> faithful lib n2 q2 -> (0 < q1)%Q -> (0 < q2)%Q ->
  exists x, n_div lib i (n_mul lib (NFloat (m_sqrt lib (to_float lib n1))) (NFloat (m_sqrt lib (to_float lib n2)))) = Ok x.
Proof.
  intros F1 F2 P1 P2. cbn [n_mul to_float]. rewrite div_total; [eauto|]. cbn [value].
  assert (P : (m_round lib (m_sqrt lib (to_float lib n1) * m_sqrt lib (to_float lib n2)) == m_round lib (root lib q1 * root lib q2))%Q).
  { apply rnd_proper. rewrite (root_of n1 q1 F1), (root_of n2 q2 F2). reflexivity. }
  pose proof (roots_pos n1 n2 q1 q2 F1 F2 P1 P2) as H. rewrite P. intros H0. rewrite H0 in H. apply (Qlt_irrefl 0). assumption.
Qed.

Lemma compute_total u v t i acc1 acc2 : shared g u v t ->
  (m = Cosine -> (0 < scalar wattr g u u)%Q /\ (0 < scalar wattr g v v)%Q) ->
  (m = PMI -> (0 < m_round lib (1 / (nq (order g) * nq (order g))))%Q) ->
  inter_is lib g wattr m u v i -> acc_is lib g wattr m u acc1 -> acc_is lib g wattr m v acc2 ->
  exists x, compute_metric lib m i (finalize_norm lib m acc1) (finalize_norm lib m acc2) = Ok x.
Proof.
  destruct L as (R & LS & LL & LP & _). intros S C PO. destruct (shared_pos u v t S) as (P1 & P2 & P3).
  unfold inter_is, acc_is, finalize_norm, compute_metric. destruct (union_size g W M u v) as (_ & C1 & C2).
  intros Hi H1 H2. apply nq_pos in P1 as Q1. apply nq_pos in P2 as Q2. apply nq_pos in P3 as Q3.
  assert (NZ : forall n, 1 <= n -> ~ (value (NInt (Z.of_nat n)) == 0)%Q).
  { intros n Hn H0. apply nq_pos in Hn. unfold nq in Hn. cbn in H0. rewrite H0 in Hn. apply (Qlt_irrefl 0). assumption. }
  destruct m; cbn [weighted] in *; eauto; try subst i acc1 acc2; cbn [n_add n_sub n_mul].
  - rewrite div_total; [cbn; eauto|]. replace (Z.of_nat (deg g u) + Z.of_nat (deg g v) - Z.of_nat (com g u v))%Z with (Z.of_nat (deg g u + deg g v - com g u v)) by lia.
    apply NZ. lia.
  - rewrite min_ints, div_total; [cbn; eauto|]. apply NZ. lia.
  - rewrite div_total; [cbn; eauto|]. rewrite <- Nat2Z.inj_add. apply NZ. lia.
  - destruct (cosine_total (NInt (Z.of_nat (com g u v))) (NInt (Z.of_nat (deg g u))) (NInt (Z.of_nat (deg g v))) (nq (deg g u)) (nq (deg g v))) as (x & E);
      try apply faithful_nat; try assumption. cbn [n_mul] in E. rewrite E. cbn. eauto.
  - destruct (C eq_refl) as [S1 S2]. destruct (cosine_total i acc1 acc2 _ _ H1 H2 S1 S2) as (x & E). cbn [n_mul] in E. rewrite E. cbn. eauto.
  - rewrite <- Nat2Z.inj_mul, div_total by (apply NZ; nia). cbn [bind].
    match goal with |- context [q_ltb 0 ?r] => assert (PP : q_ltb 0 r = true) end.
    { apply q_ltb_iff. eapply Qlt_le_trans; [apply PO; reflexivity|]. apply (rnd_le _ R).
      assert (O : forall w, deg g w <= order g).
      { intros w. unfold order, deg. rewrite <- (map_length fst (items g w)), <- (map_length fst (g_nodes g)). apply NoDup_incl_length;
          [apply (items_NoDup g W w)|apply (items_incl g W M w)]. }
      pose proof (O u) as O1. pose proof (O v) as O2. rewrite Nat2Z.inj_mul, inject_Z_mult. fold (nq (com g u v)) (nq (deg g u)) (nq (deg g v)).
      apply nq_le in O1, O2. assert (1 <= nq (com g u v))%Q by (apply (nq_le 1); exact P1).
      assert (B : (nq (deg g u) * nq (deg g v) <= nq (order g) * nq (order g))%Q) by nra.
      assert (A : (0 < nq (deg g u) * nq (deg g v))%Q) by (apply Qmult_lt_0_compat; assumption).
      apply Qle_shift_div_l; [exact A|]. set (d := (nq (deg g u) * nq (deg g v))%Q) in *. set (o := (nq (order g) * nq (order g))%Q) in *.
      assert (Po : (0 < o)%Q) by lra. assert (Y : (1 / o * d == d / o)%Q) by (field; lra). rewrite Y.
      apply Qle_shift_div_r; [exact Po|]. nra. }
    rewrite PP. eauto.
Qed.

Lemma keeps_norm u t acc : has_edge g u t = true -> (m = Cosine -> (0 < scalar wattr g u u)%Q) ->
  acc_is lib g wattr m u acc -> should_keep_norm m acc = true.
Proof.
  intros H C E. assert (P : (0 < value acc)%Q).
  { unfold acc_is in E. assert (DP : 1 <= deg g u).
    { apply items_edge in H; try assumption. unfold deg. destruct (items g u); [destruct H|cbn; lia]. }
    apply nq_pos in DP. destruct m; try (subst acc; exact DP). destruct E as [-> _]. apply C. reflexivity. }
  unfold should_keep_norm, n_ltb, n_leb. cbn [value]. destruct m; try (apply q_ltb_iff; assumption). apply q_leb_iff. apply Qlt_le_weak. assumption.
Qed.

Lemma scalar_pos u t : ~ (bond wattr g u t == 0)%Q -> (0 < scalar wattr g u u)%Q.
Proof.
  intros H. assert (I : In t (nodes g)).
  { unfold bond in H. destruct (edge_attrs g u t (KInt 0)) as [a|] eqn:E; [|exfalso; apply H; reflexivity].
    unfold edge_attrs in E. destruct (edge_data g u t) eqn:ED; [|discriminate]. eapply edge_data_nodes in ED; [|assumption]. tauto. }
  assert (NN : forall x, In x (nodes g) -> (0 <= bond wattr g u x * bond wattr g u x)%Q).
  { intros x _. nra. }
  eapply Qlt_le_trans; [|apply (sum_q_le (fun x => bond wattr g u x * bond wattr g u x)%Q (nodes g) t I NN)].
  destruct (Qlt_le_dec 0 (bond wattr g u t)) as [P|P]; [apply Qmult_lt_0_compat; assumption|].
  apply Qle_lteq in P as [P|P]; [|contradiction]. nra.
Qed.

(** ** range *)
Lemma bond_edge u t : has_edge g u t = false -> (bond wattr g u t == 0)%Q.
Proof. intros H. apply bond_none. apply edge_attrs_no_edge. assumption. Qed.

Lemma unit_div x y : (0 < x)%Q -> (x <= y)%Q -> (0 < x / y <= 1)%Q.
Proof.
  intros P H. assert (0 < y)%Q by lra. split.
  - apply Qlt_shift_div_l; lra.
  - apply Qle_shift_div_r; lra.
Qed.

Lemma deg_order w : deg g w <= order g.
Proof.
  unfold order, deg. rewrite <- (map_length fst (items g w)), <- (map_length fst (g_nodes g)).
  apply NoDup_incl_length; [apply (items_NoDup g W w)|apply (items_incl g W M w)].
Qed.

(** at most 1, and at least the inverse of the number of nodes, before rounding *)
Lemma range_counts u v t x : shared g u v t -> (m = Jaccard \/ m = Overlap \/ m = Dice) ->
  similarity lib m wattr g u v x -> (m_round lib (1 / nq (order g)) <= x <= 1)%Q.
Proof.
  intros S Hm. destruct (shared_pos u v t S) as (P1 & P2 & P3). destruct (union_size g W M u v) as (US & C1 & C2).
  destruct L as (R & _).
  assert (G : forall q, (1 / nq (order g) <= q <= 1)%Q -> (m_round lib (1 / nq (order g)) <= m_round lib q <= 1)%Q).
  { intros q [A B]. split; [apply (rnd_le _ R); exact A|]. rewrite <- (rnd_1 _ R). apply (rnd_le _ R). exact B. }
  assert (US' : deg g u + deg g v - com g u v <= order g).
  { destruct US as (l & [N I] & <-). unfold order. rewrite <- (map_length fst (g_nodes g)). apply NoDup_incl_length; [exact N|].
    intros y Iy. apply I in Iy. destruct Iy as [H|H]; apply (items_edge g W M) in H; apply (items_incl g W M) in H; exact H. }
  pose proof (deg_order u) as O1. pose proof (deg_order v) as O2.
  assert (Q : forall i n, 1 <= i <= n -> n <= order g -> (1 / nq (order g) <= nq i / nq n <= 1)%Q).
  { intros i n Hi Hn. assert (Pn : (0 < nq n)%Q) by (apply nq_pos; lia). assert (Po : (0 < nq (order g))%Q) by (apply nq_pos; lia).
    split; [|apply Qle_shift_div_r; [exact Pn|rewrite Qmult_1_l; apply nq_le; lia]].
    apply Qle_shift_div_l; [exact Pn|]. assert (Y : (1 / nq (order g) * nq n == nq n / nq (order g))%Q) by (field; lra). rewrite Y.
    apply Qle_shift_div_r; [exact Po|]. apply nq_le in Hn. assert (1 <= nq i)%Q by (apply (nq_le 1); lia). nra. }
  unfold similarity. destruct Hm as [->|[->| ->]].
  - intros (i & n & H1 & H2 & E).
    rewrite (has_size_unique _ _ _ H1 (com_size g W M u v)) in E. rewrite (has_size_unique _ _ _ H2 US) in E.
    rewrite E. apply G, Q; lia.
  - intros (a & b & i & (H1 & H2 & H3) & E).
    rewrite (has_size_unique _ _ _ H1 (deg_size g W M u)), (has_size_unique _ _ _ H2 (deg_size g W M v)),
      (has_size_unique _ _ _ H3 (com_size g W M u v)) in E.
    rewrite E. apply G. rewrite <- nq_min. apply Q; lia.
  - intros (a & b & i & (H1 & H2 & H3) & E).
    rewrite (has_size_unique _ _ _ H1 (deg_size g W M u)), (has_size_unique _ _ _ H2 (deg_size g W M v)),
      (has_size_unique _ _ _ H3 (com_size g W M u v)) in E.
    rewrite E. apply G. apply nq_le in C1, C2, O1, O2. pose proof (nq_pos _ P1) as Pc.
    assert (Po : (0 < nq (order g))%Q) by lra. assert (1 <= nq (com g u v))%Q by (apply (nq_le 1); lia). split.
    + apply Qle_shift_div_l; [lra|]. assert (Y : (1 / nq (order g) * (nq (deg g u) + nq (deg g v)) == (nq (deg g u) + nq (deg g v)) / nq (order g))%Q) by (field; lra).
      rewrite Y. apply Qle_shift_div_r; [exact Po|]. nra.
    + apply Qle_shift_div_r; lra.
Qed.

(** Cauchy-Schwarz *)
Lemma cauchy (f h : key -> Q) l :
  let s a b := sum_q (map (fun t => a t * b t)%Q l) in (s f h * s f h <= s f f * s h h)%Q.
Proof.
  cbn zeta. induction l as [|t l IH]; [unfold sum_q; cbn [map fold_right]; lra|].
  cbn [map]. unfold sum_q in *. cbn [fold_right].
  set (A := fold_right Qplus 0%Q (map (fun t => f t * f t)%Q l)) in *.
  set (B := fold_right Qplus 0%Q (map (fun t => h t * h t)%Q l)) in *.
  set (C := fold_right Qplus 0%Q (map (fun t => f t * h t)%Q l)) in *.
  assert (PA : (0 <= A)%Q) by (apply (sum_q_nonneg (fun t => f t * f t)%Q l); intros; nra).
  assert (PB : (0 <= B)%Q) by (apply (sum_q_nonneg (fun t => h t * h t)%Q l); intros; nra).
  generalize dependent A. generalize dependent B. intros B PB A IH PA.
  generalize dependent C. intros C IH.
  (* 2 C f h <= A h^2 + B f^2 *)
  assert (K1 : (2 * (C * (f t * h t)) <= A * (h t * h t) + B * (f t * f t))%Q).
  { destruct (Qlt_le_dec (A * (h t * h t) + B * (f t * f t)) (2 * (C * (f t * h t)))) as [Hc|]; [exfalso|assumption].
    set (p := f t) in *. set (q := h t) in *.
    assert (S1 : (0 <= A * (q * q) + B * (p * p))%Q) by nra.
    assert (S2 : ((A * (q * q) + B * (p * p)) * (A * (q * q) + B * (p * p)) < (2 * (C * (p * q))) * (2 * (C * (p * q))))%Q) by nra.
    assert (S3 : (4 * (C * C) * ((p * q) * (p * q)) <= 4 * (A * B) * ((p * q) * (p * q)))%Q).
    { apply Qmult_le_compat_r; [lra|]. generalize (p * q)%Q. intros z. nra. }
    assert (S4 : (0 <= (A * (q * q) - B * (p * p)) * (A * (q * q) - B * (p * p)))%Q).
    { generalize (A * (q * q) - B * (p * p))%Q. intros z. nra. }
    assert (S5 : ((A * (q * q) + B * (p * p)) * (A * (q * q) + B * (p * p)) ==
      (A * (q * q) - B * (p * p)) * (A * (q * q) - B * (p * p)) + 4 * (A * B) * ((p * q) * (p * q)))%Q) by ring.
    assert (S6 : ((2 * (C * (p * q))) * (2 * (C * (p * q))) == 4 * (C * C) * ((p * q) * (p * q)))%Q) by ring.
    lra. }
  nra.
Qed.

Lemma cosine_bound X A B sA sB c : (0 < X)%Q -> (X * X <= A * B)%Q -> (0 < A)%Q -> (0 < B)%Q -> (0 < sA)%Q -> (0 < sB)%Q -> (0 < c)%Q ->
  (c * A <= sA * sA)%Q -> (c * B <= sB * sB)%Q -> (0 < X / (sA * sB))%Q /\ (X / (sA * sB) * c <= 1)%Q.
Proof.
  intros PX CS PA PB PsA PsB Pc HA HB.
  assert (PS : (0 < sA * sB)%Q) by (apply Qmult_lt_0_compat; assumption).
  split; [apply Qlt_shift_div_l; lra|].
  assert (E : (X / (sA * sB) * c == (X * c) / (sA * sB))%Q) by (field; split; lra).
  rewrite E. apply Qle_shift_div_r; [assumption|]. rewrite Qmult_1_l.
  destruct (Qlt_le_dec (sA * sB) (X * c)) as [Hc|]; [exfalso|assumption].
  assert (K1 : ((c * A) * (c * B) <= (sA * sA) * (sB * sB))%Q).
  { apply Qle_trans with ((sA * sA) * (c * B))%Q.
    - apply Qmult_le_compat_r; [assumption|]. apply Qlt_le_weak, Qmult_lt_0_compat; assumption.
    - rewrite (Qmult_comm (sA * sA)), (Qmult_comm (sA * sA)). apply Qmult_le_compat_r; [assumption|].
      apply Qlt_le_weak, Qmult_lt_0_compat; assumption. }
  assert (K2 : ((sA * sB) * (sA * sB) < (X * c) * (X * c))%Q) by nra.
  assert (K3 : ((X * c) * (X * c) <= (c * A) * (c * B))%Q).
  { assert (E1 : ((X * c) * (X * c) == (X * X) * (c * c))%Q) by ring.
    assert (E2 : ((c * A) * (c * B) == (A * B) * (c * c))%Q) by ring.
    rewrite E1, E2. apply Qmult_le_compat_r; [assumption|]. nra. }
  lra.
Qed.

Lemma range_cosine c u v t x : shared g u v t -> (m = BinaryCosine \/ m = Cosine) ->
  (0 < c)%Q -> (forall q, (0 < q)%Q -> (c * q <= m_sqrt lib q * m_sqrt lib q)%Q) ->
  (m = Cosine -> forall u t, has_edge g u t = true -> (0 < bond wattr g u t)%Q) ->
  exact lib -> similarity lib m wattr g u v x -> (0 < x)%Q /\ (x * c <= 1)%Q.
Proof.
  destruct L as (R & LS & LL & LP0 & _). intros S Hm Pc HS PB EX.
  assert (LP : forall q, (0 < q)%Q -> (0 < m_sqrt lib q)%Q).
  { intros q P. apply LP0; [|exact P]. unfold representable. rewrite (exact_round lib EX). reflexivity. } destruct (shared_pos u v t S) as (P1 & P2 & P3).
  destruct (union_size g W M u v) as (US & C1 & C2). unfold similarity, root. destruct Hm as [->| ->].
  - intros (a & b & i & (H1 & H2 & H3) & E).
    rewrite (has_size_unique _ _ _ H1 (deg_size g W M u)), (has_size_unique _ _ _ H2 (deg_size g W M v)),
      (has_size_unique _ _ _ H3 (com_size g W M u v)) in E. rewrite E, !(exact_round lib EX).
    apply nq_pos in P1, P2, P3. apply nq_le in C1, C2. apply (cosine_bound (nq (com g u v)) (nq (deg g u)) (nq (deg g v))); auto.
    nra.
  - intros E. specialize (PB eq_refl). rewrite E, !(exact_round lib EX). destruct S as [S1 S2].
    assert (NN : forall u t, (0 <= bond wattr g u t)%Q).
    { intros u' t'. destruct (has_edge g u' t') eqn:H; [apply Qlt_le_weak, PB; assumption|]. rewrite bond_edge by assumption. lra. }
    assert (Nt : In t (nodes g)).
    { unfold has_edge in S1. destruct (edge_data g u t) eqn:ED; [|discriminate]. eapply edge_data_nodes in ED; [|assumption]. tauto. }
    assert (PX : (0 < scalar wattr g u v)%Q).
    { eapply Qlt_le_trans; [|apply (sum_q_le (fun t => bond wattr g u t * bond wattr g v t)%Q (nodes g) t Nt)].
      - apply Qmult_lt_0_compat; apply PB; assumption.
      - intros y _. apply Qmult_le_0_compat; apply NN. }
    assert (PA : (0 < scalar wattr g u u)%Q) by (apply (scalar_pos u t); pose proof (PB u t S1); lra).
    assert (PBv : (0 < scalar wattr g v v)%Q) by (apply (scalar_pos v t); pose proof (PB v t S2); lra).
    apply (cosine_bound (scalar wattr g u v) (scalar wattr g u u) (scalar wattr g v v)); auto.
    apply (cauchy (bond wattr g u) (bond wattr g v) (nodes g)).
Qed.

(** whole weights *)
Lemma bond_whole : (forall u v a w, edge_attrs g u v (KInt 0) = Some a -> dget wattr a = Some w -> exists z, pynum_of w = Some (NInt z)) ->
  forall u t, exists z, (bond wattr g u t == inject_Z z)%Q.
Proof.
  intros H u t. unfold bond. destruct (edge_attrs g u t (KInt 0)) as [a|] eqn:Ea; [|exists 0%Z; reflexivity].
  destruct (dget wattr a) as [w|] eqn:Ew; [|exists 1%Z; reflexivity]. destruct (H u t a w Ea Ew) as (z & Hz). exists z.
  assert (N : num_of w = Some (inject_Z z)) by (apply value_number; eauto). rewrite N. reflexivity.
Qed.

Lemma sum_whole (f : key -> Q) l : (forall t, exists z, (f t == inject_Z z)%Q) -> exists z, (sum_q (map f l) == inject_Z z)%Q.
Proof.
  intros H. induction l as [|t l (z & IH)]; [exists 0%Z; reflexivity|]. destruct (H t) as (y & Y). exists (y + z)%Z.
  unfold sum_q in *. cbn [map fold_right]. rewrite Y, IH, inject_Z_plus. reflexivity.
Qed.

Lemma range_cosine64 u v t x : binary64 lib -> shared g u v t -> (m = BinaryCosine \/ m = Cosine) ->
  (m = Cosine -> (forall u t, has_edge g u t = true -> (0 < bond wattr g u t)%Q)
    /\ forall u v a w, edge_attrs g u v (KInt 0) = Some a -> dget wattr a = Some w -> exists z, pynum_of w = Some (NInt z)) ->
  similarity lib m wattr g u v x ->
  (x <= near_one)%Q /\
  ((if weighted m then scalar wattr g u u <= inject_Z (2 ^ 530) /\ scalar wattr g v v <= inject_Z (2 ^ 530) else nq (order g) <= inject_Z (2 ^ 530))%Q -> (0 < x)%Q).
Proof.
  intros (BR & BS & _) S Hm PB. destruct (shared_pos u v t S) as (P1 & P2 & P3).
  assert (RO : forall q, root lib q = sqrt64 (round64 q)) by (intros q; unfold root; rewrite BS, BR; reflexivity).
  destruct (union_size g W M u v) as (US & C1 & C2). unfold similarity. destruct Hm as [->| ->]; cbn [weighted].
  - intros (a & b & i & (H1 & H2 & H3) & E).
    rewrite (has_size_unique _ _ _ H1 (deg_size g W M u)), (has_size_unique _ _ _ H2 (deg_size g W M v)),
      (has_size_unique _ _ _ H3 (com_size g W M u v)) in E. rewrite E, !RO, !BR.
    assert (Q1 : (1 <= nq (com g u v))%Q) by (apply (nq_le 1); assumption). assert (Q2 : (1 <= nq (deg g u))%Q) by (apply (nq_le 1); assumption).
    assert (Q3 : (1 <= nq (deg g v))%Q) by (apply (nq_le 1); assumption). apply nq_le in C1, C2. split.
    + apply cosine64; try assumption. nra.
    + intros O. pose proof (deg_order u) as O1. pose proof (deg_order v) as O2. apply nq_le in O1, O2.
      apply cosine64_pos; [assumption| |]; (split; [assumption|]; eapply Qle_trans; eassumption).
  - intros E. destruct (PB eq_refl) as [PP WH]. rewrite E, !RO, !BR. destruct S as [S1 S2].
    assert (NN : forall u t, (0 <= bond wattr g u t)%Q).
    { intros u' t'. destruct (has_edge g u' t') eqn:H; [apply Qlt_le_weak, PP; assumption|]. rewrite bond_edge by assumption. lra. }
    assert (Nt : In t (nodes g)).
    { unfold has_edge in S1. destruct (edge_data g u t) eqn:ED; [|discriminate]. eapply edge_data_nodes in ED; [|assumption]. tauto. }
    assert (WO : forall a b, (0 < scalar wattr g a b)%Q -> (1 <= scalar wattr g a b)%Q).
    { intros a b P. destruct (sum_whole (fun t => bond wattr g a t * bond wattr g b t)%Q (nodes g)) as (z & Z).
      - intros t'. destruct (bond_whole WH a t') as (y & Y), (bond_whole WH b t') as (y' & Y'). exists (y * y')%Z. rewrite Y, Y', inject_Z_mult. reflexivity.
      - unfold scalar in *. rewrite Z in *. change 0%Q with (inject_Z 0) in P. rewrite <- Zlt_Qlt in P. change 1%Q with (inject_Z 1). rewrite <- Zle_Qle. lia. }
    assert (PX : (0 < scalar wattr g u v)%Q).
    { eapply Qlt_le_trans; [|apply (sum_q_le (fun t => bond wattr g u t * bond wattr g v t)%Q (nodes g) t Nt)].
      - apply Qmult_lt_0_compat; apply PP; assumption.
      - intros y _. apply Qmult_le_0_compat; apply NN. }
    assert (PA : (0 < scalar wattr g u u)%Q) by (apply (scalar_pos u t); pose proof (PP u t S1); lra).
    assert (PBv : (0 < scalar wattr g v v)%Q) by (apply (scalar_pos v t); pose proof (PP v t S2); lra).
    apply WO in PX, PA, PBv. split.
    + apply cosine64; try assumption. apply (cauchy (bond wattr g u) (bond wattr g v) (nodes g)).
    + intros [O1 O2]. apply cosine64_pos; auto.
Qed.
End Values.

Lemma binary64_ok lib : binary64 lib -> lib_ok lib.
Proof.
  intros (BR & BS & BL). pose proof round64_rounding as R. split; [|split; [|split; [exact BL|]]].
  - split; intros; rewrite ?BR; [apply (rnd_le _ R); assumption|apply (rnd_rnd _ R)|apply (rnd_0 _ R)|apply (rnd_1 _ R)].
  - intros x y E. rewrite !BS. apply sqrt64_proper. exact E.
  - split; intros x Rx P; rewrite BS; [|apply sqrt64_one; exact P]. apply sqrt64_error. apply float_least; [|exact P].
    unfold representable in *. rewrite <- BR. exact Rx.
Qed.
