(** * Proofs about monopartite_projection: float weights *)
From Coq Require Import Lia QArith Qminmax Lqa.
From Verif Require Import PyBase PyNum L_Base NxGraph L_Nx L_Nx2 S_Graph L_Graph L_Graph2 M_Proj S_Partition L_Partition S_Sparse L_Disparity S_Num L_Num L_Sqrt L_Cos S_Proj L_Proj L_Proj2 L_Proj3 L_Proj4.
Close Scope Q_scope.

Lemma Qmult_swap a b : (a * b)%Q = (b * a)%Q.
Proof. unfold Qmult. rewrite Z.mul_comm, Pos.mul_comm. reflexivity. Qed.

Lemma mul_swap lib a b : n_mul lib a b = n_mul lib b a.
Proof. destruct a as [x|x], b as [y|y]; cbn [n_mul]; [f_equal; apply Z.mul_comm| | |]; do 2 f_equal; apply Qmult_swap. Qed.

(** a number Python can hold, not negative *)
Definition fine (lib : libm) (x : pynum) : Prop := (0 <= value x)%Q /\ match x with NFloat q => representable (m_round lib) q | NInt _ => True end.

Section Sums.
Variables (lib : libm).
Hypothesis R : rounding (m_round lib).

Lemma float_fine x : fine lib x -> (0 <= to_float lib x)%Q /\ representable (m_round lib) (to_float lib x) /\ ((0 < value x)%Q -> (0 < to_float lib x)%Q).
Proof.
  intros [P F]. destruct x as [z|q]; cbn [to_float value] in *.
  - split; [rewrite <- (rnd_0 _ R); apply (rnd_le _ R), P|]. split; [apply (rnd_rnd _ R)|]. intros H.
    assert (1 <= inject_Z z)%Q by (change 1%Q with (inject_Z 1); rewrite <- Zle_Qle; change 0%Q with (inject_Z 0) in H; rewrite <- Zlt_Qlt in H; lia).
    pose proof (rnd_le _ R _ _ H0). pose proof (rnd_1 _ R). lra.
  - split; [exact P|]. split; [exact F|auto].
Qed.

Lemma add_fine x y : fine lib x -> fine lib y -> fine lib (n_add lib x y) /\ ((0 < value x)%Q \/ (0 < value y)%Q -> (0 < value (n_add lib x y))%Q).
Proof.
  intros Fx Fy. destruct (float_fine x Fx) as (A1 & A2 & A3), (float_fine y Fy) as (B1 & B2 & B3).
  assert (H : (0 <= m_round lib (to_float lib x + to_float lib y))%Q /\ ((0 < value x)%Q \/ (0 < value y)%Q -> (0 < m_round lib (to_float lib x + to_float lib y))%Q)).
  { split; [rewrite <- (rnd_0 _ R); apply (rnd_le _ R); lra|]. unfold representable in A2, B2. intros [H|H].
    - specialize (A3 H). rewrite <- A2 in A3. eapply Qlt_le_trans; [exact A3|]. apply (rnd_le _ R). lra.
    - specialize (B3 H). rewrite <- B2 in B3. eapply Qlt_le_trans; [exact B3|]. apply (rnd_le _ R). lra. }
  destruct H as [H1 H2]. destruct x as [a|a], y as [b|b]; cbn [n_add]; try (split; [split; [exact H1|apply (rnd_rnd _ R)]|exact H2]).
  destruct Fx as [Fx _], Fy as [Fy _]. clear H1 H2 A1 A2 A3 B1 B2 B3. cbn [value] in *. split; [split; [|exact I]|]; cbn [value]; rewrite inject_Z_plus; [lra|]. intros [H|H]; lra.
Qed.

Lemma total_fine l : (forall x, In x l -> fine lib x) -> fine lib (total lib l) /\ ((exists x, In x l /\ (0 < value x)%Q) -> (0 < value (total lib l))%Q).
Proof.
  induction l as [|x l IH] using rev_ind; intros H.
  - split; [split; [apply Qle_refl|exact I]|intros (x & [] & _)].
  - destruct IH as [F P]; [intros y I; apply H, in_or_app; left; exact I|]. rewrite total_snoc.
    destruct (add_fine (total lib l) x F) as [F' P']; [apply H, in_or_app; right; left; reflexivity|]. split; [exact F'|].
    intros (y & I & Py). apply P'. apply in_app_iff in I as [I|[<-|[]]]; [left; eauto|right; exact Py].
Qed.

Lemma square_fine x : fine lib (n_mul lib x x).
Proof.
  destruct x as [z|q]; cbn [n_mul].
  - split; [|exact I]. cbn [value]. rewrite inject_Z_mult. nra.
  - split; [|apply (rnd_rnd _ R)]. cbn [value to_float]. rewrite <- (rnd_0 _ R). apply (rnd_le _ R). nra.
Qed.
End Sums.

Section Floats.
Variables (lib : libm) (g : graph) (p : part) (attr wattr : key) (chk : bool).
Hypothesis W : WF g.
Hypothesis D : g_dir g = false.
Hypothesis M : g_multi g = false.

Lemma number_items u t a : edge_attrs g u t (KInt 0) = Some a -> bond_number wattr g u t = pn (get_weight wattr a).
Proof. intros E. unfold bond_number, pn, get_weight. rewrite E. destruct (dget wattr a); reflexivity. Qed.

Lemma acc_python u : python_scalar lib wattr g u u (acc_of lib g wattr Cosine u).
Proof.
  exists (dkeys (items g u)). split; [apply items_NoDup; assumption|]. split.
  - intros t. rewrite items_edge by assumption. unfold shared. tauto.
  - unfold acc_of, total, dkeys. rewrite map_map. f_equal. apply map_ext_in. intros [t a] I. apply items_In in I; try assumption. cbn [fst snd inc].
    rewrite (number_items u t a I). reflexivity.
Qed.

Lemma inter_python m u v : weighted m = true -> python_scalar lib wattr g u v (inter_of lib g wattr m u v).
Proof.
  intros Wm. unfold python_scalar, inter_of. rewrite hits_eq by assumption.
  exists (filter (fun t => has_edge g v t) (dkeys (items g u))). split; [apply NoDup_filter, items_NoDup; assumption|]. split.
  - intros t. rewrite filter_In, items_edge by assumption. unfold shared. tauto.
  - unfold total. f_equal. unfold dkeys.
    assert (Y : forall l, incl l (items g u) -> flat_map (fun tta => adds lib g wattr m v (fst tta) (snd tta)) l =
      map (fun t => n_mul lib (bond_number wattr g u t) (bond_number wattr g v t)) (filter (fun t => has_edge g v t) (map fst l))); [|apply Y, incl_refl].
    induction l as [|[t a] l IH]; intros I; [reflexivity|]. cbn [flat_map map filter fst snd]. rewrite IH by (intros x Ix; apply I; right; exact Ix).
    assert (Ia : edge_attrs g u t (KInt 0) = Some a) by (apply items_In; try assumption; apply I; left; reflexivity).
    unfold adds. rewrite edge_attrs_sym by assumption. destruct (edge_attrs g v t (KInt 0)) as [b|] eqn:Eb.
    + rewrite (edge_attrs_has _ _ _ _ _ Eb). cbn [map app]. f_equal. unfold iw. rewrite Wm, (number_items u t a Ia), (number_items v t b Eb). reflexivity.
    + destruct (has_edge g v t) eqn:H; [|reflexivity]. destruct (has_edge_attrs g v t W M H) as (b & E). congruence.
Qed.

Lemma python_scalar_sym u v s : python_scalar lib wattr g u v s -> python_scalar lib wattr g v u s.
Proof.
  intros (l & N & H & ->). exists l. split; [exact N|]. split; [intros t; rewrite H; unfold shared; tauto|].
  f_equal. apply map_ext. intros t. apply mul_swap.
Qed.

Lemma python_similarity_sym m u v x : lib_ok lib -> python_similarity lib m wattr g u v x -> python_similarity lib m wattr g v u x.
Proof.
  intros (R & LS & LL & LP & _) H. destruct m; try (apply similarity_sym; assumption); cbn [python_similarity] in *.
  - destruct H as (s & H & E). exists s. split; [apply python_scalar_sym; exact H|exact E].
  - destruct H as (s & a & b & H & Ha & Hb & E). exists s, b, a. split; [apply python_scalar_sym; exact H|]. split; [exact Hb|]. split; [exact Ha|].
    rewrite (Qmult_swap (m_sqrt lib (to_float lib b))). exact E.
Qed.

Lemma computed_python m u v x : lib_ok lib -> computed lib g wattr m u v x -> python_similarity lib m wattr g u v (value x).
Proof.
  intros L E. destruct (weighted m) eqn:Wm.
  - unfold computed in E. destruct m; try discriminate; cbn [python_similarity compute_metric finalize_norm] in *.
    + inversion E; subst. exists (inter_of lib g wattr DotProduct u v). split; [apply inter_python; reflexivity|reflexivity].
    + apply bind_Ok in E as (y & E & Ey). inversion Ey; subst x. exists (inter_of lib g wattr Cosine u v), (acc_of lib g wattr Cosine u), (acc_of lib g wattr Cosine v).
      split; [apply inter_python; reflexivity|]. split; [apply acc_python|]. split; [apply acc_python|].
      apply div_Ok in E as [_ ->]. cbn [n_mul to_float]. destruct (inter_of lib g wattr Cosine u v); reflexivity.
  - assert (S : similarity lib m wattr g u v (value x)) by (eapply computed_similarity; try eassumption; congruence).
    destruct m; try discriminate; exact S.
Qed.

Lemma projection_python name thr m h u v a : lib_ok lib -> In (name, m) metric_names -> order g <> 0 ->
  monopartite_projection lib g p attr wattr name chk thr = Ok h -> edge_attrs h u v (KInt 0) = Some a ->
  exists x, a = wlink x /\ python_similarity lib m wattr g u v (value x) /\ stored_as m (val_of x) (value x) /\ (exists t, shared g u v t) /\ u <> v.
Proof.
  intros L Hn O E EA. destruct (projection_links lib g p attr wattr chk W D M name thr m h u v a Hn O E EA) as (x & Ex & H & S & NE).
  exists x. split; [exact Ex|]. split; [|split; [destruct H; eapply computed_stored; eassumption|split; assumption]].
  destruct H as [H|H]; apply computed_python in H; try assumption. apply python_similarity_sym; assumption.
Qed.

(** norms *)
Lemma acc_fine u : rounding (m_round lib) -> fine lib (acc_of lib g wattr Cosine u)
  /\ ((exists t, (0 < value (n_mul lib (bond_number wattr g u t) (bond_number wattr g u t)))%Q) -> (0 < value (acc_of lib g wattr Cosine u))%Q).
Proof.
  intros R. unfold acc_of. edestruct (total_fine lib R) as [F P]; [|split; [exact F|intros H; apply P]].
  - intros x I. apply in_map_iff in I as (ta & <- & _). apply square_fine, R.
  - destruct H as (t & H). destruct (edge_attrs g u t (KInt 0)) as [a|] eqn:E.
    + rewrite (number_items u t a E) in H. eexists. split; [|exact H]. apply in_map_iff. exists (t, a). split; [reflexivity|apply items_In; assumption].
    + exfalso. unfold bond_number in H. rewrite E in H. apply (Qlt_irrefl 0). exact H.
Qed.

Lemma projection_floats name m : lib_ok lib ->
  (forall x y, representable (m_round lib) x -> representable (m_round lib) y -> (0 < x)%Q -> (0 < y)%Q -> (0 < m_round lib (m_sqrt lib x * m_sqrt lib y))%Q) ->
  (m = PMI -> (0 < m_round lib (1 / (nq (order g) * nq (order g))))%Q) ->
  usable p = true -> In (name, m) metric_names -> bipartite g p attr -> (exists n, kept g p attr n) -> comparable_part g p attr ->
  part_names g p attr -> (chk = true -> unmarked g p attr) -> (weighted m = true -> numeric wattr g) ->
  (m = Cosine -> forall u t, kept g p attr u -> has_edge g u t = true -> exists t', (0 < value (n_mul lib (bond_number wattr g u t') (bond_number wattr g u t')))%Q) ->
  exists h, monopartite_projection lib g p attr wattr name chk VNone = Ok h
  /\ forall u v t, kept g p attr u -> kept g p attr v -> u <> v -> shared g u v t -> has_edge h u v = true.
Proof.
  intros L RT PO U Hn B Kn C PN UM NU CZ. destruct (weighted m) eqn:Wm.
  - apply projection_runs with (m := m); try assumption; try (intros _; apply NU; reflexivity).
    + intros u t Ku Hu. unfold should_keep_norm, n_ltb, n_leb. destruct m; try discriminate.
      * unfold acc_of. rewrite norm_count by discriminate. apply items_edge in Hu; try assumption. apply q_ltb_iff. apply (nq_lt 0). unfold deg.
        destruct (items g u); [destruct Hu|cbn; lia].
      * apply q_ltb_iff. destruct L as (R & _). apply (acc_fine u R), (CZ eq_refl u t Ku Hu).
    + intros u v t Ku Kv S. unfold computed, compute_metric, finalize_norm. destruct m; try discriminate; [eauto|].
      destruct L as (R & _). destruct (acc_fine u R) as [Fu Pu], (acc_fine v R) as [Fv Pv].
      destruct (float_fine lib R _ Fu) as (_ & Ru & Qu), (float_fine lib R _ Fv) as (_ & Rv & Qv).
      specialize (Pu (CZ eq_refl u t Ku (proj1 S))). specialize (Pv (CZ eq_refl v t Kv (proj2 S))).
      pose proof (RT _ _ Ru Rv (Qu Pu) (Qv Pv)) as RR. cbn [n_mul]. rewrite div_total; [cbn; eauto|].
      cbn [value to_float]. intros H0. rewrite H0 in RR. apply (Qlt_irrefl 0). exact RR.
  - apply (projection_total lib g p attr wattr chk W D M L name m); try assumption; try congruence. intros ->. discriminate.
Qed.
End Floats.

(** the product of the square roots of two positive floats does not vanish *)
Lemma roots64 x y : representable round64 x -> representable round64 y -> (0 < x)%Q -> (0 < y)%Q -> (0 < round64 (sqrt64 x * sqrt64 y))%Q.
Proof.
  intros Rx Ry Px Py. apply float_least in Rx; [|exact Px]. apply float_least in Ry; [|exact Py].
  destruct (sqrt64_error x Rx) as (A1 & A2 & _), (sqrt64_error y Ry) as (B1 & B2 & _).
  pose proof round64_rounding as R. pose proof (unit_pos 0 ltac:(lia)) as U.
  assert (E : (round64 ((3 # 4) * unit_of 0) == unit_of 0)%Q) by (vm_compute; reflexivity).
  assert (H : ((3 # 4) * unit_of 0 <= sqrt64 x * sqrt64 y)%Q).
  { revert A1 A2 B1 B2 Rx Ry U. generalize (unit_of 0) (sqrt64 x) (sqrt64 y). clear. intros u a b A1 A2 B1 B2 Rx Ry U.
    assert (A : ((9 # 10) * x <= a * a)%Q) by lra. assert (B : ((9 # 10) * y <= b * b)%Q) by lra. clear A2 B2.
    destruct (Qlt_le_dec (a * b) ((3 # 4) * u)) as [H|H]; [exfalso|exact H].
    assert (P : (0 < a * b)%Q) by nra.
    assert (H1 : ((a * b) * (a * b) <= (9 # 16) * (u * u))%Q) by nra.
    assert (H2 : ((9 # 10) * u * ((9 # 10) * u) <= (a * a) * (b * b))%Q) by nra.
    assert (0 < u * u)%Q by nra. assert ((a * a) * (b * b) == (a * b) * (a * b))%Q by ring. nra. }
  apply (rnd_le _ R) in H. rewrite E in H. lra.
Qed.

(** ** the range of cosines of float weights *)
Section Cosines.
Variables (lib : libm) (g : graph) (wattr : key).
Hypothesis W : WF g.
Hypothesis M : g_multi g = false.
Hypothesis B64 : binary64 lib.

Lemma number_bond u t : (value (bond_number wattr g u t) == bond wattr g u t)%Q.
Proof.
  unfold bond_number, bond. destruct (edge_attrs g u t (KInt 0)) as [a|]; [|reflexivity]. destruct (dget wattr a) as [v|]; [|reflexivity].
  destruct v as [|[|]| |[| |]]; reflexivity.
Qed.

Lemma sum_scalar u v l : NoDup l -> (forall t, In t l <-> shared g u v t) ->
  (sum_q (map (fun t => value (bond_number wattr g u t) * value (bond_number wattr g v t)) l) == scalar wattr g u v)%Q /\ List.length l <= order g.
Proof.
  intros N H. assert (I : incl l (nodes g)).
  { intros t It. apply H in It as [It _]. apply items_edge in It; try assumption. eapply items_incl; eassumption. }
  split; [|unfold order; rewrite <- (map_length fst (g_nodes g)); apply NoDup_incl_length; assumption].
  unfold scalar. set (d := map (fun t => (t, tt)) l).
  assert (Kd : dkeys d = l) by (unfold d, dkeys; rewrite map_map; apply map_id).
  pose proof (sum_q_dict2 (fun t (_ : unit) => (bond wattr g u t * bond wattr g v t)%Q) (nodes g) d (wf_nodes g W)) as S.
  rewrite Kd in S. specialize (S N I). unfold d in S at 2. rewrite map_map in S. cbn [fst] in S.
  etransitivity; [|etransitivity; [symmetry; exact S|]].
  - apply sum_q_ext. intros t _. rewrite !number_bond. reflexivity.
  - apply sum_q_ext. intros t _. destruct (dget t d) eqn:E; [reflexivity|]. apply dget_None in E. rewrite Kd, H in E. unfold shared in E.
    destruct (has_edge g u t) eqn:Hu; [|rewrite (bond_edge g wattr u t Hu); ring]. destruct (has_edge g v t) eqn:Hv; [exfalso; apply E; split; reflexivity|].
    rewrite (bond_edge g wattr v t Hv). ring.
Qed.

Definition least : Q := 1 / inject_Z (2 ^ 250).
Definition most : Q := inject_Z (2 ^ 250).
Hypothesis HB : forall u t, has_edge g u t = true -> (least <= bond wattr g u t)%Q.

Lemma least_square : (inject_Z (2 ^ 60) * unit_of 0 <= least * least)%Q.
Proof. vm_compute. discriminate. Qed.
Lemma least_pos : (0 < least)%Q. Proof. vm_compute. reflexivity. Qed.

Lemma bond_nonneg u t : (0 <= bond wattr g u t)%Q.
Proof.
  destruct (has_edge g u t) eqn:H; [|rewrite (bond_edge g wattr u t H); apply Qle_refl]. apply Qle_trans with least; [vm_compute; discriminate|apply HB; exact H].
Qed.

Lemma scalar_near u v s : python_scalar lib wattr g u v s -> near (2 * order g + 4) (to_float lib s) (scalar wattr g u v).
Proof.
  intros (l & N & H & ->). destruct B64 as (BR & _). destruct (sum_scalar u v l N H) as [E Ln].
  destruct (sum_near lib BR (bond_number wattr g u) (bond_number wattr g v) l) as [Hh Nr].
  - intros t I. apply H in I as [I1 I2]. rewrite !number_bond. split; [|split; apply bond_nonneg].
    eapply Qle_trans; [exact least_square|]. pose proof least_pos. apply Qmult_le_compat_nonneg; (split; [apply Qlt_le_weak; assumption|apply HB; assumption]).
  - pose proof (float_near lib BR _ (near_pos _ _ _ Nr)) as F. pose proof (near_trans _ _ _ _ _ F Nr) as G.
    eapply near_weaken; [eapply near_eq; [exact G|reflexivity|exact E]|lia].
Qed.

Lemma scalar_least u v t : shared g u v t -> (least * least <= scalar wattr g u v)%Q.
Proof.
  intros [S1 S2]. pose proof least_pos. apply Qle_trans with (bond wattr g u t * bond wattr g v t)%Q.
  - apply Qmult_le_compat_nonneg; (split; [apply Qlt_le_weak; assumption|apply HB; assumption]).
  - apply (sum_q_le (fun t => bond wattr g u t * bond wattr g v t)%Q (nodes g) t).
    + apply items_edge in S1; try assumption. eapply items_incl; eassumption.
    + intros x _. apply Qmult_le_0_compat; apply bond_nonneg.
Qed.

Hypothesis O : (Z.of_nat (order g) <= 2 ^ 38)%Z.

Lemma near_half k x y : (Z.of_nat k <= 2 ^ 40)%Z -> near k x y -> ((1 # 2) * y <= x <= 2 * y)%Q.
Proof.
  intros Hk (A & B & C). pose proof (spread k ltac:(lia)) as S. pose proof (pw_high up k up_one) as U. pose proof (pw_low dn k dn_one) as D.
  pose proof (pw_pos dn k (proj1 dn_one)) as P.
  assert (T : (1 + inject_Z (Z.of_nat k) * (4 # 9007199254740992) <= 2)%Q).
  { apply inject_le in Hk. change (inject_Z (2 ^ 40)) with 1099511627776%Q in Hk. revert Hk. generalize (inject_Z (Z.of_nat k)). intros q Hk. lra. }
  revert S T U D P B C. generalize (pw up k) (pw dn k) (1 + inject_Z (Z.of_nat k) * (4 # 9007199254740992))%Q. intros p d t S T U D P B C.
  assert (p <= d * 2)%Q by (eapply Qle_trans; [exact S|apply Qmult_le_l; assumption]). split; nra.
Qed.

Lemma root_least a : (least * least * (1 # 2) <= a)%Q -> (1 / inject_Z (2 ^ 300) <= sqrt64 a)%Q /\ (sqrt64 a * sqrt64 a <= 2 * a)%Q.
Proof.
  intros H. assert (U : (unit_of 0 <= a)%Q) by (eapply Qle_trans; [|exact H]; vm_compute; discriminate).
  destruct (sqrt_near a U) as [N P]. pose proof (near_half 3 _ _ ltac:(lia) N) as [N1 N2]. split; [|exact N2].
  apply square_le; [apply Qlt_le_weak, P|]. eapply Qle_trans; [|exact N1]. apply Qle_trans with ((1 # 2) * (least * least * (1 # 2)))%Q; [vm_compute; discriminate|].
  apply Qmult_le_l; [reflexivity|exact H].
Qed.

Lemma cosine_range u v t x : shared g u v t -> python_similarity lib Cosine wattr g u v x ->
  (x <= 1 + (2 * nq (order g) + 9) * (1 # 2251799813685248))%Q
  /\ ((forall u t, bond wattr g u t <= most)%Q -> (0 < x)%Q).
Proof.
  intros Sh (s & a & b & Hs & Ha & Hb & Ex). pose proof B64 as (BR & BS & _). rewrite !BR, !BS in Ex.
  assert (Su : shared g u u t) by (destruct Sh; split; assumption). assert (Sv : shared g v v t) by (destruct Sh; split; assumption).
  pose proof (scalar_near _ _ _ Hs) as Ns. pose proof (scalar_near _ _ _ Ha) as Na. pose proof (scalar_near _ _ _ Hb) as Nb. clear Hs Ha Hb.
  pose proof (scalar_least _ _ _ Sh) as Ls. pose proof (scalar_least _ _ _ Su) as La. pose proof (scalar_least _ _ _ Sv) as Lb.
  pose proof (cauchy (bond wattr g u) (bond wattr g v) (nodes g)) as CS. cbn zeta in CS.
  fold (scalar wattr g u v) (scalar wattr g u u) (scalar wattr g v v) in CS.
  assert (Hk : (Z.of_nat (2 * order g + 4) <= 2 ^ 40)%Z) by lia.
  pose proof (near_half _ _ _ Hk Ns) as [Hs1 Hs2]. pose proof (near_half _ _ _ Hk Na) as [Ha1 Ha2]. pose proof (near_half _ _ _ Hk Nb) as [Hb1 Hb2].
  revert Ex Ns Na Nb Hs1 Hs2 Ha1 Ha2 Hb1 Hb2. generalize (to_float lib s) (to_float lib a) (to_float lib b). clear s a b. intros s a b Ex Ns Na Nb Hs1 Hs2 Ha1 Ha2 Hb1 Hb2.
  assert (LL : forall y z, (least * least <= y)%Q -> ((1 # 2) * y <= z)%Q -> (least * least * (1 # 2) <= z)%Q).
  { intros y z. generalize (least * least)%Q. intros l Y Z. lra. }
  pose proof (LL _ _ La Ha1) as La'. pose proof (LL _ _ Lb Hb1) as Lb'. pose proof (LL _ _ Ls Hs1) as Ls'.
  destruct (root_least a La') as [Ra1 Ra2], (root_least b Lb') as [Rb1 Rb2].
  assert (Lr : (1 / inject_Z (2 ^ 300) * (1 / inject_Z (2 ^ 300)) <= sqrt64 a * sqrt64 b)%Q).
  { apply Qmult_le_compat_nonneg; (split; [vm_compute; discriminate|assumption]). }
  split.
  - rewrite Ex. eapply Qle_trans; [eapply (cosine_near (2 * order g + 4) s a b); try eassumption|].
    + eapply Qle_trans; [|exact La']. vm_compute. discriminate.
    + eapply Qle_trans; [|exact Lb']. vm_compute. discriminate.
    + eapply Qle_trans; [|exact Lr]. vm_compute. discriminate.
    + assert (E : (inject_Z (Z.of_nat (2 * order g + 4 + 5)) == 2 * nq (order g) + 9)%Q).
      { unfold nq. replace (Z.of_nat (2 * order g + 4 + 5)) with (2 * Z.of_nat (order g) + 9)%Z by lia. rewrite inject_Z_plus, inject_Z_mult. reflexivity. }
      rewrite E. generalize (nq (order g)). intros q. lra.
  - intros HM. rewrite Ex. apply round64_pos.
    assert (MS : forall y, (scalar wattr g y y <= nq (order g) * (most * most))%Q).
    { intros y. unfold scalar, order. rewrite <- (map_length fst (g_nodes g)). fold (dkeys (g_nodes g)). fold (nodes g). clear - HM HB.
      induction (nodes g) as [|k l IH]; [vm_compute; discriminate|]. unfold sum_q in *. cbn [map fold_right List.length].
      assert (E : (nq (S (List.length l)) == 1 + nq (List.length l))%Q) by (unfold nq; rewrite Nat2Z.inj_succ; unfold Z.succ; rewrite inject_Z_plus; apply Qplus_comm).
      rewrite E, Qmult_plus_distr_l, Qmult_1_l. apply Qplus_le_compat; [|exact IH].
      apply Qmult_le_compat_nonneg; (split; [apply bond_nonneg; exact HB|apply HM]). }
    assert (MB : forall y z, (z <= 2 * scalar wattr g y y)%Q -> (sqrt64 z * sqrt64 z <= 2 * z)%Q -> (sqrt64 z <= inject_Z (2 ^ 280))%Q).
    { intros y z Z1 Z2. apply square_le; [vm_compute; discriminate|]. eapply Qle_trans; [exact Z2|].
      apply Qle_trans with (2 * (2 * (inject_Z (2 ^ 38) * (most * most))))%Q; [|vm_compute; discriminate]. apply Qmult_le_l; [reflexivity|].
      eapply Qle_trans; [exact Z1|]. apply Qmult_le_l; [reflexivity|]. eapply Qle_trans; [apply MS|]. apply Qmult_le_compat_r; [|vm_compute; discriminate].
      unfold nq. apply inject_le. exact O. }
    pose proof (MB u a Ha2 Ra2) as Ma. pose proof (MB v b Hb2 Rb2) as Mb. pose proof round64_rounding as R.
    assert (Mr : (round64 (sqrt64 a * sqrt64 b) <= inject_Z (2 ^ 280) * inject_Z (2 ^ 280))%Q).
    { assert (E : (round64 (inject_Z (2 ^ 280) * inject_Z (2 ^ 280)) == inject_Z (2 ^ 280) * inject_Z (2 ^ 280))%Q) by (vm_compute; reflexivity). rewrite <- E.
      apply (rnd_le _ R). assert (Z0 : (0 <= 1 / inject_Z (2 ^ 300))%Q) by (vm_compute; discriminate).
      apply Qmult_le_compat_nonneg; (split; [eapply Qle_trans; [exact Z0|assumption]|assumption]). }
    assert (Pr : (0 < round64 (sqrt64 a * sqrt64 b))%Q) by (apply round64_pos; eapply Qle_trans; [|exact Lr]; vm_compute; discriminate).
    apply Qle_shift_div_l; [exact Pr|]. eapply Qle_trans; [|exact Ls'].
    apply Qle_trans with (unit_of 0 * (inject_Z (2 ^ 280) * inject_Z (2 ^ 280)))%Q; [|vm_compute; discriminate]. apply Qmult_le_l; [apply unit_pos; lia|exact Mr].
Qed.
End Cosines.
