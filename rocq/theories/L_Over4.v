(** * Floats below the greatest ones: projections, second part *)
From Coq Require Import ZArith QArith Qabs Qminmax Lia Lqa.
From Verif Require Import PyBase PyNum NxGraph M_Proj S_Graph S_Num S_Proj S_Over L_Base L_Graph L_Graph2 L_Nx L_Num L_Sqrt L_Cos L_Ieee L_Proj2 L_Over L_Over2 L_Over3.
Local Open Scope Q_scope.

Section Agree.
Variables lib lib' : libm.
Hypothesis R64 : forall x, m_round lib x = round64 x.
Hypothesis S64 : forall x, m_sqrt lib x = sqrt64 x.
Hypothesis AG : agree lib lib'.
Variables (g : graph) (wattr : key) (m : metric).
Hypothesis W : WF g.
Hypothesis OR : (Z.of_nat (order g) < 2 ^ 53)%Z.
Hypothesis WB : weighted m = true -> weights_below 200 wattr g.
Hypothesis WA : m = Cosine -> weights_above 200 wattr g.

(** ** intersections *)
Definition kind_ok (x : pynum) : Prop := weighted m = false -> exists z, x = NInt z.
Lemma most_le a b : (a <= b)%nat -> most a <= most b.
Proof. intros H. apply inject_le. pose proof (Z.pow_pos_nonneg 2 400). nia. Qed.
Lemma weight_agree u t a v s b : In (t, a) (items g u) -> In (s, b) (items g v) ->
  intersection_weight lib' m (get_weight wattr a) (get_weight wattr b) = intersection_weight lib m (get_weight wattr a) (get_weight wattr b)
  /\ forall x, intersection_weight lib m (get_weight wattr a) (get_weight wattr b) = Ok x -> within (inject_Z (2 ^ 400)) x /\ kind_ok x.
Proof.
  intros I J. unfold intersection_weight.
  assert (O : forall x, Ok (NInt 1) = Ok x -> within (inject_Z (2 ^ 400)) x /\ kind_ok x).
  { intros x E. inversion E; subst. split; [unfold within; apply one_power; lia|intros _; eauto]. }
  assert (PR : weighted m = true ->
    (let* x := as_number (get_weight wattr a) in let* y := as_number (get_weight wattr b) in Ok (n_mul lib' x y))
    = (let* x := as_number (get_weight wattr a) in let* y := as_number (get_weight wattr b) in Ok (n_mul lib x y))
    /\ forall z, (let* x := as_number (get_weight wattr a) in let* y := as_number (get_weight wattr b) in Ok (n_mul lib x y)) = Ok z ->
       within (inject_Z (2 ^ 400)) z /\ kind_ok z).
  { intros Wm. destruct (as_number (get_weight wattr a)) as [x|e] eqn:Nx; cbn [bind]; [|split; [reflexivity|discriminate]].
    destruct (as_number (get_weight wattr b)) as [y|e] eqn:Ny; cbn [bind]; [|split; [reflexivity|discriminate]].
    pose proof (item_within g wattr m W WB u t a x Wm I Nx) as Hx. pose proof (item_within g wattr m W WB v s b y Wm J Ny) as Hy.
    destruct (product_agree lib lib' R64 AG x y Hx Hy) as [-> P]. split; [reflexivity|]. intros z E. inversion E; subst. split; [exact P|]. intros C. congruence. }
  destruct m; try (split; [reflexivity|exact O]); apply PR; reflexivity.
Qed.

Definition inter_ok (k : nat) (later : list key) (d : dict pynum) : Prop :=
  forall t x, dget t d = Some x -> kind_ok x /\ within (most (S k)) x /\ (In t later -> within (most k) x).
Lemma add_kind x y : kind_ok x -> kind_ok y -> kind_ok (n_add lib x y).
Proof. intros Hx Hy Wm. destruct (Hx Wm) as (a & ->), (Hy Wm) as (b & ->). cbn [n_add]. eauto. Qed.
Lemma zero_within k : within (most k) (NInt 0).
Proof. unfold within. change (Qabs (value (NInt 0))) with 0. change 0 with (inject_Z 0). apply inject_le. pose proof (Z.pow_pos_nonneg 2 400). lia. Qed.
Lemma intersect_agree k d u t a v s b later : (Z.of_nat (S k) <= 2 ^ 53)%Z -> In (t, a) (items g u) -> In (s, b) (items g v) -> ~ In s later -> inter_ok k (s :: later) d ->
  intersect lib' m d s (get_weight wattr a) (get_weight wattr b) = intersect lib m d s (get_weight wattr a) (get_weight wattr b)
  /\ forall d', intersect lib m d s (get_weight wattr a) (get_weight wattr b) = Ok d' -> inter_ok k later d'.
Proof.
  intros Hk I J NI H. unfold intersect. destruct (weight_agree u t a v s b I J) as [-> G].
  destruct (intersection_weight lib m (get_weight wattr a) (get_weight wattr b)) as [w|e]; cbn [bind]; [|split; [reflexivity|discriminate]].
  destruct (G w eq_refl) as [Ww Kw]. set (q := match dget s d with Some q => q | None => NInt 0 end).
  assert (Q1 : kind_ok q /\ within (most k) q).
  { unfold q. destruct (dget s d) as [q'|] eqn:E; [destruct (H s q' E) as (K1 & _ & K2); split; [exact K1|apply K2; left; reflexivity]|].
    split; [intros _; eauto|apply zero_within]. }
  destruct Q1 as [Kq Wq]. assert (Rk : representable round64 (most k)) by (apply most_rep; lia). assert (RS : representable round64 (most (S k))) by (apply most_rep; lia).
  rewrite (add_agree lib lib' R64 AG (most k) (inject_Z (2 ^ 400)) (most (S k)) q w Rk rep_400 Wq Ww (most_S k)) by (first [apply most_big; lia|apply power_big; lia]).
  split; [reflexivity|]. intros d' E. inversion E; subst. clear E. intros t' x. rewrite dget_dset. destruct (key_eqb t' s) eqn:Es.
  - apply key_eqb_eq in Es. subst t'. intros X. inversion X; subst. split; [apply add_kind; assumption|]. split; [|intros C; contradiction].
    apply (add_within lib R64 (most k) (inject_Z (2 ^ 400)) (most (S k)) q w Rk rep_400 RS Wq Ww (most_S k)).
  - intros X. destruct (H t' x X) as (A & B & C). split; [exact A|]. split; [exact B|]. intros L. apply C. right. exact L.
Qed.
Lemma inner_agree k n1 u t a v l : forall d, (Z.of_nat (S k) <= 2 ^ 53)%Z -> In (t, a) (items g u) -> incl l (items g v) -> NoDup (dkeys l) -> inter_ok k (dkeys l) d ->
  let step lb inter n2a := let n2 := fst n2a in
    if key_eqb n2 n1 then Ok inter
    else let* skip := key_gt n1 n2 in if skip then Ok inter else intersect lb m inter n2 (get_weight wattr a) (get_weight wattr (snd (n2a : key * attrs))) in
  foldM (step lib') l d = foldM (step lib) l d /\ forall d', foldM (step lib) l d = Ok d' -> inter_ok k [] d'.
Proof.
  intros d Hk I. cbv zeta. revert d. induction l as [|[s b] l IH]; intros d L N H; cbn [foldM fst snd].
  - split; [reflexivity|]. intros d' E. inversion E; subst. exact H.
  - cbn [dkeys map fst] in N, H. inversion N as [|? ? NI N']; subst.
    assert (L' : incl l (items g v)) by (intros x Hx; apply L; right; exact Hx).
    assert (H' : inter_ok k (dkeys l) d) by (intros t' x X; destruct (H t' x X) as (A & B & C); split; [exact A|]; split; [exact B|]; intros Y; apply C; right; exact Y).
    destruct (key_eqb s n1); cbn [bind]; [apply IH; assumption|]. destruct (key_gt n1 s) as [sk|e]; cbn [bind]; [|split; [reflexivity|discriminate]].
    destruct sk; cbn [bind]; [apply IH; assumption|].
    destruct (intersect_agree k d u t a v s b (dkeys l) Hk I (L _ (or_introl eq_refl)) NI H) as [-> G].
    destruct (intersect lib m d s (get_weight wattr a) (get_weight wattr b)) as [d1|e]; cbn [bind]; [|split; [reflexivity|discriminate]].
    apply IH; [assumption|assumption|apply G; reflexivity].
Qed.
Definition bounded (k : nat) (d : dict pynum) : Prop := forall t x, dget t d = Some x -> kind_ok x /\ within (most k) x.
Lemma bounded_start k l d : bounded k d -> inter_ok k l d.
Proof.
  intros H t x X. destruct (H t x X) as [A B]. split; [exact A|]. split; [|intros _; exact B].
  eapply Qle_trans; [exact B|apply most_le; lia].
Qed.
Lemma intersections_agree n1 : intersections_of lib' m g wattr n1 = intersections_of lib m g wattr n1
  /\ forall d, intersections_of lib m g wattr n1 = Ok d -> bounded (order g) d.
Proof.
  unfold intersections_of. pose proof (items_length g W n1) as LN.
  match goal with |- foldM ?F' _ _ = foldM ?F _ _ /\ _ => set (f' := F'); set (f := F) end.
  assert (G : forall l k d, incl l (items g n1) -> (Z.of_nat (k + List.length l) <= 2 ^ 53)%Z -> bounded k d ->
    foldM f' l d = foldM f l d /\ forall d', foldM f l d = Ok d' -> bounded (k + List.length l) d').
  { induction l as [|[t a] l IH]; intros k d L Hk B; cbn [foldM List.length] in *.
    - split; [reflexivity|]. intros d' E. inversion E; subst. rewrite Nat.add_0_r. exact B.
    - destruct (inner_agree k n1 n1 t a t (items g t) d ltac:(lia) (L _ (or_introl eq_refl)) (incl_refl _) (items_NoDup g W t) (bounded_start _ _ _ B)) as [E H].
      change (f' d (t, a)) with (foldM (fun inter n2a => let n2 := fst n2a in if key_eqb n2 n1 then Ok inter
        else let* skip := key_gt n1 n2 in if skip then Ok inter else intersect lib' m inter n2 (get_weight wattr a) (get_weight wattr (snd (n2a : key * attrs)))) (items g t) d).
      rewrite E. clear E.
      change (f d (t, a)) with (foldM (fun inter n2a => let n2 := fst n2a in if key_eqb n2 n1 then Ok inter
        else let* skip := key_gt n1 n2 in if skip then Ok inter else intersect lib m inter n2 (get_weight wattr a) (get_weight wattr (snd (n2a : key * attrs)))) (items g t) d).
      destruct (foldM _ (items g t) d) as [d1|e]; cbn [bind]; [|split; [reflexivity|discriminate]]. specialize (H d1 eq_refl).
      replace (k + S (List.length l))%nat with (S k + List.length l)%nat in * by lia.
      apply IH; [intros x Hx; apply L; right; exact Hx|exact Hk|]. intros t' x X. destruct (H t' x X) as (A & C & _). split; assumption. }
  destruct (G (items g n1) 0%nat [] (incl_refl _) ltac:(lia) ltac:(intros t x X; discriminate X)) as [E H]. split; [exact E|].
  intros d Ed t x X. destruct (H d Ed t x X) as [A B]. split; [exact A|]. eapply Qle_trans; [exact B|apply most_le; lia].
Qed.

(** ** the metrics *)
Lemma int_big z : ~ inject_Z z == 0 -> 1 <= Qabs (inject_Z z).
Proof.
  intros N. change (Qabs (inject_Z z)) with (inject_Z (Z.abs z)). change 1 with (inject_Z 1). apply inject_le.
  assert (z <> 0)%Z by (intros ->; apply N; reflexivity). lia.
Qed.
Lemma quotient_le a b c d : 0 < d -> Qabs a <= c -> d <= Qabs b -> Qabs (a / b) <= c / d.
Proof.
  intros P A B. unfold Qdiv. rewrite Qabs_Qmult.
  assert (E : Qabs (/ b) <= / d).
  { assert (NB : ~ b == 0) by (intros Z; rewrite Z in B; change (Qabs 0) with 0 in B; lra).
    assert (EQ : Qabs (/ b) * Qabs b == 1) by (rewrite <- Qabs_Qmult, Qmult_comm, Qmult_inv_r by exact NB; reflexivity).
    pose proof (Qabs_nonneg (/ b)) as PB. apply (Qmult_le_r _ _ d P). rewrite (Qmult_comm (/ d)), Qmult_inv_r by lra. rewrite <- EQ.
    rewrite !(Qmult_comm (Qabs (/ b))). apply Qmult_le_compat_r; assumption. }
  pose proof (Qabs_nonneg a). pose proof (Qabs_nonneg (/ b)). assert (0 <= / d) by (apply Qlt_le_weak, Qinv_lt_0_compat, P).
  apply (Qle_trans _ (c * Qabs (/ b))); [apply Qmult_le_compat_r; assumption|].
  rewrite !(Qmult_comm c). apply Qmult_le_compat_r; [exact E|lra].
Qed.
(** ints *)
Lemma int_div_agree a b : Qabs (inject_Z a) <= big -> Qabs (inject_Z b) <= big -> n_div lib' (NInt a) (NInt b) = n_div lib (NInt a) (NInt b)
  /\ forall x, n_div lib (NInt a) (NInt b) = Ok x -> Qabs x <= big.
Proof.
  intros Ha Hb.
  assert (Q1 : ~ inject_Z b == 0 -> Qabs (inject_Z a / inject_Z b) <= big).
  { intros N. eapply Qle_trans; [apply (quotient_le _ _ big 1); [lra|exact Ha|apply int_big, N]|]. setoid_replace (big / 1) with big by field. lra. }
  split; [apply (div_agree lib lib' AG); assumption|].
  intros x. unfold n_div. destruct (q_eqb (value (NInt b)) 0) eqn:E; [discriminate|]. intros X. inversion X; subst.
  apply (m_round_within lib R64); [apply rep_power; lia|]. apply Q1. cbn [value] in E. intros Z. apply (proj2 (Qeq_bool_iff _ _)) in Z. unfold q_eqb in E. congruence.
Qed.
Lemma int_within z : within (most (order g)) (NInt z) -> (Z.abs z <= 2 ^ 453)%Z.
Proof.
  intros H. unfold within in H. cbn [value] in H. change (Qabs (inject_Z z)) with (inject_Z (Z.abs z)) in H.
  pose proof (Qle_trans _ _ _ H (most_453 (order g) ltac:(lia))) as G. unfold inject_Z, Qle in G. cbn [Qnum Qden] in G. lia.
Qed.
Lemma int_small z : (Z.abs z <= 2 ^ 1023)%Z -> Qabs (inject_Z z) <= big.
Proof. intros H. change (Qabs (inject_Z z)) with (inject_Z (Z.abs z)). apply inject_le, H. Qed.

Lemma metric_agree x n1 n2 : kind_ok x -> within (most (order g)) x -> norm_ok g m n1 -> norm_ok g m n2 ->
  compute_metric lib' m x n1 n2 = compute_metric lib m x n1 n2.
Proof.
  intros K B H1 H2. unfold norm_ok, kind_ok in *.
  assert (P1 : (2 ^ 453 * 4 <= 2 ^ 1023)%Z) by (vm_compute; discriminate). assert (P2 : (2 ^ 453 * 2 ^ 453 <= 2 ^ 1023)%Z) by (vm_compute; discriminate).
  assert (INTS : weighted m = false -> rooted m = false -> exists z a b, x = NInt z /\ n1 = NInt a /\ n2 = NInt b
    /\ (Z.abs z <= 2 ^ 453)%Z /\ (Z.abs a <= 2 ^ 453)%Z /\ (Z.abs b <= 2 ^ 453)%Z).
  { intros Wm Rm. rewrite Rm in *. destruct (K Wm) as (z & ->), H1 as (a & -> & Ha), H2 as (b & -> & Hb). exists z, a, b. repeat split; apply int_within; assumption. }
  assert (FLOATS : rooted m = true -> (let* q := n_div lib' x (n_mul lib' n1 n2) in Ok (NFloat q)) = (let* q := n_div lib x (n_mul lib n1 n2) in Ok (NFloat q))).
  { intros Rm. rewrite Rm in *. destruct H1 as (a & -> & A1 & A2), H2 as (b & -> & B1 & B2). assert (LP : 0 < low) by (vm_compute; reflexivity).
    assert (R2 : representable round64 (inject_Z (2 ^ 228))) by (apply rep_power; lia).
    assert (Wa : within (inject_Z (2 ^ 228)) (NFloat a)) by (unfold within; cbn [value]; rewrite Qabs_pos by lra; exact A2).
    assert (Wb : within (inject_Z (2 ^ 228)) (NFloat b)) by (unfold within; cbn [value]; rewrite Qabs_pos by lra; exact B2).
    assert (ML : inject_Z (2 ^ 228) * inject_Z (2 ^ 228) <= inject_Z (2 ^ 456)) by (vm_compute; discriminate).
    rewrite (mul_agree lib lib' R64 AG _ _ (inject_Z (2 ^ 456)) _ _ R2 R2 Wa Wb ML) by (apply power_big; lia).
    pose proof (mul_within lib R64 _ _ (inject_Z (2 ^ 456)) _ _ R2 R2 (rep_power 456 ltac:(lia)) Wa Wb ML) as U.
    assert (LL : unit_of 672 <= value (n_mul lib (NFloat a) (NFloat b))).
    { cbn [n_mul value to_float]. apply (round_low lib R64).
      - apply float64_representable. apply (float64_proper (inject_Z 1 * unit_of 672)); [change (inject_Z 1) with 1; ring|apply float64_unit; lia].
      - apply (Qle_trans _ (low * low)); [vm_compute; discriminate|]. clear - A1 B1 LP. nra. }
    destruct (n_mul lib (NFloat a) (NFloat b)) as [?|c] eqn:EC; [cbn in EC; discriminate|]. cbn [value] in LL. unfold within in U. cbn [value] in U.
    assert (UP : 0 < unit_of 672) by (vm_compute; reflexivity).
    assert (RM : representable round64 (most (order g))) by (apply most_rep; lia).
    rewrite (div_agree lib lib' AG x (NFloat c)); [reflexivity|eapply Qle_trans; [exact B|apply most_big; lia]|eapply Qle_trans; [exact U|apply power_big; lia]|].
    intros _. apply (Qle_trans _ (inject_Z (2 ^ 453) / unit_of 672)); [|vm_compute; discriminate].
    assert (F : Qabs (to_float lib x / c) <= inject_Z (2 ^ 453) / unit_of 672).
    { apply quotient_le; [exact UP| |rewrite Qabs_pos by lra; exact LL].
      eapply Qle_trans; [apply (to_float_within lib R64 _ x RM B)|apply most_453; lia]. }
    destruct x; exact F. }
  unfold compute_metric. destruct m; try reflexivity; try (apply FLOATS; reflexivity);
    destruct (INTS eq_refl eq_refl) as (z & a & b & -> & -> & -> & Hz & Ha & Hb); cbn [n_add n_sub n_mul].
  - rewrite (proj1 (int_div_agree z (a + b - z) ltac:(apply int_small; lia) ltac:(apply int_small; lia))). reflexivity.
  - unfold n_min. destruct (n_ltb (NInt b) (NInt a)).
    + rewrite (proj1 (int_div_agree z b ltac:(apply int_small; lia) ltac:(apply int_small; lia))). reflexivity.
    + rewrite (proj1 (int_div_agree z a ltac:(apply int_small; lia) ltac:(apply int_small; lia))). reflexivity.
  - rewrite (proj1 (int_div_agree (z * 2) (a + b) ltac:(apply int_small; lia) ltac:(apply int_small; lia))). reflexivity.
  - assert (AB : (Z.abs (a * b) <= 2 ^ 1023)%Z) by (rewrite Z.abs_mul; clear - Ha Hb P2; nia).
    destruct (int_div_agree z (a * b) ltac:(apply int_small; lia) ltac:(apply int_small; exact AB)) as [-> G].
    destruct (n_div lib (NInt z) (NInt (a * b))) as [q|e]; cbn [bind]; [|reflexivity]. specialize (G q eq_refl). destruct (q_ltb 0 q) eqn:L; [|reflexivity].
    apply q_ltb_true in L. rewrite Qabs_pos in G by lra. rewrite (agree_log _ _ AG) by (split; assumption). reflexivity.
Qed.

Lemma intersections_NoDup n1 d : intersections_of lib m g wattr n1 = Ok d -> NoDup (dkeys d).
Proof.
  unfold intersections_of. apply (foldM_inv (fun _ d => NoDup (dkeys d))); [constructor|].
  intros done [t a] todo st st' _ N. apply (foldM_inv (fun _ d => NoDup (dkeys d))); [exact N|].
  intros done' [s b] todo' d1 d2 _ N1. cbv zeta. cbn [fst snd]. destruct (key_eqb s n1); [intros E; inversion E; subst; exact N1|].
  destruct (key_gt n1 s) as [[]|e]; cbn [bind]; [intros E; inversion E; subst; exact N1| |discriminate].
  unfold intersect. destruct (intersection_weight lib m _ _); cbn [bind]; [|discriminate]. intros E. inversion E; subst. apply NoDup_dset, N1.
Qed.
Lemma project_agree thr norms h n1 : norms_ok g m norms -> project_node lib' m g wattr thr norms h n1 = project_node lib m g wattr thr norms h n1.
Proof.
  intros N. unfold project_node. destruct (dget n1 norms) as [x1|] eqn:E1; [|reflexivity].
  destruct (intersections_agree n1) as [-> G]. destruct (intersections_of lib m g wattr n1) as [d|e] eqn:D; cbn [bind]; [|reflexivity]. specialize (G d eq_refl).
  replace (metric_neighbors lib' m norms x1 d) with (metric_neighbors lib m norms x1 d); [reflexivity|]. symmetry.
  unfold metric_neighbors. apply mapM_same. intros [t x] I. cbn [fst snd]. destruct (dget t norms) as [x2|] eqn:E2; [|reflexivity].
  destruct (G t x) as [K B]; [apply dget_In; [apply (intersections_NoDup n1), D|exact I]|].
  rewrite (metric_agree x x1 x2 K B (N _ _ E1) (N _ _ E2)). reflexivity.
Qed.
End Agree.

Lemma projection_agree lib lib' g p attr wattr name chk thr : (forall x, m_round lib x = round64 x) -> (forall x, m_sqrt lib x = sqrt64 x) -> agree lib lib' ->
  WF g -> (Z.of_nat (order g) < 2 ^ 53)%Z ->
  (forall m, instantiate_online_metric name = Ok m -> (weighted m = true -> weights_below 200 wattr g) /\ (m = Cosine -> weights_above 200 wattr g)) ->
  monopartite_projection lib' g p attr wattr name chk thr = monopartite_projection lib g p attr wattr name chk thr.
Proof.
  intros R64 S64 AG W OR H. unfold monopartite_projection. destruct (instantiate_online_metric name) as [m|e]; cbn [bind]; [|reflexivity].
  destruct (H m eq_refl) as [WB WA]. destruct (check_threshold thr) as [t|e]; cbn [bind]; [|reflexivity]. destruct (Nat.eqb (order g) 0); [reflexivity|].
  destruct (norms_agree lib lib' R64 S64 AG g wattr m W OR WB WA p attr chk (g_nodes g) ([], empty_graph false false, false)) as [-> G]; [intros k x X; discriminate X|].
  destruct (foldM _ (g_nodes g) _) as [[[norms h] ex]|e]; cbn [bind]; [|reflexivity]. specialize (G _ eq_refl). cbn [fst] in G. destruct ex; [|reflexivity].
  apply (foldM_same (fun _ => True)); auto. intros s a _ _. eapply project_agree; eassumption.
Qed.
