(** * Lemmas on Python's arithmetic *)
From Coq Require Import ZArith QArith Qround Qpower Lia Lqa Bool.
From Verif Require Import PyBase PyNum S_Num.
Close Scope Q_scope.
Local Open Scope Q_scope.

(** ** integers in Q *)
Lemma inject_le a b : (a <= b)%Z -> inject_Z a <= inject_Z b.
Proof. intros H. rewrite <- Zle_Qle. exact H. Qed.

Lemma inject_lt a b : (a < b)%Z -> inject_Z a < inject_Z b.
Proof. intros H. rewrite <- Zlt_Qlt. exact H. Qed.

Lemma floor_spec x : inject_Z (Qfloor x) <= x /\ x < inject_Z (Qfloor x) + 1.
Proof.
  split; [apply Qfloor_le|]. pose proof (Qlt_floor x) as H. rewrite inject_Z_plus in H. exact H.
Qed.

Lemma floor_unique x z : inject_Z z <= x -> x < inject_Z z + 1 -> Qfloor x = z.
Proof.
  intros H1 H2. pose proof (floor_spec x) as [H3 H4].
  assert (z < Qfloor x + 1)%Z by (rewrite Zlt_Qlt, inject_Z_plus; change (inject_Z 1) with 1; lra).
  assert (Qfloor x < z + 1)%Z by (rewrite Zlt_Qlt, inject_Z_plus; change (inject_Z 1) with 1; lra).
  lia.
Qed.

Lemma floor_mono x y : x <= y -> (Qfloor x <= Qfloor y)%Z.
Proof. apply Qfloor_resp_le. Qed.

(** ** nearest *)
Lemma nearest_bounds x : (Qfloor x <= nearest x <= Qfloor x + 1)%Z.
Proof. unfold nearest. destruct (_ ?= _)%Q; [destruct (Z.even (Qfloor x))| |]; lia. Qed.

Lemma nearest_mono x y : x <= y -> (nearest x <= nearest y)%Z.
Proof.
  intros H. pose proof (floor_mono x y H) as F. pose proof (nearest_bounds x). pose proof (nearest_bounds y).
  destruct (Z.eq_dec (Qfloor x) (Qfloor y)) as [E|E]; [|lia].
  unfold nearest. rewrite E. set (f := Qfloor y) in *. clearbody f.
  destruct (Qcompare_spec (x - inject_Z f) (1 # 2));
    destruct (Qcompare_spec (y - inject_Z f) (1 # 2)); try (destruct (Z.even f)); try lia; exfalso; lra.
Qed.

Lemma nearest_proper x y : x == y -> nearest x = nearest y.
Proof. intros H. apply Z.le_antisymm; apply nearest_mono; lra. Qed.

Lemma nearest_int x z : x == inject_Z z -> nearest x = z.
Proof.
  intros H. rewrite (nearest_proper _ _ H). unfold nearest. rewrite Qfloor_Z.
  destruct (Qcompare_spec (inject_Z z - inject_Z z) (1 # 2)); [exfalso; lra|reflexivity|exfalso; lra].
Qed.

Lemma nearest_error x : inject_Z (nearest x) - x <= 1 # 2 /\ x - inject_Z (nearest x) <= 1 # 2.
Proof.
  pose proof (floor_spec x). unfold nearest.
  destruct (Qcompare_spec (x - inject_Z (Qfloor x)) (1 # 2)); [destruct (Z.even (Qfloor x))| |];
    rewrite ?inject_Z_plus; change (inject_Z 1) with 1; lra.
Qed.

(** ** the unit in the last place *)
Lemma pow2_pos k : (0 <= k)%Z -> 0 < inject_Z (2 ^ k).
Proof. intros H. change 0 with (inject_Z 0). apply inject_lt. apply Z.pow_pos_nonneg; lia. Qed.

Lemma unit_eq k : (0 <= k)%Z -> unit_of k == inject_Z (2 ^ k) / inject_Z (2 ^ 1074).
Proof.
  intros H. unfold unit_of. destruct (Z.ltb_spec k 1074) as [L|L].
  - assert (E : (2 ^ 1074 = 2 ^ k * 2 ^ (1074 - k))%Z) by (rewrite <- Z.pow_add_r by lia; f_equal; lia).
    rewrite E, inject_Z_mult. pose proof (pow2_pos k H) as P1. pose proof (pow2_pos (1074 - k) ltac:(lia)) as P2.
    assert (D : 1 # Z.to_pos (2 ^ (1074 - k)) == / inject_Z (2 ^ (1074 - k))).
    { pose proof (Z.pow_pos_nonneg 2 (1074 - k) ltac:(lia) ltac:(lia)) as P. destruct (2 ^ (1074 - k))%Z; try lia. reflexivity. }
    rewrite D. revert P1 P2. generalize (inject_Z (2 ^ k)) (inject_Z (2 ^ (1074 - k))). intros a b P1 P2. field. lra.
  - assert (E : (2 ^ k = 2 ^ (k - 1074) * 2 ^ 1074)%Z) by (rewrite <- Z.pow_add_r by lia; f_equal; lia).
    rewrite E, inject_Z_mult. pose proof (pow2_pos 1074 ltac:(lia)) as P1. revert P1.
    generalize (inject_Z (2 ^ 1074)) (inject_Z (2 ^ (k - 1074))). intros a b P1. field. lra.
Qed.

Lemma unit_pos k : (0 <= k)%Z -> 0 < unit_of k.
Proof.
  intros H. rewrite (unit_eq k H). pose proof (pow2_pos k H). pose proof (pow2_pos 1074 ltac:(lia)).
  apply Qlt_shift_div_l; [assumption|]. lra.
Qed.

Lemma unit_times k : (0 <= k)%Z -> unit_of k * inject_Z (2 ^ 1074) == inject_Z (2 ^ k).
Proof.
  intros Hk. rewrite (unit_eq k Hk). pose proof (pow2_pos 1074 ltac:(lia)) as H. revert H. generalize (inject_Z (2 ^ 1074)) (inject_Z (2 ^ k)).
  intros b q H. field. lra.
Qed.

Lemma unit_add j k : (0 <= j)%Z -> (0 <= k)%Z -> unit_of (j + k) == inject_Z (2 ^ j) * unit_of k.
Proof.
  intros Hj Hk. rewrite !unit_eq by lia. rewrite Z.pow_add_r by assumption. rewrite inject_Z_mult.
  generalize (inject_Z (2 ^ 1074)) (inject_Z (2 ^ k)) (inject_Z (2 ^ j)). intros b q r. unfold Qdiv. ring.
Qed.

Lemma magnitude_spec x : 0 < x -> forall j, (0 <= j)%Z ->
  ((0 <= j + magnitude x)%Z -> inject_Z (2 ^ (j + magnitude x)) <= x * inject_Z (2 ^ j))
  /\ ((0 <= j + magnitude x + 1)%Z -> x * inject_Z (2 ^ j) < inject_Z (2 ^ (j + magnitude x + 1))).
Proof.
  intros P j Hj. assert (Hn : (0 < Qnum x)%Z) by (unfold Qlt in P; cbn in P; lia).
  assert (G : forall a, (inject_Z a <= x * inject_Z (2 ^ j) <-> (a * Zpos (Qden x) <= Qnum x * 2 ^ j)%Z)
    /\ (x * inject_Z (2 ^ j) < inject_Z a <-> (Qnum x * 2 ^ j < a * Zpos (Qden x))%Z)).
  { intros a. unfold Qle, Qlt. cbn [Qnum Qden Qmult inject_Z]. rewrite Pos2Z.inj_mul. split; lia. }
  set (m := magnitude x). rewrite (proj1 (G _)), (proj2 (G _)). clear G. unfold magnitude in m.
  set (n := Qnum x) in *. set (d := Zpos (Qden x)) in *. assert (Hd : (0 < d)%Z) by reflexivity. clearbody n d.
  destruct (Z.log2_spec n Hn) as [N1 N2], (Z.log2_spec d Hd) as [D1 D2]. pose proof (Z.log2_nonneg n). pose proof (Z.log2_nonneg d).
  set (a := Z.log2 n) in *. set (b := Z.log2 d) in *. clearbody a b. set (e := (a - b)%Z) in *. assert (e = a - b)%Z by reflexivity. clearbody e.
  pose proof (Z.pow_pos_nonneg 2 j ltac:(lia) Hj) as PJ.
  assert (T : (if (if (e <? 0)%Z then (d <=? n * 2 ^ (- e))%Z else (2 ^ e * d <=? n)%Z)
     then forall j, 0 <= j -> 0 <= j + e -> 2 ^ (j + e) * d <= n * 2 ^ j
     else forall j, 0 <= j -> 0 <= j + e -> n * 2 ^ j < 2 ^ (j + e) * d)%Z).
  { destruct (Z.ltb_spec e 0) as [L|L].
    - destruct (Z.leb_spec d (n * 2 ^ (- e))) as [M|M]; intros i Hi Hie; pose proof (Z.pow_pos_nonneg 2 (i + e) ltac:(lia) Hie);
        replace (2 ^ i)%Z with (2 ^ (i + e) * 2 ^ (- e))%Z by (rewrite <- Z.pow_add_r by lia; f_equal; lia); nia.
    - destruct (Z.leb_spec (2 ^ e * d) n) as [M|M]; intros i Hi Hie; pose proof (Z.pow_pos_nonneg 2 i ltac:(lia) Hi);
        rewrite Z.pow_add_r by lia; nia. }
  unfold Z.succ in *. destruct (if (e <? 0)%Z then (d <=? n * 2 ^ (- e))%Z else (2 ^ e * d <=? n)%Z); subst m; split; intros Hm.
  - apply T; assumption.
  - pose proof (Z.pow_pos_nonneg 2 (j + e + 1) ltac:(lia) Hm).
    assert (E : (2 ^ (j + e + 1) * 2 ^ b = 2 ^ (a + 1) * 2 ^ j)%Z) by (rewrite <- !Z.pow_add_r by lia; f_equal; lia). nia.
  - pose proof (Z.pow_pos_nonneg 2 (j + (e - 1)) ltac:(lia) Hm).
    assert (E : (2 ^ (j + (e - 1)) * 2 ^ (b + 1) = 2 ^ a * 2 ^ j)%Z) by (rewrite <- !Z.pow_add_r by lia; f_equal; lia). nia.
  - replace (j + (e - 1) + 1)%Z with (j + e)%Z in * by lia. apply T; assumption.
Qed.

Lemma q_ltb_true x y : q_ltb x y = true <-> x < y.
Proof.
  unfold q_ltb. rewrite negb_true_iff. split.
  - intros H. apply Qnot_le_lt. intros L. apply Qle_bool_iff in L. congruence.
  - intros H. destruct (Qle_bool y x) eqn:E; [|reflexivity]. apply Qle_bool_iff in E. lra.
Qed.

Lemma q_ltb_false x y : q_ltb x y = false <-> y <= x.
Proof. unfold q_ltb. rewrite negb_false_iff. apply Qle_bool_iff. Qed.

Lemma scale_pos x : (0 <= scale x)%Z.
Proof. unfold scale. destruct (q_ltb 0 x); lia. Qed.

Lemma scale_eq x : 0 <= x -> scale x = Z.max 0 (Z.log2 (Qfloor (x * inject_Z (2 ^ 1074))) - 52).
Proof.
  intros H. unfold scale. destruct (q_ltb 0 x) eqn:P.
  - apply q_ltb_true in P. set (m := magnitude x). pose proof (magnitude_spec x P) as MS. fold m in MS. clearbody m.
    pose proof (floor_spec (x * inject_Z (2 ^ 1074))) as [F1 F2]. destruct (Z.le_gt_cases 0 (1074 + m)) as [M|M].
    + destruct (MS 1074%Z ltac:(lia)) as [L U]. specialize (L M). specialize (U ltac:(lia)). revert L U F1 F2. generalize (x * inject_Z (2 ^ 1074)). intros y L U F1 F2.
      assert (E : Z.log2 (Qfloor y) = (1074 + m)%Z).
      { apply Z.log2_unique; [assumption|]. unfold Z.succ. split.
        - assert (I : inject_Z (2 ^ (1074 + m)) < inject_Z (Qfloor y + 1)) by (rewrite inject_Z_plus; change (inject_Z 1) with 1; lra).
          rewrite <- Zlt_Qlt in I. lia.
        - apply (Qle_lt_trans _ _ _ F1) in U. rewrite <- Zlt_Qlt in U. exact U. }
      rewrite E. lia.
    + destruct (MS (- m - 1)%Z ltac:(lia)) as [_ U]. specialize (U ltac:(lia)). replace (- m - 1 + m + 1)%Z with 0%Z in U by lia. change (inject_Z (2 ^ 0)) with (inject_Z 1) in U.
      assert (G : x * inject_Z (2 ^ 1074) <= x * inject_Z (2 ^ (- m - 1))).
      { rewrite (Qmult_comm x), (Qmult_comm x). apply Qmult_le_compat_r; [|assumption]. apply inject_le. apply Z.pow_le_mono_r; lia. }
      pose proof (Qle_lt_trans _ _ _ (Qle_trans _ _ _ F1 G) U) as K.
      rewrite <- Zlt_Qlt in K. rewrite Z.log2_nonpos by lia. lia.
  - apply q_ltb_false in P. assert (E : x * inject_Z (2 ^ 1074) == inject_Z 0) by (assert (E : x == 0) by lra; rewrite E; reflexivity).
    assert (F : (Qfloor (x * inject_Z (2 ^ 1074)) <= 0)%Z) by (rewrite <- (Qfloor_Z 0); apply floor_mono; rewrite E; apply Qle_refl).
    rewrite Z.log2_nonpos by assumption. lia.
Qed.

Lemma scale_mono x y : 0 <= x -> x <= y -> (scale x <= scale y)%Z.
Proof.
  intros H0 H. rewrite !scale_eq by lra. pose proof (pow2_pos 1074 ltac:(lia)) as B. revert B.
  generalize (inject_Z (2 ^ 1074)). intros b B.
  assert (F : (Qfloor (x * b) <= Qfloor (y * b))%Z) by (apply floor_mono; nra).
  pose proof (Z.log2_le_mono _ _ F). lia.
Qed.

(** at most 53 bits *)
Lemma scaled_upper x : 0 <= x -> x <= inject_Z (2 ^ 53) * unit_of (scale x).
Proof.
  intros H0. pose proof (scale_pos x) as SP.
  assert (E : inject_Z (2 ^ 53) * unit_of (scale x) * inject_Z (2 ^ 1074) == inject_Z (2 ^ (53 + scale x))).
  { rewrite <- Qmult_assoc, unit_times by lia. rewrite Z.pow_add_r by lia. rewrite inject_Z_mult. reflexivity. }
  pose proof (pow2_pos 1074 ltac:(lia)) as B.
  apply (Qmult_le_r _ _ _ B). rewrite E.
  assert (L : (Qfloor (x * inject_Z (2 ^ 1074)) < 2 ^ (53 + scale x))%Z).
  { rewrite (scale_eq x H0). set (q := Qfloor (x * inject_Z (2 ^ 1074))). clearbody q.
    destruct (Z.le_gt_cases q 0) as [Hq|Hq].
    - apply Z.le_lt_trans with 0%Z; [assumption|]. apply Z.pow_pos_nonneg; lia.
    - destruct (Z.log2_spec q Hq) as [_ L]. apply Z.lt_le_trans with (1 := L). apply Z.pow_le_mono_r; lia. }
  pose proof (floor_spec (x * inject_Z (2 ^ 1074))) as [_ F].
  apply Qlt_le_weak, (Qlt_le_trans _ _ _ F).
  change 1 with (inject_Z 1). rewrite <- inject_Z_plus. apply inject_le. lia.
Qed.

(** and 53 bits except for the smallest numbers *)
Lemma scaled_lower x : 0 <= x -> (0 < scale x)%Z -> inject_Z (2 ^ 52) * unit_of (scale x) <= x.
Proof.
  intros H0 SP.
  assert (E : inject_Z (2 ^ 52) * unit_of (scale x) * inject_Z (2 ^ 1074) == inject_Z (2 ^ (52 + scale x))).
  { rewrite <- Qmult_assoc, unit_times by lia. rewrite Z.pow_add_r by lia. rewrite inject_Z_mult. reflexivity. }
  pose proof (pow2_pos 1074 ltac:(lia)) as B.
  apply (Qmult_le_r _ _ _ B). rewrite E.
  pose proof (floor_spec (x * inject_Z (2 ^ 1074))) as [F _]. apply Qle_trans with (2 := F).
  apply inject_le. revert SP. rewrite (scale_eq x H0). set (q := Qfloor (x * inject_Z (2 ^ 1074))). clearbody q. intros SP.
  assert (0 < q)%Z. { destruct (Z.le_gt_cases q 0) as [Hq|Hq]; [|assumption]. rewrite (Z.log2_nonpos q Hq) in SP. lia. }
  destruct (Z.log2_spec q H) as [L _]. apply Z.le_trans with (2 := L). apply Z.pow_le_mono_r; lia.
Qed.

(** ** round64 *)
Definition roundp (x : Q) : Q := inject_Z (nearest (x / unit_of (scale x))) * unit_of (scale x).

Lemma roundp_mono x y : 0 <= x -> x <= y -> roundp x <= roundp y.
Proof.
  intros H0 H. assert (H0' : 0 <= y) by lra. pose proof (scale_mono x y H0 H) as S.
  pose proof (scale_pos x) as SX. pose proof (scale_pos y) as SY.
  unfold roundp. pose proof (unit_pos _ SX) as UX. pose proof (unit_pos _ SY) as UY.
  destruct (Z.eq_dec (scale x) (scale y)) as [E|E].
  - rewrite E in *. apply Qmult_le_compat_r; [|lra]. apply inject_le, nearest_mono.
    apply Qle_shift_div_l; [exact UY|]. rewrite Qmult_comm, Qmult_div_r by lra. exact H.
  - apply Qle_trans with (inject_Z (2 ^ 53) * unit_of (scale x)); [|apply Qle_trans with (inject_Z (2 ^ 52) * unit_of (scale y))].
    + apply Qmult_le_compat_r; [|lra]. apply inject_le.
      rewrite <- (nearest_int (inject_Z (2 ^ 53)) (2 ^ 53)) by reflexivity. apply nearest_mono.
      apply Qle_shift_div_r; [exact UX|]. apply scaled_upper. exact H0.
    + replace (scale y) with ((scale y - scale x - 1) + (1 + scale x))%Z by lia.
      rewrite !unit_add by lia.
      assert (1 <= inject_Z (2 ^ (scale y - scale x - 1))).
      { change 1 with (inject_Z 1). apply inject_le. change 1%Z with (2 ^ 0)%Z at 1. apply Z.pow_le_mono_r; lia. }
      revert H1 UX. generalize (inject_Z (2 ^ (scale y - scale x - 1))) (unit_of (scale x)). intros a u Ha Hu.
      change (inject_Z (2 ^ 53)) with (inject_Z (2 ^ 52) * 2). change (inject_Z (2 ^ 1)) with 2.
      assert (0 < inject_Z (2 ^ 52)) by reflexivity. revert H1. generalize (inject_Z (2 ^ 52)). intros c Hc.
      assert (u <= a * u) by nra. nra.
    + apply Qmult_le_compat_r; [|lra]. apply inject_le.
      rewrite <- (nearest_int (inject_Z (2 ^ 52)) (2 ^ 52)) at 1 by reflexivity. apply nearest_mono.
      apply Qle_shift_div_l; [exact UY|]. apply scaled_lower; [exact H0'|lia].
Qed.

Lemma roundp_nonneg x : 0 <= x -> 0 <= roundp x.
Proof.
  intros H. unfold roundp. pose proof (unit_pos _ (scale_pos x)) as U.
  assert (0 <= inject_Z (nearest (x / unit_of (scale x)))).
  { change 0 with (inject_Z 0). apply inject_le. rewrite <- (nearest_int 0 0) by reflexivity. apply nearest_mono.
    apply Qle_shift_div_l; [exact U|lra]. }
  nra.
Qed.

Lemma roundp_proper x y : 0 <= x -> x == y -> roundp x == roundp y.
Proof. intros H E. apply Qle_antisym; apply roundp_mono; lra. Qed.

(** the multiples of a unit up to 2^53 are floats *)
Lemma roundp_float m k : (0 <= m <= 2 ^ 53)%Z -> (0 <= k)%Z -> roundp (inject_Z m * unit_of k) == inject_Z m * unit_of k.
Proof.
  intros Hm Hk.
  assert (Hlt : forall m k, (0 <= m < 2 ^ 53)%Z -> (0 <= k)%Z -> roundp (inject_Z m * unit_of k) == inject_Z m * unit_of k).
  { clear. intros m k Hm Hk. set (x := inject_Z m * unit_of k).
    assert (S : (scale x <= k)%Z).
    { assert (X0 : 0 <= x) by (unfold x; apply Qmult_le_0_compat; [change 0 with (inject_Z 0); apply inject_le; lia|apply Qlt_le_weak, unit_pos, Hk]).
      rewrite (scale_eq x X0).
      assert (E : Qfloor (x * inject_Z (2 ^ 1074)) = (m * 2 ^ k)%Z).
      { rewrite <- (Qfloor_Z (m * 2 ^ k)). apply Qfloor_comp. unfold x. rewrite <- Qmult_assoc, unit_times, <- inject_Z_mult by assumption. reflexivity. }
      rewrite E.
      destruct (Z.eq_dec m 0) as [->|Hm0]; [cbn; lia|].
      rewrite Z.log2_mul_pow2 by lia. assert (Z.log2 m < 53)%Z by (apply Z.log2_lt_pow2; lia). lia. }
    pose proof (scale_pos x) as SP. unfold roundp. pose proof (unit_pos _ SP) as U.
    rewrite (nearest_int _ (m * 2 ^ (k - scale x))).
    - unfold x at 3. replace k with ((k - scale x) + scale x)%Z at 2 by lia. rewrite unit_add by lia. rewrite inject_Z_mult. ring.
    - unfold x at 1. replace k with ((k - scale x) + scale x)%Z at 1 by lia. rewrite unit_add by lia. rewrite inject_Z_mult.
      field. lra. }
  destruct (Z.eq_dec m (2 ^ 53)) as [->|]; [|apply Hlt; lia].
  assert (E : inject_Z (2 ^ 53) * unit_of k == inject_Z (2 ^ 52) * unit_of (1 + k)).
  { rewrite unit_add by lia. change (inject_Z (2 ^ 53)) with (inject_Z (2 ^ 52) * inject_Z (2 ^ 1)). ring. }
  assert (P : 0 <= inject_Z (2 ^ 53) * unit_of k).
  { apply Qmult_le_0_compat; apply Qlt_le_weak; [apply pow2_pos; lia|apply unit_pos; exact Hk]. }
  rewrite (roundp_proper _ _ P E), E.
  apply Hlt; lia.
Qed.

Lemma roundp_roundp x : 0 <= x -> roundp (roundp x) == roundp x.
Proof.
  intros H. unfold roundp at 2 3. pose proof (scale_pos x) as SP. pose proof (unit_pos _ SP) as U.
  apply roundp_float; [|exact SP]. split.
  - rewrite <- (nearest_int 0 0) by reflexivity. apply nearest_mono. apply Qle_shift_div_l; [exact U|lra].
  - rewrite <- (nearest_int (inject_Z (2 ^ 53)) (2 ^ 53)) by reflexivity. apply nearest_mono.
    apply Qle_shift_div_r; [exact U|]. apply scaled_upper. exact H.
Qed.

Lemma round64_eq x : round64 x == if q_ltb x 0 then - roundp (- x) else roundp x.
Proof. unfold round64, roundp. destruct (q_ltb x 0); rewrite Qred_correct; reflexivity. Qed.

Theorem round64_rounding : rounding round64.
Proof.
  split.
  - intros x y H. rewrite !round64_eq. destruct (q_ltb x 0) eqn:X, (q_ltb y 0) eqn:Y;
      try rewrite q_ltb_true in *; try rewrite q_ltb_false in *.
    + apply Qopp_le_compat, roundp_mono; lra.
    + pose proof (roundp_nonneg (- x) ltac:(lra)). pose proof (roundp_nonneg y ltac:(lra)). lra.
    + exfalso; lra.
    + apply roundp_mono; lra.
  - intros x. pose proof (round64_eq x) as E. rewrite (round64_eq (round64 x)). set (r := round64 x) in *. clearbody r.
    destruct (q_ltb r 0) eqn:R; try rewrite q_ltb_true in R; try rewrite q_ltb_false in R;
      destruct (q_ltb x 0) eqn:X; try rewrite q_ltb_true in X; try rewrite q_ltb_false in X.
    + rewrite (roundp_proper (- r) (roundp (- x))) by lra. rewrite roundp_roundp by lra. lra.
    + pose proof (roundp_nonneg x X). exfalso; lra.
    + pose proof (roundp_nonneg (- x) ltac:(lra)).
      rewrite (roundp_proper r 0) by lra. setoid_replace r with 0 by lra. reflexivity.
    + rewrite (roundp_proper r (roundp x)) by lra. rewrite roundp_roundp by lra. lra.
  - reflexivity.
  - vm_compute. reflexivity.
Qed.

(** the rounding error: half a unit *)
(** floats are multiples of 2^-1074 *)
Lemma round64_grid x : exists z, round64 x * inject_Z (2 ^ 1074) == inject_Z z.
Proof.
  assert (H : forall y, exists z, roundp y * inject_Z (2 ^ 1074) == inject_Z z).
  { intros y. exists (nearest (y / unit_of (scale y)) * 2 ^ scale y)%Z. unfold roundp. rewrite inject_Z_mult, <- (unit_times (scale y)) by apply scale_pos. ring. }
  pose proof (round64_eq x) as R. destruct (q_ltb x 0).
  - destruct (H (- x)) as (z & E). exists (- z)%Z. rewrite R, inject_Z_opp, <- E. ring.
  - destruct (H x) as (z & E). exists z. rewrite R. exact E.
Qed.

Lemma roundp_error x : 0 <= x -> roundp x - x <= (1 # 2) * unit_of (scale x) /\ x - roundp x <= (1 # 2) * unit_of (scale x).
Proof.
  intros H. unfold roundp. set (u := unit_of (scale x)). assert (U : 0 < u) by (apply unit_pos, scale_pos).
  pose proof (nearest_error (x / u)) as [E1 E2]. set (n := inject_Z (nearest (x / u))) in *. clearbody n.
  assert (X : x == x / u * u) by (field; lra). set (y := x / u) in *. clearbody y. split; nra.
Qed.

(** the relative error is at most 2^-53 on multiples of 2^-1074 *)
Lemma roundp_relative x z : 0 <= x -> x * inject_Z (2 ^ 1074) == inject_Z z -> x - roundp x <= x * (1 # 9007199254740992).
Proof.
  intros H E. pose proof (unit_pos _ (scale_pos x)) as U. destruct (Z.eq_dec (scale x) 0) as [S|S].
  - assert (X : x == inject_Z z * unit_of 0).
    { rewrite <- E, (unit_eq 0) by lia. change (inject_Z (2 ^ 0)) with 1. pose proof (pow2_pos 1074 ltac:(lia)) as B. revert B.
      generalize (inject_Z (2 ^ 1074)). intros b B. field. lra. }
    pose proof (scaled_upper x H) as L. rewrite S in L. pose proof (unit_pos 0 ltac:(lia)) as U0.
    assert (Z0 : (0 <= z)%Z). { rewrite Zle_Qle. change (inject_Z 0) with 0. rewrite <- E. pose proof (pow2_pos 1074 ltac:(lia)). apply Qmult_le_0_compat; lra. }
    assert (Z1 : (z <= 2 ^ 53)%Z). { rewrite Zle_Qle. apply (Qmult_le_r _ _ (unit_of 0) U0). rewrite <- X. exact L. }
    assert (R : roundp x == x). { rewrite (roundp_proper x _ H X), X. apply roundp_float; lia. }
    rewrite R. lra.
  - pose proof (scale_pos x). pose proof (scaled_lower x H ltac:(lia)) as L. pose proof (roundp_error x H) as [_ R].
    change (inject_Z (2 ^ 52)) with 4503599627370496 in L. set (u := unit_of (scale x)) in *. clearbody u. lra.
Qed.

Lemma round64_nonneg x : 0 <= x -> round64 x == roundp x.
Proof. intros H. pose proof (round64_eq x) as E. destruct (q_ltb x 0) eqn:L; [apply q_ltb_true in L; lra|exact E]. Qed.

(** adding a number which is not too small changes the float *)
Lemma round64_progress t r a b : 0 <= t -> 0 < r -> t * inject_Z (2 ^ 1074) == inject_Z a -> r * inject_Z (2 ^ 1074) == inject_Z b ->
  t < r * 9007199254740991 -> t < round64 (t + r).
Proof.
  intros H P Ea Eb L. assert (E : (t + r) * inject_Z (2 ^ 1074) == inject_Z (a + b)) by (rewrite inject_Z_plus, <- Ea, <- Eb; ring).
  pose proof (roundp_relative (t + r) _ ltac:(lra) E) as R. rewrite round64_nonneg by lra. lra.
Qed.

Lemma float_grid x : representable round64 x -> exists z, x * inject_Z (2 ^ 1074) == inject_Z z.
Proof. unfold representable. intros H. destruct (round64_grid x) as (z & E). exists z. rewrite H in E. exact E. Qed.

(** ** numbers under a sound rounding *)
Lemma rnd_eq rnd : rounding rnd -> forall x y, x == y -> rnd x == rnd y.
Proof. intros R x y E. apply Qle_antisym; apply (rnd_le _ R); lra. Qed.

Lemma identity_rounding : rounding (fun x => x).
Proof. split; intros; lra || reflexivity. Qed.

Lemma qpower_succ x n : x ^ Z.of_nat (S n) == x * x ^ Z.of_nat n.
Proof. replace (Z.of_nat (S n)) with (1 + Z.of_nat n)%Z by lia. rewrite Qpower_plus' by lia. rewrite Qpower_1_r. lra. Qed.

Lemma qpower_range x n : 0 <= x <= 1 -> (0 <= n)%Z -> 0 <= x ^ n <= 1.
Proof.
  intros H Hn. rewrite <- (Z2Nat.id n Hn). generalize (Z.to_nat n). intros k. induction k as [|k IH].
  - cbn. lra.
  - rewrite qpower_succ. set (y := x ^ Z.of_nat k) in *. clearbody y. split; nra.
Qed.

Lemma exact_sound lib : exact lib -> sound lib.
Proof.
  intros [E P]. split.
  - split; intros; rewrite ?E; try assumption; reflexivity.
  - split; [intros x n H Hn; rewrite P; apply qpower_range; assumption|].
    intros x y n H. rewrite !P, H. reflexivity.
Qed.

Lemma lib64_sound : sound lib64.
Proof.
  split; [exact round64_rounding|]. split; [|intros x y n H; apply (rnd_eq _ round64_rounding); rewrite H; reflexivity].
  intros x n H Hn. cbn [m_pow lib64]. pose proof (qpower_range x n H Hn) as [L U].
  pose proof (rnd_0 _ round64_rounding) as Z0. pose proof (rnd_1 _ round64_rounding) as Z1.
  pose proof (rnd_le _ round64_rounding _ _ L). pose proof (rnd_le _ round64_rounding _ _ U). lra.
Qed.

Lemma value_number v q : num_of v = Some q <-> exists n, pynum_of v = Some n /\ value n = q.
Proof.
  destruct v as [|[|]|x|[z|z|z]]; cbn; split; intros H; try discriminate; try (destruct H as (n & H & _); discriminate);
    try (inversion H; subst; eexists; split; reflexivity); destruct H as (n & H & <-); inversion H; subst; reflexivity.
Qed.

Section Rounded.
  Context (lib : libm) (R : rounding (m_round lib)).

  Definition num_ok (n : pynum) : Prop := match n with NInt _ => True | NFloat q => representable (m_round lib) q end.

  Lemma to_float_ok n : num_ok n -> to_float lib n == m_round lib (value n).
  Proof. destruct n; cbn; intros H; [reflexivity|]. unfold representable in H. lra. Qed.

  Lemma to_float_rnd n : num_ok n -> m_round lib (to_float lib n) == to_float lib n.
  Proof. intros H. rewrite (rnd_eq _ R _ _ (to_float_ok n H)), (to_float_ok n H). apply (rnd_rnd _ R). Qed.

  Lemma n_add_ok a b : num_ok (n_add lib a b).
  Proof. destruct a, b; cbn; try exact I; apply (rnd_rnd _ R). Qed.

  Lemma to_float_nonneg n : num_ok n -> 0 <= value n -> 0 <= to_float lib n.
  Proof. intros O H. rewrite to_float_ok by exact O. pose proof (rnd_le _ R _ _ H). pose proof (rnd_0 _ R). lra. Qed.

  Lemma to_float_pos n : 0 < value n -> 0 < to_float lib n.
  Proof.
    destruct n as [z|q]; cbn; [|auto]. intros H. change 0 with (inject_Z 0) in H. rewrite <- Zlt_Qlt in H.
    assert (L : 1 <= inject_Z z) by (change 1 with (inject_Z 1); apply inject_le; lia).
    pose proof (rnd_le _ R _ _ L). pose proof (rnd_1 _ R). lra.
  Qed.

  Lemma to_float_pos_inv n : 0 < to_float lib n -> 0 < value n.
  Proof.
    destruct n as [z|q]; cbn; [|auto]. intros H. apply Qnot_le_lt. intros L.
    pose proof (rnd_le _ R _ _ L). pose proof (rnd_0 _ R). lra.
  Qed.

  Lemma add_nonneg a b : num_ok a -> num_ok b -> 0 <= value a -> 0 <= value b -> 0 <= value (n_add lib a b).
  Proof.
    intros Oa Ob Ha Hb. pose proof (to_float_nonneg a Oa Ha). pose proof (to_float_nonneg b Ob Hb).
    assert (X : 0 <= m_round lib (to_float lib a + to_float lib b)).
    { rewrite <- (rnd_0 _ R). apply (rnd_le _ R). lra. }
    destruct a, b; cbn in *; try exact X. rewrite inject_Z_plus. lra.
  Qed.

  Lemma float_add_l a b : num_ok a -> num_ok b -> 0 <= value b -> to_float lib a <= to_float lib (n_add lib a b).
  Proof.
    intros Oa Ob Hb. pose proof (to_float_nonneg b Ob Hb).
    assert (X : to_float lib a <= m_round lib (to_float lib a + to_float lib b)).
    { rewrite <- (to_float_rnd a Oa) at 1. apply (rnd_le _ R). lra. }
    destruct a, b; cbn in *; try exact X. apply (rnd_le _ R). rewrite inject_Z_plus. lra.
  Qed.

  Lemma float_add_r a b : num_ok a -> num_ok b -> 0 <= value a -> to_float lib b <= to_float lib (n_add lib a b).
  Proof.
    intros Oa Ob Ha. pose proof (to_float_nonneg a Oa Ha).
    assert (X : to_float lib b <= m_round lib (to_float lib a + to_float lib b)).
    { rewrite <- (to_float_rnd b Ob) at 1. apply (rnd_le _ R). lra. }
    destruct a, b; cbn in *; try exact X. apply (rnd_le _ R). rewrite inject_Z_plus. lra.
  Qed.

  (** [w] is at most [s], as far as the division [w / s] is concerned *)
  Definition under (w s : pynum) : Prop :=
    to_float lib w <= to_float lib s /\ match w, s with NInt a, NInt b => (a <= b)%Z | _, _ => True end.

  Lemma under_add w a b : num_ok a -> num_ok b -> 0 <= value b -> under w a -> under w (n_add lib a b).
  Proof.
    intros Oa Ob Hb [U1 U2]. split; [pose proof (float_add_l a b Oa Ob Hb); lra|].
    destruct w, a, b; cbn in *; try exact I. change 0 with (inject_Z 0) in Hb. rewrite <- Zle_Qle in Hb. lia.
  Qed.

  Lemma under_added a b : num_ok a -> num_ok b -> 0 <= value a -> under b (n_add lib a b).
  Proof.
    intros Oa Ob Ha. split; [apply float_add_r; assumption|].
    destruct a, b; cbn in *; try exact I. change 0 with (inject_Z 0) in Ha. rewrite <- Zle_Qle in Ha. lia.
  Qed.

  Lemma under_pos w s : 0 < value w -> under w s -> 0 < value s.
  Proof. intros H [U _]. apply to_float_pos_inv. pose proof (to_float_pos w H). lra. Qed.

  Lemma q_eqb_positive x : 0 < x -> q_eqb x 0 = false.
  Proof. intros H. destruct (q_eqb x 0) eqn:E; [|reflexivity]. apply Qeq_bool_iff in E. lra. Qed.

  Lemma div_range w s : 0 < value w -> under w s -> exists q, n_div lib w s = Ok q /\ 0 <= q <= 1.
  Proof.
    intros H U. pose proof (under_pos w s H U) as HS. unfold n_div. rewrite (q_eqb_positive _ HS).
    eexists. split; [reflexivity|]. destruct U as [U1 U2].
    pose proof (to_float_pos w H) as FW. pose proof (to_float_pos s HS) as FS.
    assert (X : forall x, 0 <= x <= 1 -> 0 <= m_round lib x <= 1).
    { intros x [L1 L2]. pose proof (rnd_le _ R _ _ L1). pose proof (rnd_le _ R _ _ L2). pose proof (rnd_0 _ R). pose proof (rnd_1 _ R). lra. }
    apply X. assert (Y : 0 <= to_float lib w / to_float lib s <= 1).
    { split; [apply Qle_shift_div_l; [exact FS|lra]|apply Qle_shift_div_r; [exact FS|lra]]. }
    destruct w as [a|], s as [b|]; try exact Y. cbn in H, HS. apply inject_le in U2.
    split; [apply Qle_shift_div_l; [exact HS|lra]|apply Qle_shift_div_r; [exact HS|lra]].
  Qed.
End Rounded.

(** under exact arithmetic everything is what one expects *)
Section Exact.
  Context (lib : libm) (E : exact lib).

  Lemma exact_round x : m_round lib x = x.
  Proof. apply E. Qed.

  Lemma to_float_value n : to_float lib n = value n.
  Proof. destruct n; cbn; [apply exact_round|reflexivity]. Qed.

  Lemma value_add a b : value (n_add lib a b) == value a + value b.
  Proof. destruct a, b; cbn; rewrite ?exact_round; try reflexivity. rewrite inject_Z_plus. reflexivity. Qed.

  Lemma value_sub a b : value (n_sub lib a b) == value a - value b.
  Proof.
    destruct a, b; cbn; rewrite ?exact_round; try reflexivity. unfold Qminus. rewrite <- inject_Z_opp, <- inject_Z_plus. reflexivity.
  Qed.

  Lemma value_mul a b : value (n_mul lib a b) == value a * value b.
  Proof. destruct a, b; cbn; rewrite ?exact_round; reflexivity. Qed.

  Lemma value_div a b q : n_div lib a b = Ok q -> q == value a / value b.
  Proof.
    unfold n_div. destruct (q_eqb (value b) 0); [discriminate|]. rewrite exact_round. intros H. inversion H; subst.
    destruct a, b; cbn; rewrite ?exact_round; reflexivity.
  Qed.
End Exact.
