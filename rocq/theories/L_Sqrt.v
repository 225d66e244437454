(** * Proofs about square roots of floats *)
From Coq Require Import ZArith Lia QArith Qround Lqa.
From Verif Require Import PyBase PyNum S_Num L_Num.
Local Open Scope Q_scope.

(** ** relative error of the rounding *)

(** 2^-1022, the smallest normal number, is 2^52 units *)
Lemma roundp_normal x : inject_Z (2 ^ 52) * unit_of 0 <= x ->
  x * (1 - (1 # 9007199254740992)) <= roundp x /\ roundp x <= x * (1 + (1 # 9007199254740992)).
Proof.
  intros H. pose proof (unit_pos 0 ltac:(lia)) as U0. change (inject_Z (2 ^ 52)) with 4503599627370496 in H.
  assert (P : 0 <= x) by (revert H U0; generalize (unit_of 0); intros u H U0; lra).
  assert (L : 4503599627370496 * unit_of (scale x) <= x).
  { destruct (Z.eq_dec (scale x) 0) as [->|S]; [exact H|]. pose proof (scale_pos x).
    pose proof (scaled_lower x P ltac:(lia)) as L. exact L. }
  destruct (roundp_error x P) as [E1 E2]. revert L E1 E2. generalize (unit_of (scale x)) (roundp x). intros u r L E1 E2. split; lra.
Qed.

Lemma normal_one x : 1 <= x -> inject_Z (2 ^ 52) * unit_of 0 <= x.
Proof. intros H. apply Qle_trans with 1; [vm_compute; discriminate|exact H]. Qed.

Lemma round64_normal x : inject_Z (2 ^ 52) * unit_of 0 <= x ->
  x * (1 - (1 # 9007199254740992)) <= round64 x /\ round64 x <= x * (1 + (1 # 9007199254740992)).
Proof.
  intros H. destruct (roundp_normal x H) as [A B]. pose proof (unit_pos 0 ltac:(lia)) as U0. change (inject_Z (2 ^ 52)) with 4503599627370496 in H.
  assert (P : 0 <= x) by (revert H U0; generalize (unit_of 0); intros u H U0; lra).
  rewrite (round64_nonneg x P). split; assumption.
Qed.

(** ** magnitude only depends on the number *)
Lemma magnitude_proper x y : 0 < x -> x == y -> magnitude x = magnitude y.
Proof.
  intros P E. assert (Py : 0 < y) by lra.
  assert (G : forall a b, 0 < a -> 0 < b -> a == b -> (magnitude a <= magnitude b)%Z).
  { intros a b Pa Pb Eab. destruct (Z.le_gt_cases (magnitude a) (magnitude b)) as [H|H]; [exact H|exfalso].
    set (j := Z.max 0 (Z.max (- magnitude a) (- magnitude b))).
    destruct (magnitude_spec a Pa j ltac:(lia)) as [A _]. destruct (magnitude_spec b Pb j ltac:(lia)) as [_ B].
    specialize (A ltac:(lia)). specialize (B ltac:(lia)).
    assert (C : inject_Z (2 ^ (j + magnitude b + 1)) <= inject_Z (2 ^ (j + magnitude a))).
    { apply inject_le. apply Z.pow_le_mono_r; lia. }
    revert A B C. generalize (inject_Z (2 ^ (j + magnitude b + 1))) (inject_Z (2 ^ (j + magnitude a))) (inject_Z (2 ^ j)).
    intros p q r A B C. rewrite Eab in A. lra. }
  apply Z.le_antisymm; apply G; auto; try lra.
Qed.

(** ** sqrt64 *)
Lemma round64_eqv x y : x == y -> round64 x == round64 y.
Proof. apply (rnd_eq _ round64_rounding). Qed.

Lemma sqrt64_proper x y : x == y -> sqrt64 x == sqrt64 y.
Proof.
  intros E. unfold sqrt64. destruct (q_ltb 0 x) eqn:L.
  - apply q_ltb_true in L. assert (L' : q_ltb 0 y = true) by (apply q_ltb_true; lra). rewrite L'. cbv zeta.
    rewrite <- (magnitude_proper x y L E). set (j := Z.max 0 (128 - magnitude x / 2)).
    assert (EX : x * inject_Z (2 ^ (2 * j)) == y * inject_Z (2 ^ (2 * j))) by (rewrite E; reflexivity).
    rewrite <- (Qfloor_comp _ _ EX). set (s := Z.sqrt _).
    assert (EB : q_eqb (inject_Z (s * s)) (x * inject_Z (2 ^ (2 * j))) = q_eqb (inject_Z (s * s)) (y * inject_Z (2 ^ (2 * j)))).
    { apply Bool.eq_iff_eq_true. rewrite !Qeq_bool_iff, EX. reflexivity. }
    rewrite EB. reflexivity.
  - apply q_ltb_false in L. assert (L' : q_ltb 0 y = false) by (apply q_ltb_false; lra). rewrite L'. reflexivity.
Qed.

(** the number which is rounded *)
Lemma sqrt64_before x : 0 < x -> exists y, sqrt64 x == round64 y /\ 0 < y
  /\ y * y <= x * (1 + (1 # 170141183460469231731687303715884105728)) /\ x * (1 - (1 # 340282366920938463463374607431768211456)) <= y * y
  /\ (1 <= x -> 1 <= y).
Proof.
  intros P. unfold sqrt64. rewrite (proj2 (q_ltb_true 0 x) P). cbv zeta. set (e := magnitude x).
  set (j := Z.max 0 (128 - e / 2)). assert (Hj : (0 <= j)%Z) by (unfold j; lia).
  set (X := x * inject_Z (2 ^ (2 * j))). destruct (floor_spec X) as [F1 F2]. set (n := Qfloor X) in *.
  assert (E2 : (2 * (e / 2) <= e)%Z) by (pose proof (Z.mul_div_le e 2 ltac:(lia)); lia).
  assert (N : (2 ^ 256 <= n)%Z).
  { destruct (magnitude_spec x P (2 * j) ltac:(lia)) as [A _]. fold e in A. specialize (A ltac:(unfold j; lia)).
    assert (Y : (2 ^ 256 <= 2 ^ (2 * j + e))%Z) by (apply Z.pow_le_mono_r; unfold j; lia).
    apply inject_le in Y. assert (inject_Z (2 ^ 256) <= X) by (eapply Qle_trans; [exact Y|exact A]).
    rewrite <- (Qfloor_Z (2 ^ 256)). apply floor_mono. assumption. }
  pose proof (Z.sqrt_spec n ltac:(lia)) as S. unfold Z.succ in S. cbv zeta in S. set (s := Z.sqrt n) in *.
  assert (HS : (2 ^ 128 <= s)%Z).
  { unfold s. change (2 ^ 128)%Z with (Z.sqrt (2 ^ 256)). apply Z.sqrt_le_mono. exact N. }
  assert (PJ : 0 < inject_Z (2 ^ j)) by (apply pow2_pos; exact Hj).
  assert (DJ : inject_Z (2 ^ (2 * j)) == inject_Z (2 ^ j) * inject_Z (2 ^ j)).
  { rewrite <- inject_Z_mult, <- Z.pow_add_r by lia. replace (j + j)%Z with (2 * j)%Z by lia. reflexivity. }
  assert (XE : X == x * (inject_Z (2 ^ j) * inject_Z (2 ^ j))) by (unfold X; rewrite DJ; reflexivity).
  assert (S1 : inject_Z s * inject_Z s <= X).
  { rewrite <- inject_Z_mult. eapply Qle_trans; [apply inject_le; apply S|exact F1]. }
  assert (S2 : X <= (inject_Z s + 1) * (inject_Z s + 1)).
  { apply Qlt_le_weak. eapply Qlt_le_trans; [exact F2|]. change 1 with (inject_Z 1). rewrite <- !inject_Z_plus, <- inject_Z_mult. apply inject_le. lia. }
  assert (HQ : inject_Z (2 ^ 128) <= inject_Z s) by (apply inject_le; exact HS).
  assert (ONE : 1 <= x -> inject_Z (2 ^ j) <= inject_Z s).
  { intros H1. apply inject_le. unfold s. rewrite <- (Z.sqrt_square (2 ^ j)) by (apply Z.pow_nonneg; lia). apply Z.sqrt_le_mono.
    unfold n. rewrite <- (Qfloor_Z (2 ^ j * 2 ^ j)). apply floor_mono. rewrite XE, inject_Z_mult. revert PJ. generalize (inject_Z (2 ^ j)). intros p PJ. nra. }
  change (inject_Z (2 ^ 128)) with 340282366920938463463374607431768211456 in HQ.
  destruct (q_eqb (inject_Z (s * s)) X) eqn:EQ.
  - apply Qeq_bool_iff in EQ. rewrite inject_Z_mult in EQ. exists (inject_Z s / inject_Z (2 ^ j)). split; [reflexivity|].
    revert PJ XE S1 HQ ONE EQ. generalize (inject_Z s) (inject_Z (2 ^ j)). intros q p PJ XE S1 HQ ONE EQ.
    assert (PS : 0 < q) by lra.
    assert (Y : q / p * (q / p) == x) by (assert (Z : q / p * (q / p) == q * q / (p * p)) by (field; lra); rewrite Z, EQ, XE; field; lra).
    rewrite Y. split; [apply Qlt_shift_div_l; lra|]. split; [lra|]. split; [lra|]. intros H1. apply Qle_shift_div_l; [exact PJ|]. specialize (ONE H1). lra.
  - exists (inject_Z (2 * s + 1) / inject_Z (2 ^ (j + 1))). split; [reflexivity|].
    assert (YE : inject_Z (2 * s + 1) / inject_Z (2 ^ (j + 1)) == (inject_Z s + (1 # 2)) / inject_Z (2 ^ j)).
    { rewrite Z.pow_add_r by lia. rewrite inject_Z_plus, !inject_Z_mult. change (inject_Z (2 ^ 1)) with 2. change (inject_Z 2) with 2. change (inject_Z 1) with 1. field. lra. }
    rewrite YE. clear YE. revert PJ XE S1 S2 HQ ONE. generalize (inject_Z s) (inject_Z (2 ^ j)). intros q p PJ XE S1 S2 HQ ONE.
    assert (PP : 0 < p * p) by (apply Qmult_lt_0_compat; assumption).
    assert (Y : (q + (1 # 2)) / p * ((q + (1 # 2)) / p) == (q + (1 # 2)) * (q + (1 # 2)) / (p * p)) by (field; lra).
    rewrite Y. split; [apply Qlt_shift_div_l; lra|]. split; [|split].
    + apply Qle_shift_div_r; [exact PP|]. assert (Z : x * (1 + (1 # 170141183460469231731687303715884105728)) * (p * p) == X * (1 + (1 # 170141183460469231731687303715884105728))) by (rewrite XE; ring). rewrite Z. clear Z.
      assert (q * 2 <= q * q * (1 # 170141183460469231731687303715884105728)) by nra. nra.
    + apply Qle_shift_div_l; [exact PP|]. assert (Z : x * (1 - (1 # 340282366920938463463374607431768211456)) * (p * p) == X * (1 - (1 # 340282366920938463463374607431768211456))) by (rewrite XE; ring). rewrite Z. clear Z.
      assert ((q + 1) <= (q + 1) * (q + 1) * (1 # 340282366920938463463374607431768211456)) by nra. nra.
    + intros H1. apply Qle_shift_div_l; [exact PJ|]. specialize (ONE H1). lra.
Qed.

(** [unit_of 0], the smallest positive float, is 2^-1074 *)
Lemma sqrt64_error x : unit_of 0 <= x -> 0 < sqrt64 x
  /\ x * (1 - (1 # 9007199254740992)) * (1 - (1 # 9007199254740992)) * (1 - (1 # 340282366920938463463374607431768211456)) <= sqrt64 x * sqrt64 x
  /\ sqrt64 x * sqrt64 x <= x * (1 + (1 # 9007199254740992)) * (1 + (1 # 9007199254740992)) * (1 + (1 # 170141183460469231731687303715884105728)).
Proof.
  intros H. pose proof (unit_pos 0 ltac:(lia)) as U0. assert (P : 0 < x) by (eapply Qlt_le_trans; eassumption).
  destruct (sqrt64_before x P) as (y & E & Py & Y1 & Y2 & _).
  assert (N : inject_Z (2 ^ 52) * unit_of 0 <= y).
  { destruct (Qlt_le_dec y (inject_Z (2 ^ 52) * unit_of 0)) as [C|C]; [exfalso|exact C].
    assert (Z : inject_Z (2 ^ 52) * unit_of 0 * (inject_Z (2 ^ 52) * unit_of 0) <= unit_of 0 * (1 # 2)) by (vm_compute; discriminate).
    revert C Z H U0. generalize (inject_Z (2 ^ 52) * unit_of 0) (unit_of 0). intros t u C Z H U0. assert (y * y <= t * t) by nra. nra. }
  destruct (round64_normal y N) as [A B]. rewrite E. revert A B. generalize (round64 y). intros r A B.
  assert (R0 : 0 < r) by lra. split; [exact R0|].
  set (c := 1 - (1 # 9007199254740992)) in *. set (e := 1 + (1 # 9007199254740992)) in *.
  assert (C0 : 0 < c) by (vm_compute; reflexivity). assert (E0 : 0 < e) by (vm_compute; reflexivity).
  assert (C1 : 0 < y * c) by (apply Qmult_lt_0_compat; assumption). assert (CC : 0 < c * c) by (apply Qmult_lt_0_compat; assumption).
  assert (EE : 0 < e * e) by (apply Qmult_lt_0_compat; assumption).
  split.
  - apply Qle_trans with ((y * c) * (y * c)); [|apply Qmult_le_compat_nonneg; split; lra].
    revert CC Y2. generalize (1 - (1 # 340282366920938463463374607431768211456)). intros d CC Y2.
    assert (Z1 : x * c * c * d == (c * c) * (x * d)) by ring. assert (Z2 : y * c * (y * c) == (c * c) * (y * y)) by ring. rewrite Z1, Z2.
    apply Qmult_le_l; assumption.
  - apply Qle_trans with ((y * e) * (y * e)); [apply Qmult_le_compat_nonneg; split; lra|].
    revert EE Y1. generalize (1 + (1 # 170141183460469231731687303715884105728)). intros d EE Y1.
    assert (Z1 : x * e * e * d == (e * e) * (x * d)) by ring. assert (Z2 : y * e * (y * e) == (e * e) * (y * y)) by ring. rewrite Z1, Z2.
    apply Qmult_le_l; assumption.
Qed.

Lemma float_least x : representable round64 x -> 0 < x -> unit_of 0 <= x.
Proof.
  intros R P. destruct (float_grid x R) as (z & Z). pose proof (unit_times 0 ltac:(lia)) as U. change (2 ^ 0)%Z with 1%Z in U.
  pose proof (pow2_pos 1074 ltac:(lia)) as Q. revert Z U Q. generalize (inject_Z (2 ^ 1074)) (unit_of 0). intros p u Z U Q.
  assert (P1 : 0 < inject_Z z) by (rewrite <- Z; apply Qmult_lt_0_compat; assumption).
  assert (1 <= inject_Z z).
  { change 0 with (inject_Z 0) in P1. rewrite <- Zlt_Qlt in P1. change 1 with (inject_Z 1). rewrite <- Zle_Qle. lia. }
  change (inject_Z 1) with 1 in U. apply (Qmult_le_r _ _ p Q). rewrite U, Z. assumption.
Qed.

Lemma sqrt64_one x : 1 <= x -> 1 <= sqrt64 x.
Proof.
  intros H. destruct (sqrt64_before x ltac:(lra)) as (y & E & _ & _ & _ & Y). rewrite E, <- (rnd_1 _ round64_rounding).
  apply (rnd_le _ round64_rounding), Y, H.
Qed.

Definition near_one : Q := 1 + (3 # 4503599627370496).

(** cosines can be slightly above 1 *)
Lemma cosine64 s a b : 1 <= s -> 1 <= a -> 1 <= b -> s * s <= a * b ->
  round64 (round64 s / round64 (sqrt64 (round64 a) * sqrt64 (round64 b))) <= near_one.
Proof.
  intros Hs Ha Hb H. pose proof round64_rounding as R.
  assert (G : forall x, 1 <= x -> 1 <= round64 x) by (intros x Hx; rewrite <- (rnd_1 _ R); apply (rnd_le _ R); exact Hx).
  assert (U : forall x, 1 <= x -> unit_of 0 <= x) by (intros x Hx; apply Qle_trans with 1; [vm_compute; discriminate|exact Hx]).
  destruct (sqrt64_error _ (U _ (G a Ha))) as (_ & A & _). destruct (sqrt64_error _ (U _ (G b Hb))) as (_ & B & _).
  pose proof (sqrt64_one _ (G a Ha)) as A1. pose proof (sqrt64_one _ (G b Hb)) as B1.
  destruct (round64_normal a (normal_one a Ha)) as [A2 _]. destruct (round64_normal b (normal_one b Hb)) as [B2 _].
  destruct (round64_normal s (normal_one s Hs)) as [_ S2].
  revert A B A1 B1 A2 B2. generalize (round64 a) (round64 b). intros a' b'. generalize (sqrt64 a') (sqrt64 b'). intros p q A B A1 B1 A2 B2.
  assert (PQ : 1 <= p * q) by (clear - A1 B1; nra). destruct (round64_normal _ (normal_one _ PQ)) as [D _]. pose proof (G _ PQ) as D1.
  revert S2 D D1. generalize (round64 s) (round64 (p * q)). intros s' d S2 D D1.
  apply Qle_trans with (round64 (1 + (501 # 900719925474099200))); [|vm_compute; discriminate].
  apply (rnd_le _ R). apply Qle_shift_div_r; [lra|].
  set (c := 1 - (1 # 9007199254740992)) in *. assert (C0 : 0 < c) by (vm_compute; reflexivity).
  set (k := 1 - (1 # 340282366920938463463374607431768211456)) in *. assert (K0 : 0 < k) by (vm_compute; reflexivity).
  assert (CK : 0 < c * c * k) by (repeat apply Qmult_lt_0_compat; assumption).
  assert (A3 : a * c * (c * c * k) <= p * p).
  { eapply Qle_trans; [|exact A]. assert (Z : a' * c * c * k == a' * (c * c * k)) by ring. rewrite Z. apply Qmult_le_r; assumption. }
  assert (B3 : b * c * (c * c * k) <= q * q).
  { eapply Qle_trans; [|exact B]. assert (Z : b' * c * c * k == b' * (c * c * k)) by ring. rewrite Z. apply Qmult_le_r; assumption. }
  set (w := c * (c * c * k)). assert (W0 : 0 < w) by (apply Qmult_lt_0_compat; assumption).
  assert (A4 : a * w <= p * p) by (unfold w; rewrite Qmult_assoc; exact A3). assert (B4 : b * w <= q * q) by (unfold w; rewrite Qmult_assoc; exact B3).
  assert (AW : 0 < a * w) by (apply Qmult_lt_0_compat; lra). assert (BW : 0 < b * w) by (apply Qmult_lt_0_compat; lra).
  assert (SQ : (s * w) * (s * w) <= (p * q) * (p * q)).
  { assert (Z1 : s * w * (s * w) == (w * w) * (s * s)) by ring. assert (Z2 : p * q * (p * q) == (p * p) * (q * q)) by ring.
    rewrite Z1, Z2. apply Qle_trans with ((a * w) * (b * w)); [|apply Qmult_le_compat_nonneg; split; lra].
    assert (Z3 : a * w * (b * w) == (w * w) * (a * b)) by ring. rewrite Z3. apply Qmult_le_l; [apply Qmult_lt_0_compat; assumption|exact H]. }
  assert (SW : s * w <= p * q).
  { destruct (Qlt_le_dec (p * q) (s * w)) as [C|C]; [exfalso|exact C]. nra. }
  assert (D2 : s * w * c <= d) by (eapply Qle_trans; [|exact D]; apply Qmult_le_r; assumption).
  eapply Qle_trans; [exact S2|]. apply Qle_trans with ((1 + (501 # 900719925474099200)) * (s * w * c)); [|apply Qmult_le_l; [reflexivity|exact D2]].
  assert (Z : (1 + (501 # 900719925474099200)) * (s * w * c) == s * ((1 + (501 # 900719925474099200)) * (w * c))) by ring. rewrite Z.
  apply Qmult_le_l; [lra|]. vm_compute. discriminate.
Qed.

Lemma round64_pos x : unit_of 0 <= x -> 0 < round64 x.
Proof.
  intros H. pose proof round64_rounding as R. apply Qlt_le_trans with (unit_of 0); [apply unit_pos; lia|].
  assert (E : round64 (unit_of 0) == unit_of 0) by (vm_compute; reflexivity). rewrite <- E. apply (rnd_le _ R). exact H.
Qed.

(** nor do they vanish *)
Lemma cosine64_pos s a b : 1 <= s -> 1 <= a <= inject_Z (2 ^ 530) -> 1 <= b <= inject_Z (2 ^ 530) ->
  0 < round64 (round64 s / round64 (sqrt64 (round64 a) * sqrt64 (round64 b))).
Proof.
  intros Hs [Ha Ha'] [Hb Hb']. pose proof round64_rounding as R.
  assert (G : forall x, 1 <= x -> 1 <= round64 x) by (intros x Hx; rewrite <- (rnd_1 _ R); apply (rnd_le _ R); exact Hx).
  assert (U : forall x, 1 <= x -> unit_of 0 <= x) by (intros x Hx; apply Qle_trans with 1; [vm_compute; discriminate|exact Hx]).
  assert (B : forall x, 1 <= x <= inject_Z (2 ^ 530) -> 1 <= sqrt64 (round64 x) <= inject_Z (2 ^ 532)).
  { intros x [X1 X2]. split; [apply sqrt64_one, G, X1|].
    assert (X3 : round64 x <= inject_Z (2 ^ 530)).
    { assert (E : round64 (inject_Z (2 ^ 530)) == inject_Z (2 ^ 530)) by (vm_compute; reflexivity). rewrite <- E. apply (rnd_le _ R). exact X2. }
    destruct (sqrt64_error _ (U _ (G x X1))) as (P & _ & X4). revert P X3 X4. generalize (G x X1). generalize (round64 x). intros y Y1. generalize (sqrt64 y). intros p P X3 X4.
    assert (X5 : p * p <= 4 * y).
    { eapply Qle_trans; [exact X4|]. assert (Z : forall e d, y * (1 + e) * (1 + e) * (1 + d) == y * ((1 + e) * (1 + e) * (1 + d))) by (intros; ring).
      rewrite Z, (Qmult_comm 4). apply Qmult_le_l; [lra|]. vm_compute. discriminate. }
    assert (K : 4 * inject_Z (2 ^ 530) <= inject_Z (2 ^ 532) * inject_Z (2 ^ 532)) by (vm_compute; discriminate).
    assert (K0 : 0 < inject_Z (2 ^ 532)) by (vm_compute; reflexivity).
    revert K K0 X3. generalize (inject_Z (2 ^ 532)) (inject_Z (2 ^ 530)). intros t w K K0 X3. clear - P X5 X3 K K0.
    destruct (Qlt_le_dec t p) as [C|C]; [exfalso|exact C]. nra. }
  destruct (B a (conj Ha Ha')) as [A1 A2]. destruct (B b (conj Hb Hb')) as [B1 B2]. revert A1 A2 B1 B2.
  generalize (sqrt64 (round64 a)) (sqrt64 (round64 b)). intros p q A1 A2 B1 B2. clear Ha Ha' Hb Hb' B.
  assert (PQ : 1 <= p * q) by (clear - A1 B1; nra).
  assert (PQ' : p * q <= inject_Z (2 ^ 1064)).
  { assert (K : inject_Z (2 ^ 1064) == inject_Z (2 ^ 532) * inject_Z (2 ^ 532)) by (vm_compute; reflexivity). rewrite K. apply Qmult_le_compat_nonneg; split; lra. }
  assert (D : round64 (p * q) <= inject_Z (2 ^ 1064)).
  { assert (E : round64 (inject_Z (2 ^ 1064)) == inject_Z (2 ^ 1064)) by (vm_compute; reflexivity). rewrite <- E. apply (rnd_le _ R). exact PQ'. }
  pose proof (G _ PQ) as D1. pose proof (G _ Hs) as S1. apply round64_pos. revert D D1 S1. generalize (round64 s) (round64 (p * q)). intros s' d D D1 S1.
  apply Qle_shift_div_l; [lra|]. apply Qle_trans with 1; [|exact S1].
  apply Qle_trans with (unit_of 0 * inject_Z (2 ^ 1064)); [apply Qmult_le_l; [apply unit_pos; lia|exact D]|vm_compute; discriminate].
Qed.
