(** * round64 and sqrt64 are those of IEEE 754 *)
From Coq Require Import ZArith Lia QArith Qround Qabs Qpower Lqa.
From Verif Require Import PyBase PyNum S_Num S_Ieee L_Num L_Sqrt.
Local Open Scope Q_scope.

Lemma power_nonneg e : (0 <= e)%Z -> inject_Z (2 ^ e) == 2 ^ e.
Proof. intros H. rewrite Zpower_Qpower by exact H. reflexivity. Qed.

Lemma power_pos e : 0 < 2 ^ e.
Proof. apply Qpower_0_lt. reflexivity. Qed.

Lemma power_add a b : 2 ^ (a + b) == 2 ^ a * 2 ^ b.
Proof. apply Qpower_plus. discriminate. Qed.

Lemma unit_power k : (0 <= k)%Z -> unit_of k == 2 ^ (k - 1074).
Proof.
  intros H. rewrite (unit_eq k H), power_nonneg, power_nonneg by lia. pose proof (power_add (k - 1074) 1074) as P. replace (k - 1074 + 1074)%Z with k in P by lia.
  rewrite P. pose proof (power_pos 1074) as Q. revert Q. generalize (2 ^ 1074) (2 ^ (k - 1074)). intros a b A. field. lra.
Qed.

Lemma float64_proper x y : x == y -> float64 x -> float64 y.
Proof. intros E (m & e & M & H & X). exists m, e. split; [exact M|]. split; [exact H|]. rewrite <- E. exact X. Qed.

Lemma float64_opp x : float64 x -> float64 (- x).
Proof. intros (m & e & M & H & X). exists (- m)%Z, e. split; [lia|]. split; [exact H|]. rewrite X, inject_Z_opp. ring. Qed.

Lemma float64_unit m k : (Z.abs m <= 2 ^ 53)%Z -> (0 <= k)%Z -> float64 (inject_Z m * unit_of k).
Proof.
  intros M H. destruct (Z.eq_dec (Z.abs m) (2 ^ 53)) as [E|E].
  - exists (m / 2)%Z, (k - 1073)%Z. assert (D : m = (2 * (m / 2))%Z) by (destruct (Z.abs_eq_or_opp m) as [A|A]; rewrite A in E; [rewrite E|assert (m = - 2 ^ 53)%Z by lia; subst m]; reflexivity).
    split; [lia|]. split; [lia|]. rewrite (unit_power k H). replace (k - 1073)%Z with (1 + (k - 1074))%Z by lia. rewrite power_add, D at 1. rewrite inject_Z_mult. change (inject_Z 2) with 2. change (2 ^ 1) with 2. ring.
  - exists m, (k - 1074)%Z. split; [lia|]. split; [lia|]. rewrite (unit_power k H). reflexivity.
Qed.

Lemma unit_float64 x : float64 x -> exists m k, (Z.abs m < 2 ^ 53)%Z /\ (0 <= k)%Z /\ x == inject_Z m * unit_of k.
Proof.
  intros (m & e & M & H & X). exists m, (e + 1074)%Z. split; [exact M|]. split; [lia|]. rewrite unit_power by lia. replace (e + 1074 - 1074)%Z with e by lia. exact X.
Qed.

(** ** positive numbers *)
Lemma mantissa_range x : 0 <= x -> (0 <= nearest (x / unit_of (scale x)) <= 2 ^ 53)%Z.
Proof.
  intros H. pose proof (unit_pos _ (scale_pos x)) as U. split.
  - rewrite <- (nearest_int 0 0) by reflexivity. apply nearest_mono. apply Qle_shift_div_l; [exact U|lra].
  - rewrite <- (nearest_int (inject_Z (2 ^ 53)) (2 ^ 53)) by reflexivity. apply nearest_mono.
    apply Qle_shift_div_r; [exact U|]. apply scaled_upper. exact H.
Qed.

Lemma roundp_float64 x : 0 <= x -> float64 (roundp x).
Proof. intros H. pose proof (mantissa_range x H). apply float64_unit; [lia|apply scale_pos]. Qed.

Lemma nearest_best x z : Qabs (inject_Z (nearest x) - x) <= Qabs (inject_Z z - x).
Proof.
  destruct (Z.eq_dec z (nearest x)) as [->|N]; [apply Qle_refl|].
  destruct (nearest_error x) as [A B]. apply Qle_trans with (1 # 2); [apply Qabs_Qle_condition; lra|].
  destruct (Z.lt_total z (nearest x)) as [L|[L|L]]; [|contradiction|].
  - assert (Z : inject_Z z + 1 <= inject_Z (nearest x)) by (change 1 with (inject_Z 1); rewrite <- inject_Z_plus; apply inject_le; lia).
    rewrite Qabs_Qminus. eapply Qle_trans; [|apply Qle_Qabs]. lra.
  - assert (Z : inject_Z (nearest x) + 1 <= inject_Z z) by (change 1 with (inject_Z 1); rewrite <- inject_Z_plus; apply inject_le; lia).
    eapply Qle_trans; [|apply Qle_Qabs]. lra.
Qed.

Lemma nearest_tie x z : Qabs (inject_Z (nearest x) - x) == Qabs (inject_Z z - x) -> z = nearest x \/ Z.even (nearest x) = true /\ (z = nearest x + 1 \/ z = nearest x - 1)%Z.
Proof.
  intros E. destruct (Z.eq_dec z (nearest x)) as [->|N]; [auto|right].
  assert (M : inject_Z (nearest x) + inject_Z z == 2 * x).
  { assert (D : inject_Z z - inject_Z (nearest x) < 0 \/ 0 < inject_Z z - inject_Z (nearest x)).
    { destruct (Z.lt_total z (nearest x)) as [L|[L|L]]; [left|contradiction|right]; apply inject_lt in L; lra. }
    revert E D. apply (Qabs_case (inject_Z (nearest x) - x)); intros ?; apply (Qabs_case (inject_Z z - x)); intros ? E [D|D]; lra. }
  destruct (nearest_error x) as [A B].
  assert (Z1 : (z - nearest x <= 1)%Z) by (rewrite Zle_Qle; unfold Z.sub; rewrite inject_Z_plus, inject_Z_opp; change (inject_Z 1) with 1; lra).
  assert (Z2 : (-1 <= z - nearest x)%Z) by (rewrite Zle_Qle; unfold Z.sub; rewrite inject_Z_plus, inject_Z_opp; change (inject_Z (-1)) with (- (1)); lra).
  split; [|lia].
  destruct (floor_spec x) as [F1 F2]. pose proof (nearest_bounds x) as NB.
  assert (HALF : x - inject_Z (Qfloor x) == 1 # 2).
  { assert (C : (nearest x = Qfloor x /\ z = nearest x + 1 \/ nearest x = Qfloor x + 1 /\ z = nearest x - 1 \/ nearest x = Qfloor x /\ z = nearest x - 1 \/ nearest x = Qfloor x + 1 /\ z = nearest x + 1)%Z) by lia.
    destruct C as [[C D]|[[C D]|[[C D]|[C D]]]]; rewrite D, C in M; unfold Z.sub in M; repeat rewrite inject_Z_plus in M; change (inject_Z (- (1))) with (- (1)) in M; change (inject_Z 1) with 1 in M; lra. }
  unfold nearest. apply Qeq_alt in HALF. rewrite HALF. destruct (Z.even (Qfloor x)) eqn:V; [exact V|]. rewrite Z.even_add, V. reflexivity.
Qed.

(** a float which is not a multiple of the unit is below all numbers of this scale *)
Lemma float64_split x f : 0 <= x -> float64 f -> (exists z, f == inject_Z z * unit_of (scale x)) \/ (0 < scale x)%Z /\ f < inject_Z (2 ^ 52) * unit_of (scale x).
Proof.
  intros H F. apply unit_float64 in F as (m & k & M & K & F). pose proof (scale_pos x) as SP. destruct (Z.le_gt_cases (scale x) k) as [L|L].
  - left. exists (m * 2 ^ (k - scale x))%Z. rewrite F. replace k with ((k - scale x) + scale x)%Z at 1 by lia. rewrite unit_add, inject_Z_mult by lia. ring.
  - right. split; [lia|]. rewrite F. replace (scale x) with ((scale x - k - 1) + (1 + k))%Z by lia. rewrite !unit_add by lia.
    pose proof (unit_pos k K) as U. change (inject_Z (2 ^ 1)) with 2.
    assert (A : 1 <= inject_Z (2 ^ (scale x - k - 1))) by (change 1 with (inject_Z (2 ^ 0)); apply inject_le, Z.pow_le_mono_r; lia).
    assert (B : inject_Z m < 2 * inject_Z (2 ^ 52)) by (change (2 * inject_Z (2 ^ 52)) with (inject_Z (2 ^ 53)); apply inject_lt; lia).
    revert A B U. generalize (inject_Z (2 ^ (scale x - k - 1))) (unit_of k) (inject_Z m). change (inject_Z (2 ^ 52)) with 4503599627370496. intros a u i A B U.
    apply Qlt_le_trans with (9007199254740992 * u); [apply Qmult_lt_r; [exact U|lra]|].
    assert (u <= a * u) by (clear - A U; nra). lra.
Qed.

Lemma scaled_abs u a b : 0 < u -> Qabs (a * u - b * u) == u * Qabs (a - b).
Proof. intros H. setoid_replace (a * u - b * u) with (u * (a - b)) by ring. rewrite Qabs_Qmult, (Qabs_pos u) by lra. reflexivity. Qed.

Lemma roundp_best x f : 0 <= x -> float64 f ->
  Qabs (roundp x - x) <= Qabs (f - x) /\ (Qabs (roundp x - x) == Qabs (f - x) -> roundp x == f \/ even_beside (roundp x) f).
Proof.
  intros H F. pose proof (scale_pos x) as SP. pose proof (unit_pos _ SP) as U. pose proof (mantissa_range x H) as MR.
  pose proof (unit_power _ SP) as UP. unfold roundp in *.
  assert (X : x == x / unit_of (scale x) * unit_of (scale x)) by (field; lra).
  set (y := x / unit_of (scale x)) in *.
  assert (G : forall z, Qabs (inject_Z z * unit_of (scale x) - x) == unit_of (scale x) * Qabs (inject_Z z - y)).
  { intros z. rewrite X at 2. apply scaled_abs. exact U. }
  destruct (float64_split x f H F) as [(z & Z)|[S L]].
  - assert (GF : Qabs (f - x) == unit_of (scale x) * Qabs (inject_Z z - y)) by (rewrite Z; apply G). pose proof (G (nearest y)) as GN. split.
    + rewrite GF, GN. apply Qmult_le_l; [exact U|]. apply nearest_best.
    + intros E. rewrite GF, GN in E. assert (E' : Qabs (inject_Z (nearest y) - y) == Qabs (inject_Z z - y)).
      { revert E U. generalize (unit_of (scale x)) (Qabs (inject_Z (nearest y) - y)) (Qabs (inject_Z z - y)). intros u a b E U.
        assert (~ u == 0) by lra. apply Qmult_inj_l in E; assumption. }
      destruct (nearest_tie y z E') as [->|[V W]]; [left; symmetry; exact Z|right].
      apply Z.even_spec in V as [m V]. exists m, (scale x - 1074)%Z. split; [lia|]. split; [lia|]. rewrite <- UP, <- V. split; [reflexivity|].
      destruct W as [-> | ->]; [left|right]; exact Z.
  - pose proof (scaled_lower x H S) as LO.
    assert (T : Qabs (inject_Z (2 ^ 52) * unit_of (scale x) - x) < Qabs (f - x)).
    { rewrite (Qabs_Qminus _ x), (Qabs_Qminus f). rewrite !Qabs_pos by lra. lra. }
    assert (W : Qabs (inject_Z (nearest y) * unit_of (scale x) - x) <= Qabs (inject_Z (2 ^ 52) * unit_of (scale x) - x)) by (rewrite !G; apply Qmult_le_l; [exact U|apply nearest_best]).
    split; [lra|]. intros E. exfalso. lra.
Qed.

(** ** all numbers *)
Lemma even_beside_opp r f : even_beside r f -> even_beside (- r) (- f).
Proof.
  intros (m & e & H & M & R & F). exists (- m)%Z, e. split; [exact H|]. split; [lia|]. split.
  - rewrite R. replace (2 * - m)%Z with (- (2 * m))%Z by lia. rewrite inject_Z_opp. ring.
  - destruct F as [F|F]; [right|left]; rewrite F; [replace (2 * - m - 1)%Z with (- (2 * m + 1))%Z by lia|replace (2 * - m + 1)%Z with (- (2 * m - 1))%Z by lia]; rewrite inject_Z_opp; ring.
Qed.

Lemma even_beside_proper r r' f f' : r == r' -> f == f' -> even_beside r f -> even_beside r' f'.
Proof. intros E1 E2 (m & e & H & M & R & F). exists m, e. rewrite <- E1, <- E2. auto. Qed.

Lemma round64_nearest x : rounds_to x (round64 x).
Proof.
  pose proof (round64_eq x) as E. destruct (q_ltb x 0) eqn:N.
  - apply q_ltb_true in N. assert (P : 0 <= - x) by lra. split.
    + apply (float64_proper (- roundp (- x))); [symmetry; exact E|]. apply float64_opp, roundp_float64. exact P.
    + intros f F. destruct (roundp_best (- x) (- f) P (float64_opp f F)) as [A B].
      assert (Q1 : Qabs (round64 x - x) == Qabs (roundp (- x) - - x)) by (rewrite E, <- Qabs_opp; apply Qabs_wd; ring).
      assert (Q2 : Qabs (f - x) == Qabs (- f - - x)) by (rewrite <- Qabs_opp; apply Qabs_wd; ring).
      rewrite Q1, Q2. split; [exact A|]. intros T. destruct (B T) as [C|C]; [left; rewrite E, C; ring|right].
      apply even_beside_opp in C. revert C. apply even_beside_proper; [symmetry; exact E|ring].
  - apply q_ltb_false in N. split.
    + apply (float64_proper (roundp x)); [symmetry; exact E|]. apply roundp_float64. exact N.
    + intros f F. destruct (roundp_best x f N F) as [A B].
      assert (Q1 : Qabs (round64 x - x) == Qabs (roundp x - x)) by (rewrite E; reflexivity). rewrite Q1. split; [exact A|].
      intros T. destruct (B T) as [C|C]; [left; rewrite E; exact C|right]. revert C. apply even_beside_proper; [symmetry; exact E|reflexivity].
Qed.

Lemma float64_representable x : representable round64 x <-> float64 x.
Proof.
  unfold representable. split.
  - intros E. apply (float64_proper _ _ E). apply round64_nearest.
  - intros F. destruct (round64_nearest x) as [_ B]. destruct (B x F) as [A _]. setoid_replace (x - x) with 0 in A by ring. change (Qabs 0) with 0 in A.
    apply Qabs_Qle_condition in A. lra.
Qed.

(** nothing else rounds so *)
Lemma even_beside_not r f : even_beside r f -> even_beside f r -> False.
Proof.
  intros (m & e & H & M & R & F) (m' & e' & H' & M' & R' & F').
  (* both exponents are the distance *)
  assert (G : forall a b c d n n', (a == inject_Z n * 2 ^ c) -> (b == inject_Z (n + 1) * 2 ^ c \/ b == inject_Z (n - 1) * 2 ^ c) ->
     (b == inject_Z n' * 2 ^ d) -> (a == inject_Z (n' + 1) * 2 ^ d \/ a == inject_Z (n' - 1) * 2 ^ d) -> (c < d)%Z -> False).
  { clear. intros a b c d n n' A B B' A' L. pose proof (power_pos c) as P.
    assert (E : Qabs (b - a) == 2 ^ c).
    { destruct B as [B|B]; rewrite A, B; unfold Z.sub; rewrite inject_Z_plus; change (inject_Z 1) with 1; change (inject_Z (- (1))) with (- (1)).
      - setoid_replace ((inject_Z n + 1) * 2 ^ c - inject_Z n * 2 ^ c) with (2 ^ c) by ring. apply Qabs_pos. lra.
      - setoid_replace ((inject_Z n + - (1)) * 2 ^ c - inject_Z n * 2 ^ c) with (- 2 ^ c) by ring. rewrite Qabs_opp. apply Qabs_pos. lra. }
    pose proof (power_pos d) as P'.
    assert (E' : Qabs (b - a) == 2 ^ d).
    { destruct A' as [A'|A']; rewrite A', B'; unfold Z.sub; rewrite inject_Z_plus; change (inject_Z 1) with 1; change (inject_Z (- (1))) with (- (1)).
      - setoid_replace (inject_Z n' * 2 ^ d - (inject_Z n' + 1) * 2 ^ d) with (- 2 ^ d) by ring. rewrite Qabs_opp. apply Qabs_pos. lra.
      - setoid_replace (inject_Z n' * 2 ^ d - (inject_Z n' + - (1)) * 2 ^ d) with (2 ^ d) by ring. apply Qabs_pos. lra. }
    assert (K : 2 ^ d == 2 ^ c * 2 ^ (d - c)) by (rewrite <- power_add; replace (c + (d - c))%Z with d by lia; reflexivity).
    assert (J : 2 <= 2 ^ (d - c)) by (rewrite <- power_nonneg by lia; change 2 with (inject_Z (2 ^ 1)); apply inject_le, Z.pow_le_mono_r; lia).
    rewrite E in E'. rewrite K in E'. nra. }
  assert (D : e = e').
  { destruct (Z.lt_total e e') as [L|[L|L]]; [exfalso|exact L|exfalso].
    - eapply (G r f e e' (2 * m)%Z (2 * m')%Z); eassumption.
    - eapply (G f r e' e (2 * m')%Z (2 * m)%Z); eassumption. }
  subst e'. pose proof (power_pos e) as P. rewrite R' in F.
  assert (I : forall a b, inject_Z a * 2 ^ e == inject_Z b * 2 ^ e -> a = b).
  { intros a b X. apply Qmult_inj_r in X; [|lra]. unfold Qeq in X. cbn in X. lia. }
  destruct F as [F|F]; apply I in F; lia.
Qed.

Lemma rounds_to_unique x r r' : rounds_to x r -> rounds_to x r' -> r == r'.
Proof.
  intros [F B] [F' B']. destruct (B r' F') as [L T]. destruct (B' r F) as [L' T'].
  assert (E : Qabs (r - x) == Qabs (r' - x)) by (apply Qle_antisym; assumption).
  destruct (T E) as [Q|Q]; [exact Q|]. destruct (T' (Qeq_sym _ _ E)) as [Q'|Q']; [symmetry; exact Q'|].
  exfalso. eapply even_beside_not; eassumption.
Qed.

(** ** the square root *)
Lemma sqrt64_cell x : 0 < x -> exists y s j, sqrt64 x == round64 y /\ (0 <= j)%Z /\ (128 - magnitude x / 2 <= j)%Z
  /\ (y * y == x /\ 0 <= y \/ y == (inject_Z s + (1 # 2)) / inject_Z (2 ^ j) /\ (0 <= s)%Z /\ inject_Z s * inject_Z s <= x * (inject_Z (2 ^ j) * inject_Z (2 ^ j)) <= (inject_Z s + 1) * (inject_Z s + 1)).
Proof.
  intros P. unfold sqrt64. rewrite (proj2 (q_ltb_true 0 x) P). cbv zeta. set (e := magnitude x).
  set (j := Z.max 0 (128 - e / 2)). assert (Hj : (0 <= j)%Z) by (unfold j; lia).
  assert (PJ : 0 < inject_Z (2 ^ j)) by (apply pow2_pos; exact Hj).
  assert (DJ : inject_Z (2 ^ (2 * j)) == inject_Z (2 ^ j) * inject_Z (2 ^ j)).
  { rewrite <- inject_Z_mult, <- Z.pow_add_r by lia. replace (j + j)%Z with (2 * j)%Z by lia. reflexivity. }
  set (X := x * inject_Z (2 ^ (2 * j))). destruct (floor_spec X) as [F1 F2]. set (n := Qfloor X) in *.
  assert (XE : X == x * (inject_Z (2 ^ j) * inject_Z (2 ^ j))) by (unfold X; rewrite DJ; reflexivity).
  assert (X0 : 0 <= X) by (rewrite XE; repeat apply Qmult_le_0_compat; lra).
  assert (N : (0 <= n)%Z) by (unfold n; change 0%Z with (Qfloor 0); apply floor_mono; exact X0).
  pose proof (Z.sqrt_spec n N) as S. pose proof (Z.sqrt_nonneg n) as S0. unfold Z.succ in S. cbv zeta in S. set (s := Z.sqrt n) in *.
  destruct (q_eqb (inject_Z (s * s)) X) eqn:EQ.
  - apply Qeq_bool_iff in EQ. rewrite inject_Z_mult in EQ. exists (inject_Z s / inject_Z (2 ^ j)), s, j. split; [reflexivity|]. split; [exact Hj|]. split; [unfold j; lia|]. left.
    split; [|apply Qle_shift_div_l; [exact PJ|]; apply inject_le in S0; change (inject_Z 0) with 0 in S0; lra].
    revert PJ XE EQ. generalize (inject_Z s) (inject_Z (2 ^ j)). intros q p PJ XE EQ.
    assert (Z : q / p * (q / p) == q * q / (p * p)) by (field; lra). rewrite Z, EQ, XE. field. lra.
  - exists (inject_Z (2 * s + 1) / inject_Z (2 ^ (j + 1))), s, j. split; [reflexivity|]. split; [exact Hj|]. split; [unfold j; lia|]. right. split; [|split; [exact S0|split]].
    + rewrite Z.pow_add_r by lia. rewrite inject_Z_plus, !inject_Z_mult. change (inject_Z (2 ^ 1)) with 2. change (inject_Z 2) with 2. change (inject_Z 1) with 1. field. lra.
    + rewrite <- XE. rewrite <- inject_Z_mult. eapply Qle_trans; [apply inject_le; apply S|exact F1].
    + rewrite <- XE. apply Qlt_le_weak. eapply Qlt_le_trans; [exact F2|]. change 1 with (inject_Z 1). rewrite <- !inject_Z_plus, <- inject_Z_mult. apply inject_le. lia.
Qed.

(** a float of at least 2^a is a multiple of 2^(a - 52) *)
Lemma float64_above f a j : float64 f -> 2 ^ a <= f -> (a + j - 52 >= 1)%Z -> exists z, f * 2 ^ j == inject_Z (2 * z).
Proof.
  intros (m & e & M & H & F) L J. set (k := (e + j - 1)%Z). exists (m * 2 ^ k)%Z.
  assert (G : (a - 52 <= e)%Z).
  { destruct (Z.le_gt_cases (a - 52) e) as [G|G]; [exact G|exfalso]. rewrite F in L.
    assert (B : inject_Z m <= inject_Z (2 ^ 53 - 1)) by (apply inject_le; lia).
    assert (E : 2 ^ a == inject_Z (2 ^ 53) * 2 ^ (a - 53)) by (rewrite power_nonneg, <- power_add by lia; replace (53 + (a - 53))%Z with a by lia; reflexivity).
    assert (E2 : 2 ^ (a - 53) == 2 ^ e * 2 ^ (a - 53 - e)) by (rewrite <- power_add; replace (e + (a - 53 - e))%Z with (a - 53)%Z by lia; reflexivity).
    assert (O : 1 <= 2 ^ (a - 53 - e)) by (rewrite <- power_nonneg by lia; change 1 with (inject_Z (2 ^ 0)); apply inject_le, Z.pow_le_mono_r; lia).
    pose proof (power_pos e) as P. rewrite E, E2 in L. revert L B O P. generalize (2 ^ (a - 53 - e)) (2 ^ e) (inject_Z m). intros p q i L B O P.
    change (inject_Z (2 ^ 53 - 1)) with 9007199254740991 in B. change (inject_Z (2 ^ 53)) with 9007199254740992 in L.
    assert (q <= q * p) by (clear - O P; nra). assert (i * q <= 9007199254740991 * q) by (apply Qmult_le_r; assumption). lra. }
  rewrite F. rewrite <- Qmult_assoc, <- power_add. replace (e + j)%Z with (1 + k)%Z by lia. rewrite power_add, <- (power_nonneg k) by lia. rewrite !inject_Z_mult. change (2 ^ 1) with 2. change (inject_Z 2) with 2.
  generalize (inject_Z m) (inject_Z (2 ^ k)). intros i q. ring.
Qed.

(** squares *)
Lemma square_le a b : 0 <= b -> a * a <= b * b -> a <= b.
Proof. intros B H. destruct (Qlt_le_dec b a) as [C|C]; [exfalso|exact C]. nra. Qed.

Lemma magnitude_power x : 0 < x -> 2 ^ magnitude x <= x /\ x < 2 ^ (magnitude x + 1).
Proof.
  intros P. set (e := magnitude x). set (j := Z.max 0 (- e)). destruct (magnitude_spec x P j ltac:(lia)) as [A B]. fold e in A, B. specialize (A ltac:(lia)). specialize (B ltac:(lia)).
  rewrite !power_nonneg, !power_add in * by lia. pose proof (power_pos j) as Q. revert A B Q. change (2 ^ 1) with 2. generalize (2 ^ j) (2 ^ e). intros p q A B Q.
  split; [apply (Qmult_le_l _ _ p Q)|apply (Qmult_lt_l _ _ p Q)]; lra.
Qed.

Lemma sqrt64_nearest x : unit_of 0 <= x -> root_rounds_to x (sqrt64 x).
Proof.
  intros H. pose proof (unit_pos 0 ltac:(lia)) as U0. assert (P : 0 < x) by (eapply Qlt_le_trans; eassumption).
  destruct (sqrt64_error x H) as (R0 & R1 & R2). destruct (sqrt64_cell x P) as (y & s & j & E & J0 & J & C). set (r := sqrt64 x) in *.
  destruct (round64_nearest y) as [FR NR]. apply (float64_proper _ r ltac:(symmetry; exact E)) in FR. split; [exact FR|]. split; [lra|].
  destruct (magnitude_power x P) as [M _]. set (e := magnitude x) in *.
  assert (E2 : (2 * (e / 2) <= e)%Z) by (pose proof (Z.mul_div_le e 2 ltac:(lia)); lia).
  set (a := 2 ^ (e / 2)). assert (A0 : 0 < a) by apply power_pos.
  assert (AA : a * a <= x).
  { eapply Qle_trans; [|exact M]. unfold a. rewrite <- power_add. replace (e / 2 + e / 2)%Z with (2 * (e / 2))%Z by lia.
    assert (K : 2 ^ e == 2 ^ (2 * (e / 2)) * 2 ^ (e - 2 * (e / 2))) by (rewrite <- power_add; replace (2 * (e / 2) + (e - 2 * (e / 2)))%Z with e by lia; reflexivity).
    rewrite K. assert (O : 1 <= 2 ^ (e - 2 * (e / 2))) by (rewrite <- power_nonneg by lia; change 1 with (inject_Z (2 ^ 0)); apply inject_le, Z.pow_le_mono_r; lia).
    pose proof (power_pos (2 * (e / 2))) as Q. revert O Q. generalize (2 ^ (e - 2 * (e / 2))) (2 ^ (2 * (e / 2))). intros p q O Q. clear - O Q. nra. }
  assert (HA : 2 ^ (e / 2 - 1) == a * (1 # 2)) by (unfold a; unfold Z.sub; rewrite power_add; reflexivity).
  assert (RL : x * (99 # 100) <= r * r).
  { eapply Qle_trans; [|exact R1]. assert (Z : forall c d, x * c * c * d == x * (c * c * d)) by (intros; ring). rewrite Z. apply Qmult_le_l; [exact P|]. vm_compute. discriminate. }
  assert (RU : r * r <= x * (101 # 100)).
  { eapply Qle_trans; [exact R2|]. assert (Z : forall c d, x * c * c * d == x * (c * c * d)) by (intros; ring). rewrite Z. apply Qmult_le_l; [exact P|]. vm_compute. discriminate. }
  assert (RA : a * (1 # 2) <= r).
  { apply square_le; [lra|]. clear - RL AA A0 P. nra. }
  (* middles of big floats are on the grid of [s] *)
  assert (G : forall f, float64 f -> a * (1 # 2) <= f -> exists z, (f + r) / 2 * inject_Z (2 ^ j) == inject_Z z).
  { intros f F L. rewrite <- HA in L, RA.
    destruct (float64_above f _ j F L ltac:(lia)) as (z1 & Z1). destruct (float64_above r _ j FR RA ltac:(lia)) as (z2 & Z2).
    exists (z1 + z2)%Z. rewrite power_nonneg by exact J0. rewrite inject_Z_plus.
    rewrite inject_Z_mult in Z1, Z2. change (inject_Z 2) with 2 in Z1, Z2. revert Z1 Z2. generalize (2 ^ j) (inject_Z z1) (inject_Z z2). intros p i1 i2 Z1 Z2.
    assert (Z : (f + r) / 2 * p == (f * p + r * p) * (1 # 2)) by field. rewrite Z, Z1, Z2. ring. }
  assert (PJ : 0 < inject_Z (2 ^ j)) by (apply pow2_pos; exact J0).
  intros f F F0. cbv zeta. destruct (NR f F) as [D _].
  assert (D' : Qabs (r - y) <= Qabs (f - y)) by (rewrite E; exact D). clear D NR. set (m := (f + r) / 2) in *.
  assert (MM : 2 * m == f + r) by (unfold m; field).
  split; intros L.
  - assert (MY : m <= y).
    { revert D'. apply (Qabs_case (r - y)); intros ?; apply (Qabs_case (f - y)); intros ? D'; lra. }
    destruct C as [[C Y0]|(C & S0 & C1 & C2)].
    + rewrite <- C. clear - MY F0 R0 MM Y0. nra.
    + destruct (Qlt_le_dec x (m * m)) as [B|B]; [exfalso|exact B].
      assert (FL : a * (1 # 2) <= f).
      { assert (AM : a <= m) by (apply square_le; [lra|lra]). assert (RM : r <= m * (11 # 10)) by (apply square_le; [lra|]; clear - RU B; nra). lra. }
      destruct (G f F FL) as (z & Z). fold m in Z.
      assert (ZS : (z <= s)%Z).
      { assert (K : inject_Z z <= inject_Z s + (1 # 2)).
        { rewrite <- Z. rewrite C in MY. apply (Qmult_le_r _ _ _ PJ) in MY. eapply Qle_trans; [exact MY|]. apply Qle_lteq. right. field. lra. }
        destruct (Z.le_gt_cases z s) as [Y|Y]; [exact Y|exfalso]. assert (Y' : inject_Z (s + 1) <= inject_Z z) by (apply inject_le; lia).
        rewrite inject_Z_plus in Y'. change (inject_Z 1) with 1 in Y'. lra. }
      apply inject_le in ZS. apply inject_le in S0. change (inject_Z 0) with 0 in S0. revert PJ Z ZS S0 C1 B. generalize (inject_Z (2 ^ j)) (inject_Z z) (inject_Z s). intros p i q PJ Z ZS S0 C1 B.
      assert (I0 : 0 <= i) by (rewrite <- Z; apply Qmult_le_0_compat; lra).
      assert (II : i * i <= q * q) by (apply Qmult_le_compat_nonneg; split; assumption).
      assert (K : m * m * (p * p) == i * i) by (rewrite <- Z; ring).
      assert (x * (p * p) < m * m * (p * p)) by (apply Qmult_lt_r; [apply Qmult_lt_0_compat; exact PJ|exact B]). lra.
  - assert (MY : y <= m).
    { revert D'. apply (Qabs_case (r - y)); intros ?; apply (Qabs_case (f - y)); intros ? D'; lra. }
    destruct C as [[C Y0]|(C & S0 & C1 & C2)].
    + rewrite <- C. clear - MY Y0. nra.
    + destruct (G f F ltac:(lra)) as (z & Z). fold m in Z.
      assert (ZS : (s + 1 <= z)%Z).
      { assert (K : inject_Z s + (1 # 2) <= inject_Z z).
        { rewrite <- Z. rewrite C in MY. apply (Qmult_le_r _ _ _ PJ) in MY. eapply Qle_trans; [|exact MY]. apply Qle_lteq. right. field. lra. }
        destruct (Z.le_gt_cases (s + 1) z) as [Y|Y]; [exact Y|exfalso]. assert (Y' : inject_Z z <= inject_Z s) by (apply inject_le; lia). lra. }
      apply inject_le in ZS. rewrite inject_Z_plus in ZS. change (inject_Z 1) with 1 in ZS. apply inject_le in S0. change (inject_Z 0) with 0 in S0.
      revert PJ Z ZS S0 C2. generalize (inject_Z (2 ^ j)) (inject_Z z) (inject_Z s). intros p i q PJ Z ZS S0 C2.
      assert (PP : 0 < p * p) by (apply Qmult_lt_0_compat; exact PJ).
      apply (Qmult_le_r _ _ _ PP). assert (K : m * m * (p * p) == i * i) by (rewrite <- Z; ring). rewrite K.
      eapply Qle_trans; [exact C2|]. apply Qmult_le_compat_nonneg; split; lra.
Qed.

(** ** a square root which is in the middle of two floats is a float *)
Lemma odd_part n : (0 < n)%Z -> exists o k, (n = o * 2 ^ k)%Z /\ (0 <= k)%Z /\ Z.odd o = true /\ (0 < o)%Z.
Proof.
  intros P. pattern n. revert n P. apply Z.lt_ind with (n := 0%Z).
  - solve_proper.
  - exists 1%Z, 0%Z. cbn. auto with zarith.
  - intros n P _. assert (G : forall a b : Z, (0 < b <= a)%Z -> exists o k, (b = o * 2 ^ k)%Z /\ (0 <= k)%Z /\ Z.odd o = true /\ (0 < o)%Z).
    { clear. intros a b H. assert (A : (0 <= a)%Z) by lia. revert b H. pattern a. revert a A. apply natlike_ind.
      - intros b H. lia.
      - intros a A IH b H. destruct (Z.odd b) eqn:V; [exists b, 0%Z; rewrite Z.mul_1_r; auto with zarith|].
        rewrite <- Z.negb_even in V. apply Bool.negb_false_iff, Z.even_spec in V as [c ->]. destruct (IH c ltac:(lia)) as (o & k & E & K & O & P).
        exists o, (1 + k)%Z. rewrite Z.pow_add_r, E by lia. split; [ring|auto with zarith]. }
    apply (G (Z.succ n)). lia.
Qed.

Lemma dyadic x : float64 x -> exists n, x * 2 ^ 1074 == inject_Z n.
Proof. intros F. apply float64_representable in F. destruct (float_grid x F) as (z & Z). exists z. rewrite <- power_nonneg by lia. exact Z. Qed.

Lemma root_float64 x m n : float64 x -> 0 < m -> m * 2 ^ 1075 == inject_Z n -> m * m == x -> float64 m.
Proof.
  intros (M & e & B & H & X) P N E.
  assert (N0 : (0 < n)%Z).
  { rewrite Zlt_Qlt. change (inject_Z 0) with 0. rewrite <- N. apply Qmult_lt_0_compat; [exact P|apply power_pos]. }
  destruct (odd_part n N0) as (o & k & -> & K & O & O0).
  assert (Q : (o * o * 2 ^ (2 * k) = M * 2 ^ (e + 2150))%Z).
  { assert (Z : inject_Z (o * o * 2 ^ (2 * k)) == inject_Z (M * 2 ^ (e + 2150))).
    { replace (2 * k)%Z with (k + k)%Z by lia. rewrite Z.pow_add_r by lia. replace (o * o * (2 ^ k * 2 ^ k))%Z with (o * 2 ^ k * (o * 2 ^ k))%Z by ring. rewrite inject_Z_mult, <- N, inject_Z_mult, (power_nonneg (e + 2150)) by lia.
      replace (e + 2150)%Z with (e + (1075 + 1075))%Z by lia. rewrite !power_add. generalize (2 ^ 1075). intros q. transitivity (x * (q * q)); [rewrite <- E; ring|rewrite X; ring]. }
    unfold Qeq in Z. cbn [Qnum Qden inject_Z] in Z. lia. }
  destruct (Z.le_gt_cases (e + 2150) (2 * k)) as [L|L].
  - assert (Q2 : (o * o * 2 ^ (2 * k - (e + 2150)) = M)%Z).
    { apply (Z.mul_reg_r _ _ (2 ^ (e + 2150))); [apply Z.pow_nonzero; lia|]. rewrite <- Z.mul_assoc, <- Z.pow_add_r by lia. replace (2 * k - (e + 2150) + (e + 2150))%Z with (2 * k)%Z by lia. exact Q. }
    assert (PW : (1 <= 2 ^ (2 * k - (e + 2150)))%Z) by (apply (Z.pow_le_mono_r 2 0); lia).
    assert (OO : (o * o <= M)%Z) by (rewrite <- Q2; nia).
    exists o, (k - 1075)%Z. split; [nia|]. split; [lia|].
    assert (W : 2 ^ k == 2 ^ (k - 1075) * 2 ^ 1075) by (rewrite <- power_add; replace (k - 1075 + 1075)%Z with k by lia; reflexivity).
    rewrite inject_Z_mult, power_nonneg, W in N by lia. pose proof (power_pos 1075) as P5. revert N P5. generalize (2 ^ 1075) (2 ^ (k - 1075)) (inject_Z o). intros p q i N P5.
    apply (Qmult_inj_r _ _ p); [lra|]. rewrite N. ring.
  - exfalso. assert (Q2 : (o * o = M * 2 ^ (e + 2150 - 2 * k))%Z).
    { apply (Z.mul_reg_r _ _ (2 ^ (2 * k))); [apply Z.pow_nonzero; lia|]. rewrite <- (Z.mul_assoc M), <- Z.pow_add_r by lia. replace (e + 2150 - 2 * k + 2 * k)%Z with (e + 2150)%Z by lia. exact Q. }
    assert (V : Z.odd (o * o) = true) by (rewrite Z.odd_mul, O; reflexivity). rewrite Q2, Z.odd_mul, Z.odd_pow in V by lia. rewrite Bool.andb_false_r in V. discriminate.
Qed.

Lemma root_rounds_to_unique x r r' : float64 x -> 0 < x -> root_rounds_to x r -> root_rounds_to x r' -> r == r'.
Proof.
  intros F P. assert (G : forall a b, root_rounds_to x a -> root_rounds_to x b -> a < b -> False).
  { intros a b (FA & A0 & A) (FB & B0 & B) L. destruct (A b FB B0) as [_ A1]. destruct (B a FA A0) as [B1 _]. specialize (A1 L). specialize (B1 L).
    set (m := (a + b) / 2) in *. assert (MA : (b + a) / 2 == m) by (unfold m; field). rewrite MA in A1.
    assert (M2 : 2 * m == a + b) by (unfold m; field). assert (EM : m * m == x) by (apply Qle_antisym; assumption).
    assert (FM : float64 m).
    { destruct (dyadic a FA) as (za & Za). destruct (dyadic b FB) as (zb & Zb). apply (root_float64 x m (za + zb)); [exact F|lra| |exact EM].
      replace 1075%Z with (1074 + 1)%Z by lia. rewrite power_add, inject_Z_plus, <- Za, <- Zb. change (2 ^ 1) with 2. generalize (2 ^ 1074). intros p.
      assert (Z : m * (p * 2) == (2 * m) * p) by ring. rewrite Z, M2. ring. }
    destruct (A m FM ltac:(lra)) as [_ C]. specialize (C ltac:(lra)). cbv zeta in C. set (t := (m + a) / 2) in *. assert (T : 2 * t == m + a) by (unfold t; field).
    rewrite <- EM in C. assert (t < m) by lra. assert (0 <= t) by lra. clear - C H H0. nra. }
  intros R R'. destruct (Qlt_le_dec r r') as [L|L]; [destruct (G r r' R R' L)|]. destruct (Qlt_le_dec r' r) as [L'|L']; [destruct (G r' r R' R L')|].
  apply Qle_antisym; assumption.
Qed.
