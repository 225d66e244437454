(** * Floats below the greatest ones: lemmas of C98 *)
From Coq Require Import ZArith QArith Qabs Lia Lqa.
From Verif Require Import PyBase PyNum NxGraph S_Num S_Ieee S_Over L_Base L_Num L_Ieee.
Local Open Scope Q_scope.

Lemma inject_mult_le a b c d : (0 <= a <= b)%Z -> (0 <= c <= d)%Z -> inject_Z (a * c) <= inject_Z (b * d).
Proof. intros H K. apply inject_le. nia. Qed.

(** ** Numbers below a float *)
Lemma rep_multiple m b : (0 <= m <= 2 ^ 53)%Z -> (0 <= b)%Z -> representable round64 (inject_Z (m * 2 ^ b)).
Proof.
  intros Hm Hb. apply float64_representable. apply (float64_proper (inject_Z m * unit_of (b + 1074))).
  - rewrite unit_power by lia. replace (b + 1074 - 1074)%Z with b by lia. rewrite inject_Z_mult, power_nonneg by exact Hb. reflexivity.
  - apply float64_unit; lia.
Qed.
Lemma rep_power b : (0 <= b)%Z -> representable round64 (inject_Z (2 ^ b)).
Proof. intros H. rewrite <- (Z.mul_1_l (2 ^ b)). apply rep_multiple; lia. Qed.
Lemma round_within B x : representable round64 B -> Qabs x <= B -> Qabs (round64 x) <= B.
Proof.
  intros R H. apply Qabs_Qle_condition in H. destruct H as [H1 H2]. apply Qabs_Qle_condition.
  assert (R' : representable round64 (- B)) by (apply float64_representable, float64_opp, float64_representable, R).
  destruct round64_rounding as [M _ _ _]. split.
  - apply (Qle_trans _ (round64 (- B))); [apply Qle_lteq; right; symmetry; exact R'|apply M, H1].
  - apply (Qle_trans _ (round64 B)); [apply M, H2|apply Qle_lteq; right; exact R].
Qed.

Section Agree.
Variables lib lib' : libm.
Hypothesis R64 : forall x, m_round lib x = round64 x.
Hypothesis AG : agree lib lib'.

Lemma round_agree x : Qabs x <= big -> m_round lib' x = m_round lib x.
Proof. apply (agree_round _ _ AG). Qed.
Lemma m_round_within B x : representable round64 B -> Qabs x <= B -> Qabs (m_round lib x) <= B.
Proof. rewrite R64. apply round_within. Qed.

Lemma to_float_agree n : Qabs (value n) <= big -> to_float lib' n = to_float lib n.
Proof. destruct n as [z|q]; cbn [value to_float]; [apply round_agree|reflexivity]. Qed.
Lemma to_float_within B n : representable round64 B -> Qabs (value n) <= B -> Qabs (to_float lib n) <= B.
Proof. destruct n as [z|q]; cbn [value to_float]; [apply m_round_within|intros _ H; exact H]. Qed.

Definition within (B : Q) (n : pynum) : Prop := Qabs (value n) <= B.

Lemma add_agree A B C x y : representable round64 A -> representable round64 B -> within A x -> within B y ->
  A + B <= C -> A <= big -> B <= big -> C <= big -> n_add lib' x y = n_add lib x y.
Proof.
  intros RA RB Hx Hy L LA LB LC. unfold within in *.
  assert (S : Qabs (to_float lib x + to_float lib y) <= big).
  { eapply Qle_trans; [apply Qabs_triangle|]. pose proof (to_float_within A x RA Hx). pose proof (to_float_within B y RB Hy). lra. }
  assert (Ex : to_float lib' x = to_float lib x) by (apply to_float_agree; lra).
  assert (Ey : to_float lib' y = to_float lib y) by (apply to_float_agree; lra).
  destruct x, y; cbn [n_add]; rewrite ?Ex, ?Ey; try reflexivity; f_equal; apply round_agree, S.
Qed.
Lemma add_within A B C x y : representable round64 A -> representable round64 B -> representable round64 C -> within A x -> within B y ->
  A + B <= C -> within C (n_add lib x y).
Proof.
  intros RA RB RC Hx Hy L. unfold within in *.
  pose proof (to_float_within A x RA Hx) as Fx. pose proof (to_float_within B y RB Hy) as Fy.
  assert (S : Qabs (to_float lib x + to_float lib y) <= C) by (eapply Qle_trans; [apply Qabs_triangle|lra]).
  destruct x as [x|x], y as [y|y]; cbn [n_add value]; try (apply m_round_within; assumption).
  rewrite inject_Z_plus. eapply Qle_trans; [apply Qabs_triangle|]. cbn [value] in Hx, Hy. lra.
Qed.
Lemma sub_agree A B C x y : representable round64 A -> representable round64 B -> within A x -> within B y ->
  A + B <= C -> A <= big -> B <= big -> C <= big -> n_sub lib' x y = n_sub lib x y.
Proof.
  intros RA RB Hx Hy L LA LB LC. unfold within in *.
  assert (S : Qabs (to_float lib x - to_float lib y) <= big).
  { unfold Qminus. eapply Qle_trans; [apply Qabs_triangle|]. rewrite Qabs_opp. pose proof (to_float_within A x RA Hx). pose proof (to_float_within B y RB Hy). lra. }
  assert (Ex : to_float lib' x = to_float lib x) by (apply to_float_agree; lra).
  assert (Ey : to_float lib' y = to_float lib y) by (apply to_float_agree; lra).
  destruct x, y; cbn [n_sub]; rewrite ?Ex, ?Ey; try reflexivity; f_equal; apply round_agree, S.
Qed.
Lemma abs_mul_le a b A B : Qabs a <= A -> Qabs b <= B -> Qabs (a * b) <= A * B.
Proof. intros Ha Hb. rewrite Qabs_Qmult. pose proof (Qabs_nonneg a). pose proof (Qabs_nonneg b). nra. Qed.
Lemma mul_agree A B C x y : representable round64 A -> representable round64 B -> within A x -> within B y ->
  A * B <= C -> A <= big -> B <= big -> C <= big -> n_mul lib' x y = n_mul lib x y.
Proof.
  intros RA RB Hx Hy L LA LB LC. unfold within in *.
  assert (S : Qabs (to_float lib x * to_float lib y) <= big).
  { eapply Qle_trans; [apply (abs_mul_le _ _ A B); apply to_float_within; assumption|]. lra. }
  assert (Ex : to_float lib' x = to_float lib x) by (apply to_float_agree; lra).
  assert (Ey : to_float lib' y = to_float lib y) by (apply to_float_agree; lra).
  destruct x, y; cbn [n_mul]; rewrite ?Ex, ?Ey; try reflexivity; f_equal; apply round_agree, S.
Qed.
Lemma mul_within A B C x y : representable round64 A -> representable round64 B -> representable round64 C -> within A x -> within B y ->
  A * B <= C -> within C (n_mul lib x y).
Proof.
  intros RA RB RC Hx Hy L. unfold within in *.
  assert (S : Qabs (to_float lib x * to_float lib y) <= C) by (eapply Qle_trans; [apply (abs_mul_le _ _ A B); apply to_float_within; assumption|lra]).
  destruct x as [x|x], y as [y|y]; cbn [n_mul value]; try (apply m_round_within; assumption).
  rewrite inject_Z_mult. eapply Qle_trans; [apply (abs_mul_le _ _ A B); assumption|exact L].
Qed.
(** a quotient which is not big *)
Lemma div_agree x y : Qabs (value x) <= big -> Qabs (value y) <= big ->
  (~ value y == 0 -> Qabs (match x, y with NInt a, NInt b => inject_Z a / inject_Z b | _, _ => to_float lib x / to_float lib y end) <= big) ->
  n_div lib' x y = n_div lib x y.
Proof.
  intros Hx Hy H. unfold n_div. destruct (q_eqb (value y) 0) eqn:E; [reflexivity|].
  assert (N : ~ value y == 0) by (intros Z; apply (proj2 (Qeq_bool_iff (value y) 0)) in Z; unfold q_eqb in E; congruence). specialize (H N).
  assert (Ex : to_float lib' x = to_float lib x) by (apply to_float_agree; lra).
  assert (Ey : to_float lib' y = to_float lib y) by (apply to_float_agree; lra).
  f_equal. destruct x, y; rewrite ?Ex, ?Ey; apply round_agree; exact H.
Qed.
End Agree.

Lemma one_big : 1 <= big.
Proof. unfold big. change 1 with (inject_Z 1). apply inject_le. vm_compute. discriminate. Qed.
Lemma power_big k : (0 <= k <= 1023)%Z -> inject_Z (2 ^ k) <= big.
Proof. intros H. unfold big. apply inject_le. apply Z.pow_le_mono_r; lia. Qed.
Lemma one_power k : (0 <= k)%Z -> 1 <= inject_Z (2 ^ k).
Proof. intros H. change 1 with (inject_Z 1). apply inject_le. pose proof (Z.pow_pos_nonneg 2 k). lia. Qed.
