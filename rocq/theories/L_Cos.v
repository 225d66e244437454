(** * Relative errors of sums of products of binary64 numbers *)
From Coq Require Import List ZArith Lia QArith Lqa Setoid.
From Verif Require Import PyBase PyNum L_Base S_Num L_Num L_Sqrt S_Partition S_Sparse L_Disparity.
Import ListNotations.
Open Scope Q_scope.

Fixpoint pw (x : Q) (n : nat) : Q := match n with O => 1 | S n => x * pw x n end.

Lemma pw_pos x n : 0 < x -> 0 < pw x n.
Proof. intros H. induction n as [|n IH]; cbn [pw]; [lra|apply Qmult_lt_0_compat; assumption]. Qed.
Lemma pw_add x a b : pw x (a + b) == pw x a * pw x b.
Proof. induction a as [|a IH]; cbn [pw plus]; [ring|rewrite IH; ring]. Qed.
Lemma pw_low x n : 0 < x <= 1 -> pw x n <= 1.
Proof. intros H. induction n as [|n IH]; cbn [pw]; [lra|]. pose proof (pw_pos x n ltac:(lra)). nra. Qed.
Lemma pw_high x n : 1 <= x -> 1 <= pw x n.
Proof. intros H. induction n as [|n IH]; cbn [pw]; [lra|]. nra. Qed.
Lemma pw_mul x y n : pw (x * y) n == pw x n * pw y n.
Proof. induction n as [|n IH]; cbn [pw]; [ring|rewrite IH; ring]. Qed.
Lemma pw_le x y n : 0 <= x -> x <= y -> pw x n <= pw y n.
Proof.
  intros H L. induction n as [|n IH]; cbn [pw]; [lra|]. assert (0 <= pw x n). { clear - H. induction n; cbn [pw]; [lra|apply Qmult_le_0_compat; assumption]. }
  nra.
Qed.

Definition up : Q := 1 + (1 # 9007199254740992).
Definition dn : Q := 1 - (1 # 9007199254740992).
Lemma up_one : 1 <= up. Proof. vm_compute. discriminate. Qed.
Lemma dn_one : 0 < dn <= 1. Proof. split; vm_compute; [reflexivity|discriminate]. Qed.

(** [x] is [y] after at most [k] roundings *)
Definition near (k : nat) (x y : Q) : Prop := 0 <= y /\ pw dn k * y <= x /\ x <= pw up k * y.

Lemma near_refl x : 0 <= x -> near 0 x x.
Proof. intros H. split; [exact H|]. cbn [pw]. split; lra. Qed.
Lemma near_eq k x x' y y' : near k x y -> x == x' -> y == y' -> near k x' y'.
Proof. intros (A & B & C) X Y. unfold near. rewrite <- X, <- Y. split; [|split]; assumption. Qed.
Lemma near_pos k x y : near k x y -> 0 <= x.
Proof. intros (A & B & _). pose proof (pw_pos dn k (proj1 dn_one)). nra. Qed.
Lemma near_weaken j k x y : near j x y -> (j <= k)%nat -> near k x y.
Proof.
  intros (A & B & C) H. replace k with (j + (k - j))%nat by lia. unfold near. rewrite !pw_add.
  pose proof (pw_pos dn j (proj1 dn_one)). pose proof (pw_low dn (k - j) dn_one). pose proof (pw_pos up j ltac:(pose proof up_one; lra)). pose proof (pw_high up (k - j) up_one).
  set (a := pw dn j) in *. set (b := pw dn (k - j)) in *. set (c := pw up j) in *. set (d := pw up (k - j)) in *.
  split; [exact A|]. assert (0 <= a * y) by nra. assert (0 <= c * y) by nra. split.
  - apply Qle_trans with (a * y); [|exact B]. assert (a * b * y == b * (a * y)) by ring. nra.
  - apply Qle_trans with (c * y); [exact C|]. assert (c * d * y == d * (c * y)) by ring. nra.
Qed.
Lemma near_trans j k x y z : near j x y -> near k y z -> near (j + k) x z.
Proof.
  intros (A & B & C) (A' & B' & C'). unfold near. rewrite !pw_add. pose proof (pw_pos dn j (proj1 dn_one)). pose proof (pw_pos up j ltac:(pose proof up_one; lra)).
  set (a := pw dn j) in *. set (b := pw dn k) in *. set (c := pw up j) in *. set (d := pw up k) in *. clearbody a b c d. split; [exact A'|]. split.
  - apply Qle_trans with (a * y); [|exact B]. rewrite <- Qmult_assoc. apply Qmult_le_l; assumption.
  - apply Qle_trans with (c * y); [exact C|]. rewrite <- Qmult_assoc. apply Qmult_le_l; assumption.
Qed.
Lemma near_add k x y x' y' : near k x y -> near k x' y' -> near k (x + x') (y + y').
Proof. intros (A & B & C) (A' & B' & C'). unfold near. rewrite !Qmult_plus_distr_r. split; [|split]; lra. Qed.
Lemma near_mul j k x y x' y' : near j x y -> near k x' y' -> near (j + k) (x * x') (y * y').
Proof.
  intros N N'. pose proof (near_pos _ _ _ N) as P. pose proof (near_pos _ _ _ N') as P'.
  destruct N as (A & B & C), N' as (A' & B' & C'). unfold near. rewrite !pw_add. pose proof (pw_pos dn j (proj1 dn_one)). pose proof (pw_pos dn k (proj1 dn_one)).
  set (a := pw dn j) in *. set (b := pw dn k) in *. set (c := pw up j) in *. set (d := pw up k) in *. clearbody a b c d.
  split; [apply Qmult_le_0_compat; assumption|]. split.
  - assert (E : a * b * (y * y') == (a * y) * (b * y')) by ring. rewrite E. apply Qmult_le_compat_nonneg; (split; [|assumption]); apply Qmult_le_0_compat; lra.
  - assert (E : c * d * (y * y') == (c * y) * (d * y')) by ring. rewrite E. apply Qmult_le_compat_nonneg; split; assumption.
Qed.

(** one rounding *)
Lemma near_normal x : inject_Z (2 ^ 52) * unit_of 0 <= x -> near 1 (round64 x) x.
Proof.
  intros H. destruct (round64_normal x H) as [A B].
  assert (P : 0 <= x). { eapply Qle_trans; [|exact H]. apply Qmult_le_0_compat; [vm_compute; discriminate|apply Qlt_le_weak, unit_pos; lia]. }
  unfold near. cbn [pw]. rewrite !Qmult_1_r, !(Qmult_comm _ x). split; [|split]; assumption.
Qed.

Lemma near_grid x z : 0 <= x -> x * inject_Z (2 ^ 1074) == inject_Z z -> near 1 (round64 x) x.
Proof.
  intros H E. pose proof (roundp_relative x z H E) as A. pose proof (round64_nonneg x H) as R.
  destruct (Qlt_le_dec x (inject_Z (2 ^ 52) * unit_of 0)) as [L|L]; [|apply near_normal; exact L].
  assert (X : x == inject_Z z * unit_of 0).
  { rewrite <- E, (unit_eq 0) by lia. change (inject_Z (2 ^ 0)) with 1. pose proof (pow2_pos 1074 ltac:(lia)) as B. revert B.
    generalize (inject_Z (2 ^ 1074)). intros b B. field. lra. }
  pose proof (unit_pos 0 ltac:(lia)) as U0.
  assert (Z0 : (0 <= z)%Z). { rewrite Zle_Qle. change (inject_Z 0) with 0. rewrite <- E. pose proof (pow2_pos 1074 ltac:(lia)). apply Qmult_le_0_compat; lra. }
  assert (Z1 : (z <= 2 ^ 52)%Z). { rewrite Zle_Qle. apply (Qmult_le_r _ _ (unit_of 0) U0). rewrite <- X. apply Qlt_le_weak. exact L. }
  assert (RX : round64 x == x). { rewrite R, (roundp_proper x _ H X), X. apply roundp_float; lia. }
  apply near_weaken with 0%nat; [|lia]. apply near_eq with x x; [apply near_refl; exact H|symmetry; exact RX|reflexivity].
Qed.

Lemma grid_int z : exists y, inject_Z z * inject_Z (2 ^ 1074) == inject_Z y.
Proof. exists (z * 2 ^ 1074)%Z. rewrite inject_Z_mult. reflexivity. Qed.

Section Python.
Variable lib : libm.
Hypothesis BR : forall x, m_round lib x = round64 x.

(** a float, or an int *)
Definition held (n : pynum) : Prop := match n with NInt _ => True | NFloat q => representable round64 q end.

Lemma float_near n : 0 <= value n -> near 1 (to_float lib n) (value n).
Proof.
  intros H. destruct n as [z|q]; cbn [to_float value] in *.
  - rewrite BR. destruct (grid_int z) as (y & Y). eapply near_grid; eassumption.
  - apply near_weaken with 0%nat; [apply near_refl; exact H|lia].
Qed.

Lemma float_held n : held n -> exists z, to_float lib n * inject_Z (2 ^ 1074) == inject_Z z.
Proof. destruct n as [z|q]; cbn [to_float held]; [intros _; rewrite BR; apply round64_grid|apply float_grid]. Qed.

Lemma add_held x y : held (n_add lib x y).
Proof. destruct x, y; cbn [n_add held]; try exact I; rewrite BR; apply (rnd_rnd _ round64_rounding). Qed.
Lemma mul_held x y : held (n_mul lib x y).
Proof. destruct x, y; cbn [n_mul held]; try exact I; rewrite BR; apply (rnd_rnd _ round64_rounding). Qed.

Lemma add_near k x y a b : held x -> held y -> near k (value x) a -> near k (value y) b -> near (k + 2) (value (n_add lib x y)) (a + b).
Proof.
  intros Hx Hy Nx Ny.
  assert (G : near (k + 2) (round64 (to_float lib x + to_float lib y)) (a + b)).
  { pose proof (float_near x (near_pos _ _ _ Nx)) as Fx. pose proof (float_near y (near_pos _ _ _ Ny)) as Fy.
    destruct (float_held x Hx) as (zx & Gx), (float_held y Hy) as (zy & Gy).
    replace (k + 2)%nat with (1 + (1 + k))%nat by lia. eapply near_trans.
    - apply (near_grid _ (zx + zy)); [pose proof (near_pos _ _ _ Fx); pose proof (near_pos _ _ _ Fy); lra|].
      rewrite inject_Z_plus, <- Gx, <- Gy. ring.
    - apply near_add; [exact (near_trans _ _ _ _ _ Fx Nx)|exact (near_trans _ _ _ _ _ Fy Ny)]. }
  destruct x as [x|x], y as [y|y]; cbn [n_add]; try (cbn [value]; rewrite BR; exact G).
  apply near_weaken with k; [|lia]. eapply near_eq; [apply (near_add _ _ _ _ _ Nx Ny)| |reflexivity]. cbn [value]. rewrite inject_Z_plus. reflexivity.
Qed.

(** products which are not too small *)
Lemma mul_near x y : inject_Z (2 ^ 60) * unit_of 0 <= value x * value y -> 0 <= value x -> 0 <= value y -> near 3 (value (n_mul lib x y)) (value x * value y).
Proof.
  intros H Px Py. assert (G : near 3 (round64 (to_float lib x * to_float lib y)) (value x * value y)).
  { pose proof (near_mul _ _ _ _ _ _ (float_near x Px) (float_near y Py)) as N. change 3%nat with (1 + (1 + 1))%nat. eapply near_trans; [|exact N].
    apply near_normal. destruct N as (_ & N & _). eapply Qle_trans; [|exact N]. revert H. generalize (value x * value y). intros q H.
    apply Qle_trans with (pw dn (1 + 1) * (inject_Z (2 ^ 60) * unit_of 0)); [vm_compute; discriminate|]. apply Qmult_le_l; [apply pw_pos, dn_one|exact H]. }
  destruct x as [x|x], y as [y|y]; cbn [n_mul]; try (cbn [value]; rewrite BR; exact G).
  apply near_weaken with 0%nat; [|lia]. cbn [value] in *. eapply near_eq; [apply near_refl|rewrite inject_Z_mult; reflexivity|reflexivity]. apply Qmult_le_0_compat; assumption.
Qed.

Lemma sum_near {A} (x y : A -> pynum) l :
  (forall t, In t l -> inject_Z (2 ^ 60) * unit_of 0 <= value (x t) * value (y t) /\ 0 <= value (x t) /\ 0 <= value (y t)) ->
  let s := fold_left (n_add lib) (map (fun t => n_mul lib (x t) (y t)) l) (NInt 0) in
  held s /\ near (2 * List.length l + 3) (value s) (sum_q (map (fun t => value (x t) * value (y t)) l)).
Proof.
  cbn zeta. induction l as [|t l IH] using rev_ind; intros H.
  - split; [exact I|]. apply near_weaken with 0%nat; [|lia]. cbn. apply near_refl. lra.
  - destruct IH as [Hh N]; [intros t' I; apply H, in_or_app; left; exact I|]. destruct (H t) as (A1 & A2 & A3); [apply in_or_app; right; left; reflexivity|].
    rewrite map_app, fold_left_app, map_app. cbn [map fold_left]. split; [apply add_held|]. rewrite app_length. cbn [List.length].
    replace (2 * (List.length l + 1) + 3)%nat with ((2 * List.length l + 3) + 2)%nat by lia.
    eapply near_eq; [apply add_near; [exact Hh|apply mul_held|exact N|]|reflexivity|].
    + eapply near_weaken; [apply mul_near; eassumption|lia].
    + rewrite sum_q_app. apply Qplus_comp; [reflexivity|]. unfold sum_q. cbn [fold_right]. symmetry. apply Qplus_0_r.
Qed.
End Python.

(** square roots *)
Lemma sqrt_near x : unit_of 0 <= x -> near 3 (sqrt64 x * sqrt64 x) x /\ 0 < sqrt64 x.
Proof.
  intros H. destruct (sqrt64_error x H) as (P & A & B). split; [|exact P]. pose proof (unit_pos 0 ltac:(lia)) as U0.
  assert (X : 0 <= x) by (apply Qlt_le_weak; eapply Qlt_le_trans; eassumption). split; [exact X|]. split.
  - eapply Qle_trans; [|exact A]. assert (E : forall e d, x * (1 - e) * (1 - e) * (1 - d) == (1 - e) * (1 - e) * (1 - d) * x) by (intros; ring). rewrite E.
    apply Qmult_le_compat_r; [vm_compute; discriminate|exact X].
  - eapply Qle_trans; [exact B|]. assert (E : forall e d, x * (1 + e) * (1 + e) * (1 + d) == (1 + e) * (1 + e) * (1 + d) * x) by (intros; ring). rewrite E.
    apply Qmult_le_compat_r; [vm_compute; discriminate|exact X].
Qed.

Lemma square_le a b : 0 <= b -> a * a <= b * b -> a <= b.
Proof. intros P H. destruct (Qlt_le_dec b a) as [C|C]; [exfalso; nra|exact C]. Qed.

Lemma spread n : (Z.of_nat n <= 2 ^ 48)%Z -> pw up n <= pw dn n * (1 + inject_Z (Z.of_nat n) * (4 # 9007199254740992)).
Proof.
  intros H. assert (K : up <= dn * (1 + (3 # 9007199254740992))) by (vm_compute; discriminate).
  apply Qle_trans with (pw (dn * (1 + (3 # 9007199254740992))) n); [apply pw_le; [vm_compute; discriminate|exact K]|]. rewrite pw_mul.
  apply Qmult_le_l; [apply pw_pos, dn_one|]. clear K. induction n as [|n IH]; [vm_compute; discriminate|].
  cbn [pw]. rewrite Nat2Z.inj_succ in *. unfold Z.succ in *. rewrite inject_Z_plus. specialize (IH ltac:(lia)).
  assert (B : inject_Z (Z.of_nat n) <= inject_Z (2 ^ 48)) by (apply inject_le; lia). change (inject_Z (2 ^ 48)) with 281474976710656 in B. change (inject_Z 1) with 1.
  assert (P : 0 <= inject_Z (Z.of_nat n)) by (change 0 with (inject_Z 0); apply inject_le; lia).
  set (k := inject_Z (Z.of_nat n)) in *. clearbody k. set (w := pw _ n) in *. clearbody w.
  apply Qle_trans with ((1 + (3 # 9007199254740992)) * (1 + k * (4 # 9007199254740992))); [apply Qmult_le_l; [lra|exact IH]|]. nra.
Qed.

(** the quotient of a sum by the product of the roots of the norms *)
Lemma cosine_near k s a b S A B : (Z.of_nat k <= 2 ^ 40)%Z -> near k s S -> near k a A -> near k b B -> S * S <= A * B ->
  inject_Z (2 ^ 100) * unit_of 0 <= a -> inject_Z (2 ^ 100) * unit_of 0 <= b ->
  inject_Z (2 ^ 60) * unit_of 0 <= sqrt64 a * sqrt64 b ->
  round64 (s / round64 (sqrt64 a * sqrt64 b)) <= 1 + inject_Z (Z.of_nat (k + 5)) * (4 # 9007199254740992).
Proof.
  intros Hk Ns Na Nb CS La Lb Lr. pose proof round64_rounding as R.
  assert (T : 1 <= 1 + inject_Z (Z.of_nat (k + 5)) * (4 # 9007199254740992)).
  { assert (0 <= inject_Z (Z.of_nat (k + 5))) by (change 0 with (inject_Z 0); apply inject_le; lia). nra. }
  set (q := s / round64 (sqrt64 a * sqrt64 b)) in *.
  destruct (Qlt_le_dec q 1) as [Q1|Q1].
  { apply Qle_trans with 1; [|exact T]. rewrite <- (rnd_1 _ R). apply (rnd_le _ R). apply Qlt_le_weak. exact Q1. }
  assert (U : forall x, inject_Z (2 ^ 100) * unit_of 0 <= x -> unit_of 0 <= x).
  { intros x H. eapply Qle_trans; [|exact H]. vm_compute. discriminate. }
  destruct (sqrt_near a (U a La)) as [Sa Pa], (sqrt_near b (U b Lb)) as [Sb Pb].
  pose proof (near_trans _ _ _ _ _ Sa Na) as Ra. pose proof (near_trans _ _ _ _ _ Sb Nb) as Rb. clear Sa Sb.
  pose proof (near_mul _ _ _ _ _ _ Ra Rb) as Rp.
  assert (Nr : near 1 (round64 (sqrt64 a * sqrt64 b)) (sqrt64 a * sqrt64 b)).
  { apply near_normal. eapply Qle_trans; [|exact Lr]. vm_compute. discriminate. }
  assert (PP : 0 < round64 (sqrt64 a * sqrt64 b)).
  { apply round64_pos. eapply Qle_trans; [|exact Lr]. vm_compute. discriminate. }
  pose proof (near_mul _ _ _ _ _ _ Nr Nr) as Nrr.
  assert (N2 : near (1 + 1 + (3 + k + (3 + k))) (round64 (sqrt64 a * sqrt64 b) * round64 (sqrt64 a * sqrt64 b)) (A * B)).
  { eapply near_trans; [exact Nrr|]. eapply near_eq; [exact Rp|ring|reflexivity]. }
  clear Nrr Rp Ra Rb Nr. unfold q in *. clear q. revert Q1 N2 PP. generalize (round64 (sqrt64 a * sqrt64 b)). intros r Q1 N2 PP.
  pose proof (near_mul _ _ _ _ _ _ Ns Ns) as Nss. pose proof (near_pos _ _ _ Ns) as Ps.
  assert (NQ : near 1 (round64 (s / r)) (s / r)) by (apply near_normal, normal_one; exact Q1).
  assert (EQ : s / r * r == s) by (field; lra). set (q := s / r) in *. clearbody q.
  destruct NQ as (_ & _ & Q2). cbn [pw] in Q2. rewrite Qmult_1_r in Q2.
  assert (G : q * up <= 1 + inject_Z (Z.of_nat (k + 5)) * (4 # 9007199254740992)); [|apply Qle_trans with (up * q); [exact Q2|rewrite Qmult_comm; exact G]].
  pose proof (spread (k + 5) ltac:(lia)) as SP. set (t := 1 + inject_Z (Z.of_nat (k + 5)) * (4 # 9007199254740992)) in *. clearbody t.
  destruct N2 as (_ & N2 & _), Nss as (_ & _ & Nss).
  (* q^2 r^2 = s^2 <= up^2k S^2 <= up^2k A B and dn^(2k+8) A B <= r^2 *)
  assert (D : 0 < pw dn (k + 5)) by (apply pw_pos, dn_one).
  assert (Uk : 0 < pw up k) by (apply pw_pos; vm_compute; reflexivity).
  replace (1 + 1 + (3 + k + (3 + k)))%nat with ((k + 4) + (k + 4))%nat in N2 by lia. rewrite pw_add in N2, Nss.
  assert (E5 : pw dn (k + 5) == pw dn (k + 4) * dn) by (replace (k + 5)%nat with (Datatypes.S (k + 4)) by lia; cbn [pw]; ring).
  assert (D4 : 0 < pw dn (k + 4)) by (apply pw_pos, dn_one).
  assert (U5 : pw up (k + 5) == pw up k * (up * (up * (up * (up * (up * 1)))))).
  { rewrite pw_add. cbn [pw]. reflexivity. }
  assert (M1 : (q * r) * (q * r) <= pw up k * pw up k * (A * B)).
  { rewrite EQ. eapply Qle_trans; [exact Nss|]. apply Qmult_le_l; [apply Qmult_lt_0_compat; assumption|exact CS]. }
  assert (M2 : (q * r * pw dn (k + 4)) * (q * r * pw dn (k + 4)) <= (pw up k * r) * (pw up k * r)).
  { assert (E : (q * r * pw dn (k + 4)) * (q * r * pw dn (k + 4)) == (pw dn (k + 4) * pw dn (k + 4)) * ((q * r) * (q * r))) by ring. rewrite E.
    apply Qle_trans with ((pw dn (k + 4) * pw dn (k + 4)) * (pw up k * pw up k * (A * B))); [apply Qmult_le_l; [apply Qmult_lt_0_compat; assumption|exact M1]|].
    assert (E' : (pw dn (k + 4) * pw dn (k + 4)) * (pw up k * pw up k * (A * B)) == (pw up k * pw up k) * (pw dn (k + 4) * pw dn (k + 4) * (A * B))) by ring. rewrite E'.
    assert (E2 : (pw up k * r) * (pw up k * r) == (pw up k * pw up k) * (r * r)) by ring. rewrite E2. apply Qmult_le_l; [apply Qmult_lt_0_compat; assumption|exact N2]. }
  apply square_le in M2; [|apply Qlt_le_weak, Qmult_lt_0_compat; assumption].
  assert (M3 : q * pw dn (k + 4) <= pw up k).
  { apply (Qmult_le_r _ _ r PP). eapply Qle_trans; [|exact M2]. apply Qle_lteq. right. ring. }
  (* q up <= t *)
  rewrite U5, E5 in SP. assert (K1 : pw up k * up <= pw dn (k + 4) * t).
  { apply Qle_trans with (pw up k * (up * (up * (up * (up * (up * 1)))))).
    - apply Qmult_le_l; [exact Uk|vm_compute; discriminate].
    - eapply Qle_trans; [exact SP|]. rewrite <- Qmult_assoc. apply Qmult_le_l; [exact D4|]. pose proof dn_one. nra. }
  apply (Qmult_le_r _ _ (pw dn (k + 4)) D4). rewrite (Qmult_comm t). eapply Qle_trans; [|exact K1].
  assert (E : q * up * pw dn (k + 4) == (q * pw dn (k + 4)) * up) by ring. rewrite E. apply Qmult_le_compat_r; [exact M3|vm_compute; discriminate].
Qed.
