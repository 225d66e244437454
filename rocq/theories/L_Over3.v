(** * Floats below the greatest ones: projections *)
From Coq Require Import ZArith QArith Qabs Qminmax Lia Lqa.
From Verif Require Import PyBase PyNum NxGraph M_Proj S_Graph S_Num S_Proj S_Over L_Base L_Graph L_Graph2 L_Nx L_Num L_Sqrt L_Cos L_Ieee L_Over L_Over2.
Local Open Scope Q_scope.

(** 2^-400, the least square of a weight, and the greatest sum of [n] squares *)
Definition least : Q := unit_of 674.
Definition most (n : nat) : Q := inject_Z (Z.of_nat n * 2 ^ 400).

Lemma least_pos : 0 < least. Proof. vm_compute. reflexivity. Qed.
Lemma least_rep : representable round64 least.
Proof.
  apply float64_representable. apply (float64_proper (inject_Z 1 * unit_of 674)); [unfold least; change (inject_Z 1) with 1; ring|apply float64_unit; lia].
Qed.
Lemma most_rep n : (Z.of_nat n <= 2 ^ 53)%Z -> representable round64 (most n).
Proof. intros H. apply rep_multiple; lia. Qed.
Lemma most_453 n : (Z.of_nat n <= 2 ^ 53)%Z -> most n <= inject_Z (2 ^ 453).
Proof. intros H. apply inject_le. change (2 ^ 453)%Z with (2 ^ 53 * 2 ^ 400)%Z. pose proof (Z.pow_pos_nonneg 2 400). nia. Qed.
Lemma most_big n : (Z.of_nat n <= 2 ^ 53)%Z -> most n <= big.
Proof. intros H. eapply Qle_trans; [apply most_453, H|apply power_big; lia]. Qed.
Lemma most_S n : most n + inject_Z (2 ^ 400) <= most (S n).
Proof. unfold most. rewrite <- inject_Z_plus. apply inject_le. lia. Qed.
Lemma most_0 : most 0 == 0. Proof. reflexivity. Qed.

(** 0, or between the least and the most *)
Definition norm_range (n : nat) (x : pynum) : Prop := value x == 0 \/ least <= value x <= most n.
Definition sized (x : pynum) : Prop := within (inject_Z (2 ^ 200)) x /\ (value x == 0 \/ 1 / inject_Z (2 ^ 200) <= Qabs (value x)).

Lemma sized_one : sized (NInt 1).
Proof. split; [unfold within; apply one_power; lia|right; vm_compute; discriminate]. Qed.

Section Agree.
Variables lib lib' : libm.
Hypothesis R64 : forall x, m_round lib x = round64 x.
Hypothesis S64 : forall x, m_sqrt lib x = sqrt64 x.
Hypothesis AG : agree lib lib'.

Lemma round_low c x : representable round64 c -> c <= x -> c <= m_round lib x.
Proof. intros R H. rewrite R64. apply (Qle_trans _ (round64 c)); [apply Qle_lteq; right; symmetry; exact R|apply (rnd_le _ round64_rounding), H]. Qed.
Lemma round_zero x : x == 0 -> m_round lib x == 0.
Proof. intros H. rewrite R64, (rnd_eq _ round64_rounding _ _ H). apply (rnd_0 _ round64_rounding). Qed.
Lemma float_low c x : representable round64 c -> c <= value x -> c <= to_float lib x.
Proof. intros R. destruct x; cbn [value to_float]; [apply round_low, R|auto]. Qed.
Lemma float_zero x : value x == 0 -> to_float lib x == 0.
Proof. destruct x; cbn [value to_float]; [apply round_zero|auto]. Qed.

Lemma rep_200 : representable round64 (inject_Z (2 ^ 200)). Proof. apply rep_power; lia. Qed.
Lemma rep_400 : representable round64 (inject_Z (2 ^ 400)). Proof. apply rep_power; lia. Qed.
Lemma mul_200 : inject_Z (2 ^ 200) * inject_Z (2 ^ 200) <= inject_Z (2 ^ 400).
Proof. rewrite <- inject_Z_mult. apply inject_le. vm_compute. discriminate. Qed.

Lemma product_agree x y : within (inject_Z (2 ^ 200)) x -> within (inject_Z (2 ^ 200)) y -> n_mul lib' x y = n_mul lib x y /\ within (inject_Z (2 ^ 400)) (n_mul lib x y).
Proof.
  intros Hx Hy. split.
  - apply (mul_agree lib lib' R64 AG (inject_Z (2 ^ 200)) (inject_Z (2 ^ 200)) (inject_Z (2 ^ 400)) x y rep_200 rep_200 Hx Hy mul_200); apply power_big; lia.
  - apply (mul_within lib R64 (inject_Z (2 ^ 200)) (inject_Z (2 ^ 200)) (inject_Z (2 ^ 400)) x y rep_200 rep_200 rep_400 Hx Hy mul_200).
Qed.
Lemma square_range x : sized x -> value (n_mul lib x x) == 0 \/ least <= value (n_mul lib x x) <= inject_Z (2 ^ 400).
Proof.
  intros H. pose proof (proj2 (product_agree x x (proj1 H) (proj1 H))) as U. unfold within in U. apply Qabs_Qle_condition in U. destruct H as [_ [Z|L]].
  - left. destruct x as [z|q]; cbn [n_mul value to_float] in *.
    + rewrite inject_Z_mult, Z. reflexivity.
    + apply round_zero. rewrite Z. reflexivity.
  - right. split; [|apply U].
    assert (G : least <= value x * value x).
    { apply (Qle_trans _ (1 / inject_Z (2 ^ 200) * (1 / inject_Z (2 ^ 200)))); [vm_compute; discriminate|].
      assert (P : 0 <= 1 / inject_Z (2 ^ 200)) by (vm_compute; discriminate).
      assert (E : value x * value x == Qabs (value x) * Qabs (value x)).
      { rewrite <- Qabs_Qmult. rewrite Qabs_pos; [reflexivity|]. clear. nra. }
      rewrite E. revert P L. generalize (1 / inject_Z (2 ^ 200)) (Qabs (value x)). intros a b P L. clear - P L. nra. }
    destruct x as [z|q]; cbn [n_mul value to_float] in *.
    + rewrite inject_Z_mult. exact G.
    + apply round_low; [apply least_rep|exact G].
Qed.
Lemma range_within n x : norm_range n x -> within (most n) x.
Proof.
  unfold within. intros [E|[L U]]; [rewrite E|rewrite Qabs_pos by (pose proof least_pos; lra); exact U].
  change (Qabs 0) with 0. unfold most. change 0 with (inject_Z 0). apply inject_le. pose proof (Z.pow_pos_nonneg 2 400). lia.
Qed.
Lemma sum_range n x y : (Z.of_nat (S n) <= 2 ^ 53)%Z -> norm_range n x -> (value y == 0 \/ least <= value y <= inject_Z (2 ^ 400)) ->
  n_add lib' x y = n_add lib x y /\ norm_range (S n) (n_add lib x y).
Proof.
  intros Hn Hx Hy. pose proof (range_within n x Hx) as Wx. pose proof least_pos as LP.
  assert (Wy : within (inject_Z (2 ^ 400)) y).
  { unfold within. destruct Hy as [E|[L U]]; [rewrite E; vm_compute; discriminate|rewrite Qabs_pos by lra; exact U]. }
  assert (Rn : representable round64 (most n)) by (apply most_rep; lia). assert (RS : representable round64 (most (S n))) by (apply most_rep; lia).
  split; [apply (add_agree lib lib' R64 AG (most n) (inject_Z (2 ^ 400)) (most (S n)) x y Rn rep_400 Wx Wy (most_S n)); [apply most_big; lia|apply power_big; lia|apply most_big; lia]|].
  pose proof (add_within lib R64 (most n) (inject_Z (2 ^ 400)) (most (S n)) x y Rn rep_400 RS Wx Wy (most_S n)) as U. unfold within in U. apply Qabs_Qle_condition in U.
  assert (Px : 0 <= value x) by (destruct Hx as [E|[L _]]; lra). assert (Py : 0 <= value y) by (destruct Hy as [E|[L _]]; lra).
  assert (D : value x == 0 /\ value y == 0 \/ least <= value x \/ least <= value y) by (destruct Hx as [E|[L _]], Hy as [E'|[L' _]]; auto).
  assert (R0 : representable round64 0) by (apply (rnd_0 _ round64_rounding)).
  pose proof (float_low 0 x R0 Px) as Fx. pose proof (float_low 0 y R0 Py) as Fy.
  destruct D as [[Ex Ey]|D].
  - left. pose proof (float_zero x Ex) as Zx. pose proof (float_zero y Ey) as Zy.
    assert (G : m_round lib (to_float lib x + to_float lib y) == 0) by (apply round_zero; rewrite Zx, Zy; reflexivity).
    destruct x as [a|a], y as [b|b]; cbn [n_add value] in *; try exact G. rewrite inject_Z_plus, Ex, Ey. reflexivity.
  - right. split; [|apply U].
    assert (G : least <= m_round lib (to_float lib x + to_float lib y)).
    { apply round_low; [apply least_rep|]. destruct D as [D|D]; [pose proof (float_low least x least_rep D)|pose proof (float_low least y least_rep D)]; lra. }
    destruct x as [a|a], y as [b|b]; cbn [n_add value] in *; try exact G. rewrite inject_Z_plus. destruct D; lra.
Qed.

(** ** the weights of the edges *)
Section Graph.
Variables (g : graph) (wattr : key) (m : metric).
Hypothesis W : WF g.
Hypothesis OR : (Z.of_nat (order g) < 2 ^ 53)%Z.
Hypothesis WB : weighted m = true -> weights_below 200 wattr g.
Hypothesis WA : m = Cosine -> weights_above 200 wattr g.

Lemma items_attrs u t a : In (t, a) (items g u) -> g_multi g = false /\ (edge_attrs g u t (KInt 0) = Some a \/ a = [])
  \/ g_multi g = true /\ forall k v, dget k a = Some v -> v = attributes_object.
Proof.
  unfold items. rewrite in_map_iff. intros ([t' kd] & E & I). cbn [fst snd] in E. inversion E; subst. clear E. destruct (g_multi g).
  - right. split; [reflexivity|]. intros k v H. apply dget_Some_In in H. apply in_map_iff in H as (x & Ex & _). inversion Ex; reflexivity.
  - left. split; [reflexivity|]. apply adj_items_In in I; [|exact W]. unfold edge_attrs. rewrite I. destruct (dget (KInt 0) kd) as [l|] eqn:K; [left; exact K|right; reflexivity].
Qed.
Lemma item_within u t a x : weighted m = true -> In (t, a) (items g u) -> as_number (get_weight wattr a) = Ok x -> within (inject_Z (2 ^ 200)) x.
Proof.
  intros Wm I N. unfold get_weight in N. destruct (dget wattr a) as [w|] eqn:D.
  - destruct (items_attrs u t a I) as [[_ [E| ->]]|[_ E]]; [|discriminate|rewrite (E _ _ D) in N; discriminate].
    eapply number_within; [apply WB, Wm|exact E|exact D|exact N].
  - inversion N; subst. apply sized_one.
Qed.
Lemma item_sized u t a x : m = Cosine -> In (t, a) (items g u) -> as_number (get_weight wattr a) = Ok x -> sized x.
Proof.
  intros Em I N. split; [eapply item_within; [rewrite Em; reflexivity|exact I|exact N]|].
  unfold get_weight in N. destruct (dget wattr a) as [w|] eqn:D.
  - destruct (items_attrs u t a I) as [[_ [E| ->]]|[_ E]]; [|discriminate|rewrite (E _ _ D) in N; discriminate].
    unfold as_number in N. destruct (pynum_of w) as [n|] eqn:P; [|discriminate]. inversion N; subst n.
    eapply (WA Em); [exact E|exact D|]. apply value_number. eauto.
  - inversion N; subst. apply sized_one.
Qed.
Lemma items_length u : (List.length (items g u) <= order g)%nat.
Proof. unfold items. rewrite map_length. apply adj_length, W. Qed.

Lemma accumulate_agree n acc u t a : (Z.of_nat (S n) <= 2 ^ 53)%Z -> In (t, a) (items g u) -> norm_range n acc ->
  accumulate lib' m acc (get_weight wattr a) = accumulate lib m acc (get_weight wattr a)
  /\ forall acc', accumulate lib m acc (get_weight wattr a) = Ok acc' -> norm_range (S n) acc'.
Proof.
  intros Hn I A. unfold accumulate.
  assert (O : n_add lib' acc (NInt 1) = n_add lib acc (NInt 1) /\ norm_range (S n) (n_add lib acc (NInt 1))).
  { apply sum_range; [exact Hn|exact A|]. right. cbn [value]. split; [vm_compute; discriminate|apply one_power; lia]. }
  pose proof (fun x Em => item_sized u t a x Em I) as IS.
  destruct m; try (rewrite (proj1 O); split; [reflexivity|intros ? X; inversion X; subst; apply O]).
  destruct (as_number (get_weight wattr a)) as [x|e] eqn:N; cbn [bind]; [|split; [reflexivity|discriminate]].
  pose proof (IS x eq_refl eq_refl) as S. rewrite (proj1 (product_agree x x (proj1 S) (proj1 S))).
  destruct (sum_range n acc _ Hn A (square_range x S)) as [-> G]. split; [reflexivity|]. intros ? X; inversion X; subst; exact G.
Qed.
Variables (p : part) (attr : key) (chk : bool).
Lemma accumulate_all_agree u l : forall n acc, incl l (items g u) -> (Z.of_nat (n + List.length l) <= 2 ^ 53)%Z -> norm_range n acc ->
  foldM (fun acc tta => if chk && same_part p attr (fst tta) (snd tta) then Err TypeError else accumulate lib' m acc (get_weight wattr (snd tta))) l acc
  = foldM (fun acc tta => if chk && same_part p attr (fst tta) (snd tta) then Err TypeError else accumulate lib m acc (get_weight wattr (snd tta))) l acc
  /\ forall s, foldM (fun acc tta => if chk && same_part p attr (fst tta) (snd tta) then Err TypeError else accumulate lib m acc (get_weight wattr (snd tta))) l acc = Ok s -> norm_range (n + List.length l) s.
Proof.
  induction l as [|[t a] l IH]; intros n acc I L A; cbn [foldM List.length fst snd] in *.
  - split; [reflexivity|]. intros s E. inversion E; subst. rewrite Nat.add_0_r. exact A.
  - destruct (chk && same_part p attr t a); cbn [bind]; [split; [reflexivity|discriminate]|].
    destruct (accumulate_agree n acc u t a ltac:(lia) (I _ (or_introl eq_refl)) A) as [-> G].
    destruct (accumulate lib m acc (get_weight wattr a)) as [acc'|e]; cbn [bind]; [|split; [reflexivity|discriminate]].
    replace (n + S (List.length l))%nat with (S n + List.length l)%nat in * by lia. apply IH; [intros x Hx; apply I; right; exact Hx|exact L|apply G; reflexivity].
Qed.
Lemma accumulated_agree u : accumulated lib' m g p attr wattr chk u = accumulated lib m g p attr wattr chk u
  /\ forall s, accumulated lib m g p attr wattr chk u = Ok s -> norm_range (order g) s.
Proof.
  unfold accumulated. pose proof (items_length u) as L.
  destruct (accumulate_all_agree u (items g u) 0 (NInt 0) (incl_refl _) ltac:(lia) ltac:(left; reflexivity)) as [E G]. split; [exact E|].
  intros s Hs. specialize (G s Hs). cbn [Nat.add] in G. destruct G as [G|[G1 G2]]; [left; exact G|right]. split; [exact G1|].
  eapply Qle_trans; [exact G2|]. apply inject_le. pose proof (Z.pow_pos_nonneg 2 400). nia.
Qed.
(** without squares norms are ints *)
Lemma accumulated_int u s : m <> Cosine -> accumulated lib m g p attr wattr chk u = Ok s -> exists z, s = NInt z.
Proof.
  intros NC. unfold accumulated. apply (foldM_inv (fun _ s => exists z, s = NInt z)); [eauto|].
  intros done [t a] todo st st' _ (z & ->) H. cbn [fst snd] in H. destruct (chk && same_part p attr t a); [discriminate|].
  unfold accumulate in H. destruct m; try congruence; inversion H; subst; cbn [n_add]; eauto.
Qed.

(** ** norms *)
Definition rooted : bool := match m with Cosine | BinaryCosine => true | _ => false end.
Definition low : Q := unit_of 873.
Definition norm_ok (x : pynum) : Prop :=
  if rooted then exists q, x = NFloat q /\ low <= q <= inject_Z (2 ^ 228) else exists z, x = NInt z /\ within (most (order g)) x.
Lemma root_range x : least <= x <= inject_Z (2 ^ 453) -> low <= sqrt64 x <= inject_Z (2 ^ 228).
Proof.
  intros [L U]. assert (U0 : unit_of 0 <= x) by (eapply Qle_trans; [|exact L]; vm_compute; discriminate).
  destruct (sqrt64_error x U0) as (P & A & B). assert (LP := least_pos).
  assert (A' : (1 # 4) * x <= sqrt64 x * sqrt64 x).
  { eapply Qle_trans; [|exact A]. setoid_replace (x * (1 - (1 # 9007199254740992)) * (1 - (1 # 9007199254740992)) * (1 - (1 # 340282366920938463463374607431768211456)))
      with (((1 - (1 # 9007199254740992)) * (1 - (1 # 9007199254740992)) * (1 - (1 # 340282366920938463463374607431768211456))) * x) by ring.
    apply Qmult_le_compat_r; [vm_compute; discriminate|lra]. }
  assert (B' : sqrt64 x * sqrt64 x <= 4 * x).
  { eapply Qle_trans; [exact B|]. setoid_replace (x * (1 + (1 # 9007199254740992)) * (1 + (1 # 9007199254740992)) * (1 + (1 # 170141183460469231731687303715884105728)))
      with (((1 + (1 # 9007199254740992)) * (1 + (1 # 9007199254740992)) * (1 + (1 # 170141183460469231731687303715884105728))) * x) by ring.
    apply Qmult_le_compat_r; [vm_compute; discriminate|lra]. }
  split; apply square_le.
  - apply Qlt_le_weak, P.
  - apply (Qle_trans _ ((1 # 4) * least)); [vm_compute; discriminate|]. apply (Qle_trans _ ((1 # 4) * x)); [lra|exact A'].
  - vm_compute. discriminate.
  - eapply Qle_trans; [exact B'|]. apply (Qle_trans _ (4 * inject_Z (2 ^ 453))); [lra|vm_compute; discriminate].
Qed.
Lemma finalize_agree u s : accumulated lib m g p attr wattr chk u = Ok s -> should_keep_norm m s = true ->
  finalize_norm lib' m s = finalize_norm lib m s /\ norm_ok (finalize_norm lib m s).
Proof.
  intros E K. pose proof (proj2 (accumulated_agree u) s E) as R. pose proof (range_within _ _ R) as Wi.
  assert (RT : rooted = true -> n_ltb (NInt 0) s = true ->
    NFloat (m_sqrt lib' (to_float lib' s)) = NFloat (m_sqrt lib (to_float lib s)) /\ exists q, NFloat (m_sqrt lib (to_float lib s)) = NFloat q /\ low <= q <= inject_Z (2 ^ 228)).
  { intros _ L. unfold n_ltb in L. apply q_ltb_true in L. cbn [value] in L. change (inject_Z 0) with 0 in L. destruct R as [Z|[R1 R2]]; [lra|].
    assert (RM : representable round64 (most (order g))) by (apply most_rep; lia).
    pose proof (to_float_within lib R64 _ s RM Wi) as F. pose proof (float_low least s least_rep R1) as F1. pose proof least_pos as LP.
    rewrite Qabs_pos in F by lra. pose proof (most_453 (order g) ltac:(lia)) as M4. pose proof (most_big (order g) ltac:(lia)) as MB.
    rewrite (to_float_agree lib lib' AG s) by (unfold within in Wi; lra).
    rewrite (agree_sqrt _ _ AG) by lra. split; [reflexivity|]. eexists. split; [reflexivity|]. rewrite S64. apply root_range. lra. }
  unfold norm_ok, finalize_norm, should_keep_norm, rooted in *.
  pose proof (fun NC => accumulated_int u s NC E) as IN.
  destruct m; try (split; [reflexivity|destruct IN as (z & ->); [discriminate|]; exists z; split; [reflexivity|exact Wi]]); apply RT; auto.
Qed.
Definition norms_ok (norms : dict pynum) : Prop := forall k x, dget k norms = Some x -> norm_ok x.
Lemma norms_agree l s : norms_ok (fst (fst s)) ->
  foldM (norms_step lib' m g p attr wattr chk) l s = foldM (norms_step lib m g p attr wattr chk) l s
  /\ forall s', foldM (norms_step lib m g p attr wattr chk) l s = Ok s' -> norms_ok (fst (fst s')).
Proof.
  assert (ST : forall st na, norms_ok (fst (fst st)) -> norms_step lib' m g p attr wattr chk st na = norms_step lib m g p attr wattr chk st na
    /\ forall st', norms_step lib m g p attr wattr chk st na = Ok st' -> norms_ok (fst (fst st'))).
  { intros [[norms h] ex] na H. unfold norms_step. destruct (in_part p attr (fst na) (snd na)); [|split; [reflexivity|intros st' E; inversion E; subst; exact H]].
    rewrite (proj1 (accumulated_agree (fst na))). destruct (accumulated lib m g p attr wattr chk (fst na)) as [acc|e] eqn:A; cbn [bind]; [|split; [reflexivity|discriminate]].
    destruct (add_node_kw h (fst na) (dremove [attr] (snd na))) as [h'|e]; cbn [bind]; [|split; [reflexivity|discriminate]].
    unfold add_norm. destruct (should_keep_norm m acc) eqn:K; [|split; [reflexivity|intros st' E; inversion E; subst; exact H]].
    destruct (finalize_agree _ _ A K) as [-> G]. split; [reflexivity|]. intros st' E. inversion E; subst. cbn [fst]. intros k x. rewrite dget_dset.
    destruct (key_eqb k (fst na)) eqn:Ek; [intros X; inversion X; subst; exact G|apply H]. }
  intros H. split.
  - apply (foldM_same (fun st => norms_ok (fst (fst st)))); [exact H|intros; apply ST; assumption|intros st a st' _ K; apply (proj2 (ST st a K))].
  - intros s' E. revert E. apply (foldM_inv (fun _ st => norms_ok (fst (fst st)))); [exact H|]. intros done a todo st st' _ K. apply (proj2 (ST st a K)).
Qed.
End Graph.
End Agree.
