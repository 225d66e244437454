(** * Floats below the greatest ones: spanning trees and disparity *)
From Coq Require Import ZArith QArith Qabs Qminmax Lia Lqa.
From Verif Require Import PyBase PyNum NxGraph M_UnionFind M_Umst M_Disparity S_Graph S_Num S_Sparse S_Over L_Base L_Graph L_Graph2 L_Nx L_Num L_Ieee L_Disparity L_Over.
Local Open Scope Q_scope.

Lemma foldM_same {A S} (P : S -> Prop) (f f' : S -> A -> res S) l : forall s,
  P s -> (forall s a, In a l -> P s -> f' s a = f s a) -> (forall s a s', In a l -> P s -> f s a = Ok s' -> P s') ->
  foldM f' l s = foldM f l s.
Proof.
  induction l as [|a l IH]; intros s Ps E K; cbn [foldM]; [reflexivity|].
  rewrite (E s a (or_introl eq_refl) Ps). destruct (f s a) as [s'|e] eqn:F; cbn [bind]; [|reflexivity].
  apply IH; [eapply K; [left; reflexivity|exact Ps|exact F]| |]; intros; [apply E|eapply K]; try eassumption; right; assumption.
Qed.
Lemma mapM_same {A B} (f f' : A -> res B) l : (forall a, In a l -> f' a = f a) -> mapM f' l = mapM f l.
Proof.
  induction l as [|a l IH]; intros E; cbn [mapM]; [reflexivity|]. rewrite (E a) by (left; reflexivity).
  rewrite IH by (intros; apply E; right; assumption). reflexivity.
Qed.
Lemma mapM_In_inv {A B} (f : A -> res B) l : forall l', mapM f l = Ok l' -> forall y, In y l' -> exists x, In x l /\ f x = Ok y.
Proof.
  induction l as [|a l IH]; cbn [mapM]; intros l' H y Hy; [inversion H; subst; destruct Hy|].
  destruct (f a) as [b|] eqn:F; [|discriminate]. cbn [bind] in H. destruct (mapM f l) as [l0|]; [|discriminate]. cbn [bind] in H. inversion H; subst.
  destruct Hy as [<-|Hy]; [exists a; split; [left; reflexivity|exact F]|]. destruct (IH l0 eq_refl y Hy) as (x & I & E). exists x. split; [right; exact I|exact E].
Qed.
Lemma number_within k attr g u v i a w n : weights_below k attr g -> edge_attrs g u v i = Some a -> dget attr a = Some w -> as_number w = Ok n ->
  within (inject_Z (2 ^ k)) n.
Proof.
  intros B E D N. unfold as_number in N. destruct (pynum_of w) as [n'|] eqn:P; [|discriminate]. inversion N; subst n'.
  unfold within. eapply B; [exact E|exact D|]. apply value_number. eauto.
Qed.

Section Agree.
Variables lib lib' : libm.
Hypothesis R64 : forall x, m_round lib x = round64 x.
Hypothesis AG : agree lib lib'.

(** ** union_of_maximum_spanning_trees *)
Section Umst.
Variables (k : Z) (attr : key).
Hypothesis Hk : (0 <= k <= 1022)%Z.

Lemma epsilon_agree : weight_epsilon lib' = weight_epsilon lib.
Proof.
  unfold weight_epsilon. apply (round_agree lib lib' AG). apply (Qle_trans _ 1); [vm_compute; discriminate|apply one_big].
Qed.
Lemma bucket_agree w s : within (inject_Z (2 ^ k)) w -> (forall c, um_weight s = Some c -> within (inject_Z (2 ^ k)) c) -> um_bucket lib' w s = um_bucket lib w s.
Proof.
  intros Hw Hs. unfold um_bucket. destruct (um_weight s) as [c|] eqn:E; [|reflexivity]. rewrite epsilon_agree.
  assert (R : representable round64 (inject_Z (2 ^ k))) by (apply rep_power; lia).
  rewrite (sub_agree lib lib' R64 AG (inject_Z (2 ^ k)) (inject_Z (2 ^ k)) (inject_Z (2 ^ (k + 1))) c w R R (Hs c eq_refl) Hw); [reflexivity| |apply power_big; lia..].
  rewrite <- inject_Z_plus. apply inject_le. rewrite Z.pow_add_r by lia. lia.
Qed.
Lemma loop_agree l : forall s, (forall x, In x l -> within (inject_Z (2 ^ k)) (fst x)) -> (forall c, um_weight s = Some c -> within (inject_Z (2 ^ k)) c) ->
  um_loop lib' l s = um_loop lib l s.
Proof.
  induction l as [|[w e] l IH]; intros s Hl Hs; cbn [um_loop]; [reflexivity|]. unfold sbind.
  assert (Hw : within (inject_Z (2 ^ k)) w) by (apply (Hl (w, e)); left; reflexivity).
  assert (E : um_edge lib' (w, e) s = um_edge lib (w, e) s) by (unfold um_edge, sbind; rewrite (bucket_agree w s Hw Hs); reflexivity).
  rewrite E. destruct (um_edge lib (w, e) s) as [s' r] eqn:F. destruct r as [u|]; [|reflexivity]. apply IH; [intros; apply Hl; right; assumption|].
  intros c Hc. assert (Q : um_weight s' = um_weight s \/ um_weight s' = Some w).
  { clear -F. unfold um_edge, sbind in F. unfold um_bucket in F.
    assert (X : forall st st' r0, (let (s0, r1) := on_ds (ds_same (fst (fst e)) (snd (fst e))) st in
              match r1 with Ok same => (if same then sret tt else smodify (fun s => mkUM (um_ds s) (um_weight s) (um_relevant s ++ [e]) (um_out s))) s0 | Err e0 => (s0, Err e0) end) = (st', r0) -> um_weight st' = um_weight st).
    { intros st st' r0. unfold on_ds. destruct (ds_same _ _ _) as [d [b|x]]; [destruct b|]; unfold sret, smodify; intros Z; inversion Z; reflexivity. }
    destruct (match um_weight s with Some c => _ | None => true end).
    - unfold sbind in F. destruct (um_flush (um_relevant s) s) as [s1 [x|x]].
      + unfold smodify in F at 1. apply X in F. right. exact F.
      + discriminate F.
    - apply X in F. left. exact F. }
  destruct Q as [Q|Q]; rewrite Q in Hc; [apply Hs, Hc|inversion Hc; subst; exact Hw].
Qed.
Lemma sort_In x l : In x (sort_weights l) -> In x l.
Proof.
  assert (G : forall y l, In x (insert_weight y l) -> x = y \/ In x l).
  { intros y l0. induction l0 as [|z l0 IH]; cbn; [intuition|]. destruct (n_leb (fst z) (fst y)); cbn; intuition. }
  induction l as [|y l IH]; cbn; [auto|]. intros H. apply G in H as [H|H]; auto.
Qed.
Lemma umst_run_agree pf g : WF g -> weights_below k attr g -> umst_run lib' pf g attr = umst_run lib pf g attr.
Proof.
  intros W B. unfold umst_run. destruct (Nat.eqb (size g) 0); [reflexivity|].
  destruct (mapM _ (edges_data g)) as [l|e] eqn:E; [|reflexivity]. destruct (make_ds pf (order g)) as [ds|e]; [|reflexivity].
  rewrite loop_agree; [reflexivity| |intros c; discriminate].
  intros x Hx. apply sort_In in Hx. destruct (mapM_In_inv _ _ _ E x Hx) as ([[u v] a] & I & F). cbn [snd] in F.
  unfold weight_of in F. destruct (dget attr a) as [w|] eqn:D.
  - destruct (as_number w) as [n|] eqn:N; [|discriminate]. cbn [bind] in F. inversion F; subst. cbn [fst].
    apply edges_data_In in I as (i & I). apply edges_keys_attrs in I; [|exact W]. eapply number_within; eassumption.
  - cbn [bind] in F. inversion F; subst. cbn [fst]. unfold within. cbn [value]. apply one_power; lia.
Qed.
End Umst.

(** ** edge_disparity *)
Section Disparity.
Variables (k : Z) (attr : key) (g : graph).
Hypothesis Hk : (0 <= k <= 970)%Z.
Hypothesis W : WF g.
Hypothesis M : g_multi g = false.
Hypothesis D : g_dir g = false.
Hypothesis P : positive_weights attr g.
Hypothesis SD : sound lib.
Hypothesis FO : float_weights lib attr g.
Hypothesis B : weights_below k attr g.
Hypothesis OR : (Z.of_nat (order g) < 2 ^ 53)%Z.

Definition upto (n : nat) : Q := inject_Z (Z.of_nat n * 2 ^ k).
Lemma upto_rep n : (Z.of_nat n <= 2 ^ 53)%Z -> representable round64 (upto n).
Proof. intros H. apply rep_multiple; lia. Qed.
Lemma upto_big n : (Z.of_nat n <= 2 ^ 53)%Z -> upto n <= big.
Proof.
  intros H. unfold upto, big. apply inject_le. replace 1023%Z with (53 + 970)%Z by lia. rewrite Z.pow_add_r by lia.
  pose proof (Z.pow_le_mono_r 2 k 970 ltac:(lia) ltac:(lia)). pose proof (Z.pow_pos_nonneg 2 k ltac:(lia) ltac:(lia)). nia.
Qed.
Lemma upto_1 : upto 1 = inject_Z (2 ^ k).
Proof. unfold upto. f_equal. lia. Qed.
Lemma upto_S n : upto n + upto 1 <= upto (S n).
Proof. unfold upto. rewrite <- inject_Z_plus. apply inject_le. lia. Qed.
Lemma weight_within u m kd w : edge_data g u m = Some kd -> weight_or_one attr kd = Ok w -> within (upto 1) w.
Proof.
  intros E H. rewrite upto_1. unfold weight_or_one in H. destruct (dget (KInt 0) kd) as [a|] eqn:K.
  - assert (EA : edge_attrs g u m (KInt 0) = Some a) by (unfold edge_attrs; rewrite E; exact K).
    destruct (dget attr a) as [v|] eqn:Da; [eapply number_within; eassumption|].
    inversion H; subst. unfold within. cbn [value]. apply one_power; lia.
  - inversion H; subst. unfold within. cbn [value]. apply one_power; lia.
Qed.
Lemma sum_agree u l : forall n acc, incl l (adj_items g u) -> within (upto n) acc -> (Z.of_nat (n + List.length l) <= 2 ^ 53)%Z ->
  foldM (fun acc mk => let* w := weight_or_one attr (snd mk) in Ok (n_add lib' acc w)) l acc
  = foldM (fun acc mk => let* w := weight_or_one attr (snd mk) in Ok (n_add lib acc w)) l acc
  /\ forall s, foldM (fun acc mk => let* w := weight_or_one attr (snd mk) in Ok (n_add lib acc w)) l acc = Ok s -> within (upto (n + List.length l)) s.
Proof.
  induction l as [|[m kd] l IH]; intros n acc I A L; cbn [foldM List.length].
  - split; [reflexivity|]. intros s E. inversion E; subst. rewrite Nat.add_0_r. exact A.
  - cbn [snd List.length] in *. destruct (weight_or_one attr kd) as [w|e] eqn:Ew; cbn [bind]; [|split; [reflexivity|discriminate]].
    assert (Hw : within (upto 1) w) by (eapply weight_within; [apply (adj_items_In g u m kd W), I; left; reflexivity|exact Ew]).
    assert (Rn : representable round64 (upto n)) by (apply upto_rep; lia). assert (R1 : representable round64 (upto 1)) by (apply upto_rep; lia).
    assert (RS : representable round64 (upto (S n))) by (apply upto_rep; lia).
    rewrite (add_agree lib lib' R64 AG (upto n) (upto 1) (upto (S n)) acc w Rn R1 A Hw (upto_S n)) by (apply upto_big; lia).
    replace (n + S (List.length l))%nat with (S n + List.length l)%nat in * by lia. apply IH; [|apply (add_within lib R64 (upto n) (upto 1)); auto using upto_S|exact L].
    intros x Hx. apply I. right. exact Hx.
Qed.
Lemma adj_length u : (List.length (adj_items g u) <= order g)%nat.
Proof.
  unfold order. rewrite <- (map_length fst (adj_items g u)), <- (map_length fst (g_nodes g)). apply NoDup_incl_length; [apply adj_items_NoDup, W|].
  intros x Ix. apply In_dkeys in Ix as (kd & Ix). apply adj_items_In in Ix; [|exact W]. apply (edge_data_nodes g u x kd W Ix).
Qed.
Lemma degree_agree u : weighted_degree lib' g attr u = weighted_degree lib g attr u
  /\ forall n, weighted_degree lib g attr u = Ok n -> Qabs (value n) <= big.
Proof.
  pose proof (adj_length u) as AL. unfold weighted_degree.
  destruct (sum_agree u (adj_items g u) 0 (NInt 0) (incl_refl _)) as [E H]; [unfold within; cbn; vm_compute; discriminate|lia|].
  rewrite E. clear E. destruct (foldM _ (adj_items g u) (NInt 0)) as [s|e]; cbn [bind]; [|split; [reflexivity|discriminate]]. specialize (H s eq_refl). cbn [Nat.add] in H.
  set (n := List.length (adj_items g u)) in *.
  assert (Rn : representable round64 (upto n)) by (apply upto_rep; lia). assert (R1 : representable round64 (upto 1)) by (apply upto_rep; lia).
  assert (RS : representable round64 (upto (S n))) by (apply upto_rep; lia).
  destruct (edge_data g u u) as [kd|] eqn:Eu.
  - destruct (weight_or_one attr kd) as [w|e] eqn:Ew; cbn [bind]; [|split; [reflexivity|discriminate]].
    pose proof (weight_within u u kd w Eu Ew) as Hw.
    rewrite (add_agree lib lib' R64 AG (upto n) (upto 1) (upto (S n)) s w Rn R1 H Hw (upto_S n)) by (apply upto_big; lia). split; [reflexivity|].
    intros x Ex. inversion Ex; subst. eapply Qle_trans; [apply (add_within lib R64 (upto n) (upto 1) (upto (S n)) s w); auto using upto_S|apply upto_big; lia].
  - split; [reflexivity|]. intros x Ex. inversion Ex; subst. eapply Qle_trans; [exact H|apply upto_big; lia].
Qed.
Lemma under_agree w s : 0 < value w -> under lib w s -> Qabs (value w) <= big -> Qabs (value s) <= big -> n_div lib' w s = n_div lib w s.
Proof.
  intros Hw U Bw Bs. apply (div_agree lib lib' AG w s Bw Bs). intros _.
  pose proof (proj1 SD) as RD. pose proof (under_pos lib RD w s Hw U) as HS. destruct U as [U1 U2].
  pose proof (to_float_pos lib RD w Hw) as FW. pose proof (to_float_pos lib RD s HS) as FS.
  assert (G : forall x, 0 <= x <= 1 -> Qabs x <= big) by (intros x [L1 L2]; rewrite Qabs_pos by exact L1; pose proof one_big; lra).
  assert (Y : 0 <= to_float lib w / to_float lib s <= 1) by (split; [apply Qle_shift_div_l; [exact FS|lra]|apply Qle_shift_div_r; [exact FS|lra]]).
  destruct w as [a|], s as [b|]; apply G; try exact Y. cbn [value] in Hw, HS. apply inject_le in U2.
  split; [apply Qle_shift_div_l; [exact HS|lra]|apply Qle_shift_div_r; [exact HS|lra]].
Qed.
Lemma share_agree u v a : edge_attrs g u v (KInt 0) = Some a -> div_weight lib' (dget attr a) (wd g attr lib u) = div_weight lib (dget attr a) (wd g attr lib u).
Proof.
  intros E. destruct (link_number g attr W P lib FO u v a E) as (z & Ez & N & H & _). unfold div_weight. rewrite Ez, N. cbn [bind].
  assert (L : link_num g attr u v = data_num attr a) by (unfold link_num; rewrite E; reflexivity).
  pose proof (wd_under g attr W M P lib SD FO u v (edge_attrs_has g u v _ a E)) as U. rewrite L in U.
  apply under_agree; [exact H|exact U| |].
  - eapply Qle_trans; [apply (number_within k attr g u v (KInt 0) a z (data_num attr a) B E Ez N)|apply power_big; lia].
  - apply (proj2 (degree_agree u)). apply (wd_Ok g attr W M P lib SD FO).
Qed.
Lemma unit_round x : 0 <= x <= 1 -> m_round lib' (1 - x) = m_round lib (1 - x) /\ 0 <= m_round lib (1 - x) <= 1.
Proof.
  intros [L1 L2]. split.
  - apply (round_agree lib lib' AG). rewrite Qabs_pos by lra. pose proof one_big. lra.
  - pose proof (proj1 SD) as RD. assert (A : 0 <= 1 - x) by lra. assert (C : 1 - x <= 1) by lra. apply (rnd_le _ RD) in A, C.
    pose proof (rnd_0 _ RD). pose proof (rnd_1 _ RD). lra.
Qed.
Lemma score_agree reverse ds dt x y : (1 <= ds)%nat -> (1 <= dt)%nat -> 0 <= x <= 1 -> 0 <= y <= 1 ->
  disparity_score lib' reverse ds dt x y = disparity_score lib reverse ds dt x y.
Proof.
  intros Hs Ht Hx Hy. unfold disparity_score. destruct (unit_round x Hx) as [-> Ux]. destruct (unit_round y Hy) as [-> Uy].
  rewrite !(agree_pow lib lib' AG) by (assumption || lia).
  pose proof (proj1 (proj2 SD) _ (Z.of_nat ds - 1)%Z Ux ltac:(lia)) as Sx. pose proof (proj1 (proj2 SD) _ (Z.of_nat dt - 1)%Z Uy ltac:(lia)) as Sy.
  destruct (unit_round _ Sx) as [-> _]. destruct (unit_round _ Sy) as [-> _]. reflexivity.
Qed.
Lemma edge_disparity_agree reverse : edge_disparity lib' g attr reverse = edge_disparity lib g attr reverse.
Proof.
  unfold edge_disparity. rewrite D, M. cbn [orb].
  rewrite (mapM_same (fun n => let* w := weighted_degree lib g attr n in Ok (n, w))) by (intros n _; rewrite (proj1 (degree_agree n)); reflexivity).
  rewrite (mapM_Ok _ (fun n => (n, wd g attr lib n))) by (intros n _; rewrite (wd_Ok g attr W M P lib SD FO); reflexivity). cbn [bind].
  apply (foldM_same (fun _ => True)); [exact I| |auto]. intros d s _ _.
  apply (foldM_same (fun _ => True)); [exact I| |auto]. intros d' [t w] It _.
  apply (edges_weight_In g attr W M s t w) in It as (a & E & ->). pose proof (edge_attrs_has g s t _ a E) as HE.
  unfold disparity_edge. destruct (key_gt s t) as [b|e]; cbn [bind]; [|reflexivity]. destruct b; [reflexivity|].
  assert (N : In s (nodes g) /\ In t (nodes g)).
  { unfold has_edge in HE. destruct (edge_data g s t) as [kd|] eqn:ED; [|discriminate]. apply (edge_data_nodes g s t kd W ED). }
  rewrite !(dget_wds g attr W lib) by apply N.
  assert (E' : edge_attrs g t s (KInt 0) = Some a) by (rewrite edge_attrs_sym by exact D; exact E).
  rewrite (share_agree s t a E), (share_agree t s a E').
  destruct (share_Ok g attr W M P lib SD FO s t a E) as (-> & Us & _). destruct (share_Ok g attr W M P lib SD FO t s a E') as (-> & Ut & _). cbn [bind].
  rewrite score_agree; [reflexivity| | |exact Us|exact Ut].
  - rewrite degree_edge_ends by exact W. apply (edge_ends_pos g W D s t HE).
  - rewrite degree_edge_ends by exact W. apply (edge_ends_pos g W D t s). rewrite has_edge_sym; assumption.
Qed.
End Disparity.
End Agree.
