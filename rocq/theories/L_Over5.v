(** * Floats below the greatest ones: sparsifiers and the learner *)
From Coq Require Import ZArith QArith Qabs Lia Lqa.
From Verif Require Import PyBase PyNum NxGraph M_Graph M_UnionFind M_Umst M_Disparity M_Sparse M_Learn S_Graph S_Num S_Sparse S_Over L_Base L_Graph L_Graph2 L_Nx L_Comp L_Num L_Ieee L_Over L_Over2.
Local Open Scope Q_scope.

Section Agree.
Variables lib lib' : libm.
Hypothesis R64 : forall x, m_round lib x = round64 x.
Hypothesis AG : agree lib lib'.

(** ** sparsifiers *)
Lemma trees_agree k attr pf g : (0 <= k <= 1022)%Z -> WF g -> weights_below k attr g ->
  union_of_maximum_spanning_trees lib' pf g attr = union_of_maximum_spanning_trees lib pf g attr.
Proof. intros K W B. unfold union_of_maximum_spanning_trees. rewrite (umst_run_agree lib lib' R64 AG k attr K pf g W B). reflexivity. Qed.
Lemma decorate_agree k pf (f f' : factory) g : (0 <= k <= 1022)%Z -> WF g -> weights_below k (K "weight") g -> f' g = f g ->
  decorate lib' pf (Some f') g = decorate lib pf (Some f) g.
Proof. intros Hk W B E. unfold decorate. rewrite E, (trees_agree k _ pf g Hk W B). reflexivity. Qed.
Lemma same_relevant sp sp' g : sp_relevant sp' = None -> sp_relevant sp = None -> sp_predicate sp' g = sp_predicate sp g -> sparsifier_filter sp' g = sparsifier_filter sp g.
Proof. intros E' E H. unfold sparsifier_filter, relevant_edges. rewrite E', E, H. reflexivity. Qed.
Lemma sparsify_agree k pf (f f' : factory) g (keep : bool) : (keep = true -> (0 <= k <= 1022)%Z /\ weights_below k (K "weight") g) -> WF g -> f' g = f g ->
  (let* sp := make_sparsifier lib' pf (Some f') None None keep in sparsifier_filter sp g)
  = (let* sp := make_sparsifier lib pf (Some f) None None keep in sparsifier_filter sp g).
Proof.
  intros B W E. cbn [make_sparsifier bind]. apply same_relevant; try reflexivity. unfold sp_predicate. cbn [sp_factory].
  destruct keep; [|exact E]. destruct (B eq_refl) as [K WB]. apply (decorate_agree k); assumption.
Qed.

(** ** the learner *)
Definition steps (k : Z) (n : nat) : Q := inject_Z (Z.of_nat n * 2 ^ k).
Lemma steps_rep k n : (0 <= k)%Z -> (Z.of_nat n <= 2 ^ 53)%Z -> representable round64 (steps k n).
Proof. intros Hk H. apply rep_multiple; lia. Qed.
Lemma steps_big k n : (0 <= k <= 970)%Z -> (Z.of_nat n <= 2 ^ 53)%Z -> steps k n <= big.
Proof.
  intros Hk H. unfold steps, big. apply inject_le. replace 1023%Z with (53 + 970)%Z by lia. rewrite Z.pow_add_r by lia.
  pose proof (Z.pow_le_mono_r 2 k 970 ltac:(lia) ltac:(lia)). pose proof (Z.pow_pos_nonneg 2 k ltac:(lia) ltac:(lia)). nia.
Qed.
Lemma steps_1 k : steps k 1 = inject_Z (2 ^ k).
Proof. unfold steps. f_equal. lia. Qed.
Lemma steps_S k n : steps k n + steps k 1 <= steps k (S n).
Proof. unfold steps. rewrite <- inject_Z_plus. apply inject_le. lia. Qed.
Lemma loop_agrees k g rate m attr : (0 <= k <= 970)%Z -> within (inject_Z (2 ^ k)) rate -> forall fuel n j th, (Z.of_nat (j + fuel) <= 2 ^ 53)%Z -> within (steps k j) th ->
  floatsam_loop fuel lib' g rate m attr n th = floatsam_loop fuel lib g rate m attr n th.
Proof.
  intros Hk Hr. induction fuel as [|fuel IH]; intros n j th L Ht; cbn [floatsam_loop]; [reflexivity|]. rewrite <- steps_1 in Hr.
  assert (Rj : representable round64 (steps k j)) by (apply steps_rep; lia). assert (R1 : representable round64 (steps k 1)) by (apply steps_rep; lia).
  assert (RS : representable round64 (steps k (S j))) by (apply steps_rep; lia).
  rewrite (add_agree lib lib' R64 AG (steps k j) (steps k 1) (steps k (S j)) th rate Rj R1 Ht Hr (steps_S k j)) by (apply steps_big; lia).
  destruct (second_largest_connected_component_order _ _) as [c|e]; cbn [bind]; [|reflexivity].
  destruct (match c with Some c => _ | None => false end); [reflexivity|].
  rewrite (IH (S n) (S j)); [reflexivity|lia|apply (add_within lib R64 (steps k j) (steps k 1)); auto using steps_S].
Qed.
Lemma max_le l : forall x b, (x <= b)%nat -> (forall y, In y l -> (y <= b)%nat) -> (fold_left Nat.max l x <= b)%nat.
Proof.
  induction l as [|y l IH]; intros x b Hx H; cbn [fold_left]; [exact Hx|]. apply IH; [|intros z Hz; apply H; right; exact Hz].
  apply Nat.max_lub; [exact Hx|apply H; left; reflexivity].
Qed.
Lemma In_sum_nat x l : In x l -> (x <= sum_nat l)%nat.
Proof. induction l as [|y l IH]; intros []; unfold sum_nat in *; cbn [fold_right]; [lia|]. specialize (IH H). lia. Qed.
Lemma drifter_agree g o : WF g -> (Z.of_nat (order g) <= 2 ^ 1023)%Z -> drifter_order lib' g o = drifter_order lib g o.
Proof.
  intros W O. unfold drifter_order. destruct o as [m|]; [reflexivity|]. unfold largest_connected_component_order.
  assert (one : 1 <= big) by apply one_big.
  destruct (Nat.eqb (order g) 0); cbn [bind]; [rewrite (agree_log _ _ AG); [reflexivity|split; [reflexivity|exact one]]|].
  destruct (orders_partition g None (fun _ _ _ => true) W (fun _ _ _ => eq_refl)) as (sizes & -> & _ & S). cbn [bind].
  destruct sizes as [|x l]; cbn [bind]; [reflexivity|].
  assert (B : (fold_left Nat.max l x <= order g)%nat).
  { rewrite <- S. apply max_le; [apply In_sum_nat; left; reflexivity|]. intros y Hy. apply In_sum_nat. right. exact Hy. }
  destruct (fold_left Nat.max l x) as [|n]; (rewrite (agree_log _ _ AG); [reflexivity|]).
  - split; [reflexivity|exact one].
  - split; [change 0 with (inject_Z 0); rewrite <- Zlt_Qlt; lia|unfold big; apply inject_le; lia].
Qed.
Lemma learner_agree k fuel g start rate o attr : (0 <= k <= 970)%Z -> (Z.of_nat fuel < 2 ^ 53)%Z -> WF g -> (Z.of_nat (order g) <= 2 ^ 1023)%Z ->
  Qabs (value start) <= inject_Z (2 ^ k) -> Qabs (value rate) <= inject_Z (2 ^ k) ->
  floatsam_threshold_learner fuel lib' g start rate o attr = floatsam_threshold_learner fuel lib g start rate o attr.
Proof.
  intros Hk F W O HS HR. unfold floatsam_threshold_learner. destruct (Nat.eqb (size g) 0); [reflexivity|]. rewrite (drifter_agree g o W O).
  destruct (drifter_order lib g o) as [m|e]; cbn [bind]; [|reflexivity]. apply (loop_agrees k g rate m attr Hk HR fuel 0%nat 1%nat); [lia|].
  unfold within. rewrite steps_1. exact HS.
Qed.
End Agree.
