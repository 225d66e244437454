(** * Lemmas about floatsam_threshold_learner *)
From Coq Require Import List Relations ZArith Lia Bool Permutation QArith Qround Qminmax Lqa.
From Verif Require Import PyBase PyNum NxGraph L_Base L_Nx L_Nx2 S_Partition L_Partition M_Traversal M_Graph S_Graph L_Graph L_Graph2 L_Comp L_Comp2
  S_Sparse M_Learn S_Num L_Num S_Learn.
Import ListNotations.
Close Scope Q_scope.

(** ** The second greatest size is unique *)
Lemma greatest_unique m m' l : greatest m l -> greatest m' l -> m = m'.
Proof. intros [I G] [I' G']. apply G in I'. apply G' in I. lia. Qed.

Lemma greatest_perm m l l' : Permutation l l' -> greatest m l -> greatest m l'.
Proof.
  intros P [I G]. split; [eapply Permutation_in; eassumption|]. intros x Hx. apply G.
  eapply Permutation_in; [apply Permutation_sym; eassumption|assumption].
Qed.

Lemma second_greatest_unique m m' l : second_greatest m l -> second_greatest m' l -> m = m'.
Proof.
  intros (a & b & M & E & G & H) (a' & b' & M' & E' & G' & H').
  assert (M = M') as <- by (eapply greatest_unique; eassumption).
  assert (P : Permutation (a ++ b) (a' ++ b')).
  { apply (Permutation_cons_inv (a := M)). rewrite !Permutation_middle, <- E, <- E'. reflexivity. }
  eapply greatest_unique; [|exact H']. eapply greatest_perm; eassumption.
Qed.

Lemma second_greatest_length m l : second_greatest m l -> 2 <= List.length l.
Proof.
  intros (a & b & M & -> & _ & [I _]). rewrite app_length. cbn. apply in_app_or in I as [I|I].
  - destruct a; [contradiction|cbn; lia].
  - destruct b; [contradiction|cbn; lia].
Qed.

Lemma sum_nat_app l l' : sum_nat (l ++ l') = sum_nat l + sum_nat l'.
Proof. induction l; cbn; [reflexivity|]. unfold sum_nat in *. cbn. lia. Qed.

Lemma sum_nat_In x l : In x l -> x <= sum_nat l.
Proof. induction l as [|y l IH]; cbn; [tauto|]. intros [->|H]; [lia|]. apply IH in H. unfold sum_nat in H. lia. Qed.

Lemma second_greatest_half m l : second_greatest m l -> 2 * m <= sum_nat l.
Proof.
  intros (a & b & M & -> & [_ G] & [I _]).
  assert (m <= M) by (apply G; apply in_or_app; cbn; apply in_app_or in I; tauto).
  apply in_app_or in I. rewrite sum_nat_app. change (sum_nat (M :: b)) with (M + sum_nat b).
  destruct I as [I|I]; apply sum_nat_In in I; lia.
Qed.

Lemma second_greatest_In m l : second_greatest m l -> In m l.
Proof. intros (a & b & M & -> & _ & [I _]). apply in_or_app. cbn. apply in_app_or in I. tauto. Qed.

Lemma class_sizes_unique N R s s' : class_sizes N R s -> class_sizes N R s' -> s = s'.
Proof.
  intros H H'. assert (F : Forall2 eq s s').
  { eapply per_class_firsts; [|exact H|exact H']. intros C x y. apply has_size_unique. }
  clear - F. induction F; [reflexivity|]. congruence.
Qed.

(** ** One epoch *)
Section Epoch.
  Variables (g : graph) (attr : key).
  Hypotheses (W : WF g) (D : g_dir g = false) (AW : all_weighted g attr).

  Lemma filter_test_at_least t : filter_test g (Some (edge_filter attr t)) (at_least attr (value t)).
  Proof.
    intros u v k a H. apply AW in H. unfold edge_filter, at_least, stored_weight, as_number in *.
    destruct (dget attr a) as [w|]; [|contradiction]. destruct (num_of w) as [q|] eqn:E; [|contradiction].
    apply value_number in E as (n & -> & <-). reflexivity.
  Qed.

  Lemma at_least_sym t : symmetric_test (at_least attr t).
  Proof. intros u v a. reflexivity. Qed.

  Definition verdict (m : Z) (c : option nat) : bool := match c with Some c => (m <=? Z.of_nat c)%Z | None => false end.

  Lemma epoch_spec m t : exists sizes c,
    second_largest_connected_component_order g (Some (edge_filter attr t)) = Ok c
    /\ class_sizes (nodes g) (connected_by g (at_least attr (value t))) sizes
    /\ match c with Some c => second_greatest c sizes | None => List.length sizes < 2 end
    /\ (verdict m c = true <-> drifts g (at_least attr (value t)) m).
  Proof.
    destruct (second_largest_spec g _ _ W D (filter_test_at_least t) (at_least_sym (value t))) as (sizes & C & [[L E]|(c & S & E)]).
    - exists sizes, None. split; [assumption|]. split; [assumption|]. split; [assumption|]. cbn. split; [discriminate|].
      intros (s & c & C' & S & _). assert (s = sizes) as -> by (eapply class_sizes_unique; eassumption).
      apply second_greatest_length in S. lia.
    - exists sizes, (Some c). split; [assumption|]. split; [assumption|]. split; [assumption|]. cbn. rewrite Z.leb_le. split.
      + intros H. exists sizes, c. tauto.
      + intros (s & c' & C' & S' & H). assert (s = sizes) as -> by (eapply class_sizes_unique; eassumption).
        assert (c' = c) as -> by (eapply second_greatest_unique; eassumption). assumption.
  Qed.

  Lemma drifts_half p sizes : (forall u v a, p u v a = p v u a) -> class_sizes (nodes g) (connected_by g p) sizes ->
    forall c, second_greatest c sizes -> 2 * c <= order g.
  Proof.
    intros SP C c S. assert (FT : filter_test g (Some (fun u v a => Ok (p u v a))) p) by (intros u v k a _; reflexivity).
    destruct (orders_undirected g _ p W D FT SP) as (s & E & C').
    destruct (orders_partition g _ p W FT) as (s' & E' & _ & SS). rewrite E in E'. inversion E'; subst s'.
    assert (s = sizes) as -> by (eapply class_sizes_unique; eassumption).
    rewrite <- SS. apply second_greatest_half. assumption.
  Qed.
End Epoch.

(** ** The relation depends on the accepted edges only *)
Lemma connected_by_ext g p p' x y : (forall u v k a, edge_attrs g u v k = Some a -> p u v a = p' u v a) ->
  connected_by g p x y <-> connected_by g p' x y.
Proof.
  intros E. split.
  - intros H. induction H as [x y (k & a & H & P)|x|x y H IH|x y z H1 IH1 H2 IH2].
    + apply rst_step. exists k, a. rewrite <- (E x y k a H). tauto.
    + apply rst_refl.
    + apply rst_sym. assumption.
    + eapply rst_trans; eassumption.
  - intros H. induction H as [x y (k & a & H & P)|x|x y H IH|x y z H1 IH1 H2 IH2].
    + apply rst_step. exists k, a. rewrite (E x y k a H). tauto.
    + apply rst_refl.
    + apply rst_sym. assumption.
    + eapply rst_trans; eassumption.
Qed.

Lemma class_sizes_ext N R R' s : (forall x y, R x y <-> R' x y) -> class_sizes N R s -> class_sizes N R' s.
Proof.
  intros E (first & F1 & F2). exists first. split.
  - intros pre r post Er. rewrite (F1 pre r post Er). setoid_rewrite E. tauto.
  - eapply Forall2_weaken; [|exact F2]. intros r n H. eapply has_size_ext; [|exact H]. intros y. cbn. rewrite E. tauto.
Qed.

Lemma drifts_ext g p p' m : (forall u v k a, edge_attrs g u v k = Some a -> p u v a = p' u v a) -> drifts g p m -> drifts g p' m.
Proof.
  intros E (s & c & C & S & L). exists s, c. split; [|tauto]. eapply class_sizes_ext; [|exact C].
  intros x y. apply connected_by_ext. assumption.
Qed.

Lemma at_least_Qeq attr t t' u v a : (t == t')%Q -> at_least attr t u v a = at_least attr t' u v a.
Proof.
  intros E. unfold at_least. destruct (stored_weight attr a) as [w|]; [|reflexivity].
  apply eq_true_iff_eq. rewrite !Qle_bool_iff. rewrite E. tauto.
Qed.

(** ** Nothing kept: every node is alone *)
Lemma connected_by_none g p x y : (forall u v k a, edge_attrs g u v k = Some a -> p u v a = false) -> connected_by g p x y -> x = y.
Proof.
  intros E. induction 1 as [x y (k & a & H & P)|x|x y H IH|x y z H1 IH1 H2 IH2]; try congruence.
  rewrite (E x y k a H) in P. discriminate.
Qed.

Lemma alone_sizes N R s : NoDup N -> (forall x y, R x y <-> x = y) -> class_sizes N R s -> s = repeat 1 (List.length N).
Proof.
  intros ND E (first & F1 & F2).
  assert (F : filter first N = N).
  { assert (G : forall b a, N = a ++ b -> filter first b = b).
    { induction b as [|r b IH]; intros a Ea; [reflexivity|]. cbn.
      assert (first r = true) as ->.
      { apply (F1 a r b Ea). intros x Hx HR. apply E in HR. subst x. rewrite Ea in ND. apply NoDup_remove_2 in ND.
        apply ND. apply in_or_app. tauto. }
      rewrite (IH (a ++ [r])) by (rewrite <- app_assoc; exact Ea). reflexivity. }
    apply (G N []). reflexivity. }
  rewrite F in F2.
  assert (G : forall l s, incl l N -> Forall2 (fun r x => has_size (fun y => In y N /\ R r y) x) l s -> s = repeat 1 (List.length l)).
  { clear - E. induction l as [|r l IH]; intros s I F2; inversion F2 as [|? x ? s' H H']; subst; [reflexivity|]. cbn. f_equal.
    - eapply has_size_unique; [exact H|]. exists [r]. split; [|reflexivity]. split; [constructor; [tauto|constructor]|].
      intros x'. cbn. rewrite E. split; [intros [<- |[]]|intros [_ ->]; tauto]. split; [apply I; cbn; tauto|reflexivity].
    - apply IH; [|assumption]. intros z Hz. apply I. cbn. tauto. }
  apply G; [apply incl_refl|assumption].
Qed.

Lemma after_0 t rate : (after t rate 0 == t)%Q.
Proof. unfold after. cbn. ring. Qed.

Lemma after_next t rate k : (after t rate (S k) == after t rate k + rate)%Q.
Proof. unfold after. rewrite Nat2Z.inj_succ. unfold Z.succ. rewrite inject_Z_plus. cbn [inject_Z]. ring. Qed.

Lemma reached_shift lib t rate k : reached lib (n_add lib t rate) rate k = reached lib t rate (S k).
Proof.
  induction k as [|k IH]; [reflexivity|].
  change (n_add lib (reached lib (n_add lib t rate) rate k) rate = n_add lib (reached lib t rate (S k)) rate). rewrite IH. reflexivity.
Qed.

Lemma reached_next lib t rate k : reached lib t rate (S k) = n_add lib (reached lib t rate k) rate.
Proof. reflexivity. Qed.

Lemma reached_exact lib t rate k : exact lib -> (value (reached lib t rate k) == after (value t) (value rate) k)%Q.
Proof.
  intros X. induction k as [|k IH]; [symmetry; apply after_0|]. rewrite reached_next, after_next, <- IH. apply value_add. assumption.
Qed.

Lemma reached_int lib a r k : reached lib (NInt a) (NInt r) k = NInt (a + Z.of_nat k * r).
Proof.
  induction k as [|k IH]; [cbn; f_equal; lia|]. rewrite reached_next, IH. cbn [n_add]. f_equal. lia.
Qed.

(** what an epoch reports *)
Definition reports (g : graph) (attr : key) (m : Z) (n : nat) (t : pynum) (e : epoch) : Prop :=
  e_nth e = n /\ e_max_drifter_order e = m /\ e_threshold e = t
  /\ exists sizes, class_sizes (nodes g) (connected_by g (at_least attr (value t))) sizes
       /\ match e_drifter_order e with Some c => second_greatest c sizes | None => List.length sizes < 2 end.

Lemma drifts_Qeq g attr m t t' : (t == t')%Q -> drifts g (at_least attr t) m -> drifts g (at_least attr t') m.
Proof. intros E. apply drifts_ext. intros u v k a _. apply at_least_Qeq. assumption. Qed.

(** ** The loop *)
Section Loop.
  Variables (lib : libm) (g : graph) (attr : key) (rate : pynum) (m : Z).
  Hypotheses (W : WF g) (D : g_dir g = false) (AW : all_weighted g attr).

  Notation stops t := (fun k => drifts g (kept_at lib t rate attr (S k)) m).

  Lemma loop_ok fuel : forall n t r ep, floatsam_loop fuel lib g rate m attr n t = Ok (r, ep) ->
    exists k, r = reached lib t rate k /\ List.length ep = S k /\ least (stops t) k
      /\ forall i e, nth_error ep i = Some e -> reports g attr m (n + S i) (reached lib t rate (S i)) e.
  Proof.
    induction fuel as [|fuel IH]; intros n t r ep; cbn [floatsam_loop]; [discriminate|].
    destruct (epoch_spec g attr W D AW m (n_add lib t rate)) as (sizes & c & E & C & SG & V). rewrite E. cbn [bind].
    fold (verdict m c). assert (R0 : reports g attr m (n + 1) (reached lib t rate 1) (mkEpoch (S n) m c (n_add lib t rate))).
    { split; [cbn; lia|]. split; [reflexivity|]. split; [reflexivity|]. exists sizes. tauto. }
    destruct (verdict m c) eqn:Ec.
    - intros H. inversion H; subst r ep. clear H. exists 0. split; [reflexivity|]. split; [reflexivity|]. split.
      + split; [|intros j Hj; lia]. apply V. reflexivity.
      + intros [|i] e; cbn; [|destruct i; discriminate]. intros H. inversion H; subst. assumption.
    - destruct (floatsam_loop fuel lib g rate m attr (S n) (n_add lib t rate)) as [[r' ep']|x] eqn:L; cbn; [|discriminate].
      intros H. inversion H; subst r ep. clear H. apply IH in L as (k & Er & Len & [L1 L2] & Rep). exists (S k).
      split; [rewrite Er; apply reached_shift|]. split; [cbn; lia|]. split; [split|].
      + cbn beta. unfold kept_at in *. rewrite <- reached_shift. exact L1.
      + intros [|j] Hj HD.
        * enough (false = true) by discriminate. apply V. exact HD.
        * apply (L2 j); [lia|]. unfold kept_at in *. rewrite reached_shift. exact HD.
      + intros [|i] e; cbn [nth_error].
        * intros H. inversion H; subst. assumption.
        * intros H. apply Rep in H. replace (n + S (S i)) with (S n + S i) by lia. rewrite reached_shift in H. exact H.
  Qed.

  Lemma loop_total fuel : forall n t k, k < fuel -> stops t k -> exists r, floatsam_loop fuel lib g rate m attr n t = Ok r.
  Proof.
    induction fuel as [|fuel IH]; intros n t k Hk HS; [lia|]. cbn [floatsam_loop].
    destruct (epoch_spec g attr W D AW m (n_add lib t rate)) as (sizes & c & E & C & SG & V). rewrite E. cbn [bind].
    fold (verdict m c). destruct (verdict m c) eqn:Ec; [eauto|]. destruct k as [|k].
    - enough (false = true) by discriminate. apply V. exact HS.
    - destruct (IH (Datatypes.S n) (n_add lib t rate) k) as (r & Er); [lia| |].
      + unfold kept_at in *. rewrite reached_shift. exact HS.
      + rewrite Er. cbn. eauto.
  Qed.

  Lemma loop_err fuel : forall n t e, floatsam_loop fuel lib g rate m attr n t = Err e -> e = OutOfFuel.
  Proof.
    induction fuel as [|fuel IH]; intros n t e; cbn [floatsam_loop]; [congruence|].
    destruct (epoch_spec g attr W D AW m (n_add lib t rate)) as (sizes & c & E & C & SG & V). rewrite E. cbn [bind].
    fold (verdict m c). destruct (verdict m c) eqn:Ec; [discriminate|].
    destruct (floatsam_loop fuel lib g rate m attr (Datatypes.S n) (n_add lib t rate)) as [[r' ep']|x] eqn:L; cbn; [discriminate|].
    intros H. apply IH in L. congruence.
  Qed.
End Loop.

(** ** Rounded thresholds go one way *)
Section Monotone.
  Variables (lib : libm) (start rate : pynum).
  Hypothesis R : rounding (m_round lib).

  Lemma to_float_sign : ((0 <= value rate -> 0 <= to_float lib rate) /\ (value rate <= 0 -> to_float lib rate <= 0))%Q.
  Proof.
    destruct rate as [z|q]; [|split; intros H; exact H]. cbn. pose proof (rnd_0 _ R) as Z0. split; intros H; apply (rnd_le _ R) in H; lra.
  Qed.

  (** an int, or a float of the right precision *)
  Definition settled (t : pynum) : Prop := match t, rate with NInt _, NInt _ => True | _, _ => representable (m_round lib) (value t) end.

  Lemma settled_float t : settled t -> (match t, rate with NInt _, NInt _ => True | _, _ => to_float lib t == value t end)%Q.
  Proof. unfold settled, representable. destruct t, rate; cbn; auto; intros; reflexivity. Qed.

  Lemma settled_add t : settled (n_add lib t rate).
  Proof. unfold settled, representable. destruct t, rate; cbn; auto; apply (rnd_rnd _ R). Qed.

  Lemma add_cases t : settled t -> (value (n_add lib t rate) == value t + value rate)%Q
    \/ (m_round lib (value t) == value t /\ to_float lib t == value t /\ value (n_add lib t rate) = m_round lib (to_float lib t + to_float lib rate))%Q.
  Proof.
    intros S. pose proof (settled_float t S) as E. unfold settled, representable in S.
    destruct t as [z|q], rate as [r|r]; [left; cbn [n_add value]; rewrite inject_Z_plus; reflexivity|right..]; (split; [exact S|]; split; [exact E|reflexivity]).
  Qed.

  Lemma add_up t : settled t -> (0 <= value rate)%Q -> (value t <= value (n_add lib t rate))%Q.
  Proof.
    intros S P. pose proof (proj1 to_float_sign P) as F. destruct (add_cases t S) as [E|(E1 & E2 & ->)]; [lra|].
    apply Qle_trans with (m_round lib (value t)); [lra|]. apply (rnd_le _ R). lra.
  Qed.

  Lemma add_down t : settled t -> (value rate <= 0)%Q -> (value (n_add lib t rate) <= value t)%Q.
  Proof.
    intros S P. pose proof (proj2 to_float_sign P) as F. destruct (add_cases t S) as [E|(E1 & E2 & ->)]; [lra|].
    apply Qle_trans with (m_round lib (value t)); [|lra]. apply (rnd_le _ R). lra.
  Qed.

  Lemma reached_settled k : settled (reached lib start rate (S k)).
  Proof. rewrite reached_next. apply settled_add. Qed.

  Lemma reached_up j k : (0 <= value rate)%Q -> j <= k -> (value (reached lib start rate (S j)) <= value (reached lib start rate (S k)))%Q.
  Proof.
    intros P H. induction H as [|k H IH]; [apply Qle_refl|]. eapply Qle_trans; [exact IH|].
    rewrite (reached_next lib start rate (S k)). apply add_up; [apply reached_settled|assumption].
  Qed.

  Lemma reached_down k : settled start -> (value rate <= 0)%Q -> (value (reached lib start rate k) <= value start)%Q.
  Proof.
    intros S P. induction k as [|k IH]; [apply Qle_refl|]. eapply Qle_trans; [|exact IH]. rewrite reached_next. apply add_down; [|assumption].
    destruct k; [assumption|apply reached_settled].
  Qed.
End Monotone.

(** ** Getting over every weight *)
Lemma q_grid_gap (U x y : Q) a b : (0 < U)%Q -> (x * U == inject_Z a)%Q -> (y * U == inject_Z b)%Q -> (x < y)%Q -> (x + 1 / U <= y)%Q.
Proof.
  intros P Ex Ey L. assert (H : (inject_Z a < inject_Z b)%Q) by (rewrite <- Ex, <- Ey; apply Qmult_lt_r; assumption).
  rewrite <- Zlt_Qlt in H. assert (H1 : (inject_Z (a + 1) <= inject_Z b)%Q) by (rewrite <- Zle_Qle; lia).
  rewrite inject_Z_plus in H1. change (inject_Z 1) with 1%Q in H1. rewrite <- Ex, <- Ey in H1.
  apply (Qmult_le_r _ _ U P). assert (E : ((x + 1 / U) * U == x * U + 1)%Q) by (field; lra). rewrite E. assumption.
Qed.
Lemma archimedes (start rate B : Q) : (0 < rate)%Q -> exists k, forall j, k <= j -> (B < after start rate j)%Q.
Proof.
  intros P. exists (Z.to_nat (Qceiling ((B - start) / rate) + 1)). intros j Hj. unfold after.
  assert (H : ((B - start) / rate < inject_Z (Z.of_nat j))%Q).
  { apply Qle_lt_trans with (inject_Z (Qceiling ((B - start) / rate))); [apply Qle_ceiling|]. rewrite <- Zlt_Qlt. lia. }
  apply (Qmult_lt_r _ _ rate P) in H. assert (E : ((B - start) / rate * rate == B - start)%Q) by (field; lra).
  rewrite E in H. lra.
Qed.

(** thresholds which keep growing go over any bound *)
Lemma reached_over lib start rate B : m_round lib = round64 -> (0 <= value rate)%Q ->
  (forall k, value (reached lib start rate (S k)) <= B ->
     ~ value (reached lib start rate (S (S k))) == value (reached lib start rate (S k)))%Q ->
  exists k, (B < value (reached lib start rate (S k)))%Q.
Proof.
  intros X P NS. set (U := inject_Z (2 ^ 1074)).
  assert (UP : (0 < U)%Q) by (apply pow2_pos; lia).
  assert (G : forall k, exists a, (value (reached lib start rate (S k)) * U == inject_Z a)%Q).
  { intros k. rewrite reached_next. destruct (reached lib start rate k) as [z|q], rate as [r|r]; cbn [n_add value];
      [exists ((z + r) * 2 ^ 1074)%Z; rewrite inject_Z_mult; reflexivity|rewrite X; apply round64_grid..]. }
  assert (SR : rounding (m_round lib)) by (rewrite X; exact round64_rounding). clearbody U.
  assert (L : forall k, (exists j, B < value (reached lib start rate (S j)))%Q
    \/ (value (reached lib start rate 1) + inject_Z (Z.of_nat k) * (1 / U) <= value (reached lib start rate (S k)))%Q).
  { induction k as [|k [IH|IH]]; [right; cbn [Z.of_nat]; change (inject_Z 0) with 0%Q; lra|tauto|].
    destruct (Qlt_le_dec B (value (reached lib start rate (S k)))) as [H|H]; [left; eauto|right].
    destruct (G k) as (a & Ea), (G (S k)) as (b & Eb). pose proof (reached_up lib start rate SR k (S k) P ltac:(lia)) as Up. pose proof (NS k H) as N.
    assert (St : (value (reached lib start rate (S k)) < value (reached lib start rate (S (S k))))%Q).
    { apply Qle_lteq in Up as [Up|Up]; [assumption|]. destruct N. symmetry. assumption. }
    pose proof (q_grid_gap U _ _ _ _ UP Ea Eb St) as Gap. rewrite Nat2Z.inj_succ. unfold Z.succ. rewrite inject_Z_plus. change (inject_Z 1) with 1%Q.
    set (x := (1 / U)%Q) in *. clearbody x. lra. }
  assert (P1 : (0 < 1 / U)%Q) by (apply Qlt_shift_div_l; [assumption|lra]).
  destruct (archimedes (value (reached lib start rate 1)) (1 / U) B P1) as (k & Hk). specialize (Hk k (Nat.le_refl _)).
  destruct (L k) as [H|H]; [exact H|]. exists k. unfold after in Hk. lra.
Qed.

(** and they keep growing while they are not too large *)
Lemma reached_moves lib start rate k : m_round lib = round64 -> (0 <= value start)%Q -> (0 < value rate)%Q -> representable round64 (value rate) ->
  (value (reached lib start rate (S k)) < value rate * 9007199254740991)%Q ->
  (~ value (reached lib start rate (S (S k))) == value (reached lib start rate (S k)))%Q.
Proof.
  intros X P0 P RR L. assert (SR : rounding (m_round lib)) by (rewrite X; exact round64_rounding).
  assert (P1 : (0 <= value (reached lib start rate (S k)))%Q).
  { apply Qle_trans with (value (reached lib start rate 1)); [|apply reached_up; [assumption|lra|lia]]. cbn [reached Nat.iter nat_rect].
    change (reached lib start rate 1) with (n_add lib start rate). pose proof (proj1 (to_float_sign lib rate SR) ltac:(lra)) as F.
    pose proof (proj1 (to_float_sign lib start SR) P0) as F0. pose proof (rnd_0 _ SR) as Z0.
    assert (FS : (0 <= m_round lib (to_float lib start + to_float lib rate))%Q).
    { apply Qle_trans with (m_round lib 0); [lra|]. apply (rnd_le _ SR). lra. }
    destruct start, rate; cbn [n_add value] in *; try exact FS. rewrite inject_Z_plus. lra. }
  rewrite (reached_next lib start rate (S k)). set (t := reached lib start rate (S k)) in *.
  assert (ST : settled lib rate t) by (apply reached_settled; assumption). clearbody t.
  destruct (add_cases lib rate t ST) as [E|(E1 & E2 & ->)]; [lra|].
  assert (ER : (to_float lib rate == value rate)%Q).
  { destruct rate; cbn in *; [|reflexivity]. rewrite X. exact RR. }
  rewrite (rnd_eq _ SR _ (value t + value rate)%Q) by lra. rewrite X. rewrite X in E1.
  destruct (float_grid _ E1) as (a & Ea), (float_grid _ RR) as (b & Eb).
  pose proof (round64_progress _ _ _ _ P1 P Ea Eb L). lra.
Qed.

Lemma weights_bounded g attr : WF g -> exists B, forall u v k a w, edge_attrs g u v k = Some a -> stored_weight attr a = Some w -> (w <= B)%Q.
Proof.
  intros W. assert (L : forall l : list Q, exists B, forall w, In w l -> (w <= B)%Q).
  { induction l as [|x l (B & HB)]; [exists 0%Q; intros w []|]. exists (Qmax x B). intros w [<- |H].
    - apply Q.le_max_l.
    - apply Qle_trans with B; [auto|apply Q.le_max_r]. }
  destruct (L (flat_map (fun e => match stored_weight attr (snd e) with Some w => [w] | None => [] end) (edges_data g))) as (B & HB).
  exists B. intros u v k a w H Hw. apply HB. apply in_flat_map. apply (edge_attrs_edges_data g u v k a W) in H.
  destruct H as [H|[_ H]]; eexists; (split; [exact H|]); cbn; rewrite Hw; left; reflexivity.
Qed.

Lemma weights_below g attr (L : Q) : WF g ->
  (forall u v k a w, edge_attrs g u v k = Some a -> stored_weight attr a = Some w -> (w < L)%Q) ->
  exists B, (forall u v k a w, edge_attrs g u v k = Some a -> stored_weight attr a = Some w -> (w <= B)%Q) /\ (B < L)%Q.
Proof.
  intros W H. assert (M : forall l : list Q, (forall w, In w l -> (w < L)%Q) -> exists B, (forall w, In w l -> (w <= B)%Q) /\ (B < L)%Q).
  { induction l as [|x l IH]; intros Hl; [exists (L - 1)%Q; split; [intros w []|lra]|]. destruct IH as (B & HB & LB); [intros w Hw; apply Hl; cbn; tauto|].
    exists (Qmax x B). split.
    - intros w [<- |Hw]; [apply Q.le_max_l|]. apply Qle_trans with B; [auto|apply Q.le_max_r].
    - apply Q.max_lub_lt; [apply Hl; cbn; tauto|assumption]. }
  destruct (M (flat_map (fun e => match stored_weight attr (snd e) with Some w => [w] | None => [] end) (edges_data g))) as (B & HB & LB).
  - intros w Hw. apply in_flat_map in Hw as (e & He & Hw). destruct (stored_weight attr (snd e)) as [w'|] eqn:Ew; [|destruct Hw].
    destruct Hw as [<- |[]]. destruct e as [[u v] a]. apply edges_data_In in He as (k & He). apply (H u v k a); [|exact Ew]. apply edges_keys_attrs; assumption.
  - exists B. split; [|exact LB]. intros u v k a w He Hw. apply HB. apply in_flat_map. apply (edge_attrs_edges_data g u v k a W) in He.
    destruct He as [He|[_ He]]; eexists; (split; [exact He|]); cbn; rewrite Hw; left; reflexivity.
Qed.

Section Terminates.
  Variables (g : graph) (attr : key).
  Hypotheses (W : WF g) (D : g_dir g = false) (AW : all_weighted g attr).

  Lemma above_alone t sizes : (forall u v k a w, edge_attrs g u v k = Some a -> stored_weight attr a = Some w -> (w < t)%Q) ->
    class_sizes (nodes g) (connected_by g (at_least attr t)) sizes -> sizes = repeat 1 (order g).
  Proof.
    intros H C. rewrite order_nodes. apply (alone_sizes (nodes g) (connected_by g (at_least attr t))); [apply W| |assumption].
    intros x y. split; [|intros ->; apply rst_refl]. apply connected_by_none. intros u v k a E. unfold at_least.
    destruct (stored_weight attr a) as [w|] eqn:Ew; [|reflexivity]. apply (H _ _ _ _ _ E) in Ew.
    destruct (Qle_bool t w) eqn:Q; [|reflexivity]. apply Qle_bool_iff in Q. lra.
  Qed.

  Lemma above_drifts t m : (forall u v k a w, edge_attrs g u v k = Some a -> stored_weight attr a = Some w -> (w < t)%Q) ->
    drifts g (at_least attr t) m <-> (m <= 1)%Z /\ 2 <= order g.
  Proof.
    intros H. split.
    - intros (sizes & c & C & S & L). apply (above_alone t) in C; [|assumption]. subst sizes.
      pose proof (second_greatest_length _ _ S) as Ln. rewrite repeat_length in Ln.
      apply second_greatest_In, repeat_spec in S. subst c. split; [lia|assumption].
    - intros [Hm Ho]. destruct (epoch_spec g attr W D AW m (NFloat t)) as (sizes & c & E & C & SG & V).
      apply V. pose proof C as C'. apply (above_alone t) in C'; [|assumption]. subst sizes.
      destruct c as [c|]; [|rewrite repeat_length in SG; lia]. cbn. apply Z.leb_le.
      apply second_greatest_In, repeat_spec in SG. lia.
  Qed.
End Terminates.

(** ** The default order *)
Lemma int_of_spec x : truncates x (int_of x).
Proof.
  destruct x as [n d]. unfold truncates, int_of, Qle, Qlt. cbn [Qnum Qden inject_Z].
  pose proof (Z.quot_rem' n (Zpos d)) as E. assert (P : (0 < Zpos d)%Z) by lia.
  destruct (Z_le_gt_dec 0 n) as [H|H].
  - left. pose proof (Z.rem_bound_pos n (Zpos d) H P). pose proof (Z.quot_pos n (Zpos d) H P).
    set (q := Z.quot n (Zpos d)) in *. set (r := Z.rem n (Zpos d)) in *. clearbody q r. repeat split; nia.
  - right. assert (Hn : (n < 0)%Z) by lia.
    assert (B : (- Zpos d < Z.rem n (Zpos d) <= 0)%Z).
    { pose proof (Z.rem_bound_pos (- n) (Zpos d)) as B. rewrite Z.rem_opp_l in B by lia. lia. }
    assert (Q : (Z.quot n (Zpos d) <= 0)%Z).
    { pose proof (Z.quot_pos (- n) (Zpos d)) as Q. rewrite Z.quot_opp_l in Q by lia. lia. }
    set (q := Z.quot n (Zpos d)) in *. set (r := Z.rem n (Zpos d)) in *. clearbody q r. repeat split; nia.
Qed.

Lemma truncates_unique x m m' : truncates x m -> truncates x m' -> m = m'.
Proof.
  assert (A : forall a b, (inject_Z a < inject_Z b)%Q -> (a < b)%Z) by (intros a b; rewrite <- Zlt_Qlt; tauto).
  intros [(H & P & L & U)|(H & P & L & U)] [(H' & P' & L' & U')|(H' & P' & L' & U')]; try lra.
  - assert (m < m' + 1)%Z by (apply A; lra). assert (m' < m + 1)%Z by (apply A; lra). lia.
  - assert (m - 1 < m')%Z by (apply A; lra). assert (m' - 1 < m)%Z by (apply A; lra). lia.
Qed.

Lemma drifter_order_spec lib g o m : WF g -> g_dir g = false -> nodes g <> [] ->
  drifter_limit (m_log lib) g o m <-> drifter_order lib g o = Ok m.
Proof.
  intros W D N. destruct o as [m'|]; cbn [drifter_limit drifter_order]; [split; congruence|].
  destruct (largest_order_spec g W D) as [[N' _]|(sizes & n & C & G & E)]; [contradiction|]. rewrite E. cbn [bind].
  assert (Pn : n <> 0).
  { destruct (orders_partition g None (fun _ _ _ => true) W (fun _ _ _ => eq_refl)) as (s & Es & P & _).
    destruct (orders_reciprocal g W) as (s' & Es' & C'). { intros u v H. apply rt_step. rewrite has_edge_sym; assumption. }
    rewrite Es in Es'. inversion Es'; subst s'. assert (s = sizes) as -> by (eapply class_sizes_unique; eassumption).
    destruct G as [I _]. apply P in I. lia. }
  destruct n as [|n]; [contradiction|]. split.
  - intros (s & n' & C' & G' & T). assert (s = sizes) as -> by (eapply class_sizes_unique; eassumption).
    assert (n' = S n) as -> by (eapply greatest_unique; eassumption). f_equal.
    eapply truncates_unique; [apply int_of_spec|assumption].
  - intros H. inversion H; subst m. exists sizes, (S n). split; [assumption|]. split; [assumption|]. apply int_of_spec.
Qed.

Lemma size_nodes g : size g <> 0 -> nodes g <> [].
Proof. intros H E. apply H. unfold size, edges_keys, edge_pairs. rewrite E. reflexivity. Qed.

(** ** The learner *)
Section Learner.
  Variables (lib : libm) (g : graph) (attr : key) (start rate : pynum) (o : option Z) (m : Z).
  Hypotheses (W : WF g) (D : g_dir g = false) (AW : all_weighted g attr) (NE : size g <> 0)
    (DL : drifter_limit (m_log lib) g o m).

  Lemma learner_loop fuel : floatsam_threshold_learner fuel lib g start rate o attr = floatsam_loop fuel lib g rate m attr 0 start.
  Proof.
    unfold floatsam_threshold_learner. destruct (Nat.eqb (size g) 0) eqn:E; [apply Nat.eqb_eq in E; contradiction|].
    apply drifter_order_spec in DL; [|assumption|assumption|apply size_nodes; assumption]. rewrite DL. reflexivity.
  Qed.

  Notation stops := (fun k => drifts g (kept_at lib start rate attr (S k)) m).

  Lemma learner_diverges : (forall k, ~ stops k) -> forall fuel, floatsam_threshold_learner fuel lib g start rate o attr = Err OutOfFuel.
  Proof.
    intros H fuel. rewrite learner_loop. destruct (floatsam_loop fuel lib g rate m attr 0 start) as [[t ep]|e] eqn:E.
    - apply loop_ok in E as (k & _ & _ & [HS _] & _); try assumption. destruct (H _ HS).
    - apply loop_err in E; try assumption. congruence.
  Qed.

  Lemma learner_returns : (exists fuel r, floatsam_threshold_learner fuel lib g start rate o attr = Ok r) <-> exists k, stops k.
  Proof.
    split.
    - intros (fuel & [t ep] & E). rewrite learner_loop in E. apply loop_ok in E as (k & _ & _ & [HS _] & _); try assumption. eauto.
    - intros (k & HS). exists (S k). rewrite learner_loop. eapply loop_total; try eassumption. lia.
  Qed.
End Learner.

(** one class only: nothing drifts *)
Lemma one_class_length N (R : key -> key -> Prop) s r : (forall x y, R x y -> R y x) -> (forall x y z, R x y -> R y z -> R x z) ->
  (forall x, In x N -> R r x) -> class_sizes N R s -> List.length s < 2.
Proof.
  intros Sy Tr A (first & F1 & F2). assert (EL : List.length (filter first N) = List.length s) by (clear - F2; induction F2; cbn; congruence). rewrite <- EL. destruct (filter first N) as [|x [|y l]] eqn:E; cbn; [lia|lia|].
  exfalso. assert (Hxy : exists p q t, N = p ++ x :: q ++ y :: t /\ first y = true).
  { assert (G : forall N, filter first N = x :: y :: l -> exists p q t, N = p ++ x :: q ++ y :: t /\ first y = true).
    { clear. induction N as [|z N IH]; cbn; [discriminate|]. destruct (first z) eqn:Ez.
      - intros H. inversion H; subst z. exists [].
        assert (G : forall N, filter first N = y :: l -> exists q t, N = q ++ y :: t /\ first y = true).
        { clear. induction N as [|z N IH]; cbn; [discriminate|]. destruct (first z) eqn:Ez.
          - intros H. inversion H; subst z. exists [], N. tauto.
          - intros H. apply IH in H as (q & t & -> & H). exists (z :: q), t. tauto. }
        apply G in H2 as (q & t & -> & H'). exists q, t. tauto.
      - intros H. apply IH in H as (p & q & t & -> & H). exists (z :: p), q, t. tauto. }
    apply G. assumption. }
  destruct Hxy as (p & q & t & EN & Hy). assert (E2 : N = (p ++ x :: q) ++ y :: t) by (rewrite EN, <- app_assoc; reflexivity).
  apply (F1 _ _ _ E2) with x in Hy; [|apply in_or_app; cbn; tauto]. apply Hy. apply Tr with r.
  - apply Sy, A. rewrite EN. apply in_or_app. cbn. tauto.
  - apply A. rewrite E2. apply in_or_app. cbn. tauto.
Qed.

Lemma edges_forall g (P : attrs -> Prop) : WF g -> Forall (fun e => P (snd e)) (edges_data g) ->
  forall u v k a, edge_attrs g u v k = Some a -> P a.
Proof.
  intros W F u v k a H. rewrite Forall_forall in F. apply edge_attrs_edges_data in H as [H|[_ H]]; try assumption; apply F in H; assumption.
Qed.
