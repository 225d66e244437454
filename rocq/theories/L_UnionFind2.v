(** * Histories of UnionFind calls; register; DisjointSet *)
From Coq Require Import Lia Relations.
From Verif Require Import PyBase L_Base S_Partition L_Partition M_UnionFind S_UnionFind L_UnionFind.

Lemma run_length {O S A} (step : O -> sm S A) ops s :
  List.length (snd (run step ops s)) = List.length ops.
Proof.
  revert s. induction ops as [|o ops IH]; intros s; simpl; [reflexivity|].
  destruct (step o s) as (s1, r). specialize (IH s1).
  destruct (run step ops s1) as (s2, rs). simpl in *. congruence.
Qed.

Lemma run_app {O S A} (step : O -> sm S A) ops1 ops2 s :
  run step (ops1 ++ ops2) s =
  let (s1, r1) := run step ops1 s in
  let (s2, r2) := run step ops2 s1 in (s2, r1 ++ r2).
Proof.
  revert s. induction ops1 as [|o ops IH]; intros s; simpl.
  - destruct (run step ops2 s); reflexivity.
  - destruct (step o s) as (s1, r). rewrite IH. destruct (run step ops s1) as (s2, r1).
    destruct (run step ops2 s2) as (s3, r2). reflexivity.
Qed.

(** ** UnionFind histories *)

(** unions that raised OverflowError since the last clear *)
Fixpoint overflows_from (n : nat) (tr : list (uop * res out)) : nat :=
  match tr with
  | [] => n
  | (UUnion _ _, Err OverflowError) :: tr' => overflows_from (S n) tr'
  | (UClear, Ok _) :: tr' => overflows_from 0 tr'
  | _ :: tr' => overflows_from n tr'
  end.

Lemma Inv_add_related s P k x y :
  Inv s P k -> x < capacity s -> y < capacity s -> closure P x y -> Inv s ((x, y) :: P) k.
Proof.
  intros I Lx Ly C. destruct I. constructor; try assumption.
  - intros u v Lu Lv. rewrite closure_cons_same by assumption. auto.
  - intros u v [E|H]; [inversion E; subst; auto|auto].
Qed.

Lemma ustep_Inv s P k o s' r :
  Inv s P k -> ustep o s = (s', r) ->
  Inv s' (united_from P [(o, r)]) (overflows_from k [(o, r)])
  /\ capacity s' = capacity s /\ item_limit s' = item_limit s
  /\ (forall n, List.length (roots (parents s)) + n = capacity s ->
        List.length (roots (parents s')) + successes_from n [(o, r)] = capacity s').
Proof.
  intros I E. destruct o as [x y|x|x|x y| |]; simpl in E.
  - (* union *)
    unfold smap, sbind, sret in E.
    destruct (Nat.lt_ge_cases x (capacity s)) as [Lx|Lx];
      [destruct (Nat.lt_ge_cases y (capacity s)) as [Ly|Ly]|].
    + destruct (union_spec s P k x y I Lx Ly)
        as [(C & U)|[(C & s2 & U & I2 & C2 & L2 & R2)|(C & Ec & R & U)]]; rewrite U in E;
        inversion E; subst; clear E; simpl.
      * split; [apply Inv_add_related; assumption|]. auto.
      * split; [assumption|]. split; [assumption|]. split; [assumption|]. intros n H. lia.
      * split; [|split; [reflexivity|split; [reflexivity|auto]]].
        apply Inv_count_irrelevant; [assumption|]. pose proof (inv_count _ _ _ I). lia.
    + rewrite (union_out s P k) in E by auto. inversion E; subst; simpl; auto.
    + rewrite (union_out s P k) in E by auto. inversion E; subst; simpl; auto.
  - unfold smap, sbind, sread, sret in E. destruct (find s x) as [v|e]; inversion E; subst; simpl; auto.
  - unfold smap, sbind, sread, sret in E. destruct (cardinality s x) as [v|e]; inversion E; subst; simpl; auto.
  - unfold smap, sbind, sread, sret in E. destruct (are_in_same_set s x y) as [v|e]; inversion E; subst; simpl; auto.
  - unfold smap, sbind, sread, sret in E. destruct (len s) as [v|e]; inversion E; subst; simpl; auto.
  - unfold smap, sbind, sret in E. rewrite (clear_spec s P k I) in E. inversion E; subst; clear E.
    simpl. split; [apply Inv_fresh; apply I|]. split; [reflexivity|]. split; [reflexivity|].
    intros n _. rewrite roots_seq, seq_length. lia.
Qed.

Lemma united_from_cons P o r tr : united_from P ((o, r) :: tr) = united_from (united_from P [(o, r)]) tr.
Proof. destruct o, r; reflexivity. Qed.
Lemma overflows_from_cons n o r tr :
  overflows_from n ((o, r) :: tr) = overflows_from (overflows_from n [(o, r)]) tr.
Proof. destruct o, r as [|[]]; reflexivity. Qed.
Lemma successes_from_cons n o r tr :
  successes_from n ((o, r) :: tr) = successes_from (successes_from n [(o, r)]) tr.
Proof. destruct o, r as [[]|]; try reflexivity; destruct b; reflexivity. Qed.

Lemma run_Inv ops : forall s P k s' outs,
  Inv s P k -> run ustep ops s = (s', outs) ->
  Inv s' (united_from P (combine ops outs)) (overflows_from k (combine ops outs))
  /\ capacity s' = capacity s /\ item_limit s' = item_limit s
  /\ (forall n, List.length (roots (parents s)) + n = capacity s ->
        List.length (roots (parents s')) + successes_from n (combine ops outs) = capacity s').
Proof.
  induction ops as [|o ops IH]; intros s P k s' outs I E; cbn [run] in E.
  - inversion E; subst; simpl. auto.
  - destruct (ustep o s) as (s1, r) eqn:E1. destruct (run ustep ops s1) as (s2, rs) eqn:E2.
    inversion E; subst; clear E.
    destruct (ustep_Inv _ _ _ _ _ _ I E1) as (I1 & C1 & L1 & R1).
    destruct (IH _ _ _ _ _ I1 E2) as (I2 & C2 & L2 & R2).
    cbn [combine]. rewrite united_from_cons, overflows_from_cons.
    split; [assumption|]. split; [congruence|]. split; [congruence|].
    intros n Hn. rewrite successes_from_cons. apply R2, R1. assumption.
Qed.

Lemma no_overflow_0 tr : no_overflow tr -> overflows_from 0 tr = 0.
Proof.
  assert (G : forall n, no_overflow tr -> overflows_from n tr = 0 \/ overflows_from n tr = n).
  { induction tr as [|[o r] tr IH]; intros n H; [auto|].
    assert (H' : no_overflow tr) by (intros o' Hi; apply (H o'); right; assumption).
    destruct o, r as [v|e]; cbn [overflows_from]; try (apply IH; assumption).
    - destruct e; try (apply IH; assumption).
      exfalso. apply (H (UUnion x y)). left. reflexivity.
    - destruct (IH 0 H'); auto. }
  intros H. destruct (G 0 H); assumption.
Qed.

Lemma from_make pf cap s0 ops s outs :
  make pf cap = Ok s0 -> run ustep ops s0 = (s, outs) ->
  Inv s (united (combine ops outs)) (overflows_from 0 (combine ops outs))
  /\ capacity s = cap /\ item_limit s = item_limit s0
  /\ List.length (roots (parents s)) + successes (combine ops outs) = cap.
Proof.
  intros M R. destruct (Inv_init _ _ _ M) as (I & C).
  destruct (run_Inv _ _ _ _ _ _ I R) as (I' & C' & L' & R').
  split; [assumption|]. split; [congruence|]. split; [assumption|].
  rewrite <- C. rewrite <- C'. apply R'.
  unfold make in M. apply bind_Ok in M as (r & _ & E). inversion E; subst; simpl.
  rewrite roots_seq, seq_length. lia.
Qed.

(** C01 *)
Lemma same_set_iff pf cap s0 ops s outs x y :
  make pf cap = Ok s0 -> run ustep ops s0 = (s, outs) -> x < cap -> y < cap ->
  exists b, are_in_same_set s x y = Ok b /\ (b = true <-> closure (united (combine ops outs)) x y).
Proof.
  intros M R Lx Ly. destruct (from_make _ _ _ _ _ _ M R) as (I & C & _ & _). subst cap.
  unfold are_in_same_set. rewrite (find_ok _ _ _ _ I Lx), (find_ok _ _ _ _ I Ly). simpl.
  eexists. split; [reflexivity|]. rewrite Nat.eqb_eq. apply I; assumption.
Qed.

(** C02 *)
Lemma find_canonical pf cap s0 ops s outs x :
  make pf cap = Ok s0 -> run ustep ops s0 = (s, outs) -> x < cap ->
  exists r, r < cap
    /\ (forall fuel, cap <= fuel -> find_fuel fuel s x = Ok r)
    /\ find s x = Ok r /\ find s r = Ok r
    /\ closure (united (combine ops outs)) x r
    /\ (forall y r', y < cap -> find s y = Ok r' ->
          (r' = r <-> closure (united (combine ops outs)) x y)).
Proof.
  intros M R Lx. destruct (from_make _ _ _ _ _ _ M R) as (I & C & _ & _). subst cap.
  assert (LP : List.length (parents s) = capacity s) by apply I.
  assert (F : forest (parents s)) by apply I.
  assert (Lr : rt (parents s) x < capacity s) by (rewrite <- LP; apply rt_lt; [assumption|lia]).
  assert (RR : rt (parents s) (rt (parents s) x) = rt (parents s) x).
  { apply rt_of_root; [assumption|]. apply rt_root; [assumption|lia]. }
  exists (rt (parents s) x). repeat split.
  - assumption.
  - intros fuel Hf. apply find_fuel_forest; [assumption|lia|lia].
  - apply (find_ok _ _ _ _ I Lx).
  - rewrite (find_ok _ _ _ _ I Lr). f_equal. assumption.
  - apply (inv_rel _ _ _ I); try assumption. congruence.
  - intros E. rewrite (find_ok _ _ _ _ I H) in H0. inversion H0; subst. apply (inv_rel _ _ _ I); congruence.
  - intros E. rewrite (find_ok _ _ _ _ I H) in H0. inversion H0; subst.
    symmetry. apply (inv_rel _ _ _ I); assumption.
Qed.

(** C03 *)
Lemma union_result pf cap s0 ops s outs x y s' b :
  make pf cap = Ok s0 -> run ustep ops s0 = (s, outs) -> x < cap -> y < cap ->
  union x y s = (s', Ok b) -> (b = true <-> ~ closure (united (combine ops outs)) x y).
Proof.
  intros M R Lx Ly U. destruct (from_make _ _ _ _ _ _ M R) as (I & C & _ & _). subst cap.
  destruct (union_spec s _ _ x y I Lx Ly) as [(Cl & U')|[(Cl & s2 & U' & _)|(Cl & _ & _ & U')]];
    rewrite U' in U; inversion U; subst; intuition congruence.
Qed.

Lemma len_counts pf cap s0 ops s outs :
  make pf cap = Ok s0 -> run ustep ops s0 = (s, outs) -> no_overflow (combine ops outs) ->
  exists n, len s = Ok (Z.of_nat n)
    /\ has_classes (fun x => x < cap) (closure (united (combine ops outs))) n
    /\ n + successes (combine ops outs) = cap.
Proof.
  intros M R NO. destruct (from_make _ _ _ _ _ _ M R) as (I & C & _ & Su). subst cap.
  rewrite (no_overflow_0 _ NO) in I.
  exists (List.length (roots (parents s))). split; [|split; [|assumption]].
  - unfold len. pose proof (inv_count _ _ _ I) as E. simpl in E. rewrite Z.sub_0_r in E. rewrite E.
    destruct (Z.ltb_spec (Z.of_nat (List.length (roots (parents s)))) 0); [lia|reflexivity].
  - exists (roots (parents s)).
    assert (LP : List.length (parents s) = capacity s) by apply I.
    assert (F : forest (parents s)) by apply I.
    split; [apply roots_NoDup|]. split; [reflexivity|]. repeat split.
    + intros r H. apply roots_In, nth_error_lt in H. lia.
    + intros x Lx. exists (rt (parents s) x).
      assert (RR : nth_error (parents s) (rt (parents s) x) = Some (rt (parents s) x))
        by (apply rt_root; [assumption|lia]).
      split; [apply roots_In; assumption|].
      apply (inv_rel _ _ _ I); [assumption|rewrite <- LP; apply rt_lt; [assumption|lia]|].
      symmetry. apply rt_of_root; assumption.
    + intros r r' H H' Cl. apply roots_In in H, H'.
      assert (r < capacity s) by (rewrite <- LP; eapply nth_error_lt; eassumption).
      assert (r' < capacity s) by (rewrite <- LP; eapply nth_error_lt; eassumption).
      apply (inv_rel _ _ _ I) in Cl; try assumption.
      rewrite !rt_of_root in Cl by assumption. assumption.
Qed.

(** C04 *)
Lemma cardinality_spec s P k x : Inv s P k -> x < capacity s ->
  exists n, cardinality s x = Ok n /\ has_size (fun y => y < capacity s /\ closure P x y) n.
Proof.
  intros I Lx. assert (LP : List.length (parents s) = capacity s) by apply I.
  assert (F : forest (parents s)) by apply I.
  assert (RR : nth_error (parents s) (rt (parents s) x) = Some (rt (parents s) x))
    by (apply rt_root; [assumption|lia]).
  exists (List.length (class (parents s) (rt (parents s) x))). split.
  - unfold cardinality. rewrite (find_ok _ _ _ _ I Lx). simpl. apply aget_Ok. apply I. assumption.
  - exists (class (parents s) (rt (parents s) x)). split; [|reflexivity].
    split; [apply class_NoDup|]. intros y. rewrite class_In, LP. split.
    + intros (L & E). split; [assumption|]. apply (inv_rel _ _ _ I); congruence.
    + intros (L & Cl). split; [assumption|]. symmetry. apply (inv_rel _ _ _ I); assumption.
Qed.

Lemma cardinality_counts pf cap s0 ops s outs x :
  make pf cap = Ok s0 -> run ustep ops s0 = (s, outs) -> x < cap ->
  exists n, cardinality s x = Ok n
    /\ has_size (fun y => y < cap /\ closure (united (combine ops outs)) x y) n.
Proof.
  intros M R Lx. destruct (from_make _ _ _ _ _ _ M R) as (I & C & _ & _). subst cap.
  eapply cardinality_spec; eassumption.
Qed.

(** C05 *)

Lemma make_limit pf cap s0 : make pf cap = Ok s0 ->
  (Z.of_nat cap = item_limit s0 + 1 <-> tight_capacity pf cap)%Z.
Proof.
  unfold make, uint_representation_for_capacity, uint_representation_for_max, tight_capacity.
  cbn [List.find uint_representations rep_max fst].
  repeat match goal with
  | |- context [Z.leb ?a ?b] => destruct (Z.leb_spec a b)
  end; intros E; inversion E; subst; cbn [rep_code snd item_max item_limit]; clear E;
    destruct pf; cbn in *; intuition (try discriminate; lia).
Qed.

Lemma union_raises_iff pf cap s0 ops s outs x y :
  make pf cap = Ok s0 -> run ustep ops s0 = (s, outs) -> x < cap -> y < cap ->
  ((exists s' e, union x y s = (s', Err e)) <->
   (tight_capacity pf cap
    /\ ~ closure (united (combine ops outs)) x y
    /\ has_classes (fun z => z < cap) (closure (united (combine ops outs))) 2)).
Proof.
  intros M R Lx Ly. destruct (from_make _ _ _ _ _ _ M R) as (I & C & Li & _). subst cap.
  rewrite <- (make_limit _ _ _ M). rewrite <- Li.
  assert (LP : List.length (parents s) = capacity s) by apply I.
  assert (F : forest (parents s)) by apply I.
  set (P := united (combine ops outs)) in *.
  destruct (union_spec s _ _ x y I Lx Ly) as [(Cl & U')|[(Cl & s2 & U' & I2 & _ & L2 & _)|(Cl & O1 & O2 & U')]];
    rewrite U'; split.
  - intros (s' & e & E). discriminate.
  - intros (_ & NC & _). contradiction.
  - intros (s' & e & E). discriminate.
  - (* the merged class would have size item_limit + 1 *)
    intros (T & _ & (reps & N & L & D & Cov & Sep)). exfalso.
    destruct (cardinality_spec s2 _ _ x I2) as (n & Hn & Hsz).
    { destruct (union_spec s _ _ x y I Lx Ly) as [(Cl' & U2)|[(Cl' & s3 & U2 & _ & C3 & _)|(_ & _ & _ & U2)]];
      rewrite U' in U2; inversion U2; subst; lia. }
    assert (C2 : capacity s2 = capacity s).
    { destruct (union_spec s _ _ x y I Lx Ly) as [(Cl' & U2)|[(Cl' & s3 & U2 & _ & C3 & _)|(_ & _ & _ & U2)]];
      rewrite U' in U2; inversion U2; subst; lia. }
    (* with two classes, the union of x and y holds everything *)
    destruct reps as [|r1 [|r2 [|]]]; simpl in L; try lia.
    assert (Two : forall z, z < capacity s -> closure P z x \/ closure P z y).
    { intros z Lz. destruct (Cov z Lz) as (rz & Iz & Cz). destruct (Cov x Lx) as (rx & Ix & Cx).
      destruct (Cov y Ly) as (ry & Iy & Cy).
      assert (rx <> ry).
      { intros ->. apply Cl. eapply closure_trans; [exact Cx|apply closure_sym; exact Cy]. }
      assert (rz = rx \/ rz = ry) as [->| ->].
      { simpl in *. intuition congruence. }
      - left. eapply closure_trans; [exact Cz|apply closure_sym; exact Cx].
      - right. eapply closure_trans; [exact Cz|apply closure_sym; exact Cy]. }
    assert (roots2 : List.length (roots (parents s)) = 2).
    { apply (classes_all_iff (parents s) (rt (parents s) x) (rt (parents s) y) F).
      - apply rt_root; [assumption|lia].
      - apply rt_root; [assumption|lia].
      - intros E. apply Cl. apply (inv_rel _ _ _ I); assumption.
      - apply Nat.le_antisymm.
        + apply classes_disjoint_le. intros E. apply Cl. apply (inv_rel _ _ _ I); assumption.
        + rewrite <- app_length. rewrite <- (seq_length (List.length (parents s)) 0) at 1.
          apply NoDup_incl_length; [apply seq_NoDup|]. intros z Iz. apply in_seq in Iz.
          apply in_app_iff. rewrite !class_In. 
          destruct (Two z ltac:(lia)) as [Cz|Cz]; (apply (inv_rel _ _ _ I) in Cz; [|lia|lia]);
            [left|right]; (split; [lia|assumption]). }
    (* so the merge must have overflowed *)
    assert (Rx : nth_error (parents s) (rt (parents s) x) = Some (rt (parents s) x)) by (apply rt_root; [assumption|lia]).
    assert (Ry : nth_error (parents s) (rt (parents s) y) = Some (rt (parents s) y)) by (apply rt_root; [assumption|lia]).
    assert (NE : rt (parents s) x <> rt (parents s) y).
    { intros E. apply Cl. apply (inv_rel _ _ _ I); assumption. }
    pose proof (proj2 (classes_all_iff (parents s) _ _ F Rx Ry NE) roots2) as Tot.
    unfold union, sbind, sread, smodify in U'.
    rewrite (find_ok _ _ _ _ I Lx), (find_ok _ _ _ _ I Ly) in U'.
    apply Nat.eqb_neq in NE as NE'. rewrite NE' in U'. cbn [set_count ranks] in U'.
    destruct (nth_error_in (ranks s) x) as (rx & Hrx); [rewrite (inv_len_r _ _ _ I); assumption|].
    destruct (nth_error_in (ranks s) y) as (ry & Hry); [rewrite (inv_len_r _ _ _ I); assumption|].
    apply aget_Ok in Hrx, Hry. rewrite Hrx, Hry in U'.
    set (s1 := set_count (count s - 1) s) in *.
    assert (I1 : Inv s1 P (S (overflows_from 0 (combine ops outs)))).
    { apply Inv_count_irrelevant; [assumption|]. pose proof (inv_count _ _ _ I). lia. }
    assert (B1 : merge_into (rt (parents s) y) (rt (parents s) x) s1 = (s1, Err OverflowError)).
    { destruct (merge_into_spec s1 _ _ (rt (parents s) y) (rt (parents s) x) I1) as [[_ E]|[T' _]];
        try assumption; [congruence|].
      exfalso. simpl in T'. rewrite Nat.add_comm, Tot, LP in T'. lia. }
    assert (B2 : merge_into (rt (parents s) x) (rt (parents s) y) s1 = (s1, Err OverflowError)).
    { destruct (merge_into_spec s1 _ _ (rt (parents s) x) (rt (parents s) y) I1) as [[_ E]|[T' _]];
        try assumption.
      exfalso. simpl in T'. rewrite Tot, LP in T'. lia. }
    destruct (rx <? ry); [rewrite B1 in U'; discriminate|].
    destruct (ry <? rx); rewrite B2 in U'; discriminate.
  - intros _. split; [assumption|]. split; [assumption|].
    exists (roots (parents s)). split; [apply roots_NoDup|]. split; [assumption|]. repeat split.
    + intros r H. apply roots_In, nth_error_lt in H. lia.
    + intros z Lz. exists (rt (parents s) z).
      assert (RR : nth_error (parents s) (rt (parents s) z) = Some (rt (parents s) z))
        by (apply rt_root; [assumption|lia]).
      split; [apply roots_In; assumption|].
      apply (inv_rel _ _ _ I); [assumption|rewrite <- LP; apply rt_lt; [assumption|lia]|].
      symmetry. apply rt_of_root; assumption.
    + intros r r' H H' Cl'. apply roots_In in H, H'.
      assert (r < capacity s) by (rewrite <- LP; eapply nth_error_lt; eassumption).
      assert (r' < capacity s) by (rewrite <- LP; eapply nth_error_lt; eassumption).
      apply (inv_rel _ _ _ I) in Cl'; try assumption.
      rewrite !rt_of_root in Cl' by assumption. assumption.
  - intros _. eauto.
Qed.

Lemma union_total pf cap s0 ops s outs x y :
  make pf cap = Ok s0 -> run ustep ops s0 = (s, outs) -> x < cap -> y < cap ->
  ~ tight_capacity pf cap -> exists s' b, union x y s = (s', Ok b).
Proof.
  intros M R Lx Ly NT. destruct (union x y s) as (s', [b|e]) eqn:U; [eauto|].
  exfalso. apply NT. apply (union_raises_iff _ _ _ _ _ _ x y M R Lx Ly). eauto.
Qed.

Lemma star_run pf cap s0 n :
  make pf cap = Ok s0 -> n + 1 < cap ->
  exists s outs, run ustep (star n) s0 = (s, outs)
    /\ (forall r, In r outs -> exists v, r = Ok v)
    /\ (forall y, closure (united (combine (star n) outs)) 0 y <-> y <= n)
    /\ List.length (roots (parents s)) + n = cap
    /\ Inv s (united (combine (star n) outs)) 0.
Proof.
  intros M. induction n as [|n IH]; intros L.
  - destruct (run ustep (star 0) s0) as (s, outs) eqn:R.
    destruct (from_make _ _ _ _ _ _ M R) as (I & C & Li & Su).
    cbn in R. inversion R; subst. exists s, []. split; [reflexivity|].
    split; [simpl; tauto|]. split; [|split].
    + intros y. cbn. rewrite closure_nil. lia.
    + cbn in Su. lia.
    + assumption.
  - destruct IH as (s & outs & R & O & Cl & Su & I); [lia|].
    assert (ES : star (S n) = star n ++ [UUnion 0 (S n)]).
    { unfold star. rewrite seq_S, map_app. reflexivity. }
    assert (C : capacity s = cap) by (destruct (from_make _ _ _ _ _ _ M R) as (_ & C & _); assumption).
    destruct (union_spec s _ _ 0 (S n) I ltac:(lia) ltac:(lia))
      as [(Cl' & U)|[(Cl' & s2 & U & I2 & C2 & L2 & R2)|(Cl' & Ec & Rr & U)]].
    + apply Cl in Cl'. lia.
    + exists s2, (outs ++ [Ok (OBool true)]). rewrite ES, run_app, R.
      assert (LO : List.length (star n) = List.length outs).
      { pose proof (run_length ustep (star n) s0) as LO. rewrite R in LO. simpl in LO. symmetry; exact LO. }
      assert (EU : united (combine (star n ++ [UUnion 0 (S n)]) (outs ++ [Ok (OBool true)]))
                   = (0, S n) :: united (combine (star n) outs)).
      { clear - LO. unfold united. generalize (@nil (nat * nat)) as acc.
        revert outs LO. generalize (star n) as ops. induction ops as [|o ops IH]; intros [|r outs] LO acc;
          try discriminate; [reflexivity|].
        cbn [combine app]. rewrite united_from_cons. rewrite IH by (simpl in LO; lia).
        symmetry. rewrite united_from_cons. reflexivity. }
      rewrite EU. split; [|split; [|split; [|split]]].
      * cbn [run]. unfold ustep, smap, sbind, sret. rewrite U. reflexivity.
      * intros r Hr. apply in_app_iff in Hr as [Hr|[<-|[]]]; eauto.
      * intros y. rewrite closure_cons. rewrite !Cl. split.
        -- intros [H|[[H1 H2]|[H1 H2]]]; try lia.
           (* S n is isolated *)
           assert (S n = y); [|lia].
           apply (closure_isolated (united (combine (star n) outs))); [|assumption].
           intros a b Iab. split; intros ->.
           ++ assert (HH : closure (united (combine (star n) outs)) 0 (S n)).
              { exfalso. clear - Iab LO. unfold united in Iab.
                assert (G : forall ops outs acc a b, In (a, b) (united_from acc (combine ops outs)) ->
                   In (a, b) acc \/ exists o, In o ops /\ match o with UUnion x y => (x, y) = (a, b) | _ => False end).
                { induction ops as [|o ops IH]; intros [|r outs'] acc a' b' H; cbn in H; try auto.
                  destruct o, r; try (apply IH in H; destruct H as [H|(o' & H1 & H2)]; [|right; exists o'; split; [right|]; assumption]; try auto; try contradiction).
                  destruct H as [H|H]; [right; eexists; split; [left; reflexivity|assumption]|left; assumption]. }
                apply G in Iab as [[]|(o & Ho & E)]. unfold star in Ho. apply in_map_iff in Ho as (z & <- & Hz).
                apply in_seq in Hz. inversion E. }
              apply Cl in HH. lia.
           ++ assert (HH : closure (united (combine (star n) outs)) 0 (S n)).
              { exfalso. clear - Iab LO. unfold united in Iab.
                assert (G : forall ops outs acc a b, In (a, b) (united_from acc (combine ops outs)) ->
                   In (a, b) acc \/ exists o, In o ops /\ match o with UUnion x y => (x, y) = (a, b) | _ => False end).
                { induction ops as [|o ops IH]; intros [|r outs'] acc a' b' H; cbn in H; try auto.
                  destruct o, r; try (apply IH in H; destruct H as [H|(o' & H1 & H2)]; [|right; exists o'; split; [right|]; assumption]; try auto; try contradiction).
                  destruct H as [H|H]; [right; eexists; split; [left; reflexivity|assumption]|left; assumption]. }
                apply G in Iab as [[]|(o & Ho & E)]. unfold star in Ho. apply in_map_iff in Ho as (z & <- & Hz).
                apply in_seq in Hz. inversion E. lia. }
              apply Cl in HH. lia.
        -- intros H. destruct (Nat.eq_dec y (S n)) as [->|N]; [|left; lia].
           right; left. split; [lia|apply closure_refl].
      * lia.
      * assumption.
    + exfalso. lia.
Qed.

Lemma star_overflow pf cap s0 :
  make pf cap = Ok s0 -> tight_capacity pf cap ->
  exists s outs s', run ustep (star (cap - 2)) s0 = (s, outs)
    /\ (forall r, In r outs -> exists v, r = Ok v)
    /\ union 0 (cap - 1) s = (s', Err OverflowError).
Proof.
  intros M T.
  assert (Lc : 255 < cap) by (unfold tight_capacity in T; cbn in T; lia).
  destruct (star_run pf cap s0 (cap - 2) M) as (s & outs & R & O & Cl & Su & I); [lia|].
  destruct (from_make _ _ _ _ _ _ M R) as (_ & C & Li & _).
  destruct (union_raises_iff pf cap s0 (star (cap - 2)) s outs 0 (cap - 1) M R ltac:(lia) ltac:(lia)) as (_ & H).
  destruct H as (s' & e & U).
  { split; [assumption|]. split; [rewrite Cl; lia|].
    pose proof (len_counts pf cap s0 _ _ _ M R) as HL.
    destruct HL as (n & _ & HC & HS).
    { intros o Ho. apply in_combine_r in Ho. apply O in Ho as (v & E). discriminate. }
    destruct (from_make _ _ _ _ _ _ M R) as (_ & _ & _ & Su').
    assert (N2 : n = 2) by lia. rewrite N2 in HC. assumption. }
  exists s, outs, s'. repeat split; try assumption. rewrite U. f_equal.
  destruct (union_spec s _ _ 0 (cap - 1) I ltac:(lia) ltac:(lia))
    as [(_ & U')|[(_ & s2 & U' & _)|(_ & _ & _ & U')]]; rewrite U' in U; inversion U; reflexivity.
Qed.

(** C06 *)
Lemma clear_restores pf cap s0 ops s outs :
  make pf cap = Ok s0 -> run ustep ops s0 = (s, outs) -> clear s = (s0, Ok tt).
Proof.
  intros M R. destruct (from_make _ _ _ _ _ _ M R) as (I & C & L & _).
  apply (clear_is_make pf cap s0 s _ _ M I); [|assumption].
  rewrite C. unfold make in M. apply bind_Ok in M as (r & _ & E). inversion E; reflexivity.
Qed.

Lemma chain_run pf cap s0 n :
  make pf cap = Ok s0 -> n + 1 < cap ->
  exists s outs, run ustep (chain n) s0 = (s, outs)
    /\ (forall r, In r outs -> exists v, r = Ok v)
    /\ capacity s = cap /\ item_limit s = item_limit s0
    /\ (forall i, i < cap -> nth_error (parents s) i = Some (if i <? n then S i else i))
    /\ nth_error (ranks s) 0 = Some 0
    /\ (forall i, n < i < cap -> nth_error (ranks s) i = Some 0).
Proof.
  intros M. induction n as [|n IH]; intros L.
  - exists s0, []. cbn.
    unfold make in M. apply bind_Ok in M as (r & _ & E). inversion E; subst. cbn.
    repeat split; try reflexivity.
    + tauto.
    + intros i Hi. rewrite nth_error_seq0 by assumption. reflexivity.
    + destruct cap; [lia|reflexivity].
    + intros i Hi. rewrite nth_error_nth' with (d := 0) by (rewrite repeat_length; lia).
      rewrite nth_repeat. reflexivity.
  - destruct IH as (s & outs & R & O & C & Li & Pa & R0 & Rk); [lia|].
    destruct (from_make _ _ _ _ _ _ M R) as (I & _ & _ & Su).
    assert (LP : List.length (parents s) = capacity s) by apply I.
    assert (F : forest (parents s)) by apply I.
    assert (Re : forall m, m <= n -> reach (parents s) (n - m) n m).
    { induction m as [|m IHm]; intros Lm.
      - rewrite Nat.sub_0_r. apply reach_here. rewrite Pa by lia.
        destruct (Nat.ltb_spec n n); [lia|reflexivity].
      - apply reach_up with (n - m); [|lia|apply IHm; lia].
        rewrite Pa by lia. destruct (Nat.ltb_spec (n - S m) n); [f_equal; lia|lia]. }
    assert (RT0 : rt (parents s) 0 = n).
    { eapply rt_unique; [assumption|]. pose proof (Re n (Nat.le_refl n)) as H. rewrite Nat.sub_diag in H. exact H. }
    assert (RTS : nth_error (parents s) (S n) = Some (S n)).
    { rewrite Pa by lia. destruct (Nat.ltb_spec (S n) n); [lia|reflexivity]. }
    assert (RTS' : rt (parents s) (S n) = S n) by (apply rt_of_root; assumption).
    assert (RTn : nth_error (parents s) n = Some n).
    { rewrite Pa by lia. destruct (Nat.ltb_spec n n); [lia|reflexivity]. }
    (* the roots are n, ..., cap - 1 *)
    assert (RL : 3 <= List.length (roots (parents s)) \/ List.length (roots (parents s)) = 2 /\ n + 2 = cap).
    { assert (E : roots (parents s) = seq n (cap - n)).
      { unfold roots. rewrite LP, C. replace cap with (n + (cap - n)) at 1 by lia.
        rewrite seq_app, filter_app. rewrite filter_none.
        - simpl. apply filter_all. intros i Hi. apply in_seq in Hi. apply is_root_iff.
          rewrite Pa by lia. destruct (Nat.ltb_spec i n); [lia|reflexivity].
        - intros i Hi. apply in_seq in Hi. unfold is_root. rewrite Pa by lia.
          destruct (Nat.ltb_spec i n); [|lia]. apply Nat.eqb_neq. lia. }
      rewrite E, seq_length. lia. }
    destruct RL as [RL|[_ RL]]; [|lia].
    assert (U : exists s', union (S n) 0 s = (s', Ok true) /\ capacity s' = cap /\ item_limit s' = item_limit s0
               /\ parents s' = upd n (S n) (parents s) /\ ranks s' = upd (S n) 1 (ranks s)).
    { destruct (union_spec s _ _ (S n) 0 I ltac:(lia) ltac:(lia))
      as [(Cl' & U)|[(Cl' & s2 & U & I2 & C2 & L2 & R2)|(Cl' & Ec & Rr & U)]].
      - exfalso. apply (inv_rel _ _ _ I) in Cl'; try lia. 
      - exists s2. split; [assumption|].
        unfold union, sbind, sread, smodify, sret in U.
        rewrite (find_ok _ _ _ (S n) I ltac:(lia)), (find_ok _ _ _ 0 I ltac:(lia)) in U.
        rewrite RT0, RTS' in U.
        destruct (Nat.eqb_spec (S n) n) as [E|_]; [lia|]. cbn [set_count ranks] in U.
        pose proof (Rk (S n) ltac:(lia)) as RkS. apply aget_Ok in RkS as RkS'. apply aget_Ok in R0 as R0'.
        rewrite RkS', R0' in U. cbn [Nat.ltb Nat.leb] in U.
        set (s1 := set_count (count s - 1) s) in *.
        assert (I1 : Inv s1 (united (combine (chain n) outs)) (S (overflows_from 0 (combine (chain n) outs)))).
        { apply Inv_count_irrelevant; [assumption|]. pose proof (inv_count _ _ _ I). lia. }
        destruct (merge_into_spec s1 _ _ (S n) n I1 RTS RTn ltac:(lia)) as [[_ E]|[_ E]]; rewrite E in U;
          [discriminate|].
        unfold bump_rank, sbind, sread, smodify in U. cbn [ranks] in U.
        change (ranks s1) with (ranks s) in U. rewrite RkS' in U.
        unfold aset in U. rewrite (inv_len_r _ _ _ I) in U.
        destruct (Nat.ltb_spec (S n) (capacity s)); [|lia]. cbn [item_limit] in U.
        destruct (Z.of_nat (0 + 1) <=? item_limit s1)%Z; [|discriminate].
        inversion U; subst s2; clear U. cbn. rewrite C, Li. auto.
      - lia. }
    destruct U as (s' & U & C' & Li' & P' & R').
    exists s', (outs ++ [Ok (OBool true)]).
    assert (ES : chain (S n) = chain n ++ [UUnion (S n) 0]).
    { unfold chain. rewrite seq_S, map_app. reflexivity. }
    rewrite ES, run_app, R. cbn [run]. unfold ustep at 1, smap, sbind, sret. rewrite U.
    split; [reflexivity|]. split.
    { intros r Hr. apply in_app_iff in Hr as [Hr|[<-|[]]]; eauto. }
    split; [assumption|]. split; [assumption|]. rewrite P', R'. split; [|split].
    + intros i Hi. rewrite nth_error_upd. rewrite LP, C.
      destruct (Nat.eqb_spec n i) as [<-|N].
      * destruct (Nat.ltb_spec n cap); [|lia]. destruct (Nat.ltb_spec n (S n)); [reflexivity|lia].
      * rewrite Pa by assumption. destruct (Nat.ltb_spec i n), (Nat.ltb_spec i (S n)); try reflexivity; lia.
    + rewrite nth_error_upd_other by lia. assumption.
    + intros i Hi. rewrite nth_error_upd_other by lia. apply Rk. lia.
Qed.

Lemma chain_depth pf cap s0 n :
  make pf cap = Ok s0 -> n + 1 < cap ->
  exists s outs, run ustep (chain n) s0 = (s, outs)
    /\ (forall r, In r outs -> exists v, r = Ok v)
    /\ climb n (parents s) 0 = Err OutOfFuel.
Proof.
  intros M L. destruct (chain_run pf cap s0 n M L) as (s & outs & R & O & C & Li & Pa & R0 & Rk).
  exists s, outs. split; [assumption|]. split; [assumption|].
  assert (Re : forall m, m <= n -> reach (parents s) (n - m) n m).
  { induction m as [|m IHm]; intros Lm.
    - rewrite Nat.sub_0_r. apply reach_here. rewrite Pa by lia.
      destruct (Nat.ltb_spec n n); [lia|reflexivity].
    - apply reach_up with (n - m); [|lia|apply IHm; lia].
      rewrite Pa by lia. destruct (Nat.ltb_spec (n - S m) n); [f_equal; lia|lia]. }
  pose proof (Re n (Nat.le_refl n)) as H. rewrite Nat.sub_diag in H.
  eapply climb_short; [exact H|lia].
Qed.

(** C09: the elements between x and its root are distinct and all in x's set *)

Lemma reach_path ps x r d : reach ps x r d -> exists l,
  List.length l = S d /\ NoDup l /\ forall z, In z l -> exists d', d' <= d /\ reach ps z r d'.
Proof.
  induction 1 as [x H|x p r d H N R (l & L & D & P)].
  - exists [x]. repeat split.
    + repeat constructor. intros [].
    + intros z [<- |[]]. exists 0. split; [lia|constructor; assumption].
  - exists (x :: l). split; [simpl; lia|]. split.
    + constructor; [|assumption]. intros I. destruct (P _ I) as (d' & Ld & R').
      assert (R2 : reach ps x r (S d)) by (econstructor; eassumption).
      destruct (reach_det _ _ _ _ R' _ _ R2). lia.
    + intros z [<- |I].
      * exists (S d). split; [lia|]. econstructor; eassumption.
      * destruct (P _ I) as (d' & Ld & R'). exists d'. split; [lia|assumption].
Qed.

Lemma find_within_set pf cap s0 ops s outs x n :
  make pf cap = Ok s0 -> run ustep ops s0 = (s, outs) -> x < cap ->
  has_size (fun y => y < cap /\ closure (united (combine ops outs)) x y) n ->
  exists r, find_fuel n s x = Ok r.
Proof.
  intros M R Lx (l & (D & E) & <-). destruct (from_make _ _ _ _ _ _ M R) as (I & C & _ & _). subst cap.
  assert (LP : List.length (parents s) = capacity s) by apply I.
  assert (F : forest (parents s)) by apply I.
  destruct (rt_reach (parents s) x F) as (d & Rd); [lia|].
  exists (rt (parents s) x).
  assert (d < List.length l).
  { destruct (reach_path _ _ _ _ Rd) as (p & Lp & Dp & P).
    unfold lt. rewrite <- Lp. apply NoDup_incl_length; [assumption|].
    intros z Iz. apply E. destruct (P _ Iz) as (d' & _ & Rz).
    assert (Lz : z < capacity s) by (rewrite <- LP; inversion Rz; eapply nth_error_lt; eassumption).
    split; [assumption|]. apply (inv_rel _ _ _ I); try assumption. symmetry.
    eapply rt_unique; eassumption. }
  unfold find_fuel. rewrite (climb_reach _ _ _ _ Rd) by assumption. simpl.
  rewrite (walk_reach _ _ _ _ Rd) by assumption. reflexivity.
Qed.
