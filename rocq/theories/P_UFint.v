(** * Property C106: UnionFind called with any int *)
From Coq Require Import Lia Relations.
From Verif Require Import PyBase L_Base M_UnionFind M_UFint S_Partition S_UnionFind
  L_Partition L_UnionFind L_UnionFind2 P_UnionFind.

(** The element an int stands for in a structure of [cap] elements: itself, or what it
    counts back to from the end; any other int stands for none ([cap] is none). *)
Definition stands_for (cap : nat) (z : Z) : nat :=
  if (0 <=? z)%Z && (z <? Z.of_nat cap)%Z then Z.to_nat z
  else if (z <? 0)%Z && (- Z.of_nat cap <=? z)%Z then Z.to_nat (Z.of_nat cap + z)
  else cap.

Definition stands_for_op (cap : nat) (o : zop) : uop :=
  match o with
  | ZUnion x y => UUnion (stands_for cap x) (stands_for cap y)
  | ZFind x => UFind (stands_for cap x)
  | ZCardinality x => UCardinality (stands_for cap x)
  | ZSame x y => USame (stands_for cap x) (stands_for cap y)
  | ZLen => ULen
  | ZClear => UClear
  end.

Section Calls.
Local Open Scope nat_scope.

Lemma zget_stands a z : zget a z = aget a (stands_for (List.length a) z).
Proof.
  unfold zget, stands_for, aget.
  destruct (Z.leb_spec 0 z); simpl.
  - destruct (Z.ltb_spec z (Z.of_nat (List.length a))); simpl; [reflexivity|].
    destruct (Z.ltb_spec z 0); [lia|]. simpl.
    rewrite (proj2 (nth_error_None a (Z.to_nat z))) by lia.
    rewrite (proj2 (nth_error_None a (List.length a))) by lia. reflexivity.
  - destruct (Z.ltb_spec z 0); [|lia]. simpl.
    destruct (Z.leb_spec (- Z.of_nat (List.length a)) z); [reflexivity|].
    rewrite (proj2 (nth_error_None a (List.length a))) by lia. reflexivity.
Qed.

Lemma zget_nat a i : zget a (Z.of_nat i) = aget a i.
Proof. unfold zget. destruct (Z.leb_spec 0 (Z.of_nat i)); [|lia]. rewrite Nat2Z.id. reflexivity. Qed.

Lemma zclimb_nat ps : forall fuel i,
  zclimb fuel ps (Z.of_nat i) = (let* c := climb fuel ps i in Ok (Z.of_nat c)).
Proof.
  induction fuel as [|fuel IH]; intros i; simpl; [reflexivity|].
  rewrite zget_nat. destruct (aget ps i) as [c|e]; simpl; [|reflexivity].
  destruct (Nat.eqb_spec i c); destruct (Z.eqb_spec (Z.of_nat i) (Z.of_nat c)); try lia; auto.
Qed.

Lemma zwalk_nat ps y : forall fuel i,
  zwalk fuel ps (Z.of_nat i) (Z.of_nat y) = walk fuel ps i y.
Proof.
  induction fuel as [|fuel IH]; intros i; simpl; [reflexivity|].
  rewrite zget_nat. destruct (aget ps i) as [c|e]; simpl; [|reflexivity].
  destruct (Nat.eqb_spec c y); destruct (Z.eqb_spec (Z.of_nat c) (Z.of_nat y)); try lia; auto.
Qed.

Lemma reach_parent ps x r d : reach ps x r d ->
  exists p d', nth_error ps x = Some p /\ d' <= d /\ reach ps p r d'.
Proof.
  destruct 1 as [x H|x p r d H N R].
  - exists x, 0. split; [assumption|]. split; [lia|]. constructor. assumption.
  - exists p, d. split; [assumption|]. split; [lia|]. assumption.
Qed.

Lemma zfind_stands s P k z fuel : Inv s P k -> capacity s < fuel ->
  zfind_fuel fuel s z =
  (let* r := M_UnionFind.find s (stands_for (capacity s) z) in Ok (Z.of_nat r)).
Proof.
  intros I Lf. pose proof (inv_len_p _ _ _ I) as Lp. pose proof (inv_forest _ _ _ I) as F.
  destruct (Nat.lt_ge_cases (stands_for (capacity s) z) (capacity s)) as [L|L].
  - rewrite (find_ok s P k _ I L). simpl.
    set (x := stands_for (capacity s) z) in *.
    destruct (rt_reach (parents s) x F) as (d & R); [lia|].
    assert (D : d < capacity s).
    { pose proof (forest_depth _ F _ _ _ R).
      assert (In (rt (parents s) x) (roots (parents s))) by (apply roots_In, rt_root; [assumption|lia]).
      destruct (roots (parents s)); simpl in *; [contradiction|lia]. }
    unfold zfind_fuel. destruct fuel as [|fuel]; [lia|].
    destruct (Z.eq_dec z (Z.of_nat x)) as [E|N].
    + rewrite E. rewrite zclimb_nat, (climb_reach _ _ _ _ R) by lia. cbn [bind].
      rewrite zwalk_nat, (walk_reach _ _ _ _ R) by lia. reflexivity.
    + assert (Zn : (z < 0)%Z).
      { destruct (Z.ltb_spec z 0); [assumption|]. exfalso. subst x. unfold stands_for in *.
        destruct (Z.leb_spec 0 z); [|lia]. simpl in *.
        destruct (Z.ltb_spec z (Z.of_nat (capacity s))); simpl in *.
        - rewrite Z2Nat.id in N by lia. congruence.
        - destruct (Z.ltb_spec z 0); simpl in *; lia. }
      assert (exists p d', nth_error (parents s) x = Some p /\ d' <= d
                /\ reach (parents s) p (rt (parents s) x) d') as (p & d' & Hp & Ld & Rp).
      { exact (reach_parent _ _ _ _ R). }
      cbn [zclimb zwalk]. rewrite zget_stands, Lp. fold x.
      rewrite (proj2 (aget_Ok _ _ _) Hp). cbn [bind].
      destruct (Z.eqb_spec z (Z.of_nat p)); [lia|].
      rewrite zclimb_nat, (climb_reach _ _ _ _ Rp) by lia. cbn [bind].
      destruct (Z.eqb (Z.of_nat p) (Z.of_nat (rt (parents s) x))); [reflexivity|].
      rewrite zwalk_nat, (walk_reach _ _ _ _ Rp) by lia. reflexivity.
  - rewrite (find_out s P k _ I L). unfold zfind_fuel.
    destruct fuel as [|fuel]; [lia|]. cbn [zclimb]. rewrite zget_stands, Lp.
    unfold aget. rewrite (proj2 (nth_error_None _ _)) by lia. reflexivity.
Qed.

Lemma zunion_stands s P k x y : Inv s P k ->
  zunion x y s = union (stands_for (capacity s) x) (stands_for (capacity s) y) s.
Proof.
  intros I. unfold zunion, union, sbind, sread, zfind.
  rewrite !(zfind_stands s P k) by (assumption || lia).
  destruct (M_UnionFind.find s (stands_for (capacity s) x)) as [a|e]; simpl; [|reflexivity].
  destruct (M_UnionFind.find s (stands_for (capacity s) y)) as [b|e]; simpl; [|reflexivity].
  destruct (Nat.eqb_spec a b); destruct (Z.eqb_spec (Z.of_nat a) (Z.of_nat b)); try lia; [reflexivity|].
  unfold smodify. simpl. rewrite !zget_stands, (inv_len_r _ _ _ I), !Nat2Z.id. reflexivity.
Qed.

Lemma zstep_stands s P k o : Inv s P k -> zstep o s = ustep (stands_for_op (capacity s) o) s.
Proof.
  intros I. destruct o as [x y|x|x|x y| |]; simpl; try reflexivity.
  - unfold smap, sbind. rewrite (zunion_stands s P k) by assumption. reflexivity.
  - unfold smap, sbind, sread, zfind. rewrite (zfind_stands s P k) by (assumption || lia).
    destruct (M_UnionFind.find s _) as [r|e]; simpl; [|reflexivity].
    unfold sret. rewrite Nat2Z.id. reflexivity.
  - unfold smap, sbind, sread, zcardinality, cardinality, zfind.
    rewrite (zfind_stands s P k) by (assumption || lia).
    destruct (M_UnionFind.find s _) as [r|e]; simpl; [|reflexivity].
    rewrite zget_nat. reflexivity.
  - unfold smap, sbind, sread, zsame, are_in_same_set, zfind.
    rewrite !(zfind_stands s P k) by (assumption || lia).
    destruct (M_UnionFind.find s _) as [a|e]; simpl; [|reflexivity].
    destruct (M_UnionFind.find s _) as [b|e]; simpl; [|reflexivity].
    unfold sret.
    destruct (Nat.eqb_spec a b); destruct (Z.eqb_spec (Z.of_nat a) (Z.of_nat b)); try lia; reflexivity.
Qed.

Lemma zrun_stands : forall ops s P k, Inv s P k ->
  run zstep ops s = run ustep (map (stands_for_op (capacity s)) ops) s.
Proof.
  induction ops as [|o ops IH]; intros s P k I; simpl; [reflexivity|].
  rewrite (zstep_stands s P k) by assumption.
  destruct (ustep (stands_for_op (capacity s) o) s) as (s1, r) eqn:E.
  destruct (run_Inv [stands_for_op (capacity s) o] s P k s1 [r] I) as (I1 & C1 & _).
  { simpl. rewrite E. reflexivity. }
  rewrite (IH s1 _ _ I1), C1. reflexivity.
Qed.
End Calls.

(** C106: any history of calls with any ints leaves the structure, and answers every call,
    as the history in which each int is replaced by the element it stands for. *)
Theorem C106_any_int : forall pf cap s0 ops,
  make pf cap = Ok s0 ->
  run zstep ops s0 = run ustep (map (stands_for_op cap) ops) s0.
Proof.
  intros pf cap s0 ops M. destruct (Inv_init _ _ _ M) as (I & <-).
  apply (zrun_stands ops s0 _ _ I).
Qed.
Print Assumptions C106_any_int.

(** so two ints are found in the same set exactly when both stand for elements, and these
    are related by the closure of the pairs of elements united so far *)
Theorem C106_same_set : forall pf cap s0 ops s outs x y,
  make pf cap = Ok s0 -> run zstep ops s0 = (s, outs) ->
  (zsame s x y = Ok true <->
     (- Z.of_nat cap <= x < Z.of_nat cap)%Z /\ (- Z.of_nat cap <= y < Z.of_nat cap)%Z
     /\ closure (united (combine (map (stands_for_op cap) ops) outs))
          (stands_for cap x) (stands_for cap y))
  /\ (zsame s x y = Err IndexError <->
     ~ ((- Z.of_nat cap <= x < Z.of_nat cap)%Z /\ (- Z.of_nat cap <= y < Z.of_nat cap)%Z)).
Proof.
  intros pf cap s0 ops s outs x y M R. rewrite (C106_any_int pf cap s0 ops M) in R.
  destruct (Inv_init _ _ _ M) as (I0 & C0).
  destruct (run_Inv _ _ _ _ _ _ I0 R) as (I & C & _). rewrite C0 in C.
  assert (In_range : forall z, (stands_for cap z < cap)%nat <-> (- Z.of_nat cap <= z < Z.of_nat cap)%Z).
  { intros z. unfold stands_for.
    destruct (Z.leb_spec 0 z); destruct (Z.ltb_spec z (Z.of_nat cap)); destruct (Z.ltb_spec z 0);
      destruct (Z.leb_spec (- Z.of_nat cap) z); simpl; lia. }
  assert (E : zsame s x y = are_in_same_set s (stands_for cap x) (stands_for cap y)).
  { pose proof (zstep_stands s _ _ (ZSame x y) I) as E. rewrite C in E.
    cbn [zstep ustep stands_for_op] in E. unfold smap, sbind, sread, sret in E.
    destruct (zsame s x y), (are_in_same_set s (stands_for cap x) (stands_for cap y)); congruence. }
  rewrite E, <- !In_range.
  destruct (Nat.lt_ge_cases (stands_for cap x) cap) as [Lx|Lx];
    [destruct (Nat.lt_ge_cases (stands_for cap y) cap) as [Ly|Ly]|].
  - destruct (C01_same_set_iff_closure pf cap s0 _ s outs _ _ M R Lx Ly) as (b & -> & Hb).
    destruct b; split; split; intros H; try discriminate; try tauto.
    + destruct H as (_ & _ & H). apply Hb in H. discriminate.
  - unfold are_in_same_set. rewrite (find_ok s _ _ _ I) by lia.
    rewrite (find_out s _ _ _ I) by lia. simpl. split; split; intros; try discriminate; try lia; reflexivity.
  - unfold are_in_same_set. rewrite (find_out s _ _ _ I) by lia. simpl.
    split; split; intros; try discriminate; try lia; reflexivity.
Qed.
Print Assumptions C106_same_set.

(** the roots are never negative: what a call gives can be given back to it, whatever int
    it was given, and allowing the loops more turns changes nothing *)
Theorem C106_roots : forall pf cap s0 ops s outs x r fuel,
  make pf cap = Ok s0 -> run zstep ops s0 = (s, outs) -> (cap < fuel)%nat ->
  zfind_fuel fuel s x = Ok r ->
  (0 <= r < Z.of_nat cap)%Z /\ zfind s r = Ok r /\ zfind s x = Ok r.
Proof.
  intros pf cap s0 ops s outs x r fuel M R Lf F. rewrite (C106_any_int pf cap s0 ops M) in R.
  destruct (Inv_init _ _ _ M) as (I0 & C0).
  destruct (run_Inv _ _ _ _ _ _ I0 R) as (I & C & _). rewrite C0 in C.
  unfold zfind. rewrite (zfind_stands s _ _ _ _ I) in F by lia.
  rewrite !(zfind_stands s _ _ _ _ I) by lia.
  destruct (Nat.lt_ge_cases (stands_for (capacity s) x) (capacity s)) as [L|L].
  - destruct (C02_find_canonical pf cap s0 _ s outs (stands_for (capacity s) x) M R) as
      (r' & Lr & _ & Fx & Fr & _); [lia|].
    rewrite Fx in F |- *. simpl in F |- *. inversion F; subst r.
    assert (Er : stands_for (capacity s) (Z.of_nat r') = r').
    { unfold stands_for. destruct (Z.leb_spec 0 (Z.of_nat r')); [|lia].
      destruct (Z.ltb_spec (Z.of_nat r') (Z.of_nat (capacity s))); [|lia]. simpl. lia. }
    rewrite Er, Fr. simpl. repeat split; lia.
  - rewrite (find_out s _ _ _ I) in F by lia. discriminate.
Qed.
Print Assumptions C106_roots.

Example C106_ex :
  (let* s0 := make Long64 4 in
   Ok (let (s, outs) := run zstep [ZUnion (-1) 0; ZUnion 3 (-4); ZUnion (-5) 1; ZFind (-1);
                                   ZSame (-4) (-1); ZCardinality (-4); ZLen; ZSame 4 0] s0
       in (parents s, outs)))
  = Ok ([3; 1; 2; 3]%nat,
        [Ok (OBool true); Ok (OBool false); Err IndexError; Ok (ONat 3);
         Ok (OBool true); Ok (ONat 2); Ok (OInt 3); Err IndexError]).
Proof. vm_compute. reflexivity. Qed.
