(** * Proofs about the union-find model *)
From Coq Require Import Lia Relations.
From Verif Require Import PyBase L_Base S_Partition L_Partition M_UnionFind.

(** ** arrays *)

Lemma upd_length i v a : List.length (upd i v a) = List.length a.
Proof. revert i. induction a as [|x a IH]; intros [|i]; simpl; auto. Qed.

Lemma nth_error_upd i v a j :
  nth_error (upd i v a) j =
  if Nat.eqb i j then (if Nat.ltb i (List.length a) then Some v else None) else nth_error a j.
Proof.
  revert i j. induction a as [|x a IH]; intros [|i] [|j]; simpl; try reflexivity.
  - destruct (Nat.eqb i j); reflexivity.
  - rewrite IH. reflexivity.
Qed.

Lemma nth_error_upd_same i v a : i < List.length a -> nth_error (upd i v a) i = Some v.
Proof.
  intros H. rewrite nth_error_upd, Nat.eqb_refl. apply Nat.ltb_lt in H. rewrite H. reflexivity.
Qed.

Lemma nth_error_upd_other i v a j : i <> j -> nth_error (upd i v a) j = nth_error a j.
Proof. intros H. rewrite nth_error_upd. apply Nat.eqb_neq in H. rewrite H. reflexivity. Qed.

Lemma aget_Ok a i v : aget a i = Ok v <-> nth_error a i = Some v.
Proof. unfold aget. destruct (nth_error a i); split; congruence. Qed.

Lemma nth_error_in a i : i < List.length a -> exists v, nth_error a i = Some v :> option nat.
Proof.
  intros H. destruct (nth_error a i) eqn:E; [eauto|]. apply nth_error_None in E. lia.
Qed.

Lemma aget_in a i : i < List.length a -> exists v, aget a i = Ok v.
Proof. intros H. destruct (nth_error_in a i H) as (v & E). exists v. apply aget_Ok; assumption. Qed.

Lemma nth_error_lt (a : array) i v : nth_error a i = Some v -> i < List.length a.
Proof. intros H. apply nth_error_Some. congruence. Qed.

(** ** climbing to the root *)

Inductive reach (ps : array) : nat -> nat -> nat -> Prop :=
| reach_here x : nth_error ps x = Some x -> reach ps x x 0
| reach_up x p r d : nth_error ps x = Some p -> x <> p -> reach ps p r d -> reach ps x r (S d).

Lemma reach_root ps x r d : reach ps x r d -> nth_error ps r = Some r.
Proof. induction 1; assumption. Qed.

Lemma reach_lt ps x r d : reach ps x r d -> x < List.length ps.
Proof. induction 1; eapply nth_error_lt; eassumption. Qed.

Lemma reach_det ps x r d : reach ps x r d -> forall r' d', reach ps x r' d' -> r = r' /\ d = d'.
Proof.
  induction 1 as [x H|x p r d H N _ IH]; intros r' d' H'; inversion H'; subst; try congruence.
  - auto.
  - assert (p = p0) by congruence. subst. destruct (IH _ _ H2). subst. auto.
Qed.

Lemma climb_reach ps x r d : reach ps x r d -> forall fuel, d < fuel -> climb fuel ps x = Ok r.
Proof.
  induction 1 as [x H|x p r d H N _ IH]; intros [|fuel] L; try lia; simpl;
    apply aget_Ok in H; rewrite H; simpl.
  - rewrite Nat.eqb_refl. reflexivity.
  - apply Nat.eqb_neq in N. rewrite N. apply IH. lia.
Qed.

Lemma climb_short ps x r d : reach ps x r d -> forall fuel, fuel <= d -> climb fuel ps x = Err OutOfFuel.
Proof.
  induction 1 as [x H|x p r d H N _ IH]; intros [|fuel] L; try lia; simpl; try reflexivity.
  apply aget_Ok in H; rewrite H; simpl.
  apply Nat.eqb_neq in N. rewrite N. apply IH. lia.
Qed.

Lemma walk_reach ps x r d : reach ps x r d -> forall fuel, d < fuel -> walk fuel ps x r = Ok tt.
Proof.
  induction 1 as [x H|x p r d H N _ IH]; intros [|fuel] L; try lia; simpl;
    apply aget_Ok in H; rewrite H; simpl.
  - rewrite Nat.eqb_refl. reflexivity.
  - destruct (Nat.eqb p r); [reflexivity|]. apply IH. lia.
Qed.

Definition is_root (ps : array) (i : nat) : bool :=
  match nth_error ps i with Some p => Nat.eqb p i | None => false end.

Lemma is_root_iff ps i : is_root ps i = true <-> nth_error ps i = Some i.
Proof.
  unfold is_root. destruct (nth_error ps i) as [p|]; [|split; discriminate].
  rewrite Nat.eqb_eq. split; congruence.
Qed.

Definition roots (ps : array) : list nat := filter (is_root ps) (seq 0 (List.length ps)).

Lemma roots_In ps i : In i (roots ps) <-> nth_error ps i = Some i.
Proof.
  unfold roots. rewrite filter_In, is_root_iff, in_seq. split; [tauto|].
  intros H. split; [|assumption]. apply nth_error_lt in H. lia.
Qed.

Lemma roots_NoDup ps : NoDup (roots ps).
Proof. apply NoDup_filter, seq_NoDup. Qed.

Record forest (ps : array) : Prop := {
  forest_reach : forall x, x < List.length ps -> exists r d, reach ps x r d;
  forest_depth : forall x r d, reach ps x r d -> d + List.length (roots ps) <= List.length ps
}.

Lemma forest_init n : forest (seq 0 n).
Proof.
  assert (E : forall x, x < n -> nth_error (seq 0 n) x = Some x).
  { intros x H. rewrite nth_error_nth' with (d := 0) by (rewrite seq_length; assumption).
    rewrite seq_nth by assumption. reflexivity. }
  split.
  - intros x H. rewrite seq_length in H. exists x, 0. constructor. auto.
  - intros x r d H. pose proof (reach_lt _ _ _ _ H) as L. rewrite seq_length in *.
    destruct (reach_det _ _ _ _ H x 0) as (_ & ->); [constructor; auto|].
    unfold roots. rewrite seq_length. apply Nat.le_trans with (List.length (seq 0 n)).
    + apply filter_len.
    + rewrite seq_length. lia.
Qed.

(** the root of x, as a function *)
Definition rt (ps : array) (x : nat) : nat :=
  match climb (S (List.length ps)) ps x with Ok r => r | Err _ => x end.

Lemma rt_reach ps x : forest ps -> x < List.length ps -> exists d, reach ps x (rt ps x) d.
Proof.
  intros F L. destruct (forest_reach _ F x L) as (r & d & H).
  exists d. unfold rt. rewrite (climb_reach _ _ _ _ H); [assumption|].
  pose proof (forest_depth _ F _ _ _ H). lia.
Qed.

Lemma rt_unique ps x r d : forest ps -> reach ps x r d -> rt ps x = r.
Proof.
  intros F H. destruct (rt_reach ps x F (reach_lt _ _ _ _ H)) as (d' & H').
  destruct (reach_det _ _ _ _ H _ _ H'). congruence.
Qed.

Lemma rt_root ps x : forest ps -> x < List.length ps -> nth_error ps (rt ps x) = Some (rt ps x).
Proof. intros F L. destruct (rt_reach ps x F L) as (d & H). eapply reach_root; eassumption. Qed.

Lemma rt_lt ps x : forest ps -> x < List.length ps -> rt ps x < List.length ps.
Proof. intros F L. eapply nth_error_lt. apply rt_root; assumption. Qed.

Lemma rt_of_root ps r : forest ps -> nth_error ps r = Some r -> rt ps r = r.
Proof. intros F H. eapply rt_unique; [assumption|]. apply reach_here. assumption. Qed.

Lemma find_fuel_forest s x fuel :
  forest (parents s) -> x < List.length (parents s) -> List.length (parents s) <= fuel ->
  find_fuel fuel s x = Ok (rt (parents s) x).
Proof.
  intros F L Hf. destruct (rt_reach _ x F L) as (d & H).
  assert (D : d < fuel).
  { pose proof (forest_depth _ F _ _ _ H).
    assert (In (rt (parents s) x) (roots (parents s))) by (apply roots_In, rt_root; assumption).
    destruct (roots (parents s)); simpl in *; [contradiction|lia]. }
  unfold find_fuel. rewrite (climb_reach _ _ _ _ H) by assumption. simpl.
  rewrite (walk_reach _ _ _ _ H) by assumption. reflexivity.
Qed.

Lemma find_fuel_out s x fuel :
  List.length (parents s) <= x -> find_fuel (S fuel) s x = Err IndexError.
Proof.
  intros L. unfold find_fuel. simpl. unfold aget.
  destruct (nth_error (parents s) x) eqn:E; [|reflexivity].
  apply nth_error_lt in E. lia.
Qed.

(** ** linking one root below another *)

Section Link.
Variables (ps : array) (a b : nat).
Hypothesis F : forest ps.
Hypothesis Ra : nth_error ps a = Some a.
Hypothesis Rb : nth_error ps b = Some b.
Hypothesis AB : a <> b.
Let ps' := upd a b ps.

Lemma link_nth_a : nth_error ps' a = Some b.
Proof. apply nth_error_upd_same. eapply nth_error_lt; eassumption. Qed.

Lemma link_other x r d : reach ps x r d -> r <> a -> reach ps' x r d.
Proof.
  induction 1 as [x H|x p r d H N _ IH]; intros NA.
  - apply reach_here. unfold ps'. rewrite nth_error_upd_other by congruence. assumption.
  - apply reach_up with p; [|assumption|auto].
    unfold ps'. rewrite nth_error_upd_other; [assumption|].
    intros <-. congruence.
Qed.

Lemma link_a x d : reach ps x a d -> reach ps' x b (S d).
Proof.
  intros H. remember a as r eqn:E. induction H as [x H|x p r d H N _ IH]; subst.
  - apply reach_up with b; [apply link_nth_a|assumption|].
    apply link_other; [apply reach_here; assumption|congruence].
  - apply reach_up with p; [|assumption|auto].
    unfold ps'. rewrite nth_error_upd_other; [assumption|].
    intros <-. congruence.
Qed.

Lemma link_roots : S (List.length (roots ps')) = List.length (roots ps).
Proof.
  assert (P : forall i, In i (roots ps) <-> i = a \/ In i (roots ps')).
  { intros i. rewrite !roots_In. unfold ps'. rewrite nth_error_upd.
    destruct (Nat.eqb_spec a i) as [<-|N].
    - assert (L : a <? List.length ps = true) by (apply Nat.ltb_lt; eapply nth_error_lt; eassumption).
      rewrite L. tauto.
    - split; [tauto|]. intros [E|H]; [congruence|assumption]. }
  assert (NA : ~ In a (roots ps')).
  { rewrite roots_In, link_nth_a. congruence. }
  change (S (List.length (roots ps'))) with (List.length (a :: roots ps')).
  apply Nat.le_antisymm; apply NoDup_incl_length.
  - constructor; [assumption|apply roots_NoDup].
  - intros i [<-|I]; apply P; auto.
  - apply roots_NoDup.
  - intros i I. apply P in I as [->|I]; [left|right]; auto.
Qed.

Lemma link_forest : forest ps'.
Proof.
  assert (LE : List.length ps' = List.length ps) by apply upd_length.
  split.
  - intros x L. rewrite LE in L. destruct (forest_reach _ F x L) as (r & d & H).
    destruct (Nat.eq_dec r a) as [->|N].
    + exists b, (S d). apply link_a; assumption.
    + exists r, d. apply link_other; assumption.
  - intros x r d H. pose proof (reach_lt _ _ _ _ H) as L. rewrite LE in *.
    destruct (forest_reach _ F x L) as (r0 & d0 & H0).
    pose proof (forest_depth _ F _ _ _ H0) as D. pose proof link_roots as LR.
    destruct (Nat.eq_dec r0 a) as [->|N].
    + destruct (reach_det _ _ _ _ H _ _ (link_a _ _ H0)). lia.
    + destruct (reach_det _ _ _ _ H _ _ (link_other _ _ _ H0 N)). lia.
Qed.

Lemma link_rt x : x < List.length ps ->
  rt ps' x = if Nat.eqb (rt ps x) a then b else rt ps x.
Proof.
  intros L. destruct (rt_reach ps x F L) as (d & H).
  destruct (Nat.eqb_spec (rt ps x) a) as [E|N].
  - rewrite E in H. eapply rt_unique; [apply link_forest|apply link_a; eassumption].
  - eapply rt_unique; [apply link_forest|apply link_other; eassumption].
Qed.
End Link.

(** ** class sizes *)

Definition class (ps : array) (r : nat) : list nat :=
  filter (fun x => Nat.eqb (rt ps x) r) (seq 0 (List.length ps)).

Lemma class_In ps r x : In x (class ps r) <-> x < List.length ps /\ rt ps x = r.
Proof. unfold class. rewrite filter_In, in_seq, Nat.eqb_eq. intuition lia. Qed.

Lemma class_NoDup ps r : NoDup (class ps r).
Proof. apply NoDup_filter, seq_NoDup. Qed.

Lemma classes_disjoint_le ps a b : a <> b ->
  List.length (class ps a) + List.length (class ps b) <= List.length ps.
Proof.
  intros N. rewrite <- app_length, <- (seq_length (List.length ps) 0).
  apply NoDup_incl_length.
  - apply NoDup_app_iff. repeat split; try apply class_NoDup.
    intros x I J. apply class_In in I, J. destruct I, J. congruence.
  - intros x I. apply in_app_iff in I. apply in_seq.
    destruct I as [I|I]; apply class_In in I as (I & _); lia.
Qed.

Lemma classes_all_iff ps a b :
  forest ps -> nth_error ps a = Some a -> nth_error ps b = Some b -> a <> b ->
  (List.length (class ps a) + List.length (class ps b) = List.length ps
   <-> List.length (roots ps) = 2).
Proof.
  intros F Ra Rb N.
  assert (In a (roots ps)) by (apply roots_In; assumption).
  assert (In b (roots ps)) by (apply roots_In; assumption).
  split.
  - intros E. apply Nat.le_antisymm.
    + change 2 with (List.length [a; b]). apply NoDup_incl_length; [apply roots_NoDup|].
      intros r I. apply roots_In in I.
      destruct (Nat.eq_dec r a) as [->|Na]; [left; reflexivity|].
      destruct (Nat.eq_dec r b) as [->|Nb]; [right; left; reflexivity|]. exfalso.
      assert (List.length (r :: class ps a ++ class ps b) <= List.length (seq 0 (List.length ps))).
      { apply NoDup_incl_length.
        - constructor.
          + rewrite in_app_iff, !class_In, rt_of_root by assumption. intuition.
          + apply NoDup_app_iff. repeat split; try apply class_NoDup.
            intros x I1 I2. apply class_In in I1, I2. destruct I1, I2. congruence.
        - intros x [<-|I1]; apply in_seq.
          + apply nth_error_lt in I. lia.
          + apply in_app_iff in I1. destruct I1 as [I1|I1]; apply class_In in I1 as (I1 & _); lia. }
      simpl in H1. rewrite app_length, seq_length in H1. lia.
    + change 2 with (List.length [a; b]). apply NoDup_incl_length.
      * repeat constructor; simpl; intuition.
      * intros x [<-|[<-|[]]]; assumption.
  - intros E. apply Nat.le_antisymm; [apply classes_disjoint_le; assumption|].
    rewrite <- app_length. rewrite <- (seq_length (List.length ps) 0) at 1.
    apply NoDup_incl_length; [apply seq_NoDup|].
    intros x I. apply in_seq in I. apply in_app_iff. rewrite !class_In.
    assert (I2 : In (rt ps x) [a; b]).
    { apply (NoDup_length_incl (l := [a; b]) (l' := roots ps)).
      - repeat constructor; simpl; intuition.
      - rewrite E. reflexivity.
      - intros y [<-|[<-|[]]]; assumption.
      - apply roots_In, rt_root; [assumption|lia]. }
    simpl in I2. intuition lia.
Qed.

(** ** the invariant of reachable states *)

(** [raised] counts the unions that raised since the last clear *)
Record Inv (s : uf) (pairs : list (nat * nat)) (raised : nat) : Prop := {
  inv_len_p : List.length (parents s) = capacity s;
  inv_len_r : List.length (ranks s) = capacity s;
  inv_len_c : List.length (cardinalities s) = capacity s;
  inv_limit : (Z.of_nat (capacity s) <= item_limit s + 1)%Z;
  inv_limit255 : (255 <= item_limit s)%Z;
  inv_forest : forest (parents s);
  inv_rank : forall i r, nth_error (ranks s) i = Some r ->
               r + List.length (roots (parents s)) <= capacity s;
  inv_card : forall r, nth_error (parents s) r = Some r ->
               nth_error (cardinalities s) r = Some (List.length (class (parents s) r));
  inv_rel : forall x y, x < capacity s -> y < capacity s ->
               (rt (parents s) x = rt (parents s) y <-> closure pairs x y);
  inv_pairs : forall x y, In (x, y) pairs -> x < capacity s /\ y < capacity s;
  inv_fits : forall i c, nth_error (cardinalities s) i = Some c -> (Z.of_nat c <= item_limit s)%Z;
  inv_count : count s = (Z.of_nat (List.length (roots (parents s))) - Z.of_nat raised)%Z
}.

Lemma nth_error_seq0 n x : x < n -> nth_error (seq 0 n) x = Some x.
Proof.
  intros H. rewrite nth_error_nth' with (d := 0) by (rewrite seq_length; assumption).
  rewrite seq_nth by assumption. reflexivity.
Qed.

Lemma roots_seq n : roots (seq 0 n) = seq 0 n.
Proof.
  unfold roots. rewrite seq_length. apply filter_all. intros i I. apply in_seq in I.
  apply is_root_iff, nth_error_seq0. lia.
Qed.

Lemma rt_seq n x : x < n -> rt (seq 0 n) x = x.
Proof. intros L. apply rt_of_root; [apply forest_init|apply nth_error_seq0; assumption]. Qed.

Lemma rep_limit pf cap r :
  uint_representation_for_capacity (Z.of_nat cap) = Ok r ->
  (Z.of_nat cap <= item_max pf (rep_code r) + 1 /\ 255 <= item_max pf (rep_code r))%Z.
Proof.
  unfold uint_representation_for_capacity, uint_representation_for_max.
  cbn [List.find uint_representations rep_max fst].
  repeat match goal with
  | |- context [Z.leb ?a ?b] => destruct (Z.leb_spec a b)
  end; intros E; inversion E; subst; cbn [rep_code snd item_max]; try destruct pf; cbn in *; lia.
Qed.

Lemma Inv_fresh cap lim : (Z.of_nat cap <= lim + 1)%Z -> (255 <= lim)%Z ->
  Inv (mkUF (Z.of_nat cap) cap lim (seq 0 cap) (repeat 0 cap) (repeat 1 cap)) [] 0.
Proof.
  intros L1 L2. constructor; simpl.
  - apply seq_length.
  - apply repeat_length.
  - apply repeat_length.
  - assumption.
  - assumption.
  - apply forest_init.
  - intros i r0 H. apply nth_error_In, repeat_spec in H. subst.
    rewrite roots_seq, seq_length. lia.
  - intros r0 H. pose proof H as L. apply nth_error_lt in L. rewrite seq_length in L.
    rewrite nth_error_nth' with (d := 1) by (rewrite repeat_length; assumption).
    rewrite nth_repeat. f_equal.
    assert (E : class (seq 0 cap) r0 = filter (fun x => Nat.eqb x r0) (seq 0 cap)).
    { unfold class. rewrite seq_length. apply filter_ext_in'. intros x I. apply in_seq in I.
      rewrite rt_seq by lia. reflexivity. }
    rewrite E. symmetry. apply Nat.le_antisymm.
    + change 1 with (List.length [r0]). apply NoDup_incl_length; [apply NoDup_filter, seq_NoDup|].
      intros x I. apply filter_In in I as (_ & I). apply Nat.eqb_eq in I. left; congruence.
    + change 1 with (List.length [r0]). apply NoDup_incl_length; [repeat constructor; simpl; tauto|].
      intros x [<-|[]]. apply filter_In. split; [apply in_seq; lia|apply Nat.eqb_refl].
  - intros x y Lx Ly. rewrite !rt_seq by assumption. rewrite closure_nil. reflexivity.
  - simpl. tauto.
  - intros i c H. apply nth_error_In, repeat_spec in H. subst. lia.
  - rewrite roots_seq, seq_length. lia.
Qed.

Lemma Inv_init pf cap s : make pf cap = Ok s -> Inv s [] 0 /\ capacity s = cap.
Proof.
  unfold make. rewrite bind_Ok. intros (r & Hr & E). inversion E; subst; clear E.
  destruct (rep_limit pf cap r Hr) as (L1 & L2).
  split; [|reflexivity]. apply Inv_fresh; assumption.
Qed.

Lemma find_ok s P k x : Inv s P k -> x < capacity s -> find s x = Ok (rt (parents s) x).
Proof.
  intros I L. apply find_fuel_forest; [apply I|rewrite (inv_len_p _ _ _ I); assumption|].
  rewrite (inv_len_p _ _ _ I). lia.
Qed.

Lemma find_out s P k x : Inv s P k -> capacity s <= x -> find s x = Err IndexError.
Proof. intros I L. apply find_fuel_out. rewrite (inv_len_p _ _ _ I). assumption. Qed.

Lemma class_pos s P k r : Inv s P k -> nth_error (parents s) r = Some r ->
  1 <= List.length (class (parents s) r).
Proof.
  intros I R. change 1 with (List.length [r]). apply NoDup_incl_length; [repeat constructor; simpl; tauto|].
  intros x [<-|[]]. apply class_In. split; [eapply nth_error_lt; eassumption|].
  apply rt_of_root; [apply I|assumption].
Qed.

(** the effect of one branch of union, and of the rank bump *)
Lemma merge_into_spec s P k a b :
  Inv s P k -> nth_error (parents s) a = Some a -> nth_error (parents s) b = Some b -> a <> b ->
  let total := List.length (class (parents s) a) + List.length (class (parents s) b) in
  ((Z.of_nat total > item_limit s)%Z /\ merge_into a b s = (s, Err OverflowError)) \/
  ((Z.of_nat total <= item_limit s)%Z /\
   merge_into a b s =
     (mkUF (count s) (capacity s) (item_limit s) (upd b a (parents s)) (ranks s)
        (upd a total (cardinalities s)), Ok tt)).
Proof.
  intros I Ra Rb N total. subst total.
  set (total := _ + _).
  assert (La : a < capacity s) by (rewrite <- (inv_len_p _ _ _ I); eapply nth_error_lt; eassumption).
  assert (Lb : b < capacity s) by (rewrite <- (inv_len_p _ _ _ I); eapply nth_error_lt; eassumption).
  unfold merge_into, sbind, sread, smodify, sret.
  pose proof (inv_card _ _ _ I a Ra) as Ca. apply aget_Ok in Ca. rewrite Ca.
  pose proof (inv_card _ _ _ I b Rb) as Cb. apply aget_Ok in Cb. rewrite Cb.
  fold total. unfold aset. rewrite (inv_len_c _ _ _ I).
  apply Nat.ltb_lt in La as La'. rewrite La'.
  destruct (Z.leb_spec (Z.of_nat total) (item_limit s)) as [T|T].
  - right. split; [assumption|]. cbn [set_cardinalities parents item_limit].
    rewrite (inv_len_p _ _ _ I). apply Nat.ltb_lt in Lb as Lb'. rewrite Lb'.
    assert (Lim : (Z.of_nat a <=? item_limit s)%Z = true).
    { apply Z.leb_le. pose proof (inv_limit _ _ _ I). lia. }
    rewrite Lim. reflexivity.
  - left. split; [lia|reflexivity].
Qed.

Lemma closure_pair_comm {A} (P : list (A * A)) a b u v :
  closure ((a, b) :: P) u v <-> closure ((b, a) :: P) u v.
Proof. rewrite !closure_cons. tauto. Qed.

(** invariant after a successful merge of the classes of x and y, roots a and b *)
Lemma Inv_merged s P k x y a b rs :
  Inv s P k -> x < capacity s -> y < capacity s ->
  nth_error (parents s) a = Some a -> nth_error (parents s) b = Some b -> a <> b ->
  (rt (parents s) x = a /\ rt (parents s) y = b \/ rt (parents s) x = b /\ rt (parents s) y = a) ->
  List.length rs = capacity s ->
  (forall i r, nth_error rs i = Some r -> S r + List.length (roots (upd b a (parents s))) <= S (capacity s)) ->
  (Z.of_nat (List.length (class (parents s) a) + List.length (class (parents s) b)) <= item_limit s)%Z ->
  Inv (mkUF (count s - 1) (capacity s) (item_limit s) (upd b a (parents s)) rs
         (upd a (List.length (class (parents s) a) + List.length (class (parents s) b)) (cardinalities s)))
      ((x, y) :: P) k.
Proof.
  intros I Lx Ly Ra Rb N E Lrs Hrs Ft.
  assert (LP : List.length (parents s) = capacity s) by apply I.
  assert (F : forest (parents s)) by apply I.
  assert (N' : b <> a) by congruence.
  assert (RT : forall z, z < capacity s ->
    rt (upd b a (parents s)) z = if Nat.eqb (rt (parents s) z) b then a else rt (parents s) z).
  { intros z Lz. apply link_rt; try assumption. rewrite LP. assumption. }
  pose proof (link_roots (parents s) b a Rb N') as LR.
  constructor; simpl.
  - rewrite upd_length. apply I.
  - assumption.
  - rewrite upd_length. apply I.
  - apply I.
  - apply I.
  - apply link_forest; assumption.
  - intros i r H. specialize (Hrs i r H). lia.
  - intros r R.
    assert (Hr : r <> b).
    { intros ->. rewrite link_nth_a in R by assumption. congruence. }
    rewrite nth_error_upd_other in R by congruence.
    assert (Lr : r < capacity s) by (rewrite <- LP; eapply nth_error_lt; eassumption).
    rewrite nth_error_upd. rewrite (inv_len_c _ _ _ I).
    destruct (Nat.eqb_spec a r) as [<-|Na].
    + apply Nat.ltb_lt in Lr as Lr'. rewrite Lr'. f_equal.
      rewrite <- app_length. apply Nat.le_antisymm; apply NoDup_incl_length.
      * apply NoDup_app_iff. repeat split; try apply class_NoDup.
        intros z I1 I2. apply class_In in I1, I2. destruct I1, I2. congruence.
      * intros z J. rewrite class_In, upd_length. apply in_app_iff in J.
        rewrite !class_In in J. rewrite LP in *. destruct J as [[J1 J2]|[J1 J2]]; split; try assumption;
          rewrite RT by assumption; destruct (Nat.eqb_spec (rt (parents s) z) b); congruence.
      * apply class_NoDup.
      * intros z J. rewrite class_In, upd_length in J. apply in_app_iff.
        rewrite !class_In. rewrite LP in *. destruct J as [J1 J2]. rewrite RT in J2 by assumption.
        destruct (Nat.eqb_spec (rt (parents s) z) b); auto.
    + rewrite (inv_card _ _ _ I r R). f_equal. unfold class. rewrite upd_length.
      f_equal. apply filter_ext_in'. intros z J. apply in_seq in J. rewrite RT by lia.
      destruct (Nat.eqb_spec (rt (parents s) z) b) as [Ez|Nz]; [|reflexivity].
      rewrite Ez. destruct (Nat.eqb_spec b r), (Nat.eqb_spec a r); congruence.
  - intros u v Lu Lv. rewrite !RT by assumption. rewrite closure_cons.
    rewrite <- !(inv_rel _ _ _ I) by assumption.
    destruct E as [[E1 E2]|[E1 E2]]; rewrite E1, E2;
    destruct (Nat.eqb_spec (rt (parents s) u) b), (Nat.eqb_spec (rt (parents s) v) b); intuition congruence.
  - intros u v [J|J]; [inversion J; subst; auto|]. apply (inv_pairs _ _ _ I); assumption.
  - intros i c H. rewrite nth_error_upd in H. destruct (Nat.eqb_spec a i) as [<-|Ni].
    + destruct (a <? List.length (cardinalities s)); [|discriminate]. injection H as <-. exact Ft.
    + apply (inv_fits _ _ _ I i c H).
  - pose proof (inv_count _ _ _ I). lia.
Qed.

Lemma Inv_count_irrelevant s P k c : Inv s P k -> 
  c = (Z.of_nat (List.length (roots (parents s))) - Z.of_nat (S k))%Z ->
  Inv (set_count c s) P (S k).
Proof. intros I E. destruct I. constructor; simpl; try assumption. Qed.

(** ** union *)
Lemma union_spec s P k x y :
  Inv s P k -> x < capacity s -> y < capacity s ->
  (closure P x y /\ union x y s = (s, Ok false)) \/
  (~ closure P x y /\ exists s', union x y s = (s', Ok true)
      /\ Inv s' ((x, y) :: P) k /\ capacity s' = capacity s /\ item_limit s' = item_limit s
      /\ S (List.length (roots (parents s'))) = List.length (roots (parents s))) \/
  (~ closure P x y /\ Z.of_nat (capacity s) = (item_limit s + 1)%Z
      /\ List.length (roots (parents s)) = 2
      /\ union x y s = (set_count (count s - 1) s, Err OverflowError)).
Proof.
  intros I Lx Ly.
  assert (LP : List.length (parents s) = capacity s) by apply I.
  assert (F : forest (parents s)) by apply I.
  unfold union, sbind, sread, sret, smodify.
  rewrite (find_ok s P k x I Lx), (find_ok s P k y I Ly).
  destruct (Nat.eqb_spec (rt (parents s) x) (rt (parents s) y)) as [E|N].
  { left. split; [apply (inv_rel _ _ _ I); assumption|reflexivity]. }
  right.
  assert (NC : ~ closure P x y) by (rewrite <- (inv_rel _ _ _ I) by assumption; assumption).
  set (s1 := set_count (count s - 1) s).
  set (a := rt (parents s) x) in *. set (b := rt (parents s) y) in *.
  assert (Ra : nth_error (parents s) a = Some a) by (apply rt_root; [assumption|lia]).
  assert (Rb : nth_error (parents s) b = Some b) by (apply rt_root; [assumption|lia]).
  destruct (nth_error_in (ranks s) x) as (rx & Hrx); [rewrite (inv_len_r _ _ _ I); assumption|].
  destruct (nth_error_in (ranks s) y) as (ry & Hry); [rewrite (inv_len_r _ _ _ I); assumption|].
  change (ranks s1) with (ranks s).
  apply aget_Ok in Hrx as Grx. apply aget_Ok in Hry as Gry. rewrite Grx, Gry.
  assert (I1 : Inv s1 P (S k)).
  { apply Inv_count_irrelevant; [assumption|]. pose proof (inv_count _ _ _ I). lia. }
  (* overflow facts shared by the branches *)
  assert (OV : forall a' b', (a' = a /\ b' = b \/ a' = b /\ b' = a) ->
     (Z.of_nat (List.length (class (parents s) a') + List.length (class (parents s) b')) > item_limit s)%Z ->
     Z.of_nat (capacity s) = (item_limit s + 1)%Z /\ List.length (roots (parents s)) = 2).
  { intros a' b' AB T.
    assert (LE : List.length (class (parents s) a') + List.length (class (parents s) b') <= capacity s).
    { rewrite <- LP. apply classes_disjoint_le. destruct AB as [[-> ->]|[-> ->]]; congruence. }
    pose proof (inv_limit _ _ _ I).
    split; [lia|].
    apply (classes_all_iff (parents s) a' b' F); try (destruct AB as [[-> ->]|[-> ->]]; congruence).
    rewrite LP. lia. }
  (* a merge without rank change, in either direction *)
  assert (MERGE : forall a' b', (a' = a /\ b' = b \/ a' = b /\ b' = a) ->
     forall s2, merge_into a' b' s1 = (s2, Ok tt) ->
       s2 = mkUF (count s - 1) (capacity s) (item_limit s) (upd b' a' (parents s)) (ranks s)
        (upd a' (List.length (class (parents s) a') + List.length (class (parents s) b')) (cardinalities s))
       /\ Inv s2 ((x, y) :: P) k /\ S (List.length (roots (parents s2))) = List.length (roots (parents s))).
  { intros a' b' AB s2 E2.
    assert (R1 : nth_error (parents s) a' = Some a') by (destruct AB as [[-> ->]|[-> ->]]; assumption).
    assert (R2 : nth_error (parents s) b' = Some b') by (destruct AB as [[-> ->]|[-> ->]]; assumption).
    assert (NN : a' <> b') by (destruct AB as [[-> ->]|[-> ->]]; congruence).
    destruct (merge_into_spec s1 P (S k) a' b' I1 R1 R2 NN) as [[_ E']|[Ft E']];
      rewrite E' in E2; [discriminate|]. inversion E2; subst s2. clear E2 E'.
    split; [reflexivity|]. split.
    - apply Inv_merged; try assumption.
      + destruct AB as [[-> ->]|[-> ->]]; auto.
      + apply I.
      + intros i r Hr. pose proof (inv_rank _ _ _ I i r Hr).
        pose proof (link_roots (parents s) b' a' R2 ltac:(congruence)). lia.
    - simpl. apply link_roots; [assumption|congruence]. }
  (* dispatch on the three branches *)
  assert (MOK : forall a' b', (a' = a /\ b' = b \/ a' = b /\ b' = a) ->
     (merge_into a' b' s1 = (s1, Err OverflowError) /\
        Z.of_nat (capacity s) = (item_limit s + 1)%Z /\ List.length (roots (parents s)) = 2) \/
     (exists s2, merge_into a' b' s1 = (s2, Ok tt))).
  { intros a' b' AB.
    assert (R1 : nth_error (parents s) a' = Some a') by (destruct AB as [[-> ->]|[-> ->]]; assumption).
    assert (R2 : nth_error (parents s) b' = Some b') by (destruct AB as [[-> ->]|[-> ->]]; assumption).
    assert (NN : a' <> b') by (destruct AB as [[-> ->]|[-> ->]]; congruence).
    destruct (merge_into_spec s1 P (S k) a' b' I1 R1 R2 NN) as [[T E']|[T E']].
    - left. split; [assumption|]. apply (OV a' b' AB). exact T.
    - right. eauto. }
  destruct (Nat.ltb_spec rx ry) as [L|L].
  { destruct (MOK b a) as [(E & O1 & O2)|(s2 & E)]; [auto| |]; rewrite E.
    - right. auto.
    - left. split; [assumption|]. exists s2. destruct (MERGE b a) with (s2 := s2) as (Es & Iv & Rr); auto.
      split; [reflexivity|]. split; [assumption|]. rewrite Es. simpl. rewrite Es in Rr. auto. }
  destruct (Nat.ltb_spec ry rx) as [L2|L2].
  { destruct (MOK a b) as [(E & O1 & O2)|(s2 & E)]; [auto| |]; rewrite E.
    - right. auto.
    - left. split; [assumption|]. exists s2. destruct (MERGE a b) with (s2 := s2) as (Es & Iv & Rr); auto.
      split; [reflexivity|]. split; [assumption|]. rewrite Es. simpl. rewrite Es in Rr. auto. }
  destruct (MOK a b) as [(E & O1 & O2)|(s2 & E)]; [auto| |]; rewrite E.
  - right. auto.
  - left. split; [assumption|]. destruct (MERGE a b) with (s2 := s2) as (Es & Iv & Rr); auto.
    assert (La : a < capacity s) by (rewrite <- LP; eapply nth_error_lt; eassumption).
    destruct (nth_error_in (ranks s) a) as (ra & Hra); [rewrite (inv_len_r _ _ _ I); assumption|].
    unfold bump_rank, sbind, sread, smodify.
    assert (Rk2 : ranks s2 = ranks s) by (rewrite Es; reflexivity).
    assert (Lm2 : item_limit s2 = item_limit s) by (rewrite Es; reflexivity).
    assert (Cp2 : capacity s2 = capacity s) by (rewrite Es; reflexivity).
    rewrite Rk2. apply aget_Ok in Hra as Gra. rewrite Gra. unfold aset.
    rewrite (inv_len_r _ _ _ I). apply Nat.ltb_lt in La as La'. rewrite La'.
    pose proof (inv_rank _ _ _ I a ra Hra) as RK.
    assert (R2 : 2 <= List.length (roots (parents s))).
    { change 2 with (List.length [a; b]). apply NoDup_incl_length.
      - repeat constructor; simpl; intuition.
      - intros z [<-|[<-|[]]]; apply roots_In; assumption. }
    assert (Lim : (Z.of_nat (ra + 1) <=? item_limit s2)%Z = true).
    { apply Z.leb_le. rewrite Lm2. pose proof (inv_limit _ _ _ I). lia. }
    rewrite Lim. eexists. split; [reflexivity|].
    split; [|simpl; auto].
    rewrite Es in Iv. rewrite Es. unfold set_ranks; simpl.
    rewrite Es in Rr; simpl in Rr.
    destruct Iv. constructor; simpl in *; try assumption.
    + rewrite upd_length. assumption.
    + intros i r Hr. rewrite nth_error_upd in Hr. destruct (Nat.eqb_spec a i) as [<-|Ni].
      * destruct (a <? List.length (ranks s)); [|discriminate]. inversion Hr; subst. lia.
      * apply inv_rank0 with i. assumption.
Qed.

(** union on a bad index raises and changes nothing *)
Lemma union_out s P k x y :
  Inv s P k -> capacity s <= x \/ capacity s <= y -> union x y s = (s, Err IndexError).
Proof.
  intros I L. unfold union, sbind, sread.
  destruct (Nat.lt_ge_cases x (capacity s)) as [Lx|Lx].
  - rewrite (find_ok s P k x I Lx). destruct L as [L|L]; [lia|].
    rewrite (find_out s P k y I L). reflexivity.
  - rewrite (find_out s P k x I Lx). reflexivity.
Qed.

(** ** clear *)

Lemma clear_loop_spec : forall m i s,
  (Z.of_nat (i + m) <= item_limit s + 1)%Z -> (255 <= item_limit s)%Z ->
  i + m = List.length (parents s) -> i + m = List.length (ranks s) -> i + m = List.length (cardinalities s) ->
  clear_loop (seq i m) s =
  (mkUF (count s) (capacity s) (item_limit s)
     (firstn i (parents s) ++ seq i m) (firstn i (ranks s) ++ repeat 0 m)
     (firstn i (cardinalities s) ++ repeat 1 m), Ok tt).
Proof.
  assert (FU : forall (l : array) i v, i < List.length l -> firstn (S i) (upd i v l) = firstn i l ++ [v]).
  { induction l as [|x l IH]; intros [|i] v H; simpl in *; try lia; [reflexivity|].
    f_equal. apply IH. lia. }
  induction m as [|m IH]; intros i s L1 L2 Hp Hr Hc.
  - cbn [seq clear_loop sret]. unfold sret. rewrite Nat.add_0_r in *.
    rewrite Hp at 1. rewrite Hr at 1. rewrite Hc at 1.
    rewrite !firstn_all, !app_nil_r. destruct s; reflexivity.
  - cbn [seq clear_loop]. unfold sbind at 1. unfold clear_step, sbind, sread, smodify, aset.
    assert (B1 : i <? List.length (parents s) = true) by (apply Nat.ltb_lt; lia).
    assert (B2 : (Z.of_nat i <=? item_limit s)%Z = true) by (apply Z.leb_le; lia).
    assert (B3 : i <? List.length (ranks s) = true) by (apply Nat.ltb_lt; lia).
    assert (B4 : i <? List.length (cardinalities s) = true) by (apply Nat.ltb_lt; lia).
    assert (B5 : (Z.of_nat 0 <=? item_limit s)%Z = true) by (apply Z.leb_le; lia).
    assert (B6 : (Z.of_nat 1 <=? item_limit s)%Z = true) by (apply Z.leb_le; lia).
    rewrite B1, B2. cbn [set_parents ranks cardinalities item_limit]. rewrite B3, B5.
    cbn [set_parents set_ranks cardinalities item_limit]. rewrite B4, B6.
    unfold set_cardinalities. cbn.
    rewrite IH; cbn; try rewrite !upd_length; try lia; try assumption.
    assert (Q1 : firstn (S i) (upd i i (parents s)) = firstn i (parents s) ++ [i]) by (apply FU; lia).
    assert (Q2 : firstn (S i) (upd i 0 (ranks s)) = firstn i (ranks s) ++ [0]) by (apply FU; lia).
    assert (Q3 : firstn (S i) (upd i 1 (cardinalities s)) = firstn i (cardinalities s) ++ [1]) by (apply FU; lia).
    cbn in Q1, Q2, Q3. rewrite Q1, Q2, Q3, <- !app_assoc. reflexivity.
Qed.

Lemma clear_spec s P k : Inv s P k ->
  clear s = (mkUF (Z.of_nat (capacity s)) (capacity s) (item_limit s)
               (seq 0 (capacity s)) (repeat 0 (capacity s)) (repeat 1 (capacity s)), Ok tt).
Proof.
  intros I. unfold clear, sbind, smodify. simpl capacity.
  rewrite clear_loop_spec; simpl; try reflexivity; symmetry || idtac; try apply I.
Qed.

Lemma clear_is_make pf cap s0 s P k :
  make pf cap = Ok s0 -> Inv s P k -> capacity s = capacity s0 -> item_limit s = item_limit s0 ->
  clear s = (s0, Ok tt).
Proof.
  intros M I Ec El. rewrite (clear_spec s P k I). rewrite Ec, El. f_equal.
  unfold make in M. apply bind_Ok in M as (r & _ & E). inversion E; subst. reflexivity.
Qed.
