(** * Proofs about pelote/utils.py *)
From Coq Require Import Lia Permutation Sorted.
From Verif Require Import PyBase L_Base S_Partition L_Partition NxGraph M_UnionFind M_Utils L_UnionFind.

(** ** has_mixed_types *)
Lemma pytype_eqb_eq a b : pytype_eqb a b = true <-> a = b.
Proof.
  destruct a, b; simpl; try (split; (reflexivity || discriminate)).
  rewrite Nat.eqb_eq. split; congruence.
Qed.

Lemma mixed_types_iff {A} (ty : A -> pytype) items :
  has_mixed_types ty items = true <->
  exists a b, In a items /\ In b items /\ ty a <> ty b.
Proof.
  destruct items as [|first rest]; simpl.
  - split; [discriminate|]. intros (a & b & [] & _).
  - rewrite existsb_exists. split.
    + intros (x & Hx & H). exists x, first. rewrite negb_true_iff in H.
      split; [right; assumption|]. split; [left; reflexivity|].
      intros E. apply pytype_eqb_eq in E. congruence.
    + intros (a & b & Ha & Hb & N).
      assert (C : ty a <> ty first \/ ty b <> ty first).
      { destruct (pytype_eqb (ty a) (ty first)) eqn:E.
        - apply pytype_eqb_eq in E. right. congruence.
        - left. intros F. apply pytype_eqb_eq in F. congruence. }
      destruct C as [C|C]; [exists a|exists b]; (split; [intuition congruence|]);
        apply negb_true_iff; destruct (pytype_eqb _ _) eqn:E; try reflexivity;
        apply pytype_eqb_eq in E; contradiction.
Qed.

(** ** uint_representation_for_max *)
Lemma uint_rep_spec n :
  match uint_representation_for_max n with
  | Ok r => In r uint_representations /\ (n <= rep_max r)%Z
            /\ (forall r', In r' uint_representations -> (n <= rep_max r')%Z -> (rep_max r <= rep_max r')%Z)
  | Err e => e = TypeError /\ (2 ^ 64 <= n)%Z
  end.
Proof.
  unfold uint_representation_for_max, uint_representations. cbn [List.find rep_max fst].
  repeat match goal with
  | |- context [Z.leb ?a ?b] => destruct (Z.leb_spec a b)
  end; cbn in *.
  all: try (split; [tauto|]; split; [lia|]; intros r' [<-|[<-|[<-|[<-|[]]]]]; cbn; lia).
  split; [reflexivity|lia].
Qed.

(** ** fast_intersection_size *)
Lemma count_mem l B n :
  fold_left (fun i item => if mem item B then i + 1 else i) l n
  = n + List.length (filter (fun x => mem x B) l).
Proof.
  revert n. induction l as [|x l IH]; intros n; simpl; [lia|].
  rewrite IH. destruct (mem x B); simpl; lia.
Qed.

Lemma fis_spec same A B :
  NoDup A -> NoDup B -> (same = true -> A = B) ->
  has_size (fun x => In x A /\ In x B) (fast_intersection_size same A B).
Proof.
  intros NA NB S.
  assert (G : forall A B, NoDup A -> has_size (fun x => In x A /\ In x B) (List.length (filter (fun x => mem x B) A))).
  { intros C D NC. exists (filter (fun x => mem x D) C). split; [|reflexivity].
    split; [apply NoDup_filter; assumption|]. intros x. rewrite filter_In, mem_In. reflexivity. }
  assert (G2 : forall A B, NoDup A -> (same = true -> A = B) ->
    has_size (fun x => In x A /\ In x B)
      (match A with [] => 0 | _ => if same then List.length A
         else fold_left (fun i item => if mem item B then i + 1 else i) A 0 end)).
  { intros C D NC SC. destruct C as [|c C'] eqn:EC.
    - exists []. split; [|reflexivity]. split; [constructor|]. simpl. tauto.
    - rewrite <- EC in *. destruct same.
      + rewrite SC by reflexivity. exists D. split; [|reflexivity]. rewrite <- SC by reflexivity.
        split; [assumption|]. tauto.
      + rewrite count_mem. simpl. apply G; assumption. }
  unfold fast_intersection_size. destruct (Nat.ltb_spec (List.length B) (List.length A)).
  - apply has_size_ext with (P := fun x => In x B /\ In x A); [tauto|].
    apply G2; [assumption|]. intros E. symmetry. auto.
  - apply G2; assumption.
Qed.

(** ** counting_sort *)
Lemma flat_map_ext_in' {B C} (f g : B -> list C) l :
  (forall x, In x l -> f x = g x) -> flat_map f l = flat_map g l.
Proof.
  induction l as [|x l IH]; intros H; [reflexivity|]. simpl.
  rewrite (H x) by (left; reflexivity). rewrite IH by (intros; apply H; right; assumption). reflexivity.
Qed.

Lemma sum_app l1 l2 : sum_nat (l1 ++ l2) = sum_nat l1 + sum_nat l2.
Proof. apply sum_nat_app. Qed.
Lemma sum_one x : sum_nat [x] = x.
Proof. unfold sum_nat. simpl. lia. Qed.

Section Sort.
Context {A : Type} (key : A -> Z).
Implicit Types (items : list A).

(** the items of key [lower + j] *)
Definition block (lower : Z) (items : list A) (j : nat) : list A :=
  filter (fun x => Z.eqb (key x) (lower + Z.of_nat j)) items.

Definition sorted_blocks (lower : Z) (n : nat) items : list A :=
  flat_map (fun j => rev (block lower items j)) (seq 0 n).

(** bounds *)
Lemma bounds_spec keys : forall lo hi,
  (lo <= hi)%Z ->
  exists lo' hi', fold_left bounds_step keys (Some lo, Some hi) = (Some lo', Some hi')
    /\ (lo' <= lo)%Z /\ (hi <= hi')%Z /\ (forall k, In k keys -> (lo' <= k <= hi')%Z).
Proof.
  induction keys as [|k keys IH]; intros lo hi L; simpl.
  - exists lo, hi. repeat split; try lia; contradiction.
  - destruct (Z.ltb_spec k lo), (Z.ltb_spec hi k);
      match goal with |- context [fold_left bounds_step keys (Some ?a, Some ?b)] =>
        destruct (IH a b ltac:(lia)) as (lo' & hi' & E & B1 & B2 & B3) end;
      exists lo', hi'; rewrite E; (split; [reflexivity|]); (split; [lia|]); (split; [lia|]);
      intros k' [<-|I]; try lia; auto.
Qed.

Lemma bounds_nonempty items : items <> [] ->
  exists lo hi, fold_left bounds_step (map key items) (None, None) = (Some lo, Some hi)
    /\ (lo <= hi)%Z /\ (forall x, In x items -> (lo <= key x <= hi)%Z).
Proof.
  destruct items as [|x items]; [congruence|]. intros _. simpl.
  destruct (bounds_spec (map key items) (key x) (key x) ltac:(lia)) as (lo & hi & E & B1 & B2 & B3).
  exists lo, hi. split; [exact E|]. split; [lia|].
  intros y [<-|I]; [lia|]. apply B3. apply in_map; assumption.
Qed.

(** counting *)
Lemma nth_error_ext_nat (a b : array) :
  List.length a = List.length b -> (forall j, j < List.length a -> nth_error a j = nth_error b j) -> a = b.
Proof.
  revert b. induction a as [|x a IH]; intros [|y b] L H; try discriminate; [reflexivity|].
  simpl in L. f_equal.
  - specialize (H 0). simpl in H. assert (Some x = Some y) by (apply H; lia). congruence.
  - apply IH; [lia|]. intros j Hj. apply (H (S j)). simpl. lia.
Qed.

Lemma nth_map_seq (f : nat -> nat) n i : i < n -> nth_error (map f (seq 0 n)) i = Some (f i).
Proof. intros L. erewrite map_nth_error; [reflexivity|]. apply nth_error_seq0; assumption. Qed.

Lemma aget_map_seq (f : nat -> nat) n i : i < n -> aget (map f (seq 0 n)) i = Ok (f i).
Proof. intros L. apply aget_Ok. apply nth_map_seq; assumption. Qed.

Lemma upd_map_seq (f : nat -> nat) n i v :
  i < n -> upd i v (map f (seq 0 n)) = map (fun j => if Nat.eqb j i then v else f j) (seq 0 n).
Proof.
  intros L. apply nth_error_ext_nat; [rewrite upd_length, !map_length; reflexivity|].
  rewrite upd_length, map_length, seq_length. intros j Lj.
  rewrite nth_error_upd, map_length, seq_length, !nth_map_seq by assumption.
  rewrite (Nat.eqb_sym j i). destruct (Nat.eqb_spec i j); [|reflexivity].
  apply Nat.ltb_lt in L. rewrite L. reflexivity.
Qed.

Lemma aset_map_seq mx (f g : nat -> nat) n i v :
  i < n -> (Z.of_nat v <= mx)%Z -> g i = v -> (forall j, j <> i -> g j = f j) ->
  aset mx (map f (seq 0 n)) i v = Ok (map g (seq 0 n)).
Proof.
  intros L M Gi Gj. unfold aset. rewrite map_length, seq_length.
  destruct (Nat.ltb_spec i n); [|lia]. destruct (Z.leb_spec (Z.of_nat v) mx); [|lia].
  f_equal. rewrite upd_map_seq by assumption. apply map_ext. intros j.
  destruct (Nat.eqb_spec j i) as [->|N]; [congruence|]. symmetry. auto.
Qed.

Lemma block_app lower l1 l2 j : block lower (l1 ++ l2) j = block lower l1 j ++ block lower l2 j.
Proof. unfold block. apply filter_app. Qed.

Lemma block_one lower x j :
  block lower [x] j = if Z.eqb (key x) (lower + Z.of_nat j) then [x] else [].
Proof. reflexivity. Qed.

Lemma block_one_same lower x : (lower <= key x)%Z ->
  block lower [x] (Z.to_nat (key x - lower)) = [x].
Proof.
  intros L. rewrite block_one, Z2Nat.id by lia.
  replace (lower + (key x - lower))%Z with (key x) by lia. rewrite Z.eqb_refl. reflexivity.
Qed.

Lemma block_one_other lower x j : (lower <= key x)%Z ->
  j <> Z.to_nat (key x - lower) -> block lower [x] j = [].
Proof.
  intros L N. rewrite block_one. destruct (Z.eqb_spec (key x) (lower + Z.of_nat j)); [lia|reflexivity].
Qed.

Lemma block_length lower items j : List.length (block lower items j) <= List.length items.
Proof. unfold block. apply filter_len. Qed.

Definition sizes lower items (j : nat) : nat := List.length (block lower items j).

Lemma count_spec mx lower n items : forall done,
  (Z.of_nat (List.length (done ++ items)) <= mx)%Z ->
  (forall x, In x items -> (lower <= key x < lower + Z.of_nat n)%Z) ->
  foldM (count_step mx lower) (map key items) (map (sizes lower done) (seq 0 n))
  = Ok (map (sizes lower (done ++ items)) (seq 0 n)).
Proof.
  induction items as [|x items IH]; intros done M R.
  - rewrite app_nil_r. reflexivity.
  - assert (Rx : (lower <= key x < lower + Z.of_nat n)%Z) by (apply R; left; reflexivity).
    cbn [map foldM]. unfold count_step at 1. rewrite aget_map_seq by lia. cbn [bind].
    replace (done ++ x :: items) with ((done ++ [x]) ++ items) in * by (rewrite <- app_assoc; reflexivity).
    rewrite (aset_map_seq _ _ (sizes lower (done ++ [x]))).
    + cbn [bind]. apply IH; [assumption|]. intros; apply R; right; assumption.
    + lia.
    + pose proof (block_length lower (done ++ [x]) (Z.to_nat (key x - lower))) as B.
      rewrite block_app, block_one_same, app_length in B by lia. simpl in B.
      unfold sizes. rewrite app_length in M. lia.
    + unfold sizes. rewrite block_app, block_one_same, app_length by lia. reflexivity.
    + intros j N. unfold sizes. rewrite block_app, block_one_other, app_length by (lia || assumption).
      simpl. lia.
Qed.

(** cumulating *)
Definition upto lower items (j : nat) : nat := sum_nat (map (sizes lower items) (seq 0 (S j))).

Lemma upto_S lower items j : upto lower items (S j) = upto lower items j + sizes lower items (S j).
Proof.
  unfold upto. rewrite (seq_S (S j)), map_app, sum_app. cbn [map Nat.add]. rewrite sum_one. lia.
Qed.

Lemma blocks_length lower items n :
  List.length (sorted_blocks lower n items) = sum_nat (map (sizes lower items) (seq 0 n)).
Proof.
  unfold sorted_blocks. generalize 0 as s. induction n as [|n IH]; intros s; [reflexivity|].
  cbn [seq flat_map map]. rewrite app_length, rev_length, IH. reflexivity.
Qed.

Lemma sorted_blocks_perm lower n items :
  (forall x, In x items -> (lower <= key x < lower + Z.of_nat n)%Z) ->
  Permutation (sorted_blocks lower n items) items.
Proof.
  intros R.
  assert (G : forall m items, (forall x, In x items -> (lower <= key x)%Z) ->
     Permutation (sorted_blocks lower m items ++ filter (fun x => Z.leb (lower + Z.of_nat m) (key x)) items) items).
  { intros m l Rl. induction m as [|m IH].
    - unfold sorted_blocks. simpl. rewrite filter_all; [reflexivity|].
      intros x Hx. apply Z.leb_le. specialize (Rl x Hx). lia.
    - eapply Permutation_trans; [|exact IH]. unfold sorted_blocks at 1. rewrite seq_S, flat_map_app.
      fold (sorted_blocks lower m l). rewrite <- app_assoc. apply Permutation_app_head.
      simpl flat_map. rewrite app_nil_r.
      rewrite <- (Permutation_rev (block lower l m)). unfold block. clear.
      induction l as [|x l IH]; [constructor|]. cbn [filter].
      destruct (Z.eqb_spec (key x) (lower + Z.of_nat m)),
               (Z.leb_spec (lower + Z.of_nat (S m)) (key x)),
               (Z.leb_spec (lower + Z.of_nat m) (key x)); try lia.
      + cbn [app]. constructor. exact IH.
      + rewrite <- Permutation_middle. constructor. exact IH.
      + exact IH. }
  specialize (G n items (fun x Hx => proj1 (R x Hx))).
  rewrite filter_none, app_nil_r in G; [exact G|].
  intros x Hx. apply Z.leb_gt. apply R in Hx. lia.
Qed.

Lemma sum_nat_seq_mono (f : nat -> nat) a b : a <= b ->
  sum_nat (map f (seq 0 a)) <= sum_nat (map f (seq 0 b)).
Proof.
  intros L. replace b with (a + (b - a)) by lia. rewrite seq_app, map_app, sum_app. lia.
Qed.

Lemma cumulate_spec mx lower items n : forall k,
  (Z.of_nat (sum_nat (map (sizes lower items) (seq 0 n))) <= mx)%Z ->
  S k <= n ->
  foldM (cumulate_step mx) (seq 1 k) (map (sizes lower items) (seq 0 n))
  = Ok (map (fun j => if Nat.leb j k then upto lower items j else sizes lower items j) (seq 0 n)).
Proof.
  induction k as [|k IH]; intros M L.
  - simpl. f_equal. apply map_ext. intros [|j]; simpl; [unfold upto; simpl; lia|reflexivity].
  - rewrite seq_S, foldM_app, IH by (lia || assumption). cbn [bind foldM plus].
    unfold cumulate_step. rewrite !aget_map_seq by lia. cbn [bind].
    replace (S k - 1) with k by lia. rewrite Nat.leb_refl.
    destruct (Nat.leb_spec (S k) k); [lia|].
    assert (E : sizes lower items (S k) + upto lower items k = upto lower items (S k)) by (rewrite upto_S; lia).
    rewrite E.
    rewrite (aset_map_seq _ _ (fun j => if Nat.leb j (S k) then upto lower items j else sizes lower items j)); [reflexivity|lia| | |].
    + pose proof (sum_nat_seq_mono (sizes lower items) (S (S k)) n ltac:(lia)) as B. unfold upto. lia.
    + cbv beta. rewrite Nat.leb_refl. reflexivity.
    + intros j N. cbv beta. destruct (Nat.leb_spec j (S k)), (Nat.leb_spec j k); try reflexivity; lia.
Qed.

(** placing *)
Lemma lset_length {B} i (v : B) l : List.length (lset i v l) = List.length l.
Proof. revert i. induction l as [|x l IH]; intros [|i]; simpl; auto. Qed.

Lemma lset_app_l {B} i (v : B) l1 l2 : i < List.length l1 -> lset i v (l1 ++ l2) = lset i v l1 ++ l2.
Proof.
  revert i. induction l1 as [|x l1 IH]; intros [|i] L; simpl in *; try lia; [reflexivity|].
  rewrite IH by lia. reflexivity.
Qed.

Lemma lset_app_r {B} i (v : B) l1 l2 : lset (List.length l1 + i) v (l1 ++ l2) = l1 ++ lset i v l2.
Proof. induction l1 as [|x l1 IH]; simpl; [reflexivity|]. rewrite IH. reflexivity. Qed.

Lemma lset_rev {B} i (v : B) l : i < List.length l ->
  lset (List.length l - i - 1) v (rev l) = rev (lset i v l).
Proof.
  revert i. induction l as [|x l IH]; intros [|i] L; simpl in *; try lia.
  - match goal with |- lset ?m _ _ = _ => replace m with (List.length (rev l) + 0) by (rewrite rev_length; lia) end.
    rewrite lset_app_r. reflexivity.
  - rewrite lset_app_l by (rewrite rev_length; lia). rewrite IH by lia. reflexivity.
Qed.

(** what the output block of [j] holds once the items of [done] have been placed *)
Definition oblock lower items done (j : nat) : list (option A) :=
  repeat None (sizes lower items j - sizes lower done j) ++ map Some (rev (block lower done j)).

Definition output_at lower items done n : list (option A) :=
  flat_map (oblock lower items done) (seq 0 n).

Lemma oblock_length lower items done j :
  sizes lower done j <= sizes lower items j ->
  List.length (oblock lower items done j) = sizes lower items j.
Proof.
  intros L. unfold oblock. rewrite app_length, repeat_length, map_length, rev_length.
  fold (sizes lower done j). lia.
Qed.

Lemma output_at_length lower items done n :
  (forall j, sizes lower done j <= sizes lower items j) ->
  List.length (output_at lower items done n) = sum_nat (map (sizes lower items) (seq 0 n)).
Proof.
  intros L. unfold output_at. generalize 0 as s. induction n as [|n IH]; intros s; [reflexivity|].
  cbn [seq flat_map map]. rewrite app_length, oblock_length, IH by apply L. reflexivity.
Qed.

Lemma place_one lower items done x rest n :
  items = done ++ x :: rest -> (lower <= key x < lower + Z.of_nat n)%Z ->
  let j := Z.to_nat (key x - lower) in
  let i := upto lower items j - sizes lower done j - 1 in
  i < sum_nat (map (sizes lower items) (seq 0 n)) /\ sizes lower done j < upto lower items j /\
  lset i (Some x) (output_at lower items done n) = output_at lower items (done ++ [x]) n.
Proof.
  intros E R j i.
  assert (Lj : j < n) by lia.
  assert (SJ : sizes lower items j = sizes lower done j + 1 + sizes lower rest j).
  { unfold sizes. rewrite E. change (x :: rest) with ([x] ++ rest).
    rewrite !block_app, !app_length. unfold j. rewrite block_one_same by lia. simpl. lia. }
  assert (SO : forall j', sizes lower done j' <= sizes lower items j').
  { intros j'. unfold sizes. rewrite E, block_app, app_length. lia. }
  assert (U : upto lower items j = sum_nat (map (sizes lower items) (seq 0 j)) + sizes lower items j).
  { unfold upto. rewrite seq_S, map_app, sum_app. cbn [map Nat.add]. rewrite sum_one. lia. }
  assert (SQ : seq 0 n = seq 0 j ++ j :: seq (S j) (n - S j)).
  { replace n with (j + S (n - S j)) at 1 by lia. rewrite seq_app. reflexivity. }
  split; [|split].
  - pose proof (sum_nat_seq_mono (sizes lower items) (S j) n ltac:(lia)) as B. fold (upto lower items j) in B. lia.
  - lia.
  - unfold output_at. rewrite SQ, !flat_map_app. cbn [flat_map].
    replace i with (List.length (flat_map (oblock lower items done) (seq 0 j))
                    + (sizes lower items j - sizes lower done j - 1)).
    2: { fold (output_at lower items done j). rewrite output_at_length by exact SO. lia. }
    rewrite lset_app_r, lset_app_l by (rewrite oblock_length by apply SO; lia).
    f_equal; [|f_equal].
    + apply flat_map_ext_in'. intros a Ha. apply in_seq in Ha.
      unfold oblock, sizes. rewrite !block_app, !block_one_other, !app_nil_r by lia. reflexivity.
    + unfold oblock. assert (B : block lower (done ++ [x]) j = block lower done j ++ [x]).
      { rewrite block_app. f_equal. unfold j. apply block_one_same. lia. }
      assert (SB : sizes lower (done ++ [x]) j = sizes lower done j + 1).
      { unfold sizes. rewrite B, app_length. reflexivity. }
      rewrite B, SB, rev_app_distr.
      replace (sizes lower items j - sizes lower done j) with
        ((sizes lower items j - (sizes lower done j + 1)) + 1) by lia.
      rewrite repeat_app, <- app_assoc.
      replace (sizes lower items j - (sizes lower done j + 1) + 1 - 1) with
        (List.length (repeat (@None A) (sizes lower items j - (sizes lower done j + 1))) + 0)
        by (rewrite repeat_length; lia).
      rewrite lset_app_r. reflexivity.
    + apply flat_map_ext_in'. intros a Ha. apply in_seq in Ha.
      unfold oblock, sizes. rewrite !block_app, !block_one_other, !app_nil_r by lia. reflexivity.
Qed.

Lemma place_spec mx lower n l reverse items rest : forall done,
  items = done ++ rest -> l = List.length items -> (Z.of_nat l <= mx)%Z ->
  (forall x, In x items -> (lower <= key x < lower + Z.of_nat n)%Z) ->
  l = sum_nat (map (sizes lower items) (seq 0 n)) ->
  let dir o := if reverse : bool then rev o else o in
  exists counts,
  foldM (place_step mx lower l reverse) (combine (map key rest) rest)
    (map (fun j => upto lower items j - sizes lower done j) (seq 0 n), dir (output_at lower items done n))
  = Ok (counts, dir (output_at lower items items n)).
Proof.
  induction rest as [|x rest IH]; intros done E L M R SL dir.
  - rewrite app_nil_r in E. subst done. eexists. reflexivity.
  - assert (Rx : (lower <= key x < lower + Z.of_nat n)%Z) by (apply R; rewrite E; apply in_elt).
    destruct (place_one lower items done x rest n E Rx) as (P1 & P2 & P3).
    set (j := Z.to_nat (key x - lower)) in *. cbv zeta in P1, P2, P3.
    destruct (IH (done ++ [x])) as (counts & IH').
    { rewrite <- app_assoc. exact E. } { exact L. } { exact M. } { exact R. } { exact SL. }
    exists counts. etransitivity; [|exact IH']. cbn [map combine foldM]. unfold place_step at 1.
    fold j. rewrite aget_map_seq by lia. cbn [bind].
    destruct (upto lower items j - sizes lower done j) as [|i] eqn:EI; [lia|].
    replace (S i - 1) with i in * by lia.
    assert (SO : forall j', sizes lower done j' <= sizes lower items j').
    { intros j'. unfold sizes. rewrite E, block_app, app_length. lia. }
    assert (LO : List.length (output_at lower items done n) = l) by (rewrite output_at_length; [congruence|exact SO]).
    rewrite (aset_map_seq _ _ (fun j0 => upto lower items j0 - sizes lower (done ++ [x]) j0)).
    + cbn [bind]. 
      assert (LD : List.length (dir (output_at lower items done n)) = l).
      { unfold dir. destruct reverse; rewrite ?rev_length; exact LO. }
      rewrite LD. destruct (Nat.ltb_spec (if reverse then l - i - 1 else i) l).
      2: { destruct reverse; lia. }
      cbn [bind]. f_equal. f_equal. unfold dir. destruct reverse.
      * rewrite <- LO at 1. rewrite lset_rev by lia. rewrite P3. reflexivity.
      * rewrite P3. reflexivity.
    + lia.
    + lia.
    + unfold sizes at 1. rewrite block_app, app_length. unfold j at 3. rewrite block_one_same by lia.
      fold (sizes lower done j). simpl. lia.
    + intros j' N. unfold sizes. rewrite block_app, (block_one_other lower x) by (lia || assumption).
      rewrite app_nil_r. reflexivity.
Qed.

Lemma output_done lower items n :
  output_at lower items items n = map Some (sorted_blocks lower n items).
Proof.
  unfold output_at, sorted_blocks. generalize (seq 0 n) as js. intros js.
  induction js as [|j js IH]; [reflexivity|]. cbn [flat_map]. rewrite map_app, IH.
  unfold oblock. rewrite Nat.sub_diag. reflexivity.
Qed.

Lemma output_start lower items n :
  output_at lower items [] n = repeat None (sum_nat (map (sizes lower items) (seq 0 n))).
Proof.
  unfold output_at. generalize (seq 0 n) as js. intros js.
  induction js as [|j js IH]; [reflexivity|]. cbn [flat_map map sum_nat].
  rewrite IH. unfold oblock, sizes at 2. simpl. rewrite app_nil_r, Nat.sub_0_r.
  rewrite <- repeat_app. reflexivity.
Qed.

Lemma sort_blocks pf reverse items :
  items <> [] -> (Z.of_nat (List.length items) < 2 ^ 64)%Z ->
  exists lower n,
    counting_sort pf key reverse items =
      Ok (map Some (if reverse then rev (sorted_blocks lower n items) else sorted_blocks lower n items))
    /\ (forall x, In x items -> (lower <= key x < lower + Z.of_nat n)%Z).
Proof.
  intros NE LT. destruct (bounds_nonempty items NE) as (lo & hi & E & LH & R).
  exists lo, (Z.to_nat (hi - lo) + 1).
  assert (R' : forall x, In x items -> (lo <= key x < lo + Z.of_nat (Z.to_nat (hi - lo) + 1))%Z).
  { intros x Hx. specialize (R x Hx). lia. }
  split; [|exact R'].
  unfold counting_sort. rewrite E. set (n := Z.to_nat (hi - lo)) in *.
  destruct (uint_representation_for_max (Z.of_nat (List.length items))) as [r|e] eqn:ER.
  2: { pose proof (uint_rep_spec (Z.of_nat (List.length items))) as U. rewrite ER in U. lia. }
  cbn [bind].
  assert (M : (Z.of_nat (List.length items) <= item_max pf (rep_code r))%Z).
  { pose proof (uint_rep_spec (Z.of_nat (List.length items))) as U. rewrite ER in U.
    destruct U as (U1 & U2 & _). unfold uint_representations in U1. simpl in U1.
    destruct U1 as [<-|[<-|[<-|[<-|[]]]]]; cbn in *; try destruct pf; lia. }
  assert (SL : List.length items = sum_nat (map (sizes lo items) (seq 0 (n + 1)))).
  { rewrite <- blocks_length. symmetry. apply Permutation_length. apply sorted_blocks_perm. exact R'. }
  replace (repeat 0 (n + 1)) with (map (sizes lo []) (seq 0 (n + 1))).
  2: { assert (Z0 : forall m s, map (sizes lo []) (seq s m) = repeat 0 m).
       { induction m as [|m IH]; intros s; [reflexivity|]. cbn [seq map repeat]. rewrite IH. reflexivity. }
       apply Z0. }
  rewrite count_spec by assumption. cbn [bind app].
  rewrite cumulate_spec by (lia || (rewrite <- SL; exact M)). cbn [bind].
  replace (map (fun j => if Nat.leb j n then upto lo items j else sizes lo items j) (seq 0 (n + 1)))
    with (map (fun j => upto lo items j - sizes lo [] j) (seq 0 (n + 1))).
  2: { apply map_ext_in. intros j Hj. apply in_seq in Hj. destruct (Nat.leb_spec j n); [|lia].
       unfold sizes at 1. simpl. lia. }
  destruct (place_spec (item_max pf (rep_code r)) lo (n + 1) (List.length items) reverse items items [] eq_refl eq_refl M R' SL)
    as (counts & P).
  rewrite output_start, <- SL in P.
  replace (if reverse then rev (repeat None (List.length items)) else repeat None (List.length items))
    with (repeat (@None A) (List.length items)) in P.
  2: { destruct reverse; [|reflexivity]. clear. generalize (List.length items) as m. intros m.
       induction m as [|m IH]; [reflexivity|]. simpl. rewrite <- IH. apply repeat_cons. }
  etransitivity; [apply (f_equal (fun r => let* (_, output) := r in Ok output) P)|]. cbn [bind]. rewrite output_done. destruct reverse; [rewrite map_rev|]; reflexivity.
Qed.

Lemma filter_flat_map {B C} (p : C -> bool) (f : B -> list C) l :
  filter p (flat_map f l) = flat_map (fun x => filter p (f x)) l.
Proof. induction l as [|x l IH]; [reflexivity|]. simpl. rewrite filter_app, IH. reflexivity. Qed.

Lemma filter_rev' {B} (p : B -> bool) l : filter p (rev l) = rev (filter p l).
Proof.
  induction l as [|x l IH]; [reflexivity|]. simpl. rewrite filter_app, IH. simpl.
  destruct (p x); [reflexivity|]. rewrite app_nil_r. reflexivity.
Qed.

Lemma blocks_filter lower n items k :
  (forall x, In x items -> (lower <= key x < lower + Z.of_nat n)%Z) ->
  filter (fun x => Z.eqb (key x) k) (sorted_blocks lower n items)
  = rev (filter (fun x => Z.eqb (key x) k) items).
Proof.
  intros R. unfold sorted_blocks. rewrite filter_flat_map.
  assert (B : forall j, filter (fun x => Z.eqb (key x) k) (rev (block lower items j)) =
            if Z.eqb (lower + Z.of_nat j) k then rev (filter (fun x => Z.eqb (key x) k) items) else []).
  { intros j. rewrite filter_rev'. unfold block. rewrite filter_filter.
    destruct (Z.eqb_spec (lower + Z.of_nat j) k) as [E|N].
    - f_equal. apply filter_ext. intros x. rewrite E. apply andb_diag.
    - rewrite filter_none; [reflexivity|]. intros x _.
      destruct (Z.eqb_spec (key x) k), (Z.eqb_spec (key x) (lower + Z.of_nat j)); try reflexivity. lia. }
  erewrite flat_map_ext by (intros; apply B).
  assert (C : forall n s, flat_map (fun j => if Z.eqb (lower + Z.of_nat j) k
                  then rev (filter (fun x => Z.eqb (key x) k) items) else []) (seq s n)
     = if (Z.leb (lower + Z.of_nat s) k && Z.ltb k (lower + Z.of_nat s + Z.of_nat n))%bool
       then rev (filter (fun x => Z.eqb (key x) k) items) else []).
  { induction n0 as [|m IH]; intros s.
    - cbn [seq flat_map]. destruct (Z.leb_spec (lower + Z.of_nat s) k), (Z.ltb_spec k (lower + Z.of_nat s + Z.of_nat 0));
        try reflexivity; lia.
    - cbn [seq flat_map]. rewrite IH.
      destruct (Z.eqb_spec (lower + Z.of_nat s) k), (Z.leb_spec (lower + Z.of_nat (S s)) k),
       (Z.leb_spec (lower + Z.of_nat s) k), (Z.ltb_spec k (lower + Z.of_nat (S s) + Z.of_nat m)),
       (Z.ltb_spec k (lower + Z.of_nat s + Z.of_nat (S m))); cbn [andb app]; rewrite ?app_nil_r; try reflexivity; lia. }
  rewrite C.
  destruct (Z.leb_spec (lower + Z.of_nat 0) k), (Z.ltb_spec k (lower + Z.of_nat 0 + Z.of_nat n)); cbn [andb]; try reflexivity.
  all: rewrite filter_none; [reflexivity|]; intros x Hx; specialize (R x Hx); apply Z.eqb_neq; lia.
Qed.

Lemma StronglySorted_app {B} (P : B -> B -> Prop) l1 l2 :
  StronglySorted P l1 -> StronglySorted P l2 -> (forall a b, In a l1 -> In b l2 -> P a b) ->
  StronglySorted P (l1 ++ l2).
Proof.
  induction 1 as [|x l1 S1 IH F]; intros S2 H; [exact S2|]. simpl. constructor.
  - apply IH; [assumption|]. intros; apply H; [right|]; assumption.
  - apply Forall_app. split; [assumption|]. apply Forall_forall. intros b Hb. apply H; [left; reflexivity|assumption].
Qed.

Lemma blocks_sorted lower n items :
  StronglySorted (fun x y => (key x <= key y)%Z) (sorted_blocks lower n items).
Proof.
  unfold sorted_blocks.
  assert (G : forall n s, StronglySorted (fun x y => (key x <= key y)%Z)
              (flat_map (fun j => rev (block lower items j)) (seq s n))
     /\ forall x, In x (flat_map (fun j => rev (block lower items j)) (seq s n)) -> (lower + Z.of_nat s <= key x)%Z).
  { induction n0 as [|m IH]; intros s; [split; [constructor|contradiction]|].
    cbn [seq flat_map]. destruct (IH (S s)) as (I1 & I2).
    assert (B : forall x, In x (rev (block lower items s)) -> key x = (lower + Z.of_nat s)%Z).
    { intros x Hx. apply in_rev in Hx. apply filter_In in Hx. destruct Hx as [_ Hx]. apply Z.eqb_eq; assumption. }
    split.
    - apply StronglySorted_app; [|exact I1|].
      + revert B. generalize (rev (block lower items s)) as l. intros l.
        induction l as [|x l IHl]; intros B; constructor.
        * apply IHl. intros; apply B; right; assumption.
        * apply Forall_forall. intros y Hy. rewrite (B x), (B y) by (simpl; auto). lia.
      + intros a b Ha Hb. rewrite (B a Ha). apply I2 in Hb. lia.
    - intros x Hx. apply in_app_or in Hx. destruct Hx as [Hx|Hx]; [rewrite (B x Hx); lia|].
      apply I2 in Hx. lia. }
  apply G.
Qed.

Lemma StronglySorted_rev {B} (P : B -> B -> Prop) l :
  StronglySorted P l -> StronglySorted (fun x y => P y x) (rev l).
Proof.
  induction 1 as [|x l S IH F]; [constructor|]. simpl. apply StronglySorted_app; [assumption| |].
  - repeat constructor.
  - intros a b Ha [<-|[]]. apply in_rev in Ha. rewrite Forall_forall in F. apply F. assumption.
Qed.

Lemma counting_sort_spec pf reverse items :
  items <> [] -> (Z.of_nat (List.length items) < 2 ^ 64)%Z ->
  exists out,
    counting_sort pf key reverse items = Ok (map Some out)
    /\ Permutation out items
    /\ StronglySorted (fun x y => if reverse then (key y <= key x)%Z else (key x <= key y)%Z) out
    /\ forall k, filter (fun x => Z.eqb (key x) k) out
                 = (if reverse then (fun l => l) else @rev A) (filter (fun x => Z.eqb (key x) k) items).
Proof.
  intros NE LT. destruct (sort_blocks pf reverse items NE LT) as (lower & n & E & R).
  rewrite E. eexists. split; [reflexivity|]. 
  pose proof (sorted_blocks_perm lower n items R) as P.
  pose proof (blocks_sorted lower n items) as S.
  destruct reverse; (split; [|split]).
  - rewrite <- Permutation_rev. exact P.
  - apply (StronglySorted_rev _ _ S).
  - intros k. rewrite filter_rev', blocks_filter by assumption. apply rev_involutive.
  - exact P.
  - exact S.
  - intros k. apply blocks_filter. assumption.
Qed.
End Sort.
