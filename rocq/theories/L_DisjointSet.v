(** * Proofs about IncrementalIdRegister and DisjointSet *)
From Coq Require Import Lia Relations.
From Verif Require Import PyBase L_Base S_Partition L_Partition M_UnionFind S_UnionFind L_UnionFind L_UnionFind2.

(** ** the register *)

Record reg_ok (r : register) : Prop := {
  ro_counter : counter r = List.length (index r);
  ro_ids : map snd (index r) = seq 0 (List.length (index r));
  ro_keys : NoDup (dkeys (index r))
}.

Lemma reg_ok_new : reg_ok new_register.
Proof. constructor; simpl; [reflexivity|reflexivity|constructor]. Qed.

Definition idof (r : register) (x : key) : nat :=
  match dget x (index r) with Some i => i | None => 0 end.
Definition registered (r : register) (x : key) : Prop := In x (dkeys (index r)).

Lemma getitem_spec r x : reg_ok r ->
  exists r' i, getitem r x = (r', i) /\ reg_ok r'
    /\ dget x (index r') = Some i
    /\ (forall y j, dget y (index r) = Some j -> dget y (index r') = Some j)
    /\ dkeys (index r') = (if dmem x (index r) then dkeys (index r) else dkeys (index r) ++ [x]).
Proof.
  intros R. unfold getitem. rewrite dmem_dget.
  destruct (dget x (index r)) as [i|] eqn:E.
  - exists r, i. auto.
  - assert (NI : ~ In x (dkeys (index r))) by (apply dget_None; assumption).
    eexists _, _. split; [reflexivity|]. simpl. rewrite dset_notin by assumption.
    split; [|split; [|split]].
    + constructor; simpl.
      * rewrite app_length. simpl. rewrite (ro_counter _ R). lia.
      * rewrite map_app, app_length, (ro_ids _ R), (ro_counter _ R). simpl.
        rewrite Nat.add_1_r, seq_S. reflexivity.
      * unfold dkeys. rewrite map_app. simpl. apply NoDup_snoc; [apply R|assumption].
    + rewrite dget_app, E. simpl. rewrite key_eqb_refl. reflexivity.
    + intros y j H. rewrite dget_app, H. reflexivity.
    + unfold dkeys. rewrite map_app. reflexivity.
Qed.

Lemma reg_id_lt r x i : reg_ok r -> dget x (index r) = Some i -> i < List.length (index r).
Proof.
  intros R H. apply dget_Some_In in H. apply (in_map snd) in H. simpl in H.
  rewrite (ro_ids _ R) in H. apply in_seq in H. lia.
Qed.

Lemma reg_id_inj r x y i : reg_ok r ->
  dget x (index r) = Some i -> dget y (index r) = Some i -> x = y.
Proof.
  intros R Hx Hy. apply dget_Some_In in Hx, Hy.
  assert (N : NoDup (map snd (index r))) by (rewrite (ro_ids _ R); apply seq_NoDup).
  revert Hx Hy N. generalize (index r) as d. clear.
  induction d as [|[k v] d IH]; simpl; [tauto|].
  intros [E|Hx] [E'|Hy] N; inversion N; subst.
  - congruence.
  - inversion E; subst. exfalso. apply H1. apply (in_map snd) in Hy. exact Hy.
  - inversion E'; subst. exfalso. apply H1. apply (in_map snd) in Hx. exact Hx.
  - auto.
Qed.

Lemma idof_registered r x : registered r x -> dget x (index r) = Some (idof r x).
Proof. intros H. unfold idof. apply dkeys_dget in H as (v & ->). reflexivity. Qed.

(** ids in first-seen order *)
Lemma nodup_snoc (l : list key) x :
  List.length (nodup key_eq_dec (l ++ [x])) =
  List.length (nodup key_eq_dec l) + (if mem x l then 0 else 1).
Proof.
  assert (P : forall l', List.length (nodup key_eq_dec l') = List.length (nodup key_eq_dec l') + 0) by lia.
  destruct (mem_spec x l) as [I|I].
  - rewrite Nat.add_0_r. apply Nat.le_antisymm; apply NoDup_incl_length; try apply NoDup_nodup;
      intros y Hy; rewrite nodup_In in *; rewrite ?in_app_iff in *; simpl in *; intuition congruence.
  - replace (List.length (nodup key_eq_dec l) + 1) with (List.length (x :: nodup key_eq_dec l)) by (simpl; lia).
    apply Nat.le_antisymm; apply NoDup_incl_length; try apply NoDup_nodup.
    + intros y Hy. rewrite nodup_In, in_app_iff in Hy. simpl in Hy. simpl. rewrite nodup_In. intuition.
    + constructor; [rewrite nodup_In; assumption|apply NoDup_nodup].
    + intros y [<-|Hy]; rewrite nodup_In, in_app_iff; simpl; [auto|rewrite nodup_In in Hy; auto].
Qed.

Lemma before_app_in k l l' : In k l -> before k (l ++ l') = before k l.
Proof.
  induction l as [|x l IH]; simpl; [tauto|]. intros H.
  keq k x; [reflexivity|]. f_equal. apply IH. intuition congruence.
Qed.
Lemma before_notin k l : ~ In k l -> before k l = l.
Proof.
  induction l as [|x l IH]; simpl; [reflexivity|]. intros H.
  keq k x; [tauto|]. f_equal. apply IH. tauto.
Qed.
Lemma before_snoc k l : ~ In k l -> before k (l ++ [k]) = l.
Proof.
  induction l as [|x l IH]; simpl; intros H.
  - rewrite key_eqb_refl. reflexivity.
  - keq k x; [tauto|]. f_equal. apply IH. tauto.
Qed.

Lemma register_ids l : forall done r,
  reg_ok r -> (forall k, In k (dkeys (index r)) <-> In k done) ->
  List.length (index r) = distinct done ->
  (forall k i, dget k (index r) = Some i -> i = distinct (before k done)) ->
  snd (run rstep (map RGet l) r) = map (fun k => Ok (ONat (distinct (before k (done ++ l))))) l.
Proof.
  induction l as [|x l IH]; intros done r R Ks Ln Ids; [reflexivity|].
  simpl map. cbn [run rstep].
  destruct (getitem_spec r x R) as (r' & i & E & R' & Hx & Hst & Hk). rewrite E.
  assert (IHr : snd (run rstep (map RGet l) r') = map (fun k => Ok (ONat (distinct (before k ((done ++ [x]) ++ l))))) l).
  { assert (Hin : dmem x (index r) = mem x done).
    { unfold dmem. destruct (mem_spec x (dkeys (index r))) as [A|A], (mem_spec x done) as [B|B]; auto;
      exfalso; [apply B, Ks|apply A, Ks]; assumption. }
    rewrite Hin in Hk.
    assert (LnK : List.length (index r) = List.length (dkeys (index r))) by (unfold dkeys; rewrite map_length; reflexivity).
    assert (LnK' : List.length (index r') = List.length (dkeys (index r'))) by (unfold dkeys; rewrite map_length; reflexivity).
    apply IH; try assumption.
    - intros k. rewrite Hk, in_app_iff. simpl. rewrite <- Ks. 
      destruct (mem_spec x done) as [A|A].
      + split; [tauto|]. intros [H|[<-|[]]]; [assumption|apply Ks; assumption].
      + rewrite in_app_iff. simpl. reflexivity.
    - unfold distinct. rewrite nodup_snoc. rewrite LnK', Hk. fold (distinct done). rewrite <- Ln.
      destruct (mem x done); rewrite ?app_length; simpl; lia.
    - intros k j Hj. destruct (dget k (index r)) as [j'|] eqn:Ek.
      + rewrite (Hst _ _ Ek) in Hj. inversion Hj; subst.
        rewrite before_app_in by (apply Ks; eapply dget_Some_key; eassumption). apply Ids; assumption.
      + apply dget_None in Ek.
        assert (k = x).
        { apply dget_Some_key in Hj. rewrite Hk in Hj. destruct (mem x done); [contradiction|].
          apply in_app_iff in Hj as [Hj|[->|[]]]; [contradiction|reflexivity]. }
        subst k. rewrite before_snoc by (rewrite <- Ks; assumption).
        assert (Em : mem x done = false) by (apply mem_nIn; rewrite <- Ks; assumption).
        unfold getitem in E. destruct (dget x (index r)) eqn:Eg.
        { apply dget_Some_key in Eg. contradiction. }
        inversion E; subst. simpl in Hj. rewrite dget_dset, key_eqb_refl in Hj. inversion Hj.
        rewrite (ro_counter _ R). assumption. }
  destruct (run rstep (map RGet l) r') as (r2, rs) eqn:Er. simpl snd in *.
  cbn [map]. rewrite IHr. f_equal.
  - f_equal. f_equal. destruct (dget x (index r)) as [i'|] eqn:Ex.
    + assert (i = i') by (rewrite (Hst _ _ Ex) in Hx; congruence). subst i'.
      rewrite before_app_in by (apply Ks; eapply dget_Some_key; eassumption). apply Ids; assumption.
    + unfold getitem in E. rewrite Ex in E. inversion E; subst.
      apply dget_None in Ex.
      replace (done ++ x :: l) with ((done ++ [x]) ++ l) by (rewrite <- app_assoc; reflexivity).
      rewrite before_app_in by (apply in_app_iff; right; left; reflexivity).
      rewrite before_snoc by (rewrite <- Ks; assumption).
      rewrite (ro_counter _ R). assumption.
  - apply map_ext. intros k. rewrite <- app_assoc. reflexivity.
Qed.

Lemma register_first_seen l :
  snd (run rstep (map RGet l) new_register) = map (fun k => Ok (ONat (distinct (before k l)))) l.
Proof.
  apply (register_ids l [] new_register); simpl; try tauto.
  - apply reg_ok_new.
  - discriminate.
Qed.

Lemma distinct_lt (l1 l2 : list key) k : In k l2 -> ~ In k l1 -> incl l1 l2 -> distinct l1 < distinct l2.
Proof.
  intros I N Hi. unfold distinct. change (S (List.length (nodup key_eq_dec l1)) <= List.length (nodup key_eq_dec l2)).
  change (S (List.length (nodup key_eq_dec l1))) with (List.length (k :: nodup key_eq_dec l1)).
  apply NoDup_incl_length.
  - constructor; [rewrite nodup_In; assumption|apply NoDup_nodup].
  - intros x [<-|Hx]; rewrite nodup_In in *; auto.
Qed.

Lemma distinct_before_inj l k k' :
  In k l -> In k' l -> distinct (before k l) = distinct (before k' l) -> k = k'.
Proof.
  intros I I' E. destruct (key_eq_dec k k') as [|N]; [assumption|exfalso].
  assert (G : forall l k k', k <> k' -> In k l -> In k' l ->
     (In k (before k' l) /\ ~ In k (before k l) /\ incl (before k l) (before k' l)) \/
     (In k' (before k l) /\ ~ In k' (before k' l) /\ incl (before k' l) (before k l))).
  { clear. induction l as [|x l IH]; intros k k' N I I'; simpl in *; [tauto|].
    keq k x; keq k' x; try congruence.
    - left. simpl. repeat split; auto. intros y [].
    - right. simpl. repeat split; auto. intros y [].
    - destruct (IH k k' N) as [(A & B & C)|(A & B & C)]; try (intuition congruence).
      + left. repeat split.
        * right; assumption.
        * intros [H|H]; [congruence|contradiction].
        * intros y [<-|H]; [left; reflexivity|right; auto].
      + right. repeat split.
        * right; assumption.
        * intros [H|H]; [congruence|contradiction].
        * intros y [<-|H]; [left; reflexivity|right; auto]. }
  destruct (G l k k' N I I') as [(A & B & C)|(A & B & C)];
    pose proof (distinct_lt _ _ _ A B C); lia.
Qed.

(** ** DisjointSet *)

Definition id_pairs (r : register) (DP : list (key * key)) : list (nat * nat) :=
  map (fun e => (idof r (fst e), idof r (snd e))) DP.

Record DInv (s : dset_state) (DP : list (key * key)) (k : nat) : Prop := {
  di_inv : Inv (ds_uf s) (id_pairs (ds_reg s) DP) k;
  di_reg : reg_ok (ds_reg s);
  di_keys : forall x y, In (x, y) DP -> registered (ds_reg s) x /\ registered (ds_reg s) y
}.

(** the relation on keys and on ids agree *)
Lemma id_closure r DP x y :
  reg_ok r -> (forall x y, In (x, y) DP -> registered r x /\ registered r y) ->
  registered r x -> registered r y ->
  (closure (id_pairs r DP) (idof r x) (idof r y) <-> closure DP x y).
Proof.
  intros R Hk Rx Ry. split.
  - intros C.
    assert (G : forall i j, closure (id_pairs r DP) i j ->
              forall x y, registered r x -> registered r y -> idof r x = i -> idof r y = j -> closure DP x y).
    { intros i j Cij.
      assert (H : i = j \/ exists x y, registered r x /\ registered r y /\ idof r x = i /\ idof r y = j /\ closure DP x y).
      { revert i j Cij. apply closure_least.
        - left; reflexivity.
        - intros i j [->|(a & b & Ra & Rb & Ea & Eb & Cab)]; [left; reflexivity|right].
          exists b, a. repeat split; try assumption. apply closure_sym; assumption.
        - intros i j k [->|(a & b & Ra & Rb & Ea & Eb & Cab)] [->|(a' & b' & Ra' & Rb' & Ea' & Eb' & Cab')].
          + left; reflexivity.
          + right. exists a', b'. repeat split; assumption.
          + right. exists a, b. repeat split; assumption.
          + right. exists a, b'. repeat split; try assumption.
            assert (b = a').
            { eapply reg_id_inj; [exact R| |]; rewrite idof_registered by assumption; [rewrite Eb; reflexivity|congruence]. }
            subst. eapply closure_trans; eassumption.
        - intros i j I. unfold id_pairs in I. apply in_map_iff in I as ([a b] & E & I). simpl in E.
          inversion E; subst. destruct (Hk a b I). right. exists a, b. repeat split; try assumption.
          apply closure_In; assumption. }
      intros u v Ru Rv Eu Ev. destruct H as [->|(a & b & Ra & Rb & Ea & Eb & Cab)].
      - assert (u = v) by (eapply reg_id_inj; [exact R| |]; rewrite idof_registered by assumption; [rewrite Eu; reflexivity|congruence]).
        subst. apply closure_refl.
      - assert (u = a) by (eapply reg_id_inj; [exact R| |]; rewrite idof_registered by assumption; [rewrite Eu; reflexivity|congruence]).
        assert (v = b) by (eapply reg_id_inj; [exact R| |]; rewrite idof_registered by assumption; [rewrite Ev; reflexivity|congruence]).
        subst. assumption. }
    eapply G; eauto.
  - apply closure_map.
Qed.

Lemma id_pairs_stable r r' DP :
  (forall y j, dget y (index r) = Some j -> dget y (index r') = Some j) ->
  (forall x y, In (x, y) DP -> registered r x /\ registered r y) ->
  id_pairs r' DP = id_pairs r DP.
Proof.
  intros St Hk. unfold id_pairs. apply map_ext_in. intros [a b] I. simpl.
  destruct (Hk a b I) as (Ra & Rb). unfold idof.
  rewrite (idof_registered r a Ra), (idof_registered r b Rb).
  rewrite (St _ _ (idof_registered r a Ra)), (St _ _ (idof_registered r b Rb)). reflexivity.
Qed.

(** looking a key up keeps the invariant *)
Lemma ds_id_spec s DP k x : DInv s DP k ->
  exists s' i, ds_id x s = (s', Ok i) /\ DInv s' DP k /\ ds_uf s' = ds_uf s
    /\ dget x (index (ds_reg s')) = Some i
    /\ (forall y j, dget y (index (ds_reg s)) = Some j -> dget y (index (ds_reg s')) = Some j)
    /\ dkeys (index (ds_reg s')) =
         (if dmem x (index (ds_reg s)) then dkeys (index (ds_reg s)) else dkeys (index (ds_reg s)) ++ [x]).
Proof.
  intros D. destruct (getitem_spec (ds_reg s) x (di_reg _ _ _ D)) as (r' & i & E & R' & Hx & Hst & Hk).
  exists (mkDS (ds_uf s) r'), i. unfold ds_id. rewrite E.
  split; [reflexivity|]. split; [|simpl; auto].
  constructor; simpl.
  - rewrite (id_pairs_stable (ds_reg s) r' DP Hst (di_keys _ _ _ D)). apply D.
  - assumption.
  - intros a b I. destruct (di_keys _ _ _ D a b I) as (A & B). split.
    + apply idof_registered in A. eapply dget_Some_key, Hst, A.
    + apply idof_registered in B. eapply dget_Some_key, Hst, B.
Qed.

Lemma DInv_init pf cap s : make_ds pf cap = Ok s -> DInv s [] 0 /\ ds_capacity s = cap.
Proof.
  unfold make_ds. rewrite bind_Ok. intros (u & M & E). inversion E; subst; clear E.
  destruct (Inv_init _ _ _ M) as (I & C). split; [|exact C].
  constructor; simpl; [exact I|apply reg_ok_new|tauto].
Qed.

Lemma dkeys_len {A} (d : dict A) : List.length (dkeys d) = List.length d.
Proof. apply map_length. Qed.

(** union of two keys whose registration fits *)
Lemma ds_union_spec s DP k x y :
  DInv s DP k ->
  exists s1 s2 i j,
    ds_id x s = (s1, Ok i) /\ ds_id y s1 = (s2, Ok j) /\ DInv s2 DP k /\ ds_uf s2 = ds_uf s
    /\ dget x (index (ds_reg s2)) = Some i /\ dget y (index (ds_reg s2)) = Some j
    /\ (List.length (index (ds_reg s2)) <= ds_capacity s ->
        (closure DP x y /\ ds_union x y s = (s2, Ok false)) \/
        (~ closure DP x y /\ exists s', ds_union x y s = (s', Ok true) /\ ds_reg s' = ds_reg s2
            /\ DInv s' ((x, y) :: DP) k /\ ds_capacity s' = ds_capacity s
            /\ item_limit (ds_uf s') = item_limit (ds_uf s)) \/
        (~ closure DP x y /\ Z.of_nat (ds_capacity s) = (item_limit (ds_uf s) + 1)%Z
            /\ List.length (roots (parents (ds_uf s))) = 2
            /\ exists s', ds_union x y s = (s', Err OverflowError)
            /\ ds_reg s' = ds_reg s2 /\ DInv s' DP (S k) /\ ds_capacity s' = ds_capacity s
            /\ item_limit (ds_uf s') = item_limit (ds_uf s))).
Proof.
  intros D.
  destruct (ds_id_spec s DP k x D) as (s1 & i & E1 & D1 & U1 & Hx & St1 & K1).
  destruct (ds_id_spec s1 DP k y D1) as (s2 & j & E2 & D2 & U2 & Hy & St2 & K2).
  exists s1, s2, i, j. split; [assumption|]. split; [assumption|]. split; [assumption|].
  split; [congruence|]. split; [apply St2; assumption|]. split; [assumption|].
  intros Room.
  pose proof (di_reg _ _ _ D2) as R2. pose proof (di_inv _ _ _ D2) as I2.
  assert (Hx2 : dget x (index (ds_reg s2)) = Some i) by (apply St2; assumption).
  assert (Rx : registered (ds_reg s2) x) by (eapply dget_Some_key; eassumption).
  assert (Ry : registered (ds_reg s2) y) by (eapply dget_Some_key; eassumption).
  assert (Ii : idof (ds_reg s2) x = i) by (unfold idof; rewrite Hx2; reflexivity).
  assert (Ij : idof (ds_reg s2) y = j) by (unfold idof; rewrite Hy; reflexivity).
  assert (Cap : capacity (ds_uf s2) = ds_capacity s) by (unfold ds_capacity; congruence).
  assert (Li : i < capacity (ds_uf s2)) by (rewrite Cap; eapply Nat.lt_le_trans; [eapply reg_id_lt; eassumption|assumption]).
  assert (Lj : j < capacity (ds_uf s2)) by (rewrite Cap; eapply Nat.lt_le_trans; [eapply reg_id_lt; eassumption|assumption]).
  pose proof (id_closure (ds_reg s2) DP x y R2 (di_keys _ _ _ D2) Rx Ry) as IC. rewrite Ii, Ij in IC.
  unfold ds_union, sbind. rewrite E1, E2. unfold ds_lift.
  destruct (union_spec (ds_uf s2) _ _ i j I2 Li Lj)
    as [(C & U)|[(C & u' & U & I' & C' & L' & Rr)|(C & Ec & Rr & U)]]; rewrite U.
  - left. split; [apply IC; assumption|]. destruct s2; reflexivity.
  - right; left. split; [rewrite <- IC; assumption|].
    eexists. split; [reflexivity|]. split; [reflexivity|]. simpl. split; [|split; [|congruence]].
    + constructor; simpl; [rewrite Ii, Ij; exact I'|assumption|].
      intros a b [E|I]; [inversion E; subst; auto|apply (di_keys _ _ _ D2); assumption].
    + unfold ds_capacity in *. simpl. congruence.
  - right; right. split; [rewrite <- IC; assumption|]. split; [rewrite <- Cap; congruence|].
    split; [congruence|]. eexists. split; [reflexivity|]. split; [reflexivity|]. simpl. split; [|split; [|congruence]].
    + constructor; simpl; [|assumption|apply D2].
      apply Inv_count_irrelevant; [assumption|]. pose proof (inv_count _ _ _ I2). lia.
    + unfold ds_capacity in *. simpl. congruence.
Qed.

Lemma ds_find_spec s DP k x :
  DInv s DP k ->
  exists s1 i, ds_id x s = (s1, Ok i) /\ DInv s1 DP k /\ ds_uf s1 = ds_uf s
    /\ dget x (index (ds_reg s1)) = Some i
    /\ ds_find x s = (s1, if i <? ds_capacity s then Ok (rt (parents (ds_uf s)) i) else Err IndexError).
Proof.
  intros D. destruct (ds_id_spec s DP k x D) as (s1 & i & E1 & D1 & U1 & Hx & St1 & K1).
  exists s1, i. split; [assumption|]. split; [assumption|]. split; [assumption|]. split; [assumption|].
  unfold ds_find, sbind. rewrite E1. unfold sread. f_equal.
  pose proof (di_inv _ _ _ D1) as I1.
  destruct (Nat.ltb_spec i (ds_capacity s)) as [L|L].
  - rewrite (find_ok _ _ _ i I1); [rewrite U1; reflexivity|]. rewrite U1. assumption.
  - rewrite (find_out _ _ _ i I1); [reflexivity|]. rewrite U1. assumption.
Qed.

Lemma ds_same_spec s DP k x y :
  DInv s DP k ->
  exists s1 s2 i j,
    ds_id x s = (s1, Ok i) /\ ds_id y s1 = (s2, Ok j) /\ DInv s2 DP k /\ ds_uf s2 = ds_uf s
    /\ dget x (index (ds_reg s2)) = Some i /\ dget y (index (ds_reg s2)) = Some j
    /\ (List.length (index (ds_reg s2)) <= ds_capacity s ->
        exists b, ds_same x y s = (s2, Ok b) /\ (b = true <-> closure DP x y)).
Proof.
  intros D.
  destruct (ds_find_spec s DP k x D) as (s1 & i & E1 & D1 & U1 & Hx & F1).
  destruct (ds_find_spec s1 DP k y D1) as (s2 & j & E2 & D2 & U2 & Hy & F2).
  destruct (ds_id_spec s1 DP k y D1) as (s2' & j' & E2' & _ & _ & _ & St2 & _).
  rewrite E2 in E2'. inversion E2'; subst s2' j'; clear E2'.
  exists s1, s2, i, j. split; [assumption|]. split; [assumption|]. split; [assumption|].
  split; [congruence|]. split; [apply St2; assumption|]. split; [assumption|].
  intros Room.
  pose proof (di_reg _ _ _ D2) as R2. pose proof (di_inv _ _ _ D2) as I2.
  assert (Hx2 : dget x (index (ds_reg s2)) = Some i) by (apply St2; assumption).
  assert (Rx : registered (ds_reg s2) x) by (eapply dget_Some_key; eassumption).
  assert (Ry : registered (ds_reg s2) y) by (eapply dget_Some_key; eassumption).
  assert (Ii : idof (ds_reg s2) x = i) by (unfold idof; rewrite Hx2; reflexivity).
  assert (Ij : idof (ds_reg s2) y = j) by (unfold idof; rewrite Hy; reflexivity).
  assert (Li : i < ds_capacity s) by (eapply Nat.lt_le_trans; [eapply reg_id_lt; eassumption|assumption]).
  assert (Lj : j < ds_capacity s) by (eapply Nat.lt_le_trans; [eapply reg_id_lt; eassumption|assumption]).
  pose proof (id_closure (ds_reg s2) DP x y R2 (di_keys _ _ _ D2) Rx Ry) as IC. rewrite Ii, Ij in IC.
  unfold ds_same, sbind. rewrite F1. apply Nat.ltb_lt in Li as Li'. rewrite Li'.
  rewrite F2. unfold ds_capacity in *. rewrite U1. apply Nat.ltb_lt in Lj as Lj'. rewrite Lj'.
  unfold sret. eexists. split; [reflexivity|]. rewrite Nat.eqb_eq, <- IC.
  assert (Ecap : capacity (ds_uf s2) = capacity (ds_uf s)) by congruence.
  rewrite <- (inv_rel _ _ _ I2) by congruence.
  replace (ds_uf s2) with (ds_uf s) by congruence. reflexivity.
Qed.

Lemma ds_card_spec s DP k x :
  DInv s DP k ->
  exists s1 i, ds_id x s = (s1, Ok i) /\ DInv s1 DP k /\ ds_uf s1 = ds_uf s
    /\ dget x (index (ds_reg s1)) = Some i
    /\ (List.length (index (ds_reg s1)) <= ds_capacity s ->
        exists n, ds_cardinality x s = (s1, Ok n) /\ has_size (fun y => closure DP x y) n).
Proof.
  intros D. destruct (ds_id_spec s DP k x D) as (s1 & i & E1 & D1 & U1 & Hx & St1 & K1).
  exists s1, i. split; [assumption|]. split; [assumption|]. split; [assumption|]. split; [assumption|].
  intros Room. pose proof (di_reg _ _ _ D1) as R1. pose proof (di_inv _ _ _ D1) as I1.
  assert (Rx : registered (ds_reg s1) x) by (eapply dget_Some_key; eassumption).
  assert (Ii : idof (ds_reg s1) x = i) by (unfold idof; rewrite Hx; reflexivity).
  assert (Li : i < capacity (ds_uf s1)).
  { rewrite U1. eapply Nat.lt_le_trans; [eapply reg_id_lt; eassumption|assumption]. }
  destruct (cardinality_spec _ _ _ i I1 Li) as (n & Hn & (l & (N & Hl) & Ln)).
  exists n. unfold ds_cardinality, sbind. rewrite E1. unfold sread. rewrite Hn. split; [reflexivity|].
  (* transport the class of ids to keys *)
  set (r := ds_reg s1) in *.
  exists (filter (fun y => existsb (Nat.eqb (idof r y)) l) (dkeys (index r))).
  assert (En : enumerates (filter (fun y => existsb (Nat.eqb (idof r y)) l) (dkeys (index r))) (fun y => closure DP x y)).
  { split; [apply NoDup_filter; apply R1|].
    intros y. rewrite filter_In, existsb_exists. split.
    - intros (Ry & (j & Ij & E)). apply Nat.eqb_eq in E. subst j. apply Hl in Ij as (_ & C).
      rewrite <- Ii in C. apply (id_closure r DP x y R1 (di_keys _ _ _ D1)) in C; assumption.
    - intros C. assert (Ry : registered r y).
      { destruct (in_dec key_eq_dec y (dkeys (index r))) as [H|H]; [assumption|].
        assert (y = x).
        { apply (closure_isolated DP); [|apply closure_sym; assumption].
          intros a b I. destruct (di_keys _ _ _ D1 a b I) as (A & B). split; intros ->; contradiction. }
        subst. assumption. }
      split; [assumption|]. exists (idof r y). split; [|apply Nat.eqb_refl].
      apply Hl. split.
      + rewrite U1. eapply Nat.lt_le_trans; [eapply reg_id_lt; [exact R1|apply idof_registered; exact Ry]|assumption].
      + rewrite <- Ii. apply id_closure; try assumption. apply D1. }
  split; [assumption|].
  (* lengths: the id map is a bijection between the two lists *)
  rewrite <- Ln.
  transitivity (List.length (map (idof r) (filter (fun y => existsb (Nat.eqb (idof r y)) l) (dkeys (index r))))).
  { rewrite map_length. reflexivity. }
  apply Nat.le_antisymm; apply NoDup_incl_length.
  - apply NoDup_map_inj; [|apply En]. intros a b Ha Hb E.
    apply filter_In in Ha as (Ha & _), Hb as (Hb & _).
    eapply reg_id_inj; [exact R1| |]; rewrite idof_registered by assumption; [reflexivity|congruence].
  - intros j Hj. apply in_map_iff in Hj as (y & <- & Hy). apply filter_In in Hy as (_ & Hy).
    apply existsb_exists in Hy as (j & Ij & E). apply Nat.eqb_eq in E. congruence.
  - assumption.
  - intros j Hj. destruct (Hl j) as (H1 & _). destruct (H1 Hj) as (Lj & C).
    assert (Ex : exists y, registered r y /\ idof r y = j).
    { destruct (Nat.eq_dec j i) as [->|Nj]; [exists x; auto|].
      (* j occurs in some pair, so is the id of a registered key *)
      destruct (in_dec Nat.eq_dec j (map snd (index r))) as [H|H].
      - apply in_map_iff in H as ([y j'] & E & Iy). simpl in E; subst j'.
        exists y. split; [unfold registered; apply In_dkeys; eauto|].
        unfold idof. rewrite (dget_In y j); [reflexivity|apply R1|assumption].
      - exfalso. apply Nj. apply (closure_isolated (id_pairs r DP)); [|apply closure_sym; exact C].
        intros a b I. unfold id_pairs in I. apply in_map_iff in I as ([u v] & E & I). simpl in E.
        inversion E; subst. destruct (di_keys _ _ _ D1 u v I) as (Ru & Rv).
        apply idof_registered in Ru, Rv. apply dget_Some_In in Ru, Rv.
        apply (in_map snd) in Ru, Rv. simpl in Ru, Rv. fold r in Ru, Rv.
        split; intros Ej; rewrite Ej in *; contradiction. }
    destruct Ex as (y & Ry & <-). apply in_map. apply filter_In. split; [assumption|].
    apply existsb_exists. exists (idof r y). split; [assumption|apply Nat.eqb_refl].
Qed.

(** ** DisjointSet histories *)

Lemma ds_clear_spec s DP k : DInv s DP k ->
  exists s', ds_clear s = (s', Ok tt) /\ DInv s' [] 0 /\ ds_capacity s' = ds_capacity s
    /\ item_limit (ds_uf s') = item_limit (ds_uf s) /\ ds_reg s' = new_register
    /\ s' = mkDS (mkUF (Z.of_nat (ds_capacity s)) (ds_capacity s) (item_limit (ds_uf s))
               (seq 0 (ds_capacity s)) (repeat 0 (ds_capacity s)) (repeat 1 (ds_capacity s))) new_register.
Proof.
  intros D. pose proof (di_inv _ _ _ D) as I.
  unfold ds_clear, sbind, ds_lift. rewrite (clear_spec _ _ _ I). eexists. split; [reflexivity|].
  simpl. split; [|auto].
  constructor; simpl; [|apply reg_ok_new|tauto].
  apply Inv_fresh; apply I.
Qed.

Lemma ds_find_state s x : fst (ds_find x s) = fst (ds_id x s).
Proof.
  unfold ds_find, sbind, ds_id, sread. destruct (getitem (ds_reg s) x). reflexivity.
Qed.

Definition doverflows_from : nat -> list (dop * res out) -> nat :=
  fix go n tr :=
  match tr with
  | [] => n
  | (DUnion _ _, Err OverflowError) :: tr' => go (S n) tr'
  | (DClear, Ok _) :: tr' => go 0 tr'
  | _ :: tr' => go n tr'
  end.

(** keys registered are exactly the ones mentioned, as long as they fit *)
Lemma incl_distinct l1 l2 : incl l1 l2 -> distinct l1 <= distinct l2.
Proof.
  intros H. unfold distinct. apply NoDup_incl_length; [apply NoDup_nodup|].
  intros x I. rewrite nodup_In in *. auto.
Qed.

Lemma reg_size r l : reg_ok r -> incl (dkeys (index r)) l -> List.length (index r) <= distinct l.
Proof.
  intros R H. rewrite <- dkeys_len. unfold distinct. apply NoDup_incl_length; [apply R|].
  intros x I. rewrite nodup_In. auto.
Qed.

Lemma ds_id_keys x s s1 i l :
  ds_id x s = (s1, Ok i) -> incl (dkeys (index (ds_reg s))) l ->
  incl (dkeys (index (ds_reg s1))) (l ++ [x]).
Proof.
  unfold ds_id, getitem. intros E H.
  destruct (dget x (index (ds_reg s))); inversion E; subst; simpl; intros y I; apply in_app_iff.
  - left; auto.
  - apply In_dkeys_dset in I as [->|I]; [right; left; reflexivity|left; auto].
Qed.

Lemma DInv_add_related s DP k x y :
  DInv s DP k -> registered (ds_reg s) x -> registered (ds_reg s) y ->
  List.length (index (ds_reg s)) <= ds_capacity s ->
  closure DP x y -> DInv s ((x, y) :: DP) k.
Proof.
  intros D Rx Ry Room C. constructor; simpl.
  - apply Inv_add_related; [apply D| | |].
    + eapply Nat.lt_le_trans; [eapply reg_id_lt; [apply D|apply idof_registered; exact Rx]|exact Room].
    + eapply Nat.lt_le_trans; [eapply reg_id_lt; [apply D|apply idof_registered; exact Ry]|exact Room].
    + apply id_closure; try assumption; apply D.
  - apply D.
  - intros a b [E|I]; [inversion E; subst; auto|apply (di_keys _ _ _ D); assumption].
Qed.

Lemma dstep_Inv s DP k o s' r l :
  DInv s DP k -> dstep o s = (s', r) ->
  incl (dkeys (index (ds_reg s))) l ->
  distinct (l ++ dop_keys o) <= ds_capacity s ->
  DInv s' (dunited_from DP [(o, r)]) (doverflows_from k [(o, r)])
  /\ ds_capacity s' = ds_capacity s /\ item_limit (ds_uf s') = item_limit (ds_uf s)
  /\ incl (dkeys (index (ds_reg s'))) (match o with DClear => [] | _ => l ++ dop_keys o end)
  /\ (forall e, r = Err e ->
        (e = OverflowError /\ Z.of_nat (ds_capacity s) = (item_limit (ds_uf s) + 1)%Z
           /\ List.length (roots (parents (ds_uf s))) = 2)
        \/ (o = DLen /\ e = ValueError)).
Proof.
  intros D E Hl Room. destruct o as [x y|x|x|x y| |]; cbn [dstep dop_keys] in *;
    unfold smap, sbind in E.
  - destruct (ds_union_spec s DP k x y D) as (s1 & s2 & i & j & E1 & E2 & D2 & U2 & Hx & Hy & H).
    pose proof (ds_id_keys _ _ _ _ _ E1 Hl) as K1. pose proof (ds_id_keys _ _ _ _ _ E2 K1) as K2.
    rewrite <- app_assoc in K2. simpl in K2.
    assert (Rm : List.length (index (ds_reg s2)) <= ds_capacity s).
    { eapply Nat.le_trans; [eapply reg_size; [apply D2|exact K2]|assumption]. }
    assert (Cs : ds_capacity s2 = ds_capacity s) by (unfold ds_capacity; congruence).
    destruct H as [(C & U)|[(C & s3 & U & Er & D3 & C3 & L3)|(C & Ec & Rr & s3 & U & Er & D3 & C3 & L3)]];
      [assumption| | |];
      rewrite U in E; unfold sret in E; inversion E; subst; clear E; cbn.
    + split; [|split; [assumption|split; [congruence|split; [assumption|discriminate]]]].
      apply DInv_add_related; try assumption; try (eapply dget_Some_key; eassumption). lia.
    + split; [assumption|]. split; [assumption|]. split; [assumption|]. split; [rewrite Er; assumption|discriminate].
    + split; [assumption|]. split; [assumption|]. split; [assumption|]. split; [rewrite Er; assumption|].
      intros e Ee. inversion Ee. auto.
  - destruct (ds_find_spec s DP k x D) as (s1 & i & E1 & D1 & U1 & Hx & F1).
    pose proof (ds_id_keys _ _ _ _ _ E1 Hl) as K1. rewrite F1 in E.
    assert (Rm : List.length (index (ds_reg s1)) <= ds_capacity s).
    { eapply Nat.le_trans; [eapply reg_size; [apply D1|exact K1]|assumption]. }
    pose proof (reg_id_lt _ _ _ (di_reg _ _ _ D1) Hx) as Li.
    destruct (Nat.ltb_spec i (ds_capacity s)); [|lia].
    unfold sret in E; inversion E; subst; clear E; cbn. unfold ds_capacity in *. rewrite U1.
    repeat (split; [first [assumption|reflexivity]|]). discriminate.
  - destruct (ds_card_spec s DP k x D) as (s1 & i & E1 & D1 & U1 & Hx & H).
    pose proof (ds_id_keys _ _ _ _ _ E1 Hl) as K1.
    assert (Rm : List.length (index (ds_reg s1)) <= ds_capacity s).
    { eapply Nat.le_trans; [eapply reg_size; [apply D1|exact K1]|assumption]. }
    destruct (H Rm) as (n & F1 & _). rewrite F1 in E.
    unfold sret in E; inversion E; subst; clear E; cbn. unfold ds_capacity in *. rewrite U1.
    repeat (split; [first [assumption|reflexivity]|]). discriminate.
  - destruct (ds_same_spec s DP k x y D) as (s1 & s2 & i & j & E1 & E2 & D2 & U2 & Hx & Hy & H).
    pose proof (ds_id_keys _ _ _ _ _ E1 Hl) as K1. pose proof (ds_id_keys _ _ _ _ _ E2 K1) as K2.
    rewrite <- app_assoc in K2. simpl in K2.
    assert (Rm : List.length (index (ds_reg s2)) <= ds_capacity s).
    { eapply Nat.le_trans; [eapply reg_size; [apply D2|exact K2]|assumption]. }
    destruct (H Rm) as (b & F1 & _). rewrite F1 in E.
    unfold sret in E; inversion E; subst; clear E; cbn. unfold ds_capacity in *. rewrite U2.
    repeat (split; [first [assumption|reflexivity]|]). discriminate.
  - unfold sread, ds_len, len, sret in E.
    assert (Hl' : incl (dkeys (index (ds_reg s))) (l ++ [])) by (rewrite app_nil_r; assumption).
    destruct (count (ds_uf s) <? 0)%Z; inversion E; subst; cbn;
      repeat (split; [first [assumption|reflexivity]|]); intros e Ee; inversion Ee; auto.
  - destruct (ds_clear_spec s DP k D) as (s1 & E1 & D1 & C1 & L1 & R1 & _). rewrite E1 in E.
    unfold sret in E; inversion E; subst; clear E; cbn.
    repeat (split; [first [assumption|reflexivity]|]). split; [|discriminate].
    rewrite R1. simpl. intros z [].
Qed.

Lemma dunited_from_cons P o r tr : dunited_from P ((o, r) :: tr) = dunited_from (dunited_from P [(o, r)]) tr.
Proof. destruct o, r; reflexivity. Qed.
Lemma doverflows_from_cons n o r tr :
  doverflows_from n ((o, r) :: tr) = doverflows_from (doverflows_from n [(o, r)]) tr.
Proof. destruct o, r as [|[]]; reflexivity. Qed.

Lemma run_DInv ops : forall s DP k s' outs l,
  DInv s DP k -> run dstep ops s = (s', outs) ->
  incl (dkeys (index (ds_reg s))) l -> distinct l <= ds_capacity s -> fits_from (ds_capacity s) l ops ->
  DInv s' (dunited_from DP (combine ops outs)) (doverflows_from k (combine ops outs))
  /\ ds_capacity s' = ds_capacity s /\ item_limit (ds_uf s') = item_limit (ds_uf s)
  /\ incl (dkeys (index (ds_reg s'))) (mentioned_from l ops)
  /\ (Z.of_nat (ds_capacity s) <> (item_limit (ds_uf s) + 1)%Z -> k = 0 -> no_overflow (combine ops outs)).
Proof.
  induction ops as [|o ops IH]; intros s DP k s' outs l D E Hl Hd Fit; cbn [run] in E.
  - inversion E; subst; simpl. repeat (split; [first [assumption|reflexivity]|]). intros _ _ o [].
  - destruct (dstep o s) as (s1, r) eqn:E1. destruct (run dstep ops s1) as (s2, rs) eqn:E2.
    inversion E; subst; clear E.
    assert (Ro : distinct (l ++ dop_keys o) <= ds_capacity s).
    { destruct o; cbn [fits_from] in Fit; try apply Fit. simpl. rewrite app_nil_r. assumption. }
    destruct (dstep_Inv _ _ _ _ _ _ _ D E1 Hl Ro) as (D1 & C1 & L1 & K1 & Ov).
    destruct (IH s1 _ _ s' rs (match o with DClear => [] | _ => l ++ dop_keys o end) D1 E2 K1)
      as (D2 & C2 & L2 & K2 & O2).
    { rewrite C1. destruct o; try assumption. unfold distinct. simpl. lia. }
    { rewrite C1. destruct o; cbn [fits_from] in Fit; try apply Fit. }
    cbn [combine]. rewrite dunited_from_cons, doverflows_from_cons.
    split; [assumption|]. split; [congruence|]. split; [congruence|]. split.
    { destruct o; exact K2. }
    intros NT K0 o' [Eo|Ho].
    + inversion Eo; subst. destruct (Ov _ eq_refl) as [(_ & T & _)|(_ & X)]; [contradiction|discriminate].
    + revert Ho. apply O2; [rewrite C1, L1; assumption|].
      subst k. destruct o, r as [v|e]; try reflexivity.
      destruct e; try reflexivity. exfalso.
      destruct (Ov _ eq_refl) as [(_ & T & _)|(_ & X)]; [contradiction|discriminate].
Qed.

(** C06 for DisjointSet: no assumption on the keys mentioned *)
Lemma ds_id_uf x s : ds_uf (fst (ds_id x s)) = ds_uf s.
Proof. unfold ds_id. destruct (getitem (ds_reg s) x). reflexivity. Qed.

Record UInv (s : dset_state) (cap : nat) (lim : Z) : Prop := {
  ui_inv : exists P k, Inv (ds_uf s) P k;
  ui_cap : capacity (ds_uf s) = cap;
  ui_lim : item_limit (ds_uf s) = lim
}.

Lemma UInv_uf s s' cap lim : UInv s cap lim -> ds_uf s' = ds_uf s -> UInv s' cap lim.
Proof. intros [A B C] E. constructor; rewrite E; assumption. Qed.

Lemma UInv_lift {A} (m : sm uf A) s cap lim s' r :
  (forall u P k u' r, Inv u P k -> m u = (u', r) ->
     (exists P' k', Inv u' P' k') /\ capacity u' = capacity u /\ item_limit u' = item_limit u) ->
  UInv s cap lim -> ds_lift m s = (s', r) -> UInv s' cap lim.
Proof.
  intros H [(P & k & I) B C] E. unfold ds_lift in E. destruct (m (ds_uf s)) as (u, r') eqn:Em.
  inversion E; subst. destruct (H _ _ _ _ _ I Em) as (I' & C' & L'). constructor; simpl; auto.
Qed.

Lemma dstep_UInv o s s' r cap lim : UInv s cap lim -> dstep o s = (s', r) -> UInv s' cap lim.
Proof.
  intros U E.
  assert (G : forall x s, UInv s cap lim -> UInv (fst (ds_id x s)) cap lim).
  { intros x s1 U1. eapply UInv_uf; [exact U1|apply ds_id_uf]. }
  assert (GI : forall x s, exists i, snd (ds_id x s) = Ok i).
  { intros x s1. unfold ds_id. destruct (getitem (ds_reg s1) x). simpl. eauto. }
  destruct o as [x y|x|x|x y| |]; cbn [dstep] in E; unfold smap, sbind, sret in E.
  - destruct (ds_union x y s) as (s1, r1) eqn:E1.
    assert (U1 : UInv s1 cap lim).
    { unfold ds_union, sbind in E1.
      pose proof (G x s U) as Ux. destruct (GI x s) as (i & Ei).
      destruct (ds_id x s) as (sx, rx). simpl in *. subst rx.
      pose proof (G y sx Ux) as Uy. destruct (GI y sx) as (j & Ej).
      destruct (ds_id y sx) as (sy, ry). simpl in *. subst ry.
      eapply UInv_lift; [|exact Uy|exact E1].
      intros u P k u' r' I Eu.
      destruct (ustep_Inv u P k (UUnion i j) u' (match r' with Ok b => Ok (OBool b) | Err e => Err e end) I)
        as (I' & C' & L' & _).
      { cbn. unfold smap, sbind, sret. rewrite Eu. destruct r'; reflexivity. }
      eauto. }
    destruct r1; inversion E; subst; assumption.
  - pose proof (ds_find_state s x) as Es. destruct (ds_find x s) as (s1, r1). simpl in Es.
    pose proof (G x s U) as Ux. rewrite <- Es in Ux. destruct r1; inversion E; subst; assumption.
  - unfold ds_cardinality, sbind, sread in E. pose proof (G x s U) as Ux. destruct (GI x s) as (i & Ei).
    destruct (ds_id x s) as (sx, rx). simpl in *. subst rx.
    destruct (cardinality (ds_uf sx) i); inversion E; subst; assumption.
  - unfold ds_same, sbind, sret in E.
    pose proof (ds_find_state s x) as Es. destruct (ds_find x s) as (s1, r1). simpl in Es.
    pose proof (G x s U) as Ux. rewrite <- Es in Ux.
    destruct r1 as [a|e]; [|inversion E; subst; assumption].
    pose proof (ds_find_state s1 y) as Es1. destruct (ds_find y s1) as (s2, r2). simpl in Es1.
    pose proof (G y s1 Ux) as Uy. rewrite <- Es1 in Uy.
    destruct r2; inversion E; subst; assumption.
  - unfold sread in E. destruct (ds_len s); inversion E; subst; assumption.
  - destruct (ds_clear s) as (s1, r1) eqn:E1.
    unfold ds_clear, sbind, ds_lift, smodify in E1.
    destruct U as [(P & k & I) B C]. rewrite (clear_spec _ _ _ I) in E1. inversion E1; subst.
    inversion E; subst. constructor; simpl; auto.
    exists [], 0. apply Inv_fresh; apply I.
Qed.

Lemma run_UInv ops : forall s s' outs cap lim,
  UInv s cap lim -> run dstep ops s = (s', outs) -> UInv s' cap lim.
Proof.
  induction ops as [|o ops IH]; intros s s' outs cap lim U E; cbn [run] in E.
  - inversion E; subst; assumption.
  - destruct (dstep o s) as (s1, r) eqn:E1. destruct (run dstep ops s1) as (s2, rs) eqn:E2.
    inversion E; subst. eapply IH; [eapply dstep_UInv; eassumption|eassumption].
Qed.

Lemma ds_clear_restores pf cap s0 ops s outs :
  make_ds pf cap = Ok s0 -> run dstep ops s0 = (s, outs) -> ds_clear s = (s0, Ok tt).
Proof.
  intros M R. unfold make_ds in M. apply bind_Ok in M as (u & M & E). inversion E; subst; clear E.
  destruct (Inv_init _ _ _ M) as (I & C).
  assert (U : UInv s cap (item_limit u)).
  { eapply run_UInv; [|exact R]. constructor; simpl; eauto. }
  destruct U as [(P & k & I') B L].
  unfold ds_clear, sbind, ds_lift, smodify, clear_register.
  rewrite (clear_is_make pf cap u (ds_uf s) P k M I'); [reflexivity|congruence|assumption].
Qed.

(** C07 *)
Section C07.
Variables (pf : platform) (cap : nat) (s0 s : dset_state) (ops : list dop) (outs : list (res out)).
Hypothesis M : make_ds pf cap = Ok s0.
Hypothesis R : run dstep ops s0 = (s, outs).
Hypothesis Fit : fits_from cap [] ops.

Lemma c07_inv :
  DInv s (dunited (combine ops outs)) (doverflows_from 0 (combine ops outs))
  /\ ds_capacity s = cap /\ incl (dkeys (index (ds_reg s))) (mentioned ops)
  /\ (~ tight_capacity pf cap -> no_overflow (combine ops outs))
  /\ (item_limit (ds_uf s) + 1 = Z.of_nat cap -> tight_capacity pf cap)%Z.
Proof.
  destruct (DInv_init _ _ _ M) as (D & C).
  destruct (run_DInv ops s0 [] 0 s outs [] D R) as (D' & C' & L' & K' & O').
  - unfold make_ds in M. apply bind_Ok in M as (u & _ & E). inversion E; subst. simpl. intros z [].
  - unfold distinct; simpl; lia.
  - rewrite C. assumption.
  - assert (T : (Z.of_nat cap = item_limit (ds_uf s0) + 1 <-> tight_capacity pf cap)%Z).
    { unfold make_ds in M. apply bind_Ok in M as (u & Mu & E). inversion E; subst. simpl.
      apply make_limit; assumption. }
    split; [assumption|]. split; [congruence|]. split; [assumption|]. split.
    + intros NT. apply O'; [|reflexivity]. rewrite C. tauto.
    + intros E. apply T. rewrite <- L', E. reflexivity.
Qed.

Lemma c07_same x y : distinct (mentioned ops ++ [x; y]) <= cap ->
  exists s' b, ds_same x y s = (s', Ok b) /\ (b = true <-> closure (dunited (combine ops outs)) x y).
Proof.
  intros Room. destruct c07_inv as (D & C & K & _).
  destruct (ds_same_spec s _ _ x y D) as (s1 & s2 & i & j & E1 & E2 & D2 & U2 & Hx & Hy & H).
  pose proof (ds_id_keys _ _ _ _ _ E1 K) as K1. pose proof (ds_id_keys _ _ _ _ _ E2 K1) as K2.
  rewrite <- app_assoc in K2. simpl in K2.
  destruct H as (b & E & Hb).
  { rewrite C. eapply Nat.le_trans; [eapply reg_size; [apply D2|exact K2]|assumption]. }
  eauto.
Qed.

Lemma c07_union x y : distinct (mentioned ops ++ [x; y]) <= cap ->
  exists s' r, ds_union x y s = (s', r) /\
   ((exists b, r = Ok b /\ (b = true <-> ~ closure (dunited (combine ops outs)) x y))
    \/ (r = Err OverflowError /\ tight_capacity pf cap)).
Proof.
  intros Room. destruct c07_inv as (D & C & K & _ & T).
  destruct (ds_union_spec s _ _ x y D) as (s1 & s2 & i & j & E1 & E2 & D2 & U2 & Hx & Hy & H).
  pose proof (ds_id_keys _ _ _ _ _ E1 K) as K1. pose proof (ds_id_keys _ _ _ _ _ E2 K1) as K2.
  rewrite <- app_assoc in K2. simpl in K2.
  destruct H as [(Cl & U)|[(Cl & s3 & U & _)|(Cl & Ec & Rr & s3 & U & _)]].
  { rewrite C. eapply Nat.le_trans; [eapply reg_size; [apply D2|exact K2]|assumption]. }
  - eexists _, _. split; [exact U|]. left. exists false. split; [reflexivity|]. split; [discriminate|contradiction].
  - eexists _, _. split; [exact U|]. left. exists true. tauto.
  - eexists _, _. split; [exact U|]. right. split; [reflexivity|]. apply T. rewrite <- C. lia.
Qed.

Lemma c07_cardinality x : distinct (mentioned ops ++ [x]) <= cap ->
  exists s' n, ds_cardinality x s = (s', Ok n)
    /\ has_size (fun y => closure (dunited (combine ops outs)) x y) n.
Proof.
  intros Room. destruct c07_inv as (D & C & K & _).
  destruct (ds_card_spec s _ _ x D) as (s1 & i & E1 & D1 & U1 & Hx & H).
  pose proof (ds_id_keys _ _ _ _ _ E1 K) as K1.
  destruct H as (n & E & Hn).
  { rewrite C. eapply Nat.le_trans; [eapply reg_size; [apply D1|exact K1]|assumption]. }
  eauto.
Qed.
End C07.

(** keys mentioned are registered, so a fresh key beyond the capacity raises *)
Lemma dstep_registers s o s' r DP k x :
  DInv s DP k -> dstep o s = (s', r) -> o <> DClear ->
  (forall e, r <> Err e) ->
  (In x (dkeys (index (ds_reg s))) \/ In x (dop_keys o)) -> In x (dkeys (index (ds_reg s'))).
Proof.
  intros D E NC NE H.
  assert (G : forall z s s1 i DP k, DInv s DP k -> ds_id z s = (s1, Ok i) ->
              (In x (dkeys (index (ds_reg s))) \/ x = z) -> In x (dkeys (index (ds_reg s1)))).
  { intros z s1 s2 i DP1 k1 D1 E1 H1. destruct (ds_id_spec s1 DP1 k1 z D1) as (s2' & i' & E1' & _ & _ & Hz & St & _).
    rewrite E1 in E1'. inversion E1'; subst. destruct H1 as [H1| ->].
    - apply dkeys_dget in H1 as (v & Hv). eapply dget_Some_key, St, Hv.
    - eapply dget_Some_key; eassumption. }
  destruct o as [a b|a|a|a b| |]; cbn [dstep dop_keys] in *; unfold smap, sbind in E; try congruence.
  - destruct (ds_union_spec s DP k a b D) as (s1 & s2 & i & j & E1 & E2 & D2 & U2 & _ & _ & _).
    unfold ds_union, sbind in E. rewrite E1, E2 in E. unfold ds_lift in E.
    destruct (union i j (ds_uf s2)) as (u, ru) eqn:Eu.
    assert (Es : ds_reg s' = ds_reg s2) by (destruct ru; inversion E; reflexivity).
    rewrite Es. destruct (ds_id_spec s DP k a D) as (s1' & i' & E1' & D1 & _).
    rewrite E1 in E1'. inversion E1'; subst s1' i'.
    apply (G b s1 s2 j DP k D1 E2). simpl in H.
    destruct H as [H|[<-|[<-|[]]]]; [left; apply (G a s s1 i DP k D E1); auto|left; apply (G a s s1 i DP k D E1); auto|right; reflexivity].
  - destruct (ds_find_spec s DP k a D) as (s1 & i & E1 & D1 & U1 & Hx & F1). rewrite F1 in E.
    assert (s' = s1) by (destruct (i <? ds_capacity s); inversion E; reflexivity). subst.
    eapply G; [exact D|exact E1|]. simpl in H. destruct H as [H|[<-|[]]]; auto.
  - destruct (ds_id_spec s DP k a D) as (s1 & i & E1 & D1 & _). unfold ds_cardinality, sbind in E.
    rewrite E1 in E. unfold sread in E.
    assert (s' = s1) by (destruct (cardinality (ds_uf s1) i); inversion E; reflexivity). subst.
    eapply G; [exact D|exact E1|]. simpl in H. destruct H as [H|[<-|[]]]; auto.
  - destruct (ds_find_spec s DP k a D) as (s1 & i & E1 & D1 & U1 & Hx & F1).
    destruct (ds_find_spec s1 DP k b D1) as (s2 & j & E2 & D2 & U2 & Hy & F2).
    unfold ds_same, sbind in E. rewrite F1 in E.
    destruct (i <? ds_capacity s); [|inversion E; subst; exfalso; eapply NE; reflexivity].
    rewrite F2 in E.
    assert (s' = s2) by (destruct (j <? ds_capacity s1); inversion E; reflexivity). subst.
    apply (G b s1 s2 j DP k D1 E2). simpl in H.
    destruct H as [H|[<-|[<-|[]]]]; [left; apply (G a s s1 i DP k D E1); auto|left; apply (G a s s1 i DP k D E1); auto|right; reflexivity].
  - unfold sread in E. assert (s' = s) by (destruct (ds_len s); inversion E; reflexivity). subst.
    simpl in H. tauto.
Qed.

Lemma run_registered ops : forall s DP k s' outs l,
  DInv s DP k -> run dstep ops s = (s', outs) ->
  incl (dkeys (index (ds_reg s))) l -> incl l (dkeys (index (ds_reg s))) ->
  distinct l <= ds_capacity s -> fits_from (ds_capacity s) l ops ->
  (forall r e, In r outs -> r <> Err e) ->
  incl (mentioned_from l ops) (dkeys (index (ds_reg s'))).
Proof.
  induction ops as [|o ops IH]; intros s DP k s' outs l D E Hl Hl' Hd Fit NE; cbn [run] in E.
  - inversion E; subst. assumption.
  - destruct (dstep o s) as (s1, r) eqn:E1. destruct (run dstep ops s1) as (s2, rs) eqn:E2.
    inversion E; subst; clear E.
    assert (Ro : distinct (l ++ dop_keys o) <= ds_capacity s).
    { destruct o; cbn [fits_from] in Fit; try apply Fit. simpl. rewrite app_nil_r. assumption. }
    destruct (dstep_Inv _ _ _ _ _ _ _ D E1 Hl Ro) as (D1 & C1 & L1 & K1 & Ov).
    assert (Ne1 : forall e, r <> Err e) by (intros e; apply NE; left; reflexivity).
    assert (Res : incl (match o with DClear => [] | _ => l ++ dop_keys o end) (dkeys (index (ds_reg s1)))).
    { destruct o; try (intros z Hz; apply in_app_iff in Hz; apply (dstep_registers s _ s1 r DP k z D E1);
        [discriminate|exact Ne1|destruct Hz; [left; apply Hl'; assumption|right; assumption]]).
      intros z []. }
    replace (mentioned_from l (o :: ops)) with
      (mentioned_from (match o with DClear => [] | _ => l ++ dop_keys o end) ops) by (destruct o; reflexivity).
    eapply (IH s1); try eassumption.
    + rewrite C1. destruct o; try assumption. unfold distinct; simpl; lia.
    + rewrite C1. destruct o; cbn [fits_from] in Fit; apply Fit.
    + intros r' e Hr. apply NE. right; assumption.
Qed.

(** a key that does not fit raises IndexError, whatever the call *)
Lemma c07_beyond pf cap s0 s ops outs x :
  make_ds pf cap = Ok s0 -> run dstep ops s0 = (s, outs) -> fits_from cap [] ops ->
  (forall r e, In r outs -> r <> Err e) ->
  distinct (mentioned ops) = cap -> ~ In x (mentioned ops) ->
  snd (ds_find x s) = Err IndexError /\ snd (ds_cardinality x s) = Err IndexError
  /\ (forall y, snd (ds_union x y s) = Err IndexError) /\ (forall y, snd (ds_same x y s) = Err IndexError).
Proof.
  intros M R Fit NE Full Fresh.
  destruct (c07_inv pf cap s0 s ops outs M R Fit) as (D & C & K & _).
  assert (Len : List.length (index (ds_reg s)) = cap).
  { destruct (DInv_init _ _ _ M) as (D0 & C0).
    assert (K' : incl (mentioned ops) (dkeys (index (ds_reg s)))).
    { eapply (run_registered ops s0 [] 0 s outs []); try eassumption.
      - unfold make_ds in M. apply bind_Ok in M as (u & _ & E). inversion E; subst. simpl. intros z [].
      - intros z [].
      - unfold distinct; simpl; lia.
      - rewrite C0. assumption. }
    rewrite <- Full, <- dkeys_len. unfold distinct. apply Nat.le_antisymm.
    - apply NoDup_incl_length; [apply D|]. intros z Hz. rewrite nodup_In. auto.
    - apply NoDup_incl_length; [apply NoDup_nodup|]. intros z Hz. rewrite nodup_In in Hz. auto. }
  assert (Id : exists s1, ds_id x s = (s1, Ok cap) /\ ds_uf s1 = ds_uf s).
  { unfold ds_id, getitem.
    assert (dget x (index (ds_reg s)) = None) as -> by (apply dget_None; intros I; apply Fresh, K, I).
    rewrite (ro_counter _ (di_reg _ _ _ D)), Len. eexists. split; reflexivity. }
  destruct Id as (s1 & Id & U1).
  pose proof (di_inv _ _ _ D) as I.
  assert (FO : find (ds_uf s1) cap = Err IndexError).
  { rewrite U1. eapply find_out; [exact I|]. unfold ds_capacity in C. lia. }
  repeat split.
  - unfold ds_find, sbind. rewrite Id. unfold sread. simpl. assumption.
  - unfold ds_cardinality, sbind. rewrite Id. unfold sread. simpl. unfold cardinality. rewrite FO. reflexivity.
  - intros y. unfold ds_union, sbind. rewrite Id. unfold ds_id.
    destruct (getitem (ds_reg s1) y) as (r2, j). unfold ds_lift. simpl.
    rewrite U1. rewrite (union_out _ _ _ cap j I); [reflexivity|]. left. unfold ds_capacity in C. lia.
  - intros y. unfold ds_same, sbind, ds_find at 1, sbind. rewrite Id. unfold sread. rewrite FO. reflexivity.
Qed.
