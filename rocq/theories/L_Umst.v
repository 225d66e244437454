(** * Proofs about union_of_maximum_spanning_trees *)
From Coq Require Import Lia Relations QArith Lqa Permutation Sorting.Sorted.
From Verif Require Import PyBase PyNum S_Num L_Num L_Base S_Partition L_Partition NxGraph M_UnionFind S_UnionFind L_UnionFind L_UnionFind2
  L_DisjointSet L_Nx M_Umst S_Umst L_Forest.
Close Scope Q_scope.

(** ** buckets *)
Section Buckets.
  Context (E : list (key * key * Q)) (rnd : Q -> Q) (RN : rounding rnd).
  Notation w := (weight_at E).
  Notation far := (far_below rnd).

  Lemma above_In c j : In j (above E c) <-> j < List.length E /\ (c < w j)%Q.
  Proof.
    unfold above. rewrite filter_In, in_seq, negb_true_iff. destruct (Qle_bool (w j) c) eqn:L.
    - apply Qle_bool_iff in L. split; [intros [_ H]; discriminate|]. intros [_ H]. lra.
    - assert (c < w j)%Q by (apply Qnot_le_lt; intros H; apply Qle_bool_iff in H; congruence).
      split; [intros [H1 _]; split; [lia|assumption]|]. intros [H1 _]. split; [lia|reflexivity].
  Qed.

  Lemma eps_nonneg : (0 <= rnd (1 # 100000000))%Q.
  Proof. rewrite <- (rnd_0 _ RN). apply RN. discriminate. Qed.

  Lemma far_mono c c' x x' : (c <= c')%Q -> (x' <= x)%Q -> far c x -> far c' x'.
  Proof. unfold far_below. intros H1 H2 H. eapply Qlt_le_trans; [exact H|]. apply RN. lra. Qed.
  Lemma far_lt c x : far c x -> (x < c)%Q.
  Proof.
    unfold far_below. intros H. apply Qnot_le_lt. intros L. assert (G : (rnd (c - x) <= rnd 0)%Q) by (apply RN; lra).
    pose proof eps_nonneg. pose proof (rnd_0 _ RN). lra.
  Qed.
  Lemma far_irr c x : (c <= x)%Q -> ~ far c x.
  Proof. intros H F. apply far_lt in F. lra. Qed.

  Lemma start_weight c : bucket_start E rnd c -> exists i, i < List.length E /\ c = w i.
  Proof. clear RN. intros []; eauto. Qed.

  (** different starts are far apart *)
  Lemma start_apart c c' : bucket_start E rnd c -> bucket_start E rnd c' ->
    ((c == c')%Q \/ far c c' \/ far c' c).
  Proof.
    intros S. revert c'.
    assert (Top : forall i c', (forall j, j < List.length E -> (w j <= w i)%Q) -> bucket_start E rnd c' ->
      i < List.length E -> ((w i == c')%Q \/ far (w i) c')).
    { intros i c' M [k Bk Mk|d k Sd Bk Dk Mk] Bi.
      - left. specialize (M k Bk). specialize (Mk i Bi). lra.
      - right. destruct (start_weight d Sd) as (m & Bm & ->). specialize (M m Bm).
        apply (far_mono (w m) (w i) (w k) (w k)); [exact M|apply Qle_refl|exact Dk]. }
    induction S as [i Bi M|c0 i S0 IH Bi D M]; intros c' S'.
    - destruct (Top i c' M S' Bi); auto.
    - destruct S' as [k Bk Mk|d0 k Sd Bk Dk Mk].
      + destruct (Top k (w i) Mk (next_start E rnd c0 i S0 Bi D M) Bk); [left; lra|auto].
      + destruct (IH (w k) (next_start E rnd d0 k Sd Bk Dk Mk)) as [H|[H|H]].
        * right; right. revert D. apply far_mono; lra.
        * destruct (start_weight c0 S0) as (p & Bp & ->). destruct (start_weight d0 Sd) as (q & Bq & ->).
          destruct (IH (w q) Sd) as [G|[G|G]].
          -- left. assert (w k <= w i)%Q by (apply M; [exact Bk|exact H]).
             assert (w i <= w k)%Q by (apply Mk; [exact Bi|revert D; apply far_mono; lra]). lra.
          -- assert (w q <= w i)%Q by (apply M; [exact Bq|exact G]). right. left.
             revert Dk. apply far_mono; lra.
          -- assert (w p <= w k)%Q by (apply Mk; [exact Bp|exact G]). right; right. revert D. apply far_mono; lra.
        * right; right. apply far_lt in H. revert D. apply far_mono; lra.
  Qed.
End Buckets.

(** ** the disjoint sets of keys among [N] *)
Section Sets.
  Context (N : list key) (lim : Z).

  Definition good (s : dset_state) (P : list (key * key)) : Prop :=
    exists DP k, DInv s DP k /\ ds_capacity s = List.length N /\ item_limit (ds_uf s) = lim
      /\ incl (dkeys (index (ds_reg s))) N /\ forall a b, closure DP a b <-> closure P a b.

  Lemma distinct_N l : incl l N -> distinct l <= List.length N.
  Proof.
    intros H. unfold distinct. apply NoDup_incl_length; [apply NoDup_nodup|].
    intros x Hx. rewrite nodup_In in Hx. auto.
  Qed.
  Lemma ds_room s x y s1 s2 i j DP k : incl (dkeys (index (ds_reg s))) N -> In x N -> In y N ->
    ds_id x s = (s1, Ok i) -> ds_id y s1 = (s2, Ok j) -> DInv s2 DP k ->
    List.length (index (ds_reg s2)) <= List.length N /\ incl (dkeys (index (ds_reg s2))) N.
  Proof.
    intros I Hx Hy E1 E2 D. pose proof (ds_id_keys _ _ _ _ _ E1 I) as K1. pose proof (ds_id_keys _ _ _ _ _ E2 K1) as K2.
    assert (K : incl (dkeys (index (ds_reg s2))) N).
    { intros z Hz. apply K2 in Hz. rewrite !in_app_iff in Hz. cbn [In] in Hz. intuition congruence. }
    split; [|exact K]. eapply Nat.le_trans; [eapply reg_size; [apply D|exact K]|]. apply distinct_N, incl_refl.
  Qed.

  Lemma good_same s P x y : good s P -> In x N -> In y N ->
    exists s' b, ds_same x y s = (s', Ok b) /\ good s' P /\ (b = true <-> closure P x y).
  Proof.
    intros (DP & k & D & C & L & I & Q) Hx Hy.
    destruct (ds_same_spec s DP k x y D) as (s1 & s2 & i & j & E1 & E2 & D2 & U2 & _ & _ & H).
    destruct (ds_room s x y s1 s2 i j DP k I Hx Hy E1 E2 D2) as [R K].
    rewrite <- C in R. destruct (H R) as (b & E & B).
    exists s2, b. split; [exact E|]. split; [|rewrite <- Q; exact B].
    exists DP, k. unfold ds_capacity. rewrite U2. auto.
  Qed.

  (** everything is not joined when sets as large as [N] do not fit *)
  Lemma not_full s P : good s P -> Z.of_nat (List.length N) = (lim + 1)%Z -> NoDup N ->
    ~ (forall a b, In a N -> In b N -> closure P a b).
  Proof.
    intros (DP & k & D & C & L & K & Q) T ND A.
    pose proof (di_inv _ _ _ D) as I. pose proof (inv_limit255 _ _ _ I) as G. rewrite L in G.
    assert (exists x y N', N = x :: y :: N') as (x & y & N' & EN).
    { destruct N as [|x [|y N']]; cbn [List.length] in T; [lia|lia|eauto]. }
    set (r := ds_reg s) in *. set (u := ds_uf s) in *.
    assert (Rg : reg_ok r) by apply D.
    assert (Al : forall z, In z N -> registered r z).
    { intros z Hz. assert (exists z', In z' N /\ z' <> z) as (z' & Hz' & Nz).
      { rewrite EN. destruct (key_eq_dec z x) as [->|NE]; [exists y|exists x]; split; cbn; auto.
        intros ->. rewrite EN in ND. inversion ND as [|? ? H1]; subst. apply H1. left. reflexivity. }
      assert (H : closure DP z z') by (apply Q, A; assumption).
      destruct (in_dec key_eq_dec z (dkeys (index r))) as [|NR]; [assumption|exfalso].
      apply Nz. symmetry. revert H. apply closure_isolated. intros a b Hab.
      destruct (di_keys _ _ _ D a b Hab) as [Ra Rb]. fold r in Ra, Rb. split; intros ->; contradiction. }
    assert (Sz : List.length (index r) <= capacity u).
    { unfold ds_capacity in C. fold u in C. rewrite C, <- dkeys_len. apply NoDup_incl_length; [apply Rg|exact K]. }
    assert (Lt : forall z, In z N -> idof r z < capacity u).
    { intros z Hz. eapply Nat.lt_le_trans; [|exact Sz]. apply (reg_id_lt r z); [exact Rg|apply idof_registered, Al, Hz]. }
    assert (Ix : In x N) by (rewrite EN; left; reflexivity).
    assert (F : forest (parents u)) by apply I.
    assert (LP : List.length (parents u) = capacity u) by apply I.
    set (root := rt (parents u) (idof r x)).
    assert (Rt : nth_error (parents u) root = Some root) by (apply rt_root; [exact F|rewrite LP; apply Lt, Ix]).
    pose proof (inv_fits _ _ _ I root _ (inv_card _ _ _ I root Rt)) as Fi. fold u in Fi. rewrite L in Fi.
    assert (Le : List.length (map (idof r) N) <= List.length (class (parents u) root)).
    { apply NoDup_incl_length.
      - apply NoDup_map_inj; [|exact ND].
        intros a b Ha Hb Eq. apply (reg_id_inj r a b (idof r a)); [exact Rg|apply idof_registered, Al, Ha|].
        rewrite Eq. apply idof_registered, Al, Hb.
      - intros i Hi. apply in_map_iff in Hi as (z & <- & Hz). apply class_In. rewrite LP. split; [apply Lt, Hz|].
        apply (inv_rel _ _ _ I); [apply Lt, Hz|apply Lt, Ix|].
        apply id_closure; [exact Rg|apply D|apply Al, Hz|apply Al, Ix|]. apply Q, A; assumption. }
    rewrite map_length in Le. lia.
  Qed.

  (** all classes but two are gone *)
  Lemma two_roots s DP k x y : DInv s DP k -> ds_capacity s = List.length N -> incl (dkeys (index (ds_reg s))) N ->
    List.length (index (ds_reg s)) <= List.length N ->
    registered (ds_reg s) x -> registered (ds_reg s) y -> ~ closure DP x y ->
    List.length (roots (parents (ds_uf s))) = 2 ->
    forall z, In z N -> closure DP z x \/ closure DP z y.
  Proof.
    intros D C K Rm Rx Ry NC R2.
    set (r := ds_reg s) in *. set (u := ds_uf s) in *. pose proof (di_inv _ _ _ D) as I. pose proof (di_reg _ _ _ D) as Rg.
    fold r in Rg, I. fold u in I. unfold ds_capacity in C. fold u in C.
    assert (Lt : forall z, registered r z -> idof r z < List.length (index r)).
    { intros z Hz. apply (reg_id_lt r z); [exact Rg|apply idof_registered, Hz]. }
    assert (IC : forall a b, registered r a -> registered r b -> (closure (id_pairs r DP) (idof r a) (idof r b) <-> closure DP a b)).
    { intros a b Ha Hb. apply id_closure; try assumption. apply D. }
    assert (LP : List.length (parents u) = capacity u) by apply I.
    assert (F : forest (parents u)) by apply I.
    assert (M : forall m, m < capacity u -> closure (id_pairs r DP) m (idof r x) \/ closure (id_pairs r DP) m (idof r y)).
    { intros m Hm. pose proof (Lt x Rx) as Lx. pose proof (Lt y Ry) as Ly.
      assert (RR : forall q, q < capacity u -> In (rt (parents u) q) (roots (parents u))).
      { intros q Hq. apply roots_In, rt_root; [exact F|lia]. }
      assert (Nxy : rt (parents u) (idof r x) <> rt (parents u) (idof r y)).
      { intros E. apply (inv_rel _ _ _ I) in E; [|lia|lia]. apply IC in E; try assumption. contradiction. }
      pose proof (RR m Hm) as A. pose proof (RR (idof r x) ltac:(lia)) as B1. pose proof (RR (idof r y) ltac:(lia)) as B2.
      destruct (roots (parents u)) as [|p [|q [|]]]; try discriminate R2.
      cbn [In] in A, B1, B2.
      assert (Z : rt (parents u) m = rt (parents u) (idof r x) \/ rt (parents u) m = rt (parents u) (idof r y)) by intuition congruence.
      destruct Z as [Z|Z]; [left|right]; apply (inv_rel _ _ _ I); assumption || lia. }
    assert (Full : List.length N <= List.length (index r)).
    { destruct (le_lt_dec (List.length N) (List.length (index r))) as [|L]; [assumption|exfalso].
      pose proof (M (List.length (index r)) ltac:(lia)) as Z.
      assert (Iso : forall b, closure (id_pairs r DP) (List.length (index r)) b -> List.length (index r) = b).
      { intros b. apply closure_isolated. intros a c H. unfold id_pairs in H. apply in_map_iff in H as ([p q] & E & H).
        injection E as <- <-. cbn [fst snd]. destruct (di_keys _ _ _ D p q H) as [Rp Rq].
        pose proof (Lt p Rp). pose proof (Lt q Rq). lia. }
      destruct Z as [Z|Z]; apply Iso in Z; [pose proof (Lt x Rx)|pose proof (Lt y Ry)]; lia. }
    assert (All : incl N (dkeys (index r))).
    { apply NoDup_length_incl; [apply Rg|rewrite dkeys_len; exact Full|exact K]. }
    intros z Hz. pose proof (All z Hz) as Rz. rewrite <- !(IC z) by assumption.
    apply M. pose proof (Lt z Rz). lia.
  Qed.

  Lemma good_union s P x y : good s P -> In x N -> In y N ->
    exists s' r, ds_union x y s = (s', r) /\
      ((exists b, r = Ok b /\ good s' ((x, y) :: P))
       \/ (r = Err OverflowError /\ Z.of_nat (List.length N) = (lim + 1)%Z
           /\ forall z, In z N -> closure ((x, y) :: P) z x)).
  Proof.
    intros (DP & k & D & C & L & I & Q) Hx Hy.
    destruct (ds_union_spec s DP k x y D) as (s1 & s2 & i & j & E1 & E2 & D2 & U2 & Gx & Gy & H).
    destruct (ds_room s x y s1 s2 i j DP k I Hx Hy E1 E2 D2) as [R K].
    rewrite C in H. destruct (H R) as [(Cl & U)|[(Cl & s' & U & Er & D' & C' & L')|(Cl & T & R2 & s' & U & _)]].
    - exists s2, (Ok false). split; [exact U|]. left. exists false. split; [reflexivity|].
      exists DP, k. split; [exact D2|]. unfold ds_capacity. rewrite U2.
      split; [exact C|]. split; [exact L|]. split; [exact K|].
      intros a b. rewrite closure_cons_same by (apply Q, Cl). apply Q.
    - exists s', (Ok true). split; [exact U|]. left. exists true. split; [reflexivity|].
      exists ((x, y) :: DP), k. split; [exact D'|]. split; [congruence|]. split; [congruence|].
      split; [rewrite Er; exact K|].
      intros a b. rewrite !closure_cons, !Q. reflexivity.
    - exists s', (Err OverflowError). split; [exact U|]. right. split; [reflexivity|].
      split; [rewrite <- L; exact T|]. intros z Hz.
      assert (Z : closure DP z x \/ closure DP z y).
      { apply (two_roots s2 DP k); try assumption.
        - unfold ds_capacity. rewrite U2. exact C.
        - eapply dget_Some_key, Gx.
        - eapply dget_Some_key, Gy.
        - rewrite U2. exact R2. }
      rewrite !Q in Z. rewrite closure_cons. destruct Z as [Z|Z]; [left; exact Z|right; right].
      split; [exact Z|apply closure_refl].
  Qed.

  (** ** the loop over positions [p] of the edges *)
  Context (E : list (key * key * Q)) (item : nat -> edge3).
  Context (ITEM : forall i, i < List.length E -> fst (item i) = edge_at E i).
  Context (NODES : forall i, i < List.length E -> In (fst (edge_at E i)) N /\ In (snd (edge_at E i)) N).
  Notation w := (weight_at E).
  Notation J := (joined E).
  Notation u i := (fst (edge_at E i)).
  Notation v i := (snd (edge_at E i)).
  Notation n := (List.length E).

  Context (lib : libm) (ws : list pynum).
  Context (p : list nat) (NDp : NoDup p) (Bp : forall i, In i p -> i < n).
  Notation far := (python_far lib ws).
  Notation bks := (buckets lib ws p).

  Definition full (P : list nat) : Prop :=
    Z.of_nat (List.length N) = (lim + 1)%Z /\ forall a b, In a N -> In b N -> J P a b.
  Definition overflows : Prop := exists dn b af, bks = dn ++ b :: af /\ full (List.concat dn).

  Lemma um_flush_spec l : forall s P,
    (forall i, In i l -> i < n) -> (forall i, In i P -> i < n) -> good (um_ds s) (map (edge_at E) P) ->
    exists s' r, um_flush (map item l) s = (s', r) /\
      ((r = Ok tt /\ um_weight s' = um_weight s /\ um_relevant s' = um_relevant s
        /\ um_out s' = um_out s ++ map item l /\ good (um_ds s') (map (edge_at E) (rev l ++ P)))
       \/ (r = Err OverflowError /\ full (rev l ++ P))).
  Proof.
    induction l as [|i l IH]; intros s P Bl BP G.
    - exists s, (Ok tt). split; [reflexivity|]. left. cbn [map rev app]. rewrite app_nil_r. auto.
    - cbn [map um_flush]. unfold sbind at 1, smodify. cbn [um_ds um_weight um_relevant um_out].
      unfold on_ds at 1, sbind. cbn [um_ds um_weight um_relevant um_out].
      assert (Bi : i < n) by (apply Bl; left; reflexivity).
      rewrite (ITEM i Bi). destruct (NODES i Bi) as [Nu Nv].
      destruct (good_union _ _ _ _ G Nu Nv) as (d & r & U & [(b & -> & G')|(-> & T & Z)]); rewrite U.
      + assert (G2 : good d (map (edge_at E) (i :: P))) by (cbn [map]; rewrite (surjective_pairing (edge_at E i)); exact G').
        destruct (IH (mkUM d (um_weight s) (um_relevant s) (um_out s ++ [item i])) (i :: P)) as (s' & r & F & O);
          [intros k Hk; apply Bl; right; exact Hk|intros k [<-|Hk]; [exact Bi|apply BP, Hk]|exact G2|].
        exists s', r. split; [exact F|]. destruct O as [(-> & W & R & Ou & Gd)|O];
          [left|right; cbn [rev]; rewrite <- app_assoc; exact O].
        cbn [um_weight um_relevant um_out] in *. cbn [rev]. rewrite <- !app_assoc in *. auto.
      + eexists _, _. split; [reflexivity|]. right. split; [reflexivity|]. split; [exact T|].
        assert (A : forall z, In z N -> J (rev (i :: l) ++ P) z (u i)).
        { intros z Hz. specialize (Z z Hz). rewrite <- (surjective_pairing (edge_at E i)) in Z.
          apply (joined_incl E (i :: P)); [|exact Z]. intros k Hk. cbn [rev]. rewrite !in_app_iff. cbn [In] in *. tauto. }
        intros a b Ha Hb. apply (closure_trans _ _ (u i)); [apply A, Ha|apply closure_sym, A, Hb].
  Qed.

  Definition keepb (A : list nat) (i : nat) : bool := if joined_dec E A (u i) (v i) then false else true.
  Lemma keepb_iff A i : keepb A i = true <-> ~ J A (u i) (v i).
  Proof. unfold keepb. destruct (joined_dec E A (u i) (v i)); intuition discriminate. Qed.

  Inductive sub : list nat -> list nat -> Prop :=
  | sub_nil : sub [] []
  | sub_skip x l m : sub l m -> sub l (m ++ [x])
  | sub_take x l m : sub l m -> sub (l ++ [x]) (m ++ [x]).
  Lemma sub_filter_app f l m r : sub l m -> sub (l ++ filter f r) (m ++ r).
  Proof.
    intros H. induction r as [|x r IH] using rev_ind; [rewrite !app_nil_r; exact H|].
    rewrite filter_app, !app_assoc. cbn [filter]. destruct (f x); [apply sub_take, IH|].
    rewrite app_nil_r. apply sub_skip, IH.
  Qed.
  Lemma sub_incl l m : sub l m -> incl l m.
  Proof. induction 1; intros y Hy; rewrite ?in_app_iff in *; [destruct Hy|left; auto|destruct Hy; auto]. Qed.
  Lemma sub_NoDup l m : sub l m -> NoDup m -> NoDup l.
  Proof.
    induction 1; intros K; [constructor| |].
    - apply IHsub. apply NoDup_remove_1 in K. rewrite app_nil_r in K. exact K.
    - apply NoDup_remove in K. rewrite app_nil_r in K. destruct K as [K NI].
      apply NoDup_snoc; [apply IHsub, K|]. intros I. apply NI, (sub_incl _ _ H), I.
  Qed.

  (** [i] was decided against the edges of the buckets before its own *)
  Definition decided (sel : list nat) (i : nat) : Prop :=
    exists dn b af, bks = dn ++ b :: af /\ In i b /\ (In i sel <-> ~ J (List.concat dn) (u i) (v i)).

  Record loop_inv (q R : list nat) (s : umst_state) (dn : list (list nat)) (B sa : list nat) : Prop := {
    li_p : p = q ++ R;
    li_q : q = List.concat dn ++ B;
    li_sa : sub sa (List.concat dn);
    li_out : um_out s = map item sa;
    li_rel : um_relevant s = map item (filter (keepb (List.concat dn)) B);
    li_good : good (um_ds s) (map (edge_at E) (List.concat dn));
    li_span : forall i, In i (List.concat dn) -> J sa (u i) (v i);
    li_weight : match B with
                | [] => um_weight s = None /\ q = []
                | h :: b => um_weight s = Some (number_at ws h) /\ bks = dn ++ bucket_list lib ws h b R
                end;
    li_decided : forall i, In i (List.concat dn) -> decided sa i
  }.

  Lemma good_ext d P P' : (forall a b, closure P a b <-> closure P' a b) -> good d P -> good d P'.
  Proof.
    intros H (DP & k & D & C & L & I & Q). exists DP, k. repeat (split; [assumption|]).
    intros a b. rewrite Q. apply H.
  Qed.

  Lemma NoDup_parts {A} (l l' : list A) k : NoDup (l ++ l') -> In k l -> In k l' -> False.
  Proof.
    intros ND H1 H2. induction l as [|a l IH]; [destruct H1|].
    cbn [app] in ND. inversion ND; subst. destruct H1 as [->|H1]; [apply H3, in_app_iff; auto|auto].
  Qed.

  (** the edges of the current bucket, decided *)
  Lemma bucket_decided dn B sa R af : p = (List.concat dn ++ B) ++ R -> sub sa (List.concat dn) -> bks = dn ++ B :: af ->
    (forall i, In i (List.concat dn) -> decided sa i) ->
    forall i, In i (List.concat dn ++ B) -> decided (sa ++ filter (keepb (List.concat dn)) B) i.
  Proof.
    intros Ep S Eb D i Hi.
    assert (ND' : NoDup (List.concat dn ++ B)).
    { pose proof NDp as K. rewrite Ep in K. clear - K. induction (List.concat dn ++ B) as [|a l IH]; [constructor|].
      cbn [app] in K. inversion K; subst. constructor; [|auto]. intros H; apply H1, in_app_iff; auto. }
    apply in_app_iff in Hi as [Hi|Hi].
    - destruct (D i Hi) as (dn0 & b0 & af0 & E0 & I0 & K0). exists dn0, b0, af0. do 2 (split; [assumption|]).
      rewrite in_app_iff, filter_In, <- K0. split; [|tauto]. intros [H|[H _]]; [exact H|]. destruct (NoDup_parts _ _ i ND' Hi H).
    - exists dn, B, af. split; [exact Eb|]. split; [exact Hi|].
      rewrite in_app_iff, filter_In, keepb_iff. split; [|tauto]. intros [H|[_ H]]; [|exact H].
      destruct (NoDup_parts _ _ i ND' (sub_incl _ _ S i H) Hi).
  Qed.

  (** the edges before a bucket are joined by the ones kept *)
  Lemma bucket_spans A B sa : (forall i, In i A -> J sa (u i) (v i)) ->
    forall i, In i (A ++ B) -> J (sa ++ filter (keepb A) B) (u i) (v i).
  Proof.
    intros H i Hi.
    assert (G : forall a b, J A a b -> J (sa ++ filter (keepb A) B) a b).
    { intros a b. apply joined_mono. intros k Hk. apply (joined_incl E sa); [intros z Hz; apply in_app_iff; auto|]. apply H, Hk. }
    apply in_app_iff in Hi as [Hi|Hi]; [apply G, joined_In, Hi|].
    destruct (keepb A i) eqn:K.
    - apply joined_In, in_app_iff. right. apply filter_In. auto.
    - apply G. unfold keepb in K. destruct (joined_dec E A (u i) (v i)); [assumption|discriminate].
  Qed.

  Lemma q_ltb_iff a b : q_ltb a b = true <-> (a < b)%Q.
  Proof.
    unfold q_ltb. rewrite negb_true_iff. split.
    - intros H. apply Qnot_le_lt. intros L. apply Qle_bool_iff in L. congruence.
    - intros H. destruct (Qle_bool b a) eqn:K; [|reflexivity]. apply Qle_bool_iff in K. lra.
  Qed.

  (** changing bucket *)
  Lemma um_bucket_spec q i R s dn B sa :
    loop_inv q (i :: R) s dn B sa ->
    exists s' r, um_bucket lib (number_at ws i) s = (s', r) /\
      ((r = Ok tt /\ exists dn' B' sa', q = List.concat dn' ++ B' /\ sub sa' (List.concat dn') /\ um_out s' = map item sa'
          /\ um_relevant s' = map item (filter (keepb (List.concat dn')) B') /\ good (um_ds s') (map (edge_at E) (List.concat dn'))
          /\ (forall k, In k (List.concat dn') -> J sa' (u k) (v k))
          /\ match B' ++ [i] with
             | [] => False
             | h :: b => um_weight s' = Some (number_at ws h) /\ bks = dn' ++ bucket_list lib ws h b R
             end
          /\ (forall k, In k (List.concat dn') -> decided sa' k))
       \/ (r = Err OverflowError /\ overflows)).
  Proof.
    intros I. unfold um_bucket. pose proof (li_p _ _ _ _ _ _ I) as Ep. pose proof (li_q _ _ _ _ _ _ I) as Eq.
    pose proof (li_weight _ _ _ _ _ _ I) as W.
    destruct B as [|h b].
    - destruct W as [Ew ->]. rewrite Ew, (li_rel _ _ _ _ _ _ I). cbn [filter map um_flush]. unfold sbind, sret, smodify.
      symmetry in Eq. rewrite app_nil_r in Eq.
      eexists _, _. split; [reflexivity|]. left. split; [reflexivity|].
      assert (Ss : sub sa (List.concat dn)) by apply I. rewrite Eq in Ss. assert (sa = []).
      { apply sub_incl in Ss. destruct sa as [|z ?]; [reflexivity|]. destruct (Ss z (or_introl eq_refl)). }
      subst sa. exists [], [], []. cbn [um_out um_relevant um_ds um_weight filter map app List.concat].
      split; [reflexivity|]. split; [constructor|]. split; [apply I|]. split; [reflexivity|].
      split; [pose proof (li_good _ _ _ _ _ _ I) as G; rewrite Eq in G; exact G|].
      split; [intros k []|]. split; [|intros k []]. split; [reflexivity|]. rewrite Ep. reflexivity.
    - destruct W as [Ew Eb]. rewrite Ew. cbn [bucket_list] in Eb.
      change (n_ltb (NFloat (weight_epsilon lib)) (n_sub lib (number_at ws h) (number_at ws i))) with (far h i).
      destruct (far h i) eqn:Fi.
      + rewrite (li_rel _ _ _ _ _ _ I).
        assert (Bq : forall k, In k (List.concat dn ++ h :: b) -> k < n).
        { intros k Hk. apply Bp. rewrite Ep, in_app_iff. left. rewrite Eq. exact Hk. }
        destruct (um_flush_spec (filter (keepb (List.concat dn)) (h :: b)) s (List.concat dn)) as (s' & r & F & O).
        * intros k Hk. apply filter_In in Hk as [Hk _]. apply Bq. rewrite in_app_iff. auto.
        * intros k Hk. apply Bq. rewrite in_app_iff. auto.
        * apply I.
        * unfold sbind. rewrite F. destruct O as [(-> & W' & R' & O' & G')|(-> & O)].
          -- eexists _, _. split; [reflexivity|]. left. split; [reflexivity|].
             assert (Ec : List.concat (dn ++ [h :: b]) = List.concat dn ++ h :: b)
               by (rewrite concat_app; cbn [List.concat]; rewrite app_nil_r; reflexivity).
             exists (dn ++ [h :: b]), [], (sa ++ filter (keepb (List.concat dn)) (h :: b)). cbn [um_out um_relevant um_ds um_weight app].
             rewrite Ec.
             split; [rewrite app_nil_r; exact Eq|]. split; [apply sub_filter_app, I|].
             split; [rewrite O', map_app, (li_out _ _ _ _ _ _ I); reflexivity|].
             split; [reflexivity|]. split.
             ++ revert G'. apply good_ext. intros a b0. split.
                ** apply joined_incl. intros k. rewrite !in_app_iff, <- in_rev, filter_In. tauto.
                ** apply joined_mono. intros k Hk. apply in_app_iff in Hk as [Hk|Hk];
                     [apply joined_In, in_app_iff; auto|].
                   destruct (keepb (List.concat dn) k) eqn:K.
                   --- apply joined_In, in_app_iff. left. rewrite <- in_rev. apply filter_In. auto.
                   --- apply (joined_incl E (List.concat dn)); [intros z Hz; apply in_app_iff; auto|].
                       unfold keepb in K. destruct (joined_dec E (List.concat dn) (u k) (v k)); [assumption|discriminate].
             ++ split; [apply bucket_spans, I|]. split; [split; [reflexivity|]|].
                ** rewrite <- app_assoc. exact Eb.
                ** apply (bucket_decided dn (h :: b) sa (i :: R) (bucket_list lib ws i [] R)); try assumption; try apply I.
                   rewrite <- Eq. exact Ep.
          -- eexists _, _. split; [reflexivity|]. right. split; [reflexivity|].
             destruct (bucket_list lib ws i [] R) as [|b1 af] eqn:El.
             { exfalso. clear - El. assert (G : forall l h b, bucket_list lib ws h b l <> []).
               { induction l as [|x l IH]; intros h0 b0; cbn [bucket_list]; [discriminate|]. destruct (far h0 x); [discriminate|apply IH]. }
               exact (G R i [] El). }
             exists (dn ++ [h :: b]), b1, af. split; [rewrite <- app_assoc; exact Eb|].
             destruct O as [T A0]. split; [exact T|]. intros a b0 Ha Hb. specialize (A0 a b0 Ha Hb). revert A0.
             apply joined_incl. intros k Hk. rewrite in_app_iff, <- in_rev, filter_In in Hk.
             rewrite concat_app, in_app_iff. cbn [List.concat]. rewrite app_nil_r. tauto.
      + exists s, (Ok tt). split; [reflexivity|]. left. split; [reflexivity|].
        exists dn, (h :: b), sa. destruct I. do 6 (split; [assumption|]). split; [|assumption].
        cbn [app]. split; [exact Ew|exact Eb].
  Qed.

  Lemma um_edge_spec q i R s dn B sa :
    loop_inv q (i :: R) s dn B sa ->
    exists s' r, um_edge lib (number_at ws i, item i) s = (s', r) /\
      ((r = Ok tt /\ exists dn' B' sa', loop_inv (q ++ [i]) R s' dn' B' sa') \/ (r = Err OverflowError /\ overflows)).
  Proof.
    intros I. pose proof (li_p _ _ _ _ _ _ I) as Ep.
    assert (Bi : i < n) by (apply Bp; rewrite Ep; apply in_app_iff; right; left; reflexivity).
    destruct (um_bucket_spec q i R s dn B sa I) as (s1 & r & Eb & O).
    unfold um_edge. unfold sbind at 1. rewrite Eb. destruct O as [(-> & O)|(-> & O)]; [|eexists _, _; split; [reflexivity|right; auto]].
    destruct O as (dn' & B' & sa' & Eq & S & Ou & Re & G & Sp & Ew & D).
    unfold sbind, on_ds. rewrite (ITEM i Bi). destruct (NODES i Bi) as [Nu Nv].
    destruct (good_same _ _ _ _ G Nu Nv) as (d & b & Es & G' & Hb). rewrite Es.
    assert (Eq' : q ++ [i] = List.concat dn' ++ B' ++ [i]) by (rewrite Eq, app_assoc; reflexivity).
    assert (Ep' : p = (q ++ [i]) ++ R) by (rewrite <- app_assoc; exact Ep).
        assert (Re' : map item (filter (keepb (List.concat dn')) (B' ++ [i])) = if b then um_relevant s1 else um_relevant s1 ++ [item i]).
    { rewrite filter_app, map_app, <- Re. cbn [filter]. destruct (keepb (List.concat dn') i) eqn:K.
      - apply keepb_iff in K. destruct b; [exfalso; apply K, Hb; reflexivity|reflexivity].
      - destruct b; [apply app_nil_r|]. exfalso.
        assert (NJ : ~ J (List.concat dn') (u i) (v i)) by (intros H; apply Hb in H; discriminate).
        apply keepb_iff in NJ. congruence. }
    destruct b; (eexists _, _; split; [reflexivity|]; left; split; [reflexivity|]; exists dn', (B' ++ [i]), sa');
      constructor; cbn [um_out um_relevant um_ds um_weight]; try assumption; try (symmetry; exact Re');
      (destruct (B' ++ [i]) as [|h0 b0]; [destruct Ew|exact Ew]).
  Qed.

  Lemma um_loop_spec R : forall q s dn B sa, loop_inv q R s dn B sa ->
    exists s' r, um_loop lib (map (fun i => (number_at ws i, item i)) R) s = (s', r) /\
      ((r = Ok tt /\ exists dn' B' sa', loop_inv p [] s' dn' B' sa') \/ (r = Err OverflowError /\ overflows)).
  Proof.
    induction R as [|i R IH]; intros q s dn B sa I.
    - exists s, (Ok tt). split; [reflexivity|]. left. split; [reflexivity|]. exists dn, B, sa.
      pose proof (li_p _ _ _ _ _ _ I) as Ep. rewrite app_nil_r in Ep. rewrite Ep at 1. exact I.
    - cbn [map um_loop]. unfold sbind. destruct (um_edge_spec q i R s dn B sa I) as (s1 & r & Ee & O).
      rewrite Ee. destruct O as [(-> & dn' & B' & sa' & I')|(-> & O)]; [|eexists _, _; split; [reflexivity|right; auto]].
      apply (IH _ _ _ _ _ I').
  Qed.

  (** what is yielded, given the order [p] in which edges are considered *)
  Lemma um_result ds : NoDup N -> good ds [] ->
    exists s' r, um_loop lib (map (fun i => (number_at ws i, item i)) p) (mkUM ds None [] []) = (s', r) /\
      ((r = Ok tt /\ (exists sel, um_out s' ++ um_relevant s' = map item sel /\ sub sel p
          /\ (forall i, In i p -> J sel (u i) (v i)) /\ (forall i, In i p -> decided sel i)) /\ ~ overflows)
       \/ (r = Err OverflowError /\ overflows)).
  Proof.
    intros NDN G.
    destruct (um_loop_spec p [] (mkUM ds None [] []) [] [] []) as (s' & r & El & O).
    - constructor; cbn; try reflexivity; try (intros i []); [constructor|exact G|split; reflexivity].
    - exists s', r. split; [exact El|]. destruct O as [(-> & dn & B & sa & I)|O]; [left|right; exact O].
      split; [reflexivity|].
      pose proof (li_p _ _ _ _ _ _ I) as Ep. pose proof (li_q _ _ _ _ _ _ I) as Eq. pose proof (li_weight _ _ _ _ _ _ I) as W.
      split.
      2:{ destruct B as [|h b].
          - destruct W as [_ Z]. intros (dn' & b' & af & E' & _). unfold buckets in E'. rewrite Z in E'.
            destruct dn'; discriminate.
          - destruct W as [_ Eb]. cbn [bucket_list] in Eb. intros (dn' & b' & af & E' & T & A0).
            apply (not_full _ _ (li_good _ _ _ _ _ _ I) T NDN).
            intros x y Hx Hy. specialize (A0 x y Hx Hy). revert A0. apply joined_incl. intros k Hk.
            rewrite Eb in E'. apply app_eq_app in E' as (l & [[E1 E2]|[E1 E2]]).
            + rewrite E1, concat_app, in_app_iff. auto.
            + destruct l as [|x0 l]; [rewrite app_nil_r in E1; subst dn'; exact Hk|].
              injection E2 as _ E2. destruct l; discriminate. }
      exists (sa ++ filter (keepb (List.concat dn)) B).
      split; [rewrite (li_out _ _ _ _ _ _ I), (li_rel _ _ _ _ _ _ I), map_app; reflexivity|].
      split; [rewrite Eq at 1; apply sub_filter_app, I|]. split.
      + intros i Hi. rewrite Eq in Hi. revert i Hi. apply bucket_spans, I.
      + destruct B as [|h b].
        * destruct W as [_ Z]. rewrite Z. intros i [].
        * destruct W as [_ Eb]. cbn [bucket_list] in Eb. intros i Hi. rewrite Eq in Hi. revert i Hi.
          apply (bucket_decided dn (h :: b) sa [] []); try assumption; try apply I.
          rewrite <- Eq, app_nil_r. reflexivity.
  Qed.
End Sets.

(** ** sorting *)
Section Sorting.
  Context (ws : list pynum) (item : nat -> edge3).
  Notation f := (fun i => (number_at ws i, item i)).
  Notation val i := (value (number_at ws i)).

  Lemma insert_sorted i q : StronglySorted (precedes ws) q -> (forall j, In j q -> i < j) ->
    exists q', insert_weight (f i) (map f q) = map f q' /\ Permutation (i :: q) q' /\ StronglySorted (precedes ws) q'.
  Proof.
    induction q as [|j q IH]; intros S L; cbn [map insert_weight fst].
    - exists [i]. split; [reflexivity|]. split; [reflexivity|]. repeat constructor.
    - apply StronglySorted_inv in S as [S F]. rewrite Forall_forall in F. unfold n_leb. destruct (q_leb (val j) (val i)) eqn:C.
      + exists (i :: j :: q). split; [reflexivity|]. split; [reflexivity|]. apply Qle_bool_iff in C.
        assert (P : precedes ws i j).
        { specialize (L j (or_introl eq_refl)). unfold precedes. destruct (Qlt_le_dec (val j) (val i)); [auto|right]. split; [lra|exact L]. }
        constructor; [constructor; [exact S|apply Forall_forall, F]|]. constructor; [exact P|]. apply Forall_forall. intros k Hk. specialize (F k Hk).
        assert (Lk : i < k) by (apply L; right; exact Hk). unfold precedes in *.
        destruct P as [P|[P _]], F as [F|[F _]]; [left|left|left|right]; try split; try lra; exact Lk.
      + destruct IH as (q' & -> & P & S'); [exact S|intros k Hk; apply L; right; exact Hk|].
        exists (j :: q'). split; [reflexivity|]. split; [rewrite perm_swap; constructor; exact P|].
        constructor; [exact S'|]. apply Forall_forall. intros k Hk. apply (Permutation_in _ (Permutation_sym P)) in Hk as [<-|Hk]; [|apply F, Hk].
        left. apply Qnot_le_lt. intros K. apply Qle_bool_iff in K. unfold q_leb in C. congruence.
  Qed.

  Lemma sort_order n : forall k, exists p, sort_weights (map f (seq k n)) = map f p /\ Permutation (seq k n) p /\ StronglySorted (precedes ws) p.
  Proof.
    induction n as [|n IH]; intros k; [exists []; split; [reflexivity|split; constructor]|].
    destruct (IH (S k)) as (p & E & P & S). cbn [seq map sort_weights fold_right].
    change (fold_right insert_weight [] (map f (seq (Datatypes.S k) n))) with (sort_weights (map f (seq (Datatypes.S k) n))). rewrite E.
    destruct (insert_sorted k p S) as (q & E' & P' & S').
    - intros j Hj. apply (Permutation_in _ (Permutation_sym P)), in_seq in Hj. lia.
    - exists q. split; [exact E'|]. split; [rewrite <- P'; constructor; exact P|exact S'].
  Qed.
End Sorting.

(** ** a graph *)
Definition item_of (g : graph) (i : nat) : edge3 := nth i (edges_data g) (KInt 0, KInt 0, []).

Lemma map_item g : map (item_of g) (seq 0 (List.length (edges_data g))) = edges_data g.
Proof.
  unfold item_of. induction (edges_data g) as [|e l IH]; [reflexivity|]. cbn [List.length seq map nth]. f_equal.
  rewrite <- seq_shift, map_map. exact IH.
Qed.

Lemma make_total pf n : (Z.of_nat n <= 2 ^ 64)%Z -> exists d, make_ds pf n = Ok d.
Proof.
  intros H. unfold make_ds, make, uint_representation_for_capacity, uint_representation_for_max.
  cbn [List.find uint_representations rep_max fst].
  repeat match goal with |- context [Z.leb ?a ?b] => destruct (Z.leb_spec a b) end; cbn; eauto. lia.
Qed.

Lemma we_list_length attr es E : weighted_edges attr es E -> List.length es = List.length E.
Proof. induction 1; cbn; congruence. Qed.
Lemma we_list_ends attr es E : weighted_edges attr es E -> map fst es = map fst E.
Proof. induction 1 as [|? ? ? ? [H _] F IH]; cbn; congruence. Qed.
Lemma we_list_nth attr es E : weighted_edges attr es E -> forall i, i < List.length E ->
  fst (nth i es (KInt 0, KInt 0, [])) = edge_at E i /\ edge_weight attr (snd (nth i es (KInt 0, KInt 0, []))) = Some (weight_at E i).
Proof.
  unfold edge_at, weight_at. induction 1 as [|e x l l' [H1 H2] F IH]; intros [|i] Hi; cbn [List.length] in Hi; try lia; cbn [nth]; [auto|].
  apply IH. lia.
Qed.

Lemma edge_number_weight attr a q : edge_weight attr a = Some q <-> exists n, edge_number attr a = Some n /\ value n = q.
Proof.
  unfold edge_weight, edge_number. destruct (dget attr a) as [v|]; [apply value_number|].
  split; [intros H; exists (NInt 1); split; [reflexivity|]; injection H as <-; reflexivity|].
  intros (n & H & <-). injection H as <-. reflexivity.
Qed.

Lemma numbers_exist attr es E : weighted_edges attr es E -> exists ws, edge_numbers attr es ws.
Proof.
  induction 1 as [|e x l l' [_ H] F (ws & IH)]; [exists []; constructor|].
  apply edge_number_weight in H as (n & H & _). exists (n :: ws). constructor; assumption.
Qed.
Lemma edge_numbers_length attr es ws : edge_numbers attr es ws -> List.length es = List.length ws.
Proof. induction 1; cbn; congruence. Qed.
Lemma edge_numbers_nth attr es ws : edge_numbers attr es ws -> forall i, i < List.length ws ->
  edge_number attr (snd (nth i es (KInt 0, KInt 0, []))) = Some (number_at ws i).
Proof.
  unfold number_at. induction 1 as [|e x l l' H F IH]; intros [|i] Hi; cbn [List.length] in Hi; try lia; cbn [nth]; [auto|].
  apply IH. lia.
Qed.

(** ** cutting in buckets *)
Section Cutting.
  Context (lib : libm) (ws : list pynum).

  Lemma bucket_list_concat l : forall h b, List.concat (bucket_list lib ws h b l) = h :: b ++ l.
  Proof.
    induction l as [|i l IH]; intros h b; cbn [bucket_list].
    - cbn. rewrite app_nil_r. reflexivity.
    - destruct (python_far lib ws h i); [cbn [List.concat]; rewrite IH; reflexivity|]. rewrite IH, <- app_assoc. reflexivity.
  Qed.
  Lemma buckets_concat p : List.concat (buckets lib ws p) = p.
  Proof. destruct p as [|h p]; [reflexivity|]. apply bucket_list_concat. Qed.

  Context (E : list (key * key * Q)) (FI : fine lib).
  Notation rnd := (m_round lib).
  Notation w := (weight_at E).
  Notation n := (List.length E).
  Context (FAR : forall i j, i < n -> j < n -> (python_far lib ws i j = true <-> far_below rnd (w i) (w j))).
  Context (p : list nat) (PP : Permutation (seq 0 n) p) (SP : StronglySorted (fun i j => (w j <= w i)%Q) p).
  Notation start := (bucket_start E rnd).

  Lemma p_In i : In i p <-> i < n.
  Proof.
    split; intros Hi.
    - apply (Permutation_in _ (Permutation_sym PP)), in_seq in Hi. lia.
    - apply (Permutation_in _ PP), in_seq. lia.
  Qed.

  Lemma sorted_after (q r : list nat) i : p = q ++ i :: r -> forall j, In j r -> (w j <= w i)%Q.
  Proof.
    intros Ep. rewrite Ep in SP. clear - SP. induction q as [|x q IH]; cbn [app] in SP; apply StronglySorted_inv in SP as [S F].
    - rewrite Forall_forall in F. exact F.
    - apply IH, S.
  Qed.

  Lemma bucket_list_spec l : forall h b pre, p = pre ++ (h :: b) ++ l -> start (w h) ->
    (forall j, In j pre -> (w h < w j)%Q) -> (forall j, In j (h :: b) -> ~ far_below rnd (w h) (w j)) ->
    forall dn c af, bucket_list lib ws h b l = dn ++ c :: af ->
    exists h' b', c = h' :: b' /\ start (w h') /\ (forall j, In j c -> (w j <= w h')%Q /\ ~ far_below rnd (w h') (w j))
      /\ (forall j, In j (pre ++ List.concat dn) -> (w h' < w j)%Q).
  Proof.
    assert (RN : rounding rnd) by apply FI.
    assert (Last : forall h b l pre, p = pre ++ (h :: b) ++ l -> (forall j, In j (h :: b) -> ~ far_below rnd (w h) (w j)) ->
      forall j, In j (h :: b) -> (w j <= w h)%Q /\ ~ far_below rnd (w h) (w j)).
    { intros h b l0 pre Ep Hb j Hj. split; [|apply Hb, Hj]. destruct Hj as [<-|Hj]; [apply Qle_refl|].
      apply (sorted_after pre (b ++ l0)); [exact Ep|]. apply in_app_iff. auto. }
    induction l as [|i l IH]; intros h b pre Ep St Hp Hb dn c af El; cbn [bucket_list] in El.
    - destruct dn as [|? [|]]; try discriminate. injection El as <- _. exists h, b.
      split; [reflexivity|]. split; [exact St|]. split; [apply (Last _ _ _ _ Ep Hb)|]. rewrite app_nil_r. exact Hp.
    - assert (Bh : h < n) by (apply p_In; rewrite Ep, in_app_iff; right; left; reflexivity).
      assert (Bi : i < n) by (apply p_In; rewrite Ep, !in_app_iff; right; right; left; reflexivity).
      destruct (python_far lib ws h i) eqn:Fi.
      + apply FAR in Fi; [|assumption..]. destruct dn as [|d dn].
        * injection El as <- _. exists h, b. split; [reflexivity|]. split; [exact St|].
          split; [apply (Last _ _ _ _ Ep Hb)|]. rewrite app_nil_r. exact Hp.
        * injection El as <- El.
          specialize (IH i [] (pre ++ h :: b)). destruct IH with (dn := dn) (c := c) (af := af) as (h' & b' & Ec & S' & Hc & Hd).
          -- rewrite <- app_assoc. exact Ep.
          -- apply (next_start E rnd (w h) i St Bi Fi). intros j Bj Fj. apply p_In in Bj. rewrite Ep in Bj.
             rewrite !in_app_iff in Bj. destruct Bj as [Bj|[Bj|[<-|Bj]]]; [| |apply Qle_refl|].
             ++ apply Hp in Bj. apply (far_lt _ RN) in Fj. lra.
             ++ destruct (Hb j Bj Fj).
             ++ apply (sorted_after (pre ++ h :: b) l); [rewrite <- app_assoc; exact Ep|exact Bj].
          -- assert (Hb' : forall j, In j (h :: b) -> ~ (w j <= w i)%Q).
             { intros j Hj L. apply (Hb j Hj). revert Fi. apply far_mono; [exact RN|apply Qle_refl|exact L]. }
             apply (far_lt _ RN) in Fi.
             intros j Hj. apply in_app_iff in Hj as [Hj|Hj]; [apply Hp in Hj; lra|]. specialize (Hb' j Hj). lra.
          -- intros j [<-|[]]. apply (far_irr _ RN). apply Qle_refl.
          -- exact El.
          -- exists h', b'. split; [exact Ec|]. split; [exact S'|]. split; [exact Hc|]. cbn [List.concat].
             intros j Hj. apply Hd. rewrite !in_app_iff in *. tauto.
      + apply (IH h (b ++ [i]) pre) with (af := af); try assumption.
        * rewrite Ep. cbn [app]. rewrite <- app_assoc. reflexivity.
        * intros j [<-|Hj]; [apply (far_irr _ RN), Qle_refl|]. apply in_app_iff in Hj as [Hj|[<-|[]]]; [apply Hb; right; exact Hj|].
          intros F. apply FAR in F; [congruence|assumption..].
  Qed.

  Lemma buckets_spec dn c af : buckets lib ws p = dn ++ c :: af ->
    exists h b, c = h :: b /\ start (w h) /\ (forall j, In j c -> (w j <= w h)%Q /\ ~ far_below rnd (w h) (w j))
      /\ (forall j, In j (List.concat dn) <-> In j (above E (w h))).
  Proof.
    intros Eb. assert (RN : rounding rnd) by apply FI.
    assert (X : exists h' b', c = h' :: b' /\ start (w h') /\ (forall j, In j c -> (w j <= w h')%Q /\ ~ far_below rnd (w h') (w j))
      /\ (forall j, In j (List.concat dn) -> (w h' < w j)%Q)).
    { assert (Hp : p = [] \/ exists h l, p = h :: l) by (clear; destruct p; eauto).
      destruct Hp as [Hp|(h & l & Hp)]; rewrite Hp in Eb; [destruct dn; discriminate|]. cbn [buckets] in Eb.
      apply (bucket_list_spec l h [] []) with (af := af).
      - exact Hp.
      - apply first_start; [apply p_In; rewrite Hp; left; reflexivity|]. intros j Bj. apply p_In in Bj. rewrite Hp in Bj.
        destruct Bj as [<-|Bj]; [apply Qle_refl|]. apply (sorted_after [] l); [exact Hp|exact Bj].
      - intros j [].
      - intros j [<-|[]]. apply (far_irr _ RN), Qle_refl.
      - exact Eb. }
    destruct X as (h & b & Ec & S & Hc & Hd). exists h, b. split; [exact Ec|]. split; [exact S|]. split; [exact Hc|].
    assert (Ep : p = List.concat dn ++ h :: b ++ List.concat af).
    { rewrite <- (buckets_concat p), Eb, concat_app. cbn [List.concat]. rewrite Ec. reflexivity. }
    intros j. rewrite above_In. split.
    - intros Hj. split; [apply p_In; rewrite Ep, in_app_iff; auto|apply Hd, Hj].
    - intros [Bj Wj]. apply p_In in Bj. rewrite Ep in Bj. apply in_app_iff in Bj as [Bj|[<-|Bj]]; [exact Bj|lra|].
      pose proof (sorted_after _ _ _ Ep j Bj). lra.
  Qed.

  Lemma buckets_In i : i < n -> exists dn c af, buckets lib ws p = dn ++ c :: af /\ In i c.
  Proof.
    intros Bi. apply p_In in Bi. rewrite <- (buckets_concat p) in Bi. apply in_concat in Bi as (c & Hc & Hi).
    apply in_split in Hc as (dn & af & Hc). eauto.
  Qed.

  (** each start is the one of some bucket *)
  Lemma start_bucket c : start c -> exists dn h b af, buckets lib ws p = dn ++ (h :: b) :: af /\ (c == w h)%Q.
  Proof.
    intros S. assert (RN : rounding rnd) by apply FI. destruct (start_weight E rnd c S) as (i & Bi & Ei).
    destruct (buckets_In i Bi) as (dn & x & af & Eb & Hi). destruct (buckets_spec _ _ _ Eb) as (h & b & -> & Sh & Hc & _).
    exists dn, h, b, af. split; [exact Eb|]. destruct (Hc i Hi) as [Wi Fi]. rewrite <- Ei in *.
    destruct (start_apart E rnd RN c (w h) S Sh) as [H|[H|H]]; [exact H| |contradiction].
    apply (far_lt _ RN) in H. lra.
  Qed.
End Cutting.

Section Graph.
  Context (lib : libm) (pf : platform) (g : graph) (attr : key) (E : list (key * key * Q)) (ws : list pynum).
  Context (W : WF g) (WE : weighted_edges attr (edges_data g) E) (EN : edge_numbers attr (edges_data g) ws).
  Notation n := (List.length E).

  Lemma we_length : List.length (edges_data g) = n.
  Proof. apply (we_list_length _ _ _ WE). Qed.
  Lemma we_nth i : i < n -> fst (item_of g i) = edge_at E i /\ edge_weight attr (snd (item_of g i)) = Some (weight_at E i).
  Proof. apply (we_list_nth _ _ _ WE). Qed.
  Lemma we_ends : map fst (edges_data g) = map fst E.
  Proof. apply (we_list_ends _ _ _ WE). Qed.

  Lemma we_nodes i : i < n -> In (fst (edge_at E i)) (nodes g) /\ In (snd (edge_at E i)) (nodes g).
  Proof.
    intros Hi. destruct (we_nth i Hi) as [<- _].
    assert (I : In (item_of g i) (edges_data g)) by (apply nth_In; rewrite we_length; exact Hi).
    destruct (item_of g i) as [[a b] d] eqn:Ei. cbn [fst snd].
    apply edges_data_In in I as (k & I). apply edges_keys_In in I as (kd & I & _).
    apply (edges_nodes g a b W). unfold edges. apply in_map_iff. exists (a, b, kd). auto.
  Qed.

  Lemma sub_sorted (R : nat -> nat -> Prop) l m : sub l m -> StronglySorted R m -> StronglySorted R l.
  Proof.
    assert (Sn : forall x m, StronglySorted R (m ++ [x]) <-> StronglySorted R m /\ Forall (fun y => R y x) m).
    { intros x m0. induction m0 as [|y m0 IH].
      - split; [split; constructor|intros _; repeat constructor].
      - cbn [app]. split.
        + intros S. apply StronglySorted_inv in S as [S F]. apply IH in S as [S S'].
          apply Forall_app in F as [F F']. inversion F'; subst. split; constructor; assumption.
        + intros [S F]. apply StronglySorted_inv in S as [S F1]. inversion F; subst. constructor; [apply IH; auto|].
          apply Forall_app. split; [exact F1|constructor; [assumption|constructor]]. }
    induction 1 as [|x l0 m0 H0 IHsub|x l0 m0 H0 IHsub]; intros S; [constructor| |].
    - apply IHsub. apply Sn in S. apply S.
    - apply Sn in S as [S F]. apply Sn. split; [apply IHsub, S|]. rewrite Forall_forall in *.
      intros y Hy. apply F, (sub_incl _ _ H0), Hy.
  Qed.

  Lemma ws_length : List.length ws = n.
  Proof. rewrite <- (edge_numbers_length _ _ _ EN). apply we_length. Qed.
  Lemma ws_nth i : i < n -> edge_number attr (snd (item_of g i)) = Some (number_at ws i) /\ value (number_at ws i) = weight_at E i.
  Proof.
    intros Hi. assert (H : edge_number attr (snd (item_of g i)) = Some (number_at ws i)).
    { apply (edge_numbers_nth _ _ _ EN). rewrite ws_length. exact Hi. }
    split; [exact H|]. destruct (we_nth i Hi) as [_ Hw]. apply edge_number_weight in Hw as (m & Hm & <-). congruence.
  Qed.

  Definition heavier_first : nat -> nat -> Prop := fun a b => (weight_at E b <= weight_at E a)%Q.

  Definition ends_ok (p sel : list nat) : Prop :=
    NoDup sel /\ (forall i, In i sel -> i < n) /\ StronglySorted (precedes ws) sel
    /\ (forall i, i < n -> joined E sel (fst (edge_at E i)) (snd (edge_at E i)))
    /\ (forall i, i < n -> decided E lib ws p sel i).
  Definition joins_all (P : list nat) : Prop := forall a b, In a (nodes g) -> In b (nodes g) -> joined E P a b.
  Definition overflowing (p : list nat) : Prop :=
    tight_capacity pf (order g) /\ exists dn b af, buckets lib ws p = dn ++ b :: af /\ joins_all (List.concat dn).

  Lemma ordered_heavier p : (forall i, In i p -> i < n) -> StronglySorted (precedes ws) p -> StronglySorted heavier_first p.
  Proof.
    intros B. induction 1 as [|i p S IH F]; [constructor|]. constructor; [apply IH; intros j Hj; apply B; right; exact Hj|].
    rewrite Forall_forall in *. intros j Hj. specialize (F j Hj). unfold precedes in F. unfold heavier_first.
    rewrite (proj2 (ws_nth i (B i (or_introl eq_refl)))), (proj2 (ws_nth j (B j (or_intror Hj)))) in F. destruct F as [F|[F _]]; lra.
  Qed.

  Lemma umst_spec :
    let U := union_of_maximum_spanning_trees lib pf g attr in
    exists p, sorted_positions ws p /\
    ((exists sel, U = Ok (at_positions (edges_data g) sel) /\ ends_ok p sel /\ ~ overflowing p)
    \/ (U = Err OverflowError /\ overflowing p)
    \/ (U = Err TypeError /\ (2 ^ 64 < Z.of_nat (order g))%Z)).
  Proof.
    cbn zeta. unfold union_of_maximum_spanning_trees, umst_run.
    destruct (Nat.eqb_spec (size g) 0) as [Z|Z].
    { rewrite size_edges_data, we_length in Z. exists []. unfold sorted_positions. rewrite ws_length, Z.
      split; [split; constructor|]. left. exists []. split; [reflexivity|].
      split; [|intros (_ & dn & b & af & S & _); destruct dn; discriminate].
      split; [constructor|]. split; [intros i []|]. split; [constructor|]. split; intros i Hi; lia. }
    rewrite size_edges_data, we_length in Z.
    assert (M : mapM (fun e => let* w := weight_of attr (snd e) in Ok (w, e)) (edges_data g)
                = Ok (map (fun i => (number_at ws i, item_of g i)) (seq 0 n))).
    { rewrite <- (map_item g) at 1. rewrite we_length.
      transitivity (mapM (fun i => Ok (number_at ws i, item_of g i)) (seq 0 n)).
      - assert (B : forall i, In i (seq 0 n) -> i < n) by (intros i Hi; apply in_seq in Hi; lia).
        induction (seq 0 n) as [|i l IH]; [reflexivity|]. cbn [map mapM].
        rewrite IH by (intros k Hk; apply B; right; exact Hk).
        destruct (ws_nth i (B i (or_introl eq_refl))) as [Hw _].
        unfold edge_number in Hw. unfold weight_of, as_number. destruct (dget attr (snd (item_of g i))) as [x|].
        + rewrite Hw. reflexivity.
        + injection Hw as <-. reflexivity.
      - apply mapM_Ok. reflexivity. }
    rewrite M.
    destruct (sort_order ws (item_of g) n 0) as (p & Ep & Pp & So).
    exists p. split; [unfold sorted_positions; rewrite ws_length; split; assumption|].
    destruct (make_ds pf (order g)) as [d|e] eqn:Ed.
    2:{ right. right. destruct (Z_le_gt_dec (Z.of_nat (order g)) (2 ^ 64)) as [L|L].
        - destruct (make_total pf (order g) L) as (d & K). congruence.
        - split; [|lia]. unfold make_ds, make in Ed. rewrite bind_Err in Ed.
          unfold uint_representation_for_capacity, uint_representation_for_max in Ed.
          destruct Ed as [Ed|(x & _ & Ed)]; [|discriminate]. apply bind_Err in Ed as [Ed|(x & _ & Ed)]; [|discriminate].
          destruct (List.find _ _); [discriminate|]. injection Ed as <-. reflexivity. }
    rewrite Ep.
    assert (IP : forall i, In i p <-> i < n).
    { intros i. split; intros Hi.
      - apply (Permutation_in _ (Permutation_sym Pp)), in_seq in Hi. lia.
      - apply (Permutation_in _ Pp), in_seq. lia. }
    assert (NDp : NoDup p) by apply (Permutation_NoDup Pp), seq_NoDup.
    assert (G : good (nodes g) (item_limit (ds_uf d)) d []).
    { destruct (DInv_init _ _ _ Ed) as [D C]. exists [], 0. split; [exact D|].
      split; [rewrite C; unfold order, nodes, dkeys; rewrite map_length; reflexivity|]. split; [reflexivity|].
      split; [|reflexivity]. unfold make_ds in Ed. apply bind_Ok in Ed as (x & _ & Ed). injection Ed as <-.
      intros z []. }
    destruct (um_result (nodes g) (item_limit (ds_uf d)) E (item_of g) (fun i Hi => proj1 (we_nth i Hi)) we_nodes
      lib ws p NDp (fun i Hi => proj1 (IP i) Hi) d (wf_nodes g W) G) as (s & r & Er & O).
    assert (Em : exists u0, make pf (order g) = Ok u0 /\ ds_uf d = u0).
    { unfold make_ds in Ed. apply bind_Ok in Ed as (x & Ex & Ed). injection Ed as <-. eauto. }
    destruct Em as (u0 & Em & Eu).
    assert (Ov : overflows (nodes g) (item_limit (ds_uf d)) E lib ws p <-> overflowing p).
    { assert (T : Z.of_nat (List.length (nodes g)) = (item_limit (ds_uf d) + 1)%Z <-> tight_capacity pf (order g)).
      { rewrite <- (make_limit _ _ _ Em), <- Eu. unfold order, nodes, dkeys. rewrite map_length. reflexivity. }
      split.
      - intros (dn & b & af & S & T' & A). split; [apply T, T'|]. exists dn, b, af. auto.
      - intros (T' & dn & b & af & S & A). exists dn, b, af. split; [exact S|]. split; [apply T, T'|exact A]. }
    rewrite Er. destruct O as [(-> & (sel & Es & S & Sp & D) & NO)|(-> & O)].
    - left. exists sel. rewrite Es. split; [reflexivity|]. split; [|intros H; apply NO, Ov, H].
      split; [apply (sub_NoDup _ _ S), NDp|].
      split; [intros i Hi; apply IP, (sub_incl _ _ S), Hi|].
      split; [apply (sub_sorted _ _ _ S), So|].
      split; [intros i Hi; apply Sp, IP, Hi|]. intros i Hi. apply D, IP, Hi.
    - right. left. split; [reflexivity|apply Ov, O].
  Qed.

  (** C26, C27 *)
  Lemma umst_any out : union_of_maximum_spanning_trees lib pf g attr = Ok out ->
    exists p sel, sorted_positions ws p /\ out = at_positions (edges_data g) sel /\ NoDup sel
      /\ StronglySorted (precedes ws) sel /\ (forall i, In i sel -> i < n)
      /\ (forall a b, joined E sel a b <-> closure (map fst E) a b)
      /\ (forall i, In i sel -> fst (edge_at E i) <> snd (edge_at E i))
      /\ (forall dn b af i, buckets lib ws p = dn ++ b :: af -> In i b ->
           (In i sel <-> ~ joined E (List.concat dn) (fst (edge_at E i)) (snd (edge_at E i)))).
  Proof.
    intros U. pose proof umst_spec as H. cbn zeta in H. rewrite U in H.
    destruct H as (p & Hp & [(sel & Eo & (N & B & S & Sp & D) & _)|[[? _]|[? _]]]); try discriminate.
    injection Eo as ->. exists p, sel. split; [exact Hp|]. split; [reflexivity|]. split; [exact N|]. split; [exact S|]. split; [exact B|].
    split; [|split].
    - intros a b. split.
      + rewrite edges_all. apply joined_incl. intros i Hi. apply in_seq. specialize (B i Hi). lia.
      + rewrite edges_all. apply joined_mono. intros i Hi. apply in_seq in Hi. apply Sp. lia.
    - intros i Hi Eq. destruct (D i (B i Hi)) as (dn & b & af & _ & _ & K).
      apply K in Hi. apply Hi. rewrite Eq. apply closure_refl.
    - intros dn b af i Eb Hi. destruct Hp as [Pp _]. rewrite ws_length in Pp.
      assert (ND : NoDup (List.concat (buckets lib ws p))).
      { rewrite buckets_concat. apply (Permutation_NoDup Pp), seq_NoDup. }
      assert (Bi : i < n).
      { assert (Ip : In i p) by (rewrite <- (buckets_concat lib ws p), Eb, concat_app, in_app_iff; right; cbn [List.concat]; apply in_app_iff; auto).
        apply (Permutation_in _ (Permutation_sym Pp)), in_seq in Ip. lia. }
      destruct (D i Bi) as (dn' & b' & af' & Eb' & Hi' & K). rewrite K.
      assert (dn' = dn) as ->; [|reflexivity]. rewrite Eb in Eb', ND. clear - Eb' ND Hi Hi'.
      revert dn' Eb' ND. induction dn as [|x dn IH]; intros [|x' dn'] Eb' ND; cbn [app List.concat] in *; try reflexivity.
      + injection Eb' as -> Eb'. exfalso. apply (NoDup_parts _ _ i ND Hi). rewrite Eb', concat_app, in_app_iff. right. cbn [List.concat]. apply in_app_iff. auto.
      + injection Eb' as -> Eb'. exfalso. apply (NoDup_parts _ _ i ND Hi'). rewrite concat_app, in_app_iff. right. cbn [List.concat]. apply in_app_iff. auto.
      + injection Eb' as -> Eb'. f_equal. apply IH; [exact Eb'|]. clear - ND. induction x' as [|y l IH']; [exact ND|]. cbn [app] in ND. inversion ND; auto.
  Qed.

  (** ** weights which Python compares as the numbers they are *)
  Context (FI : fine lib) (AL : alike lib attr (edges_data g)).
  Notation rnd := (m_round lib).

  Lemma far_exact i j : i < n -> j < n -> (python_far lib ws i j = true <-> far_below rnd (weight_at E i) (weight_at E j)).
  Proof.
    intros Bi Bj. destruct FI as [RN E1]. unfold python_far, far_below, n_ltb.
    destruct (ws_nth i Bi) as [Ni <-], (ws_nth j Bj) as [Nj <-]. cbn [value]. rewrite q_ltb_true.
    assert (In_ : forall k, k < n -> In (item_of g k) (edges_data g)) by (intros k Hk; apply nth_In; rewrite we_length; exact Hk).
    destruct AL as [A|A].
    - destruct (A _ (In_ i Bi)) as (a & Ha). destruct (A _ (In_ j Bj)) as (b & Hb). rewrite Ni in Ha. rewrite Nj in Hb.
      injection Ha as ->. injection Hb as ->. unfold n_sub. cbn [value].
      assert (Q1 : (inject_Z a - inject_Z b == inject_Z (a - b))%Q) by (unfold Qminus, Z.sub; rewrite inject_Z_plus, inject_Z_opp; reflexivity).
      rewrite (rnd_eq _ RN _ _ Q1).
      assert (P0 := eps_nonneg rnd RN). destruct (Z_lt_le_dec 0 (a - b)) as [L|L].
      + assert (L1 : (1 <= inject_Z (a - b))%Q) by (change 1%Q with (inject_Z 1); rewrite <- Zle_Qle; lia).
        assert (L2 := rnd_le _ RN _ _ L1). pose proof (rnd_1 _ RN). split; intros _; lra.
      + assert (L1 : (inject_Z (a - b) <= 0)%Q) by (change 0%Q with (inject_Z 0); rewrite <- Zle_Qle; lia).
        assert (L2 := rnd_le _ RN _ _ L1). pose proof (rnd_0 _ RN). split; intros; lra.
    - assert (Ri := A _ _ (In_ i Bi) Ni). assert (Rj := A _ _ (In_ j Bj) Nj).
      unfold representable in *. unfold n_sub. destruct (number_at ws i) as [a|a], (number_at ws j) as [b|b]; cbn [value to_float] in *.
      1:{ assert (Q1 : (inject_Z a - inject_Z b == inject_Z (a - b))%Q) by (unfold Qminus, Z.sub; rewrite inject_Z_plus, inject_Z_opp; reflexivity).
          rewrite (rnd_eq _ RN _ _ Q1).
          assert (P0 := eps_nonneg rnd RN). destruct (Z_lt_le_dec 0 (a - b)) as [L|L].
          + assert (L1 : (1 <= inject_Z (a - b))%Q) by (change 1%Q with (inject_Z 1); rewrite <- Zle_Qle; lia).
            assert (L2 := rnd_le _ RN _ _ L1). pose proof (rnd_1 _ RN). split; intros _; lra.
          + assert (L1 : (inject_Z (a - b) <= 0)%Q) by (change 0%Q with (inject_Z 0); rewrite <- Zle_Qle; lia).
            assert (L2 := rnd_le _ RN _ _ L1). pose proof (rnd_0 _ RN). split; intros; lra. }
      all: match goal with |- (_ < ?x)%Q <-> (_ < ?y)%Q => assert (Q1 : (x == y)%Q) by (apply (rnd_eq _ RN); clear - Ri Rj; lra) end; clear - Q1; split; intros; lra.
  Qed.

  Lemma sorted_position_facts p : sorted_positions ws p -> Permutation (seq 0 n) p /\ StronglySorted heavier_first p.
  Proof.
    intros [P S]. rewrite ws_length in P. split; [exact P|]. apply ordered_heavier; [|exact S].
    intros i Hi. apply (Permutation_in _ (Permutation_sym P)), in_seq in Hi. lia.
  Qed.

  (** the edges yielded, exactly *)
  Lemma umst_buckets out : union_of_maximum_spanning_trees lib pf g attr = Ok out ->
    exists sel, out = at_positions (edges_data g) sel /\ NoDup sel
      /\ forall i, In i sel <-> i < n /\ exists c, bucket_start E rnd c
           /\ (weight_at E i <= c)%Q /\ ~ far_below rnd c (weight_at E i)
           /\ ~ joined E (above E c) (fst (edge_at E i)) (snd (edge_at E i)).
  Proof.
    intros U. destruct (umst_any out U) as (p & sel & Hp & Eo & N & S & B & _ & _ & D). exists sel.
    split; [exact Eo|]. split; [exact N|]. destruct (sorted_position_facts p Hp) as [Pp Sp]. assert (RN : rounding rnd) by apply FI.
    assert (Bk : forall i, i < n -> exists c, bucket_start E rnd c /\ (weight_at E i <= c)%Q /\ ~ far_below rnd c (weight_at E i)
      /\ (In i sel <-> ~ joined E (above E c) (fst (edge_at E i)) (snd (edge_at E i)))).
    { intros i Bi. destruct (buckets_In lib ws E p Pp i Bi) as (dn & b & af & Eb & Hi).
      destruct (buckets_spec lib ws E FI far_exact p Pp Sp _ _ _ Eb) as (h & b' & -> & St & Hb & Hd).
      exists (weight_at E h). destruct (Hb i Hi) as [H1 H2]. split; [exact St|]. split; [exact H1|]. split; [exact H2|].
      rewrite (D _ _ _ i Eb Hi). split; intros NJ J; apply NJ; revert J; apply joined_incl; intros j; apply Hd. }
    intros i. split.
    - intros Hi. pose proof (B i Hi) as Bi. split; [exact Bi|].
      destruct (Bk i Bi) as (c & S1 & W1 & F1 & K). exists c. do 3 (split; [assumption|]). apply K, Hi.
    - intros (Bi & c & Sc & Wi & Fi & NJ). destruct (Bk i Bi) as (c' & Sc' & Wi' & Fi' & K). apply K.
      intros J. apply NJ. revert J. apply joined_incl. intros j. rewrite !above_In.
      intros [Bj Wj]. split; [exact Bj|]. destruct (start_apart E rnd RN c c' Sc Sc') as [H0|[H0|H0]]; [lra| |].
      + exfalso. apply Fi. revert H0. apply far_mono; [exact RN|apply Qle_refl|exact Wi'].
      + exfalso. apply Fi'. revert H0. apply far_mono; [exact RN|apply Qle_refl|exact Wi].
  Qed.

  (** C25, C26 *)
  Lemma umst_covers out : union_of_maximum_spanning_trees lib pf g attr = Ok out ->
    exists sel, out = at_positions (edges_data g) sel /\ NoDup sel
      /\ (forall i, in_some_msf E i -> In i sel)
      /\ (separated E rnd -> forall i, In i sel -> in_some_msf E i).
  Proof.
    intros U. destruct (umst_buckets out U) as (sel & Eo & N & K). exists sel. split; [exact Eo|]. split; [exact N|].
    assert (RN : rounding rnd) by apply FI.
    assert (MB : forall i, in_some_msf E i -> i < n) by (intros i (T & [F _] & I); apply (sf_edges _ _ F), I).
    destruct (umst_any out U) as (p & _ & Hp & _). destruct (sorted_position_facts p Hp) as [Pp Sp].
    split.
    - intros i H. pose proof (MB i H) as Bi. apply in_some_msf_iff in H; [|exact Bi]. apply K. split; [exact Bi|].
      destruct (buckets_In lib ws E p Pp i Bi) as (dn & b & af & Eb & Hi).
      destruct (buckets_spec lib ws E FI far_exact p Pp Sp _ _ _ Eb) as (h & b' & -> & St & Hb & _).
      destruct (Hb i Hi) as [H1 H2]. exists (weight_at E h). do 3 (split; [assumption|]).
      intros J. apply H. revert J. apply joined_incl.
      intros j Hj. apply heavier_In. apply above_In in Hj as [Bj Wj]. split; [exact Bj|lra].
    - intros Sep i Hi. apply K in Hi as (Bi & c & Sc & Wi & Fi & NJ). apply in_some_msf_iff; [exact Bi|].
      intros J. apply NJ. revert J. apply joined_incl. intros j Hj. apply heavier_In in Hj as [Bj Wj].
      apply above_In. split; [exact Bj|]. destruct (start_weight E rnd c Sc) as (k & Bk & ->).
      destruct (Qlt_le_dec (weight_at E i) (weight_at E k)) as [L|L]; [|lra].
      exfalso. apply Fi. apply Sep; assumption.
  Qed.

  Lemma overflowing_start p : sorted_positions ws p ->
    (overflowing p <-> tight_capacity pf (order g) /\ exists c, bucket_start E rnd c /\ joins_all (above E c)).
  Proof.
    intros Hp. destruct (sorted_position_facts p Hp) as [Pp Sp]. unfold overflowing. split.
    - intros (T & dn & b & af & Eb & J). split; [exact T|].
      destruct (buckets_spec lib ws E FI far_exact p Pp Sp _ _ _ Eb) as (h & b' & _ & St & _ & Hd).
      exists (weight_at E h). split; [exact St|]. intros x y Hx Hy. specialize (J x y Hx Hy). revert J. apply joined_incl. intros j. apply Hd.
    - intros (T & c & St & J). split; [exact T|].
      destruct (start_bucket lib ws E FI far_exact p Pp Sp c St) as (dn & h & b & af & Eb & Ec).
      exists dn, (h :: b), af. split; [exact Eb|].
      destruct (buckets_spec lib ws E FI far_exact p Pp Sp _ _ _ Eb) as (h' & b' & Eh & _ & _ & Hd). injection Eh as <- <-.
      intros x y Hx Hy. specialize (J x y Hx Hy). revert J. apply joined_incl. intros j. rewrite Hd, !above_In. intros [H1 H2]. split; [exact H1|lra].
  Qed.
End Graph.
