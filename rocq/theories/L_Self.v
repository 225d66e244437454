(** * Proofs about self_similarity_projection (pelote/projection.py) *)
From Coq Require Import Lia QArith Sorted.
From Verif Require Import PyBase PyNum L_Base NxGraph L_Nx L_Nx2 L_Graph S_Partition L_Partition L_Comp2 S_Sparse S_Graph M_Proj S_Proj L_Proj L_Proj2 L_Proj3 L_Bfs.
Close Scope Q_scope.

Lemma ikey_eqb_eq a b : ikey_eqb a b = true <-> a = b.
Proof.
  destruct a as [[b1 z1] k1], b as [[b2 z2] k2]. unfold ikey_eqb. cbn [fst snd]. rewrite !andb_true_iff, Bool.eqb_true_iff, Z.eqb_eq, key_eqb_eq.
  split; [intros [[-> ->] ->]; reflexivity|intros E; inversion E; auto].
Qed.
Lemma ikey_eqb_spec a b : reflect (a = b) (ikey_eqb a b).
Proof. destruct (ikey_eqb a b) eqn:E; constructor; [apply ikey_eqb_eq; assumption|intros ->; rewrite (proj2 (ikey_eqb_eq b b) eq_refl) in E; discriminate]. Qed.

Definition imem (k : ikey) (l : list ikey) : bool := existsb (ikey_eqb k) l.
Lemma imem_In k l : imem k l = true <-> In k l.
Proof.
  unfold imem. rewrite existsb_exists. split.
  - intros (x & I & E). apply ikey_eqb_eq in E. subst. assumption.
  - intros I. exists k. split; [assumption|apply ikey_eqb_eq; reflexivity].
Qed.

Lemma iget_iappend k k' n d : iget k (iappend k' n d) = if ikey_eqb k k' then iget k d ++ [n] else iget k d.
Proof.
  induction d as [|[k0 l] d IH]; cbn [iappend iget].
  - destruct (ikey_eqb_spec k k'); reflexivity.
  - destruct (ikey_eqb_spec k' k0) as [->|N]; cbn [iget].
    + destruct (ikey_eqb_spec k k0); reflexivity.
    + rewrite IH. destruct (ikey_eqb_spec k k0) as [->|]; [|reflexivity]. destruct (ikey_eqb_spec k0 k'); [congruence|reflexivity].
Qed.

(** ** one node *)
Definition scan_keys (node : key) (ks : list ikey) (s : dict nat * list (ikey * list key)) : dict nat * list (ikey * list key) :=
  fold_left (fun s k => (fold_left (fun c x => dincr x c) (iget k (snd s)) (fst s), iappend k node (snd s))) ks s.
Definition tag (b : bool) (nd : key * Z) : ikey := (b, snd nd, fst nd).
Definition last_depth (l : list (key * Z)) (d : Z) : Z := fold_left (fun _ nd => snd nd) l d.

Lemma scan_neighbors_eq node b l : forall norm c ix d,
  scan_neighbors node b l (norm, c, ix, d) =
  (norm + List.length l, fst (scan_keys node (map (tag b) l) (c, ix)), snd (scan_keys node (map (tag b) l) (c, ix)), last_depth l d).
Proof.
  induction l as [|nd l IH]; intros norm c ix d.
  - cbn. rewrite Nat.add_0_r. reflexivity.
  - unfold scan_neighbors in *. cbn [fold_left]. rewrite IH. cbn [List.length map]. unfold scan_keys at 3 4. cbn [fold_left fst snd].
    unfold last_depth. cbn [fold_left]. replace (norm + 1 + List.length l) with (norm + S (List.length l)) by lia. reflexivity.
Qed.

Definition cnt (x : key) (c : dict nat) : nat := match dget x c with Some n => n | None => 0 end.
Definition positive_counts (c : dict nat) : Prop := NoDup (dkeys c) /\ forall x n, dget x c = Some n -> 0 < n.

Lemma dincr_spec x c : positive_counts c -> positive_counts (dincr x c) /\ forall y, cnt y (dincr x c) = cnt y c + if key_eqb y x then 1 else 0.
Proof.
  intros [N P]. unfold dincr. split; [split|].
  - apply NoDup_dset; assumption.
  - intros y n. rewrite dget_dset. keq y x; [intros E; inversion E; lia|apply P].
  - intros y. unfold cnt. rewrite dget_dset. keq y x; lia.
Qed.

Lemma dincrs_spec l : forall c, positive_counts c -> NoDup l ->
  let c' := fold_left (fun c x => dincr x c) l c in
  positive_counts c' /\ forall y, cnt y c' = cnt y c + if mem y l then 1 else 0.
Proof.
  induction l as [|x l IH]; intros c P N; cbn [fold_left]; cbn zeta.
  - split; [assumption|]. intros y. cbn. lia.
  - inversion N as [|? ? NI N']; subst. destruct (dincr_spec x c P) as [P1 C1]. destruct (IH (dincr x c) P1 N') as [P2 C2].
    split; [assumption|]. intros y. rewrite C2, C1, mem_cons. keq y x; cbn [orb]; [|lia].
    apply mem_nIn in NI. rewrite NI. lia.
Qed.

Definition listed_for (P : list (key * list ikey)) (k : ikey) : list key := map fst (filter (fun p => imem k (snd p)) P).
Definition indexed (P : list (key * list ikey)) (ix : list (ikey * list key)) : Prop := forall k, iget k ix = listed_for P k.

Lemma scan_keys_spec node ks : forall c ix, NoDup ks -> positive_counts c -> (forall k, In k ks -> NoDup (iget k ix)) ->
  let s := scan_keys node ks (c, ix) in
  positive_counts (fst s) /\ (forall x, cnt x (fst s) = cnt x c + List.length (filter (fun k => mem x (iget k ix)) ks))
  /\ forall k, iget k (snd s) = iget k ix ++ if imem k ks then [node] else [].
Proof.
  induction ks as [|k ks IH]; intros c ix N P D; cbn zeta.
  - cbn. split; [assumption|]. split; [intros; lia|intros; rewrite app_nil_r; reflexivity].
  - inversion N as [|? ? NI N']; subst. unfold scan_keys. cbn [fold_left fst snd]. fold (scan_keys node ks).
    destruct (dincrs_spec (iget k ix) c P (D k (or_introl eq_refl))) as [P1 C1].
    assert (G : forall k', In k' ks -> iget k' (iappend k node ix) = iget k' ix).
    { intros k' I. rewrite iget_iappend. destruct (ikey_eqb_spec k' k); [subst; contradiction|reflexivity]. }
    destruct (IH (fold_left (fun c x => dincr x c) (iget k ix) c) (iappend k node ix) N' P1) as (P2 & C2 & G2).
    { intros k' I. rewrite G by assumption. apply D. right; assumption. }
    change (scan_keys node ks (fold_left (fun c x => dincr x c) (iget k ix) c, iappend k node ix)) with
      (fold_left (fun s k => (fold_left (fun c x => dincr x c) (iget k (snd s)) (fst s), iappend k node (snd s))) ks
         (fold_left (fun c x => dincr x c) (iget k ix) c, iappend k node ix)) in P2, C2, G2.
    split; [assumption|]. split.
    + intros x. rewrite C2, C1. cbn [filter].
      rewrite (filter_ext_in' (fun k0 => mem x (iget k0 (iappend k node ix))) (fun k0 => mem x (iget k0 ix)) ks)
        by (intros k' I; rewrite G by assumption; reflexivity).
      destruct (mem x (iget k ix)); cbn [List.length]; lia.
    + intros k'. rewrite G2, iget_iappend. unfold imem. cbn [existsb]. fold (imem k' ks). destruct (ikey_eqb_spec k' k) as [->|]; [|reflexivity].
      destruct (imem k ks) eqn:E; [apply imem_In in E; contradiction|]. cbn [orb]. rewrite app_nil_r. reflexivity.
Qed.

Lemma listed_NoDup P k : NoDup (map fst P) -> NoDup (listed_for P k).
Proof. intros N. unfold listed_for. apply (NoDup_dkeys_filter (fun p => imem k (snd p)) P). exact N. Qed.

Lemma listed_In P k x : In x (listed_for P k) <-> exists ks, In (x, ks) P /\ In k ks.
Proof.
  unfold listed_for. rewrite in_map_iff. split.
  - intros ([x' ks] & E & I). apply filter_In in I as [I M]. cbn in *. subst. apply imem_In in M. eauto.
  - intros (ks & I & M). exists (x, ks). split; [reflexivity|]. apply filter_In. split; [assumption|apply imem_In; assumption].
Qed.

Lemma listed_snoc P k n ks : listed_for (P ++ [(n, ks)]) k = listed_for P k ++ if imem k ks then [n] else [].
Proof. unfold listed_for. rewrite filter_app, map_app. cbn [filter snd]. destruct (imem k ks); reflexivity. Qed.

(** the number of common elements *)
Definition inter (a b : list ikey) : nat := List.length (filter (fun k => imem k b) a).

Lemma scan_node node P ks ix : NoDup ks -> NoDup (map fst P) -> indexed P ix ->
  let s := scan_keys node ks ([], ix) in
  positive_counts (fst s) /\ indexed (P ++ [(node, ks)]) (snd s)
  /\ (forall x kx, In (x, kx) P -> cnt x (fst s) = inter ks kx) /\ (forall x, In x (dkeys (fst s)) -> exists kx, In (x, kx) P).
Proof.
  intros N NP IX. cbn zeta. destruct (scan_keys_spec node ks [] ix N) as (P1 & C1 & G1).
  { split; [constructor|intros x n E; discriminate]. }
  { intros k _. rewrite IX. apply listed_NoDup; assumption. }
  split; [assumption|]. split; [|split].
  - intros k. rewrite G1, IX, listed_snoc. reflexivity.
  - intros x kx I. rewrite C1. cbn [cnt dget]. unfold cnt. cbn [dget Nat.add]. unfold inter. f_equal. apply filter_ext_in'. intros k _.
    rewrite IX. apply Bool.eq_iff_eq_true. rewrite mem_In, listed_In, imem_In. split; [|eauto].
    intros (kx' & I' & M). assert (kx' = kx) as <-; [|assumption].
    apply (dget_In x kx' P) in I'; [|exact NP]. apply (dget_In x kx P) in I; [|exact NP]. congruence.
  - intros x I. apply dkeys_dget in I as (n & E). pose proof (proj2 P1 x n E) as Hn. assert (Hc : cnt x (fst (scan_keys node ks ([], ix))) = n) by (unfold cnt; rewrite E; reflexivity).
    rewrite C1 in Hc.
    destruct (filter (fun k => mem x (iget k ix)) ks) as [|k l] eqn:F; [cbn in Hc; lia|].
    assert (In k (filter (fun k => mem x (iget k ix)) ks)) as I by (rewrite F; left; reflexivity). apply filter_In in I as [_ M].
    apply mem_In in M. rewrite IX in M. apply listed_In in M as (kx & M & _). eauto.
Qed.

Lemma eq_IZ_Q a b : (inject_Z a == inject_Z b)%Q -> a = b.
Proof. unfold Qeq. cbn. lia. Qed.

Lemma links_fold lib g norms node norm c : forall h L,
  Forall2 (fun ci l => exists n, dget (fst ci) norms = Some n /\
     let den := (Z.of_nat norm + (Z.of_nat n - (if has_edge g node (fst ci) then 2 else 0) - (if has_edge g (fst ci) node then 2 else 0)) - Z.of_nat (snd ci))%Z in
     den <> 0%Z /\ l = (node, fst ci, NFloat (m_round lib (inject_Z (Z.of_nat (snd ci)) / inject_Z den)%Q))) c L ->
  foldM (link_candidate lib g norms node norm) c h = Ok (put_links L h).
Proof.
  intros h L F. revert h. induction F as [|[x i] l c L (n & E & NZ & ->) F IH]; intros h; [reflexivity|].
  cbn [foldM]. unfold link_candidate at 1. cbn [fst snd] in *. rewrite E. rewrite div_total by (cbn [value]; intros C; apply NZ; apply (eq_IZ_Q _ 0); exact C). cbn [bind]. rewrite IH. reflexivity.
Qed.

(** ** views *)
Section Self.
Variable g : graph.
Hypothesis W : WF g.
Hypothesis D : g_dir g = true.

Definition bl (n : key) (rev : bool) (r : Z) : list (key * Z) := match bfs_from_node g n rev r with Ok l => l | Err _ => [] end.
Definition triples (n : key) (o i : Z) : list ikey := map (tag true) (bl n false o) ++ map (tag false) (bl n true i).

Lemma bl_spec n rev r : In n (nodes g) -> bfs_from_node g n rev r = Ok (bl n rev r) /\ NoDup (map fst (bl n rev r))
  /\ StronglySorted (fun a b => (snd a <= snd b)%Z) (bl n rev r)
  /\ forall x d, In (x, d) (bl n rev r) <-> exists k, d = Z.of_nat k /\ 1 <= k /\ (d <= r)%Z /\ distance g rev n x k.
Proof.
  intros I. destruct (bfs_spec g rev r n W D I) as (l & E & H). unfold bl. rewrite E. split; [reflexivity|exact H].
Qed.

Lemma tag_In b l t : In t (map (tag b) l) <-> fst (fst t) = b /\ In (snd t, snd (fst t)) l.
Proof.
  rewrite in_map_iff. destruct t as [[b' d] x]. cbn [fst snd]. split.
  - intros ([x' d'] & E & I). inversion E; subst. auto.
  - intros [-> I]. exists (x, d). auto.
Qed.

Lemma triples_In n o i t : In n (nodes g) -> (In t (triples n o i) <-> view g n o i t).
Proof.
  intros I. unfold triples. rewrite in_app_iff, !tag_In. destruct t as [[b d] x]. cbn [fst snd view].
  rewrite (proj2 (proj2 (proj2 (bl_spec n false o I)))), (proj2 (proj2 (proj2 (bl_spec n true i I)))). destruct b; cbn [negb]; intuition discriminate.
Qed.

Lemma triples_NoDup n o i : In n (nodes g) -> NoDup (triples n o i).
Proof.
  intros I. unfold triples. apply NoDup_app_iff.
  assert (T : forall b r rev, NoDup (map (tag b) (bl n rev r))).
  { intros b r rev. apply NoDup_map_inj; [|apply NoDup_map_inv' with (f := fst); apply bl_spec; assumption].
    intros [x d] [x' d'] _ _ E. inversion E. reflexivity. }
  split; [apply T|]. split; [apply T|]. intros t H1 H2. apply tag_In in H1, H2. destruct H1, H2. congruence.
Qed.

Lemma triples_length n o i : List.length (triples n o i) = List.length (bl n false o) + List.length (bl n true i).
Proof. unfold triples. rewrite app_length, !map_length. reflexivity. Qed.

Lemma last_depth_snoc l x d : last_depth (l ++ [x]) d = snd x.
Proof. unfold last_depth. rewrite fold_left_app. reflexivity. Qed.

Lemma deepest_last n rev r : In n (nodes g) -> deepest g rev n r (last_depth (bl n rev r) r).
Proof.
  intros I. destruct (bl_spec n rev r I) as (_ & _ & So & H). unfold deepest.
  destruct (bl n rev r) as [|y l0] eqn:E0.
  - left. split; [reflexivity|]. intros k x Dk Hk. apply (proj2 (H x (Z.of_nat k))). exists k. repeat split; try lia; apply Dk.
  - destruct (exists_last (l := y :: l0)) as (l & [x d] & E); [discriminate|]. rewrite E in *. rewrite last_depth_snoc. cbn [snd].
    assert (L : In (x, d) (l ++ [(x, d)])) by (apply in_or_app; right; left; reflexivity). apply H in L as (k & -> & K1 & K2 & Dk).
    right. split; [lia|]. split; [eauto|]. intros m z Dm Hm. destruct m as [|m]; [lia|].
    assert (L : In (z, Z.of_nat (S m)) (l ++ [(x, Z.of_nat k)])) by (apply H; exists (S m); repeat split; try lia; apply Dm).
    apply StronglySorted_app_iff in So as (_ & _ & So). apply in_app_iff in L as [L|[L|[]]]; [|inversion L; lia].
    apply (So _ (x, Z.of_nat k) L). left; reflexivity.
Qed.

(** ** set-theoretic identities *)
Lemma inter_pos a b : 0 < inter a b <-> exists t, In t a /\ In t b.
Proof.
  unfold inter. destruct (filter (fun k => imem k b) a) as [|t l] eqn:E.
  - split; [cbn; lia|]. intros (t & I1 & I2). assert (In t []) as []. rewrite <- E. apply filter_In. split; [assumption|apply imem_In; assumption].
  - split; [|cbn; lia]. intros _. exists t. assert (In t (t :: l)) as I by (left; reflexivity). rewrite <- E in I. apply filter_In in I as [I1 I2].
    apply imem_In in I2. auto.
Qed.

Lemma inter_size a b : NoDup a -> has_size (fun t => In t a /\ In t b) (inter a b).
Proof.
  intros N. exists (filter (fun k => imem k b) a). split; [|reflexivity]. split; [apply NoDup_filter; assumption|].
  intros t. rewrite filter_In, imem_In. reflexivity.
Qed.

Lemma inter_sym a b : NoDup a -> NoDup b -> inter a b = inter b a.
Proof.
  intros Na Nb. eapply has_size_unique; [apply inter_size; assumption|]. eapply has_size_ext; [|apply inter_size; assumption]. intros t. cbv beta. tauto.
Qed.

(** removing, from the union of [a] and [b], elements [m] of it which are not in both *)
Lemma union_minus a b m : NoDup a -> NoDup b -> NoDup m -> (forall t, In t m -> (In t a \/ In t b)) ->
  exists n, has_size (fun t => (In t a \/ In t b) /\ ~ In t m) n /\ n + List.length m + inter a b = List.length a + List.length b
    /\ ((forall t, In t m -> ~ (In t a /\ In t b)) -> inter a b <= n).
Proof.
  intros Na Nb Nm I. set (u := a ++ filter (fun k => negb (imem k a)) b).
  assert (Iu : forall t, In t u <-> In t a \/ In t b).
  { intros t. unfold u. rewrite in_app_iff, filter_In, negb_true_iff. destruct (imem t a) eqn:E.
    - apply imem_In in E. intuition.
    - assert (~ In t a) by (intros C; apply imem_In in C; congruence). tauto. }
  assert (Nu : NoDup u).
  { apply NoDup_app_iff. split; [assumption|]. split; [apply NoDup_filter; assumption|]. intros t T1 T2. apply filter_In in T2 as [_ T2].
    apply imem_In in T1. rewrite T1 in T2. discriminate. }
  assert (Split : forall (f : ikey -> bool) l, List.length (filter f l) + List.length (filter (fun k => negb (f k)) l) = List.length l).
  { intros f. induction l as [|x l IH]; [reflexivity|]. cbn [filter]. destruct (f x); cbn [negb List.length]; lia. }
  exists (List.length (filter (fun k => negb (imem k m)) u)).
  assert (H : enumerates (filter (fun k => negb (imem k m)) u) (fun t => (In t a \/ In t b) /\ ~ In t m)).
  { split; [apply NoDup_filter; assumption|]. intros t. rewrite filter_In, Iu, negb_true_iff. destruct (imem t m) eqn:E.
    - apply imem_In in E. intuition discriminate.
    - assert (~ In t m) by (intros C; apply imem_In in C; congruence). tauto. }
  split; [eexists; split; [exact H|reflexivity]|]. split.
  - pose proof (Split (fun k => imem k m) u) as S1. pose proof (Split (fun k => imem k a) b) as S2.
    assert (Lm : List.length (filter (fun k => imem k m) u) = List.length m).
    { apply (enumerates_length _ (fun t => In t m)); [|exists m; split; [split; [assumption|reflexivity]|reflexivity]].
      split; [apply NoDup_filter; assumption|]. intros t. rewrite filter_In, Iu, imem_In. split; [tauto|]. auto. }
    rewrite (inter_sym a b Na Nb). unfold inter. unfold u in *. rewrite app_length in *. lia.
  - intros Hm. unfold inter. apply NoDup_incl_length; [apply NoDup_filter; assumption|]. intros t. rewrite filter_In, imem_In. intros [T1 T2].
    apply H. split; [tauto|]. intros C. apply (Hm t C). auto.
Qed.

(** ** links between the two nodes *)
Lemma distance_self rev u n : distance g rev u u n -> n = 0.
Proof. intros [_ M]. destruct n; [reflexivity|]. elim (M 0); [lia|reflexivity]. Qed.

Lemma distance_one rev u v : u <> v -> (distance g rev u v 1 <-> arrow g rev u v).
Proof.
  intros N. unfold distance. cbn [reaches]. split.
  - intros [(w & <- & A) _]. assumption.
  - intros A. split; [eauto|]. intros m Hm R. assert (m = 0) by lia. subst. apply N. exact R.
Qed.

Definition mutuals (u v : key) : list ikey :=
  (if has_edge g u v then [(true, 1%Z, v); (false, 1%Z, u)] else []) ++ (if has_edge g v u then [(true, 1%Z, u); (false, 1%Z, v)] else []).

Lemma mutuals_NoDup u v : u <> v -> NoDup (mutuals u v).
Proof.
  intros N. unfold mutuals. destruct (has_edge g u v), (has_edge g v u); cbn; repeat constructor; cbn; intuition congruence.
Qed.

Lemma mutuals_spec u v ou iu ov iv t : In u (nodes g) -> In v (nodes g) -> u <> v -> (1 <= ou)%Z -> (1 <= iu)%Z -> (1 <= ov)%Z -> (1 <= iv)%Z ->
  (In t (mutuals u v) <-> (view g u ou iu t \/ view g v ov iv t) /\ mutual u v t).
Proof.
  intros Iu Iv N H1 H2 H3 H4.
  assert (V : forall b x y o i, x <> y -> (1 <= o)%Z -> (1 <= i)%Z -> (view g x o i (b, 1%Z, y) <-> arrow g (negb b) x y)).
  { intros b x y o i Nxy Ho Hi. cbn [view]. rewrite <- distance_one by assumption. split.
    - intros (n & En & _ & _ & Dn). replace n with 1 in Dn by lia. assumption.
    - intros Dn. exists 1. split; [reflexivity|]. split; [lia|]. split; [destruct b; assumption|assumption]. }
  assert (Z : forall b x o i d, ~ view g x o i (b, d, x)).
  { intros b x o i d (n & En & Hn & _ & Dn). apply distance_self in Dn. lia. }
  destruct t as [[b d] x]. unfold mutual. cbn [fst snd]. split.
  - unfold mutuals. intros I. apply in_app_iff in I as [I|I].
    + destruct (has_edge g u v) eqn:E; [|destruct I]. destruct I as [I|[I|[]]]; inversion I; subst.
      * split; [left; apply V; try assumption; exact E|auto].
      * split; [right; apply V; try congruence; try assumption; exact E|auto].
    + destruct (has_edge g v u) eqn:E; [|destruct I]. destruct I as [I|[I|[]]]; inversion I; subst.
      * split; [right; apply V; try congruence; try assumption; exact E|auto].
      * split; [left; apply V; try assumption; exact E|auto].
  - intros (VV & Ed & Ex). subst d. unfold mutuals. apply in_or_app. destruct Ex as [->| ->].
    + destruct VV as [VV|VV]; [elim (Z _ _ _ _ _ VV)|]. apply V in VV; [|congruence|assumption|assumption]. destruct b; cbn [negb arrow] in VV.
      * right. rewrite VV. left; reflexivity.
      * left. rewrite VV. right; left; reflexivity.
    + destruct VV as [VV|VV]; [|elim (Z _ _ _ _ _ VV)]. apply V in VV; [|assumption|assumption|assumption]. destruct b; cbn [negb arrow] in VV.
      * left. rewrite VV. left; reflexivity.
      * right. rewrite VV. right; left; reflexivity.
Qed.

Lemma mutuals_length u v : List.length (mutuals u v) = (if has_edge g u v then 2 else 0) + (if has_edge g v u then 2 else 0).
Proof. unfold mutuals. rewrite app_length. destruct (has_edge g u v), (has_edge g v u); reflexivity. Qed.
End Self.
