(** * Proofs about bfs_from_node (pelote/projection.py) *)
From Coq Require Import Lia Sorted.
From Verif Require Import PyBase L_Base NxGraph L_Nx M_UnionFind M_Traversal S_Utils L_Traversal L_Comp M_Proj S_Proj.

(** what a series of appends adds *)
Fixpoint fresh (seen l : list key) : list key :=
  match l with
  | [] => []
  | x :: l => if mem x seen then fresh seen l else x :: fresh (seen ++ [x]) l
  end.

Lemma fresh_In l : forall seen x, In x (fresh seen l) <-> In x l /\ ~ In x seen.
Proof.
  induction l as [|y l IH]; intros seen x; cbn [fresh]; [cbn; tauto|]. destruct (mem_spec y seen) as [H|H].
  - rewrite IH. cbn [In]. intuition congruence.
  - cbn [In]. rewrite IH, in_app_iff. cbn [In]. keq x y; intuition congruence.
Qed.

Lemma fresh_NoDup l : forall seen, NoDup seen -> NoDup (seen ++ fresh seen l).
Proof.
  induction l as [|y l IH]; intros seen N; cbn [fresh]; [rewrite app_nil_r; assumption|]. destruct (mem_spec y seen) as [H|H]; [auto|].
  replace (seen ++ y :: fresh (seen ++ [y]) l) with ((seen ++ [y]) ++ fresh (seen ++ [y]) l) by (rewrite <- app_assoc; reflexivity).
  apply IH. apply NoDup_snoc; assumption.
Qed.

Lemma appends_eq d l : forall t : trav (key * Z),
  fold_left (fun q x => fst (t_append x (Some (x, d)) q)) l t =
  mkT (t_graph t) (t_items t ++ map (fun x => inr (x, d)) (fresh (t_seen t) l)) (t_seen t ++ fresh (t_seen t) l).
Proof.
  induction l as [|x l IH]; intros t; cbn [fold_left fresh map].
  - rewrite !app_nil_r. destruct t; reflexivity.
  - rewrite append_eq. destruct (mem x (t_seen t)); cbn [fst]; rewrite IH; [reflexivity|]. cbn [t_graph t_items t_seen map].
    rewrite <- !app_assoc. reflexivity.
Qed.

Section Bfs.
Variables (g : graph) (reverse : bool) (limit : Z) (s : key).
Hypothesis W : WF g.
Hypothesis D : g_dir g = true.
Hypothesis Hs : In s (nodes g).

Lemma neighbors_arrow u v : In v (bfs_neighbors g reverse u) <-> arrow g reverse u v.
Proof. unfold bfs_neighbors, arrow. destruct reverse; [apply predecessors_In; assumption|apply neighbors_In; assumption]. Qed.

Lemma arrow_nodes u v : arrow g reverse u v -> In u (nodes g) /\ In v (nodes g).
Proof.
  unfold arrow, has_edge. destruct reverse.
  - destruct (edge_data g v u) eqn:E; [|discriminate]. apply edge_data_nodes in E; [tauto|assumption].
  - destruct (edge_data g u v) eqn:E; [|discriminate]. apply edge_data_nodes in E; [tauto|assumption].
Qed.

Notation dist := (distance g reverse s).

Record Inv (popped queue : list (key * Z)) : Prop := {
  i_nodup : NoDup (map fst (popped ++ queue));
  i_dist : forall n d, In (n, d) (popped ++ queue) -> exists k, d = Z.of_nat k /\ dist n k /\ In n (nodes g) /\ (k = 0 \/ (d <= limit)%Z);
  i_sorted : StronglySorted (fun a b => (snd a <= snd b)%Z) (popped ++ queue);
  i_done : forall n d v, In (n, d) popped -> (d < limit)%Z -> arrow g reverse n v -> In v (map fst (popped ++ queue));
  i_width : forall x y, In x queue -> In y (popped ++ queue) -> (snd y <= snd x + 1)%Z;
  i_source : In s (map fst (popped ++ queue))
}.

Lemma sorted_app_le popped n d queue x : StronglySorted (fun a b : key * Z => (snd a <= snd b)%Z) (popped ++ (n, d) :: queue) ->
  In x queue -> (d <= snd x)%Z.
Proof.
  intros S I. apply StronglySorted_app_iff in S as (_ & S & _). inversion S as [|? ? _ F]; subst.
  rewrite Forall_forall in F. apply (F x I).
Qed.

(** every node within [k] arrows has been seen when a node at distance [k] is popped *)
Lemma near_seen popped n k queue : Inv popped ((n, Z.of_nat k) :: queue) -> (Z.of_nat k < limit)%Z ->
  forall m v, m <= k -> reaches g reverse m s v -> In v (map fst (popped ++ (n, Z.of_nat k) :: queue)).
Proof.
  intros I Hk. induction m as [|m IH]; intros v Hm R.
  - cbn in R. subst v. apply (i_source _ _ I).
  - cbn in R. destruct R as (w & Rw & A). pose proof (IH w ltac:(lia) Rw) as Iw. apply in_map_iff in Iw as ([w' d] & Ew & Iw).
    cbn in Ew. subst w'. destruct (i_dist _ _ I w d Iw) as (j & -> & [Dj Mj] & _).
    assert (j <= m) by (destruct (le_lt_dec j m) as [|C]; [assumption|elim (Mj m C Rw)]).
    apply in_app_iff in Iw as [Iw|Iw].
    + apply (i_done _ _ I w (Z.of_nat j)); [assumption|lia|assumption].
    + exfalso. destruct Iw as [Iw|Iw].
      * inversion Iw. lia.
      * pose proof (sorted_app_le _ _ _ _ _ (i_sorted _ _ I) Iw) as Le. cbn in Le. lia.
Qed.

Lemma Inv_expand popped n d queue : Inv popped ((n, d) :: queue) -> (d < limit)%Z ->
  Inv (popped ++ [(n, d)]) (queue ++ map (fun x => (x, (d + 1)%Z)) (fresh (map fst (popped ++ (n, d) :: queue)) (bfs_neighbors g reverse n))).
Proof.
  intros I Hd. destruct (i_dist _ _ I n d) as (k & -> & Dk & Nk & _); [apply in_or_app; right; left; reflexivity|].
  set (old := popped ++ (n, Z.of_nat k) :: queue) in *.
  set (new := fresh (map fst old) (bfs_neighbors g reverse n)).
  assert (EQ : forall (z : list (key * Z)), (popped ++ [(n, Z.of_nat k)]) ++ queue ++ z = old ++ z).
  { intros z. unfold old. rewrite <- !app_assoc. reflexivity. }
  assert (NEW : forall v, In v new <-> arrow g reverse n v /\ ~ In v (map fst old)).
  { intros v. unfold new. rewrite fresh_In, neighbors_arrow. tauto. }
  assert (MX : forall y, In y old -> (snd y <= Z.of_nat k + 1)%Z).
  { intros y Iy. apply (i_width _ _ I (n, Z.of_nat k) y); [left; reflexivity|assumption]. }
  constructor.
  - rewrite EQ, map_app, map_map. cbn [fst]. rewrite map_id. apply fresh_NoDup. apply (i_nodup _ _ I).
  - rewrite EQ. intros m d Im. apply in_app_iff in Im as [Im|Im]; [apply (i_dist _ _ I); assumption|].
    apply in_map_iff in Im as (v & E & Iv). inversion E; subst. apply NEW in Iv as [A NI].
    exists (S k). split; [lia|]. split; [|split; [apply (arrow_nodes n m A)|right; lia]]. split.
    + exists n. split; [apply Dk|assumption].
    + intros j Hj R. apply NI. apply (near_seen _ _ _ _ I Hd j m); [lia|assumption].
  - rewrite EQ. apply StronglySorted_app_iff. split; [apply (i_sorted _ _ I)|]. split.
    + clear. induction new as [|x new IH]; cbn [map]; constructor; [assumption|]. apply Forall_forall. intros y Iy.
      apply in_map_iff in Iy as (z & <- & _). cbn. lia.
    + intros x y Ix Iy. apply in_map_iff in Iy as (v & <- & _). cbn [snd]. apply MX. assumption.
  - rewrite EQ. intros m d v Im Hdm A. rewrite map_app, in_app_iff. apply in_app_iff in Im as [Im|[Im|[]]].
    + left. apply (i_done _ _ I m d v); assumption.
    + inversion Im; subst. destruct (in_dec key_eq_dec v (map fst old)) as [H|H]; [left; assumption|right].
      rewrite map_map. cbn [fst]. rewrite map_id. apply NEW. split; assumption.
  - rewrite EQ. intros x y Ix Iy. apply in_app_iff in Ix as [Ix|Ix].
    + pose proof (sorted_app_le _ _ _ _ _ (i_sorted _ _ I) Ix) as Le.
      apply in_app_iff in Iy as [Iy|Iy]; [specialize (MX y Iy); lia|]. apply in_map_iff in Iy as (v & <- & _). cbn [snd]. lia.
    + apply in_map_iff in Ix as (w & <- & _). cbn [snd].
      apply in_app_iff in Iy as [Iy|Iy]; [specialize (MX y Iy); lia|]. apply in_map_iff in Iy as (v & <- & _). cbn [snd]. lia.
  - rewrite EQ, map_app, in_app_iff. left. apply (i_source _ _ I).
Qed.

Lemma Inv_stop popped n d queue : Inv popped ((n, d) :: queue) -> (limit <= d)%Z -> Inv (popped ++ [(n, d)]) queue.
Proof.
  intros I Hd. assert (EQ : (popped ++ [(n, d)]) ++ queue = popped ++ (n, d) :: queue) by (rewrite <- app_assoc; reflexivity).
  constructor; rewrite ?EQ.
  - apply (i_nodup _ _ I).
  - apply (i_dist _ _ I).
  - apply (i_sorted _ _ I).
  - intros m d' v Im Hdm A. apply in_app_iff in Im as [Im|[Im|[]]]; [apply (i_done _ _ I m d' v); assumption|]. inversion Im; subst. lia.
  - intros x y Ix Iy. apply (i_width _ _ I); [right; assumption|assumption].
  - apply (i_source _ _ I).
Qed.

Definition positive (x : key * Z) : bool := (0 <? snd x)%Z.

Lemma loop_spec fuel : forall popped queue t, Inv popped queue -> t_items t = map inr queue -> t_seen t = map fst (popped ++ queue) ->
  order g + 1 <= fuel + List.length popped ->
  exists rest, bfs_loop fuel g reverse limit t = Ok (filter positive rest) /\ Inv (popped ++ rest) [].
Proof.
  induction fuel as [|fuel IH]; intros popped queue t I TI TS F.
  - exfalso. assert (List.length (map fst (popped ++ queue)) <= List.length (nodes g)).
    { apply NoDup_incl_length; [apply (i_nodup _ _ I)|]. intros n In_. apply in_map_iff in In_ as ([n' d] & E & In_). cbn in E. subst n'.
      destruct (i_dist _ _ I n d In_) as (k & _ & _ & H & _). assumption. }
    unfold nodes, dkeys in H. rewrite !map_length, app_length in H. unfold order in F. lia.
  - cbn [bfs_loop]. unfold t_len. rewrite TI, map_length. destruct queue as [|[n d] queue].
    + exists []. cbn. split; [reflexivity|]. rewrite app_nil_r. assumption.
    + cbn [List.length Nat.eqb]. unfold t_popleft. rewrite TI. cbn [map].
      assert (EQ : forall (z : list (key * Z)), (popped ++ [(n, d)]) ++ z = popped ++ (n, d) :: z) by (intros; rewrite <- app_assoc; reflexivity).
      destruct (limit <=? d)%Z eqn:C.
      * apply Z.leb_le in C.
        destruct (IH (popped ++ [(n, d)]) queue (mkT (t_graph t) (map inr queue) (t_seen t))) as (rest & -> & If).
        -- apply Inv_stop; assumption.
        -- reflexivity.
        -- cbn [t_seen]. rewrite TS. rewrite EQ. reflexivity.
        -- rewrite app_length. cbn. lia.
        -- cbn [bind]. exists ((n, d) :: rest). split; [|rewrite <- EQ; assumption].
           cbn [filter]. unfold positive at 2. cbn [snd]. destruct (0 <? d)%Z; reflexivity.
      * apply Z.leb_gt in C. destruct (i_dist _ _ I n d) as (k & Ek & _ & Nn & _); [apply in_or_app; right; left; reflexivity|].
        rewrite (proj2 (has_node_In g n) Nn). rewrite appends_eq. cbn [t_graph t_items t_seen].
        destruct (IH (popped ++ [(n, d)]) (queue ++ map (fun x => (x, (d + 1)%Z)) (fresh (map fst (popped ++ (n, d) :: queue)) (bfs_neighbors g reverse n)))
          (mkT (t_graph t) (map inr queue ++ map (fun x => inr (x, (d + 1)%Z)) (fresh (t_seen t) (bfs_neighbors g reverse n))) (t_seen t ++ fresh (t_seen t) (bfs_neighbors g reverse n))))
          as (rest & -> & If).
        -- apply Inv_expand; assumption.
        -- cbn [t_items]. rewrite map_app, map_map, TS. reflexivity.
        -- cbn [t_seen]. rewrite TS. rewrite EQ, app_comm_cons, app_assoc, (map_app fst (popped ++ (n, d) :: queue)). f_equal. rewrite map_map. cbn [fst]. rewrite map_id. reflexivity.
        -- rewrite app_length. cbn. lia.
        -- cbn [bind]. exists ((n, d) :: rest). split; [|rewrite <- EQ; assumption].
           cbn [filter]. unfold positive at 2. cbn [snd]. destruct (0 <? d)%Z; reflexivity.
Qed.

Lemma final_complete all : Inv all [] -> forall m v, (Z.of_nat m <= limit)%Z \/ m = 0 -> reaches g reverse m s v -> In v (map fst all).
Proof.
  intros I. pose proof (app_nil_r all) as EN. induction m as [|m IH]; intros v Hm R.
  - cbn in R. subst v. pose proof (i_source _ _ I) as H. rewrite EN in H. assumption.
  - cbn in R. destruct R as (w & Rw & A). assert (Hm' : (Z.of_nat m < limit)%Z) by lia.
    pose proof (IH w ltac:(lia) Rw) as Iw. apply in_map_iff in Iw as ([w' d] & Ew & Iw). cbn in Ew. subst w'.
    destruct (i_dist _ _ I w d) as (j & -> & [Dj Mj] & _); [rewrite EN; assumption|].
    assert (j <= m) by (destruct (le_lt_dec j m) as [|C]; [assumption|elim (Mj m C Rw)]).
    pose proof (i_done _ _ I w (Z.of_nat j) v Iw ltac:(lia) A) as H0. rewrite EN in H0. assumption.
Qed.

Lemma Inv_start : Inv [] [(s, 0%Z)].
Proof.
  constructor; cbn [app map fst].
  - repeat constructor. intros [].
  - intros n d [E|[]]. inversion E; subst. exists 0. split; [reflexivity|]. split; [|split; [assumption|left; reflexivity]].
    split; [reflexivity|]. intros m Hm. lia.
  - repeat constructor.
  - intros n d v [].
  - intros x y [<-|[]] [<-|[]]. cbn. lia.
  - left; reflexivity.
Qed.

Lemma distance_unique v j k : dist v j -> dist v k -> j = k.
Proof.
  intros [R1 M1] [R2 M2]. destruct (lt_eq_lt_dec j k) as [[H|H]|H]; [elim (M2 j H R1)|assumption|elim (M1 k H R2)].
Qed.

Lemma bfs_spec : exists l, bfs_from_node g s reverse limit = Ok l /\ NoDup (map fst l)
  /\ StronglySorted (fun a b => (snd a <= snd b)%Z) l
  /\ forall n d, In (n, d) l <-> exists k, d = Z.of_nat k /\ 1 <= k /\ (d <= limit)%Z /\ dist n k.
Proof.
  unfold bfs_from_node. rewrite append_eq. cbn [t_make t_seen mem existsb fst].
  destruct (loop_spec (S (S (order g))) [] [(s, 0%Z)] (mkT (nodes g) ([] ++ [stored s (Some (s, 0%Z))]) ([] ++ [s])) Inv_start) as (rest & E & I).
  - reflexivity.
  - reflexivity.
  - cbn. lia.
  - cbn [app] in E, I. exists (filter positive rest). split; [exact E|]. pose proof (app_nil_r rest) as EN.
    split; [|split].
    + pose proof (i_nodup _ _ I) as N. rewrite EN in N. clear -N. induction rest as [|x l IH]; [constructor|]. cbn in N. inversion N as [|? ? NI ND]; subst.
      cbn [filter]. destruct (positive x); [|auto]. cbn. constructor; [|auto]. intros C. apply NI. apply in_map_iff in C as (y & <- & Iy).
      apply filter_In in Iy. apply in_map. tauto.
    + pose proof (i_sorted _ _ I) as S. rewrite EN in S. apply StronglySorted_filter. assumption.
    + intros n d. rewrite filter_In. unfold positive. cbn [snd]. rewrite Z.ltb_lt. split.
      * intros [In_ P]. destruct (i_dist _ _ I n d) as (k & -> & Dk & _ & Lk); [rewrite EN; assumption|]. exists k.
        split; [reflexivity|]. split; [lia|]. split; [lia|assumption].
      * intros (k & -> & Hk & Lk & Dk). split; [|lia].
        pose proof (final_complete rest I k n (or_introl Lk) (proj1 Dk)) as In_. apply in_map_iff in In_ as ([n' d] & En & In_). cbn in En. subst n'.
        destruct (i_dist _ _ I n d) as (j & -> & Dj & _); [rewrite EN; assumption|]. rewrite (distance_unique n k j); assumption.
Qed.
End Bfs.
