(** * C42, C43, C97: exactly where the claims fail *)
From Coq Require Import List ZArith Lia Bool Permutation.
From Verif Require Import PyBase PyNum NxGraph L_Base L_Nx S_Partition S_Graph S_Sparse L_Utils L_Partition M_Utils M_Disparity M_Tri S_Tri L_Tri L_Tri2 P_Graph P_Tri P_Count
  M_Proj S_Proj L_Proj2 L_Proj4 P_Proj.
Import ListNotations.

(** ** C42 every entry of the naive method *)

(** [v] has two neighbours or more other than itself *)
Definition branching (g : graph) (v : key) : Prop :=
  exists a b, a <> b /\ (linked g v a /\ v <> a) /\ (linked g v b /\ v <> b).

Lemma branching_length g U v : shows g U -> (1 <? List.length (neighborhood U v) = true <-> branching g v).
Proof.
  intros Sh. rewrite Nat.ltb_lt. pose proof (neighborhood_NoDup g U v Sh) as N.
  assert (I : forall w, In w (neighborhood U v) <-> linked g v w /\ v <> w) by (intros w; apply neighborhood_In, Sh).
  split.
  - intros L. destruct (neighborhood U v) as [|a [|b l]]; cbn in L; try lia. inversion N as [|? ? Na _]; subst.
    exists a, b. split; [intros ->; apply Na; left; reflexivity|]. split; apply I; cbn; auto.
  - intros (a & b & D & Ha & Hb). apply I in Ha, Hb. apply (NoDup_incl_length (l := [a; b])).
    + constructor; [intros [E|[]]; congruence|]. constructor; [intros []|constructor].
    + intros y [<-|[<-|[]]]; assumption.
Qed.

(** An edge has an entry if full is given or if both ends have two neighbours or more.  It is the number of common
    neighbours, save for a loop, for which it is the number of neighbours of the node if there are at least two. *)
Theorem C42_naive set_order g full : WF g -> reorders set_order -> comparable (nodes g) ->
  exists d, naive_triangular_strength set_order g full = Ok d /\ NoDup (map fst d)
    /\ (forall u v n, u <> v -> (In (u, v, n) d <->
          smaller_first u v /\ linked g u v /\ (full = true \/ (branching g u /\ branching g v)) /\ has_size (common g u v) n))
    /\ forall v n, In (v, v, n) d <->
          linked g v v
          /\ ((branching g v /\ has_size (fun w => linked g v w /\ v <> w) n) \/ (~ branching g v /\ full = true /\ n = 0)).
Proof.
  intros W R C. destruct (naive_spec set_order g full W R C) as (d & E & N & I). exists d. split; [exact E|]. split; [exact N|].
  pose proof (undirected_view_shows set_order g W R) as Sh. set (U := undirected_view set_order g) in *. clearbody U.
  assert (VN : v_nodes U = nodes g) by apply Sh.
  assert (G : forall x y, linked g x y -> dget x (neighborhoods U) = if 1 <? List.length (neighborhood U x) then Some (neighborhood U x) else None).
  { intros x y L. rewrite neighborhoods_get, (proj2 (mem_In x (v_nodes U))); [reflexivity|]. rewrite VN. apply (linked_nodes g x y W L). }
  split.
  - intros u v n D. rewrite I. split; intros (S & L & V); (split; [exact S|]; split; [exact L|]).
    + pose proof (naive_value_common g U full u v W Sh C D L) as X. rewrite V in X. split; [|exact X].
      unfold naive_value in V. cbn [fst snd] in V. rewrite (G u v L), (G v u (linked_sym _ _ _ L)) in V.
      destruct (1 <? List.length (neighborhood U u)) eqn:B1, (1 <? List.length (neighborhood U v)) eqn:B2;
        try (left; destruct full; [reflexivity|discriminate]).
      right. split; apply (branching_length g U); assumption.
    + destruct V as (F & Z). pose proof (naive_value_common g U full u v W Sh C D L) as X.
      destruct (naive_value U full (u, v)) as [m|] eqn:V; [f_equal; eapply has_size_unique; eassumption|]. exfalso.
      unfold naive_value in V. cbn [fst snd] in V. rewrite (G u v L), (G v u (linked_sym _ _ _ L)) in V.
      destruct F as [F|[F1 F2]]; [destruct X; congruence|].
      apply (branching_length g U) in F1, F2; [|exact Sh..]. rewrite F1, F2 in V. discriminate.
  - intros v n. rewrite I. assert (X : linked g v v -> (naive_value U full (v, v) = Some n <->
      ((branching g v /\ has_size (fun w => linked g v w /\ v <> w) n) \/ (~ branching g v /\ full = true /\ n = 0)))); [|assert (Sv : smaller_first v v) by (left; reflexivity); intuition].
    intros L. unfold naive_value. cbn [fst snd]. rewrite (G v v L). pose proof (branching_length g U v Sh) as B.
    destruct (1 <? List.length (neighborhood U v)).
    + assert (Bv : branching g v) by (apply B; reflexivity).
      assert (Z : has_size (fun w => linked g v w /\ v <> w) (fast_intersection_size (key_eqb v v) (neighborhood U v) (neighborhood U v))).
      { eapply has_size_ext; [|apply fis_spec; try (apply (neighborhood_NoDup g), Sh); reflexivity].
        intros w. cbv beta. rewrite (neighborhood_In g) by exact Sh. tauto. }
      split.
      * intros [= <-]. left. split; assumption.
      * intros [[_ Hn]|[F _]]; [|contradiction]. f_equal. eapply has_size_unique; eassumption.
    + assert (Bv : ~ branching g v) by (intros X; apply B in X; discriminate). split.
      * intros H. right. split; [exact Bv|]. destruct full; [|discriminate]. injection H as <-. auto.
      * intros [[F _]|(_ & -> & ->)]; [contradiction|reflexivity].
Qed.
Print Assumptions C42_naive.

Lemma C42_loops_value set_order g full v d : WF g -> reorders set_order -> comparable (nodes g) -> triangular_strength set_order g full = Ok d ->
  forall n, In (v, v, n) d -> n = 0.
Proof.
  intros W R C E n I. destruct (triangular_strength_spec set_order g full W R C) as (d' & E' & _ & _ & VD). assert (d' = d) by congruence. subst d'.
  destruct (VD v v n I) as (ws & (_ & Hw) & <-). destruct ws as [|w ws]; [reflexivity|]. exfalso.
  destruct (proj1 (Hw w) (or_introl eq_refl)) as ((D & _) & _). congruence.
Qed.

(** so both methods agree on a loop only if full is given and its node has one other neighbour at most *)
Theorem C42_loops set_order g full v : WF g -> reorders set_order -> comparable (nodes g) -> linked g v v ->
  exists d d', triangular_strength set_order g full = Ok d /\ naive_triangular_strength set_order g full = Ok d'
    /\ (forall n, In (v, v, n) d <-> full = true /\ n = 0)
    /\ ((forall n, In (v, v, n) d <-> In (v, v, n) d') <-> ~ branching g v).
Proof.
  intros W R C L. destruct (triangular_strength_spec set_order g full W R C) as (d & E & ND & KD & VD).
  destruct (C42_naive set_order g full W R C) as (d' & E' & ND' & _ & KD'). exists d, d'. split; [exact E|]. split; [exact E'|].
  assert (Sv : smaller_first v v) by (left; reflexivity).
  assert (NC : forall w, ~ common g v v w) by (intros w ((D & _) & _); congruence).
  assert (A : forall n, In (v, v, n) d <-> full = true /\ n = 0).
  { intros n. split.
    - intros I. assert (K : In (v, v) (map fst d)) by (apply in_map_iff; exists (v, v, n); auto). apply KD in K as (_ & _ & [F|(w & F)]); [|destruct (NC w F)].
      split; [exact F|]. destruct (VD v v n I) as (ws & (_ & Hw) & <-). destruct ws as [|w ws]; [reflexivity|]. exfalso. apply (NC w), Hw. left. reflexivity.
    - intros [F ->]. assert (K : In (v, v) (map fst d)) by (apply KD; auto). apply in_map_iff in K as ([p m] & Ep & K). cbn in Ep. subst p.
      destruct (VD v v m K) as (ws & (_ & Hw) & <-). destruct ws as [|w ws]; [exact K|]. exfalso. apply (NC w), Hw. left. reflexivity. }
  split; [exact A|]. split.
  - intros H B. assert (Z : exists n, 1 < n /\ has_size (fun w => linked g v w /\ v <> w) n).
    { pose proof (undirected_view_shows set_order g W R) as Sh. set (U := undirected_view set_order g) in *. clearbody U.
      exists (List.length (neighborhood U v)). split; [apply Nat.ltb_lt, (branching_length g U); assumption|].
      exists (neighborhood U v). split; [|reflexivity]. split; [apply (neighborhood_NoDup g), Sh|]. intros w. apply (neighborhood_In g), Sh. }
    destruct Z as (n & Ln & Z). assert (I : In (v, v, n) d') by (apply KD'; auto). apply H, A in I. lia.
  - intros B n. rewrite A, KD'. intuition.
Qed.
Print Assumptions C42_loops.

Example C42_ex_loops : linked looped (KInt 0) (KInt 0) /\ branching looped (KInt 0)
  /\ naive_triangular_strength in_order looped false = Ok [(KInt 0, KInt 0, 2)]
  /\ naive_triangular_strength in_order (ex_graph false false [0; 1]%Z (P_Graph.plain [(0, 0); (0, 1)]%Z)) true
     = Ok [(KInt 0, KInt 0, 0); (KInt 0, KInt 1, 0)].
Proof.
  split; [left; reflexivity|]. split.
  - exists (KInt 1), (KInt 2). repeat split; try congruence; left; reflexivity.
  - split; vm_compute; reflexivity.
Qed.

(** ** C97 the total of the naive method *)

Lemma total_split {A} (f : A * nat -> bool) d : total d = total (filter f d) + total (filter (fun x => negb (f x)) d).
Proof.
  unfold total. change list_sum with (fold_right Nat.add 0). induction d as [|x d IH]; [reflexivity|]. cbn [filter].
  destruct (f x); cbn [negb map fold_right]; lia.
Qed.

Lemma NoDup_map_filter {A B} (f : A -> B) (P : A -> bool) l : NoDup (map f l) -> NoDup (map f (filter P l)).
Proof.
  induction l as [|a l IH]; intros N; [constructor|]. cbn [map filter] in *. inversion N as [|? ? Na Nl]; subst. destruct (P a); [|auto].
  cbn [map]. constructor; [|auto]. intros I. apply Na. apply in_map_iff in I as (y & Ey & Iy). apply filter_In in Iy. apply in_map_iff. exists y. tauto.
Qed.

(** thrice the triangles, and the number of neighbours of each node with a loop and two neighbours or more *)
Theorem C97_naive_exact set_order g full l d : WF g -> reorders set_order -> comparable (nodes g) ->
  triangles set_order g = Ok l -> naive_triangular_strength set_order g full = Ok d ->
  exists loops : list (key * nat), NoDup (map fst loops)
    /\ (forall v n, In (v, n) loops <-> linked g v v /\ branching g v /\ has_size (fun w => linked g v w /\ v <> w) n)
    /\ total d = 3 * List.length l + total loops.
Proof.
  intros W R C T E. destruct (C42_naive set_order g full W R C) as (d2 & E2 & N2 & _ & KD). assert (d2 = d) by congruence. subst d2.
  destruct (C42_agree_partial set_order g full W R C) as (d1 & d2 & E1 & E2' & N1 & _ & A & _). assert (d2 = d) by congruence. subst d2. clear E2'.
  set (f := fun x : key * key * nat => key_eqb (fst (fst x)) (snd (fst x))).
  set (pos := fun x : key * key * nat => 0 <? snd x).
  exists (map (fun x => (fst (fst x), snd x)) (filter pos (filter f d))).
  assert (Bp : forall v n, branching g v -> has_size (fun w => linked g v w /\ v <> w) n -> 0 < n).
  { intros v n (a & _ & _ & Ha & _) (ws & (_ & Hw) & <-). apply Hw in Ha. destruct ws; [destruct Ha|cbn; lia]. }
  split; [|split].
  - rewrite map_map. cbn [fst].
    assert (X : NoDup (map fst (filter pos (filter f d)))) by (apply NoDup_map_filter, NoDup_map_filter, N2).
    assert (L : forall x, In x (filter pos (filter f d)) -> fst (fst x) = snd (fst x)).
    { intros x I. apply filter_In in I as [I _]. apply filter_In in I as [_ I]. apply key_eqb_eq. exact I. }
    revert X L. generalize (filter pos (filter f d)). induction l0 as [|[[u v] n] s IH]; intros X L; [constructor|]. cbn [map fst] in *.
    inversion X as [|? ? Nx Xs]; subst. pose proof (L _ (or_introl eq_refl)) as Luv. cbn in Luv. subst v.
    constructor; [|apply IH; [exact Xs|intros x I; apply L; right; exact I]].
    intros I. apply Nx. apply in_map_iff in I as ([[a b] m] & Ea & I). cbn in Ea. subst a. pose proof (L _ (or_intror I)) as Lab. cbn in Lab. subst b.
    apply in_map_iff. exists (u, u, m). auto.
  - intros v n. rewrite in_map_iff. split.
    + intros ([[a b] m] & Ex & I). cbn in Ex. inversion Ex; subst a m. apply filter_In in I as [I P]. apply filter_In in I as [I F].
      apply key_eqb_eq in F. cbn in F. subst b. apply Nat.ltb_lt in P. cbn in P. apply KD in I as (L & [[B Z]|(_ & _ & ->)]); [auto|lia].
    + intros (L & B & Z). exists (v, v, n). split; [reflexivity|]. apply filter_In. split; [|apply Nat.ltb_lt; cbn; eapply Bp; eassumption].
      apply filter_In. split; [apply KD; auto|]. apply key_eqb_eq. reflexivity.
  - rewrite (total_split f d). assert (Q : total (filter (fun x => negb (f x)) d) = 3 * List.length l).
    { rewrite <- (C97_total set_order g full l d1 T E1). apply total_same; [apply NoDup_map_filter, N2|exact N1|].
      intros [u v] n P. rewrite filter_In. unfold f. cbn [fst snd]. destruct (key_eqb_spec u v) as [->|D]; cbn [negb].
      - pose proof (C42_loops_value set_order g full v d1 W R C E1) as Z. split; [intuition discriminate|]. intros I. apply Z in I. lia.
      - rewrite (A u v n D). intuition. }
    rewrite Q, (total_positive (filter f d)). fold pos. generalize (filter pos (filter f d)). intros s.
    assert (Y : total (map (fun x : key * key * nat => (fst (fst x), snd x)) s) = total s) by (unfold total; rewrite map_map; reflexivity). lia.
Qed.
Print Assumptions C97_naive_exact.

Example C97_ex_exact :
  (let* l := triangles in_order knot in let* d := naive_triangular_strength in_order knot true in Ok (List.length l, total d)) = Ok (5, 15 + 4).
Proof. vm_compute. reflexivity. Qed.

(** ** C43 a collection which is hashable *)

(** such a collection is taken for the name of a part which no node is in, whatever the nodes it lists *)
Theorem C43_hashable_collection lib g l attr wattr name chk thr : WF g -> order g <> 0 ->
  monopartite_projection lib g (ByCollection true l) attr wattr name chk thr = Err TypeError.
Proof.
  intros W O. apply empty_part_raises; [assumption|assumption|]. induction (g_nodes g) as [|na s IH]; [reflexivity|exact IH].
Qed.
Print Assumptions C43_hashable_collection.

Example C43_ex_hashable : wf colors = true /\ order colors <> 0
  /\ monopartite_projection rounded colors (ByCollection true (ks [0; 1; 2; 3; 7]%Z)) (K "part") (K "weight") VNone true VNone = Err TypeError
  /\ reduced (shown (monopartite_projection rounded colors (ByCollection false (ks [0; 1; 2; 3; 7]%Z)) (K "part") (K "weight") VNone true VNone)) <> None.
Proof. vm_compute. repeat split; discriminate. Qed.

