(** * Bipartite graphs made from tables: the properties *)
From Coq Require Import List ZArith QArith Lia Bool String.
From Verif Require Import PyBase NxGraph L_Base L_Nx L_Nx2 M_Graph M_Json M_Tabular S_Graph S_Json S_Tabular L_Graph L_Graph2 L_Sparse L_Rename L_Json L_Tab L_Bip L_Bip2.
Import ListNotations.
Open Scope list_scope.

Lemma Forall2_len {A B} (R : A -> B -> Prop) l l' : Forall2 R l l' -> List.length l = List.length l'.
Proof. induction 1; cbn; congruence. Qed.

Lemma Forall2_fun {A B} (R : A -> B -> Prop) l : (forall a b b', R a b -> R a b' -> b = b') -> forall l1 l2, Forall2 R l l1 -> Forall2 R l l2 -> l1 = l2.
Proof.
  intros D. induction l as [|a l IH]; intros l1 l2 F1 F2; inversion F1; inversion F2; subst; [reflexivity|]. f_equal; [eapply D; eassumption|apply IH; assumption].
Qed.

Lemma Forall2_nth {A B} (R : A -> B -> Prop) l l' i a b : Forall2 R l l' -> nth_error l i = Some a -> nth_error l' i = Some b -> R a b.
Proof.
  intros F. revert i. induction F as [|x y l l' H F IH]; intros [|i] Ha Hb; try discriminate; cbn in *; [congruence|eauto].
Qed.

Lemma Forall2_nth_ex {A B} (R : A -> B -> Prop) l l' i b : Forall2 R l l' -> nth_error l' i = Some b -> exists a, nth_error l i = Some a /\ R a b.
Proof.
  intros F. revert i. induction F as [|x y l l' H F IH]; intros [|i] Hb; try discriminate; cbn in *; [inversion Hb; subst; eauto|eauto].
Qed.

Lemma reads_fun c1 c2 r ab ab' : reads c1 c2 r ab -> reads c1 c2 r ab' -> ab = ab'.
Proof. intros [A B] [C D]. destruct ab, ab'. cbn in *. congruence. Qed.

Section Bip.
Variables (repr : nat -> string) (frepr : Q -> string) (c1 c2 part w : key) (d1 d2 : option data_spec) (name1 name2 : option val).

Notation build rows dis := (table_to_bipartite_graph repr frepr (TRows rows) c1 c2 part w d1 d2 name1 name2 dis).
Notation n1 := (part_name name1 c1).
Notation n2 := (part_name name2 c2).
Notation step := (gstep repr frepr part w d1 d2 n1 n2).
Notation rstep := (row_step repr frepr c1 c2 part w d1 d2 n1 n2).
Notation binv := (inv repr frepr part w d1 d2 n1 n2).

Lemma build_eq rows dis : c1 <> c2 -> build rows dis =
  let* s := foldM (rstep dis) rows (register_of [], mkG false false [] [] []) in Ok (snd s).
Proof. intros N. unfold table_to_bipartite_graph. apply key_eqb_neq in N. rewrite N. reflexivity. Qed.

Lemma build_ids rows cells : c1 <> c2 -> Forall2 (reads c1 c2) rows cells ->
  build rows false = foldM step (plans (plan_id c1 c2 (met c1 c2 cells)) rows cells) (mkG false false [] [] []).
Proof.
  intros N F. rewrite build_eq by assumption. rewrite (plan_ids _ _ _ _ _ _ _ _ _ _ rows cells F []). cbn [app].
  destruct (foldM _ _ _); reflexivity.
Qed.

Lemma build_keys rows ks : c1 <> c2 -> Forall2 (reads c1 c2) rows (cells_of ks) ->
  build rows true = foldM step (plans plan_key rows ks) (mkG false false [] [] []).
Proof.
  intros N F. rewrite build_eq by assumption. rewrite (plan_keys _ _ _ _ _ _ _ _ _ _ rows ks F). destruct (foldM _ _ _); reflexivity.
Qed.

Lemma build_differ rows dis g : build rows dis = Ok g -> c1 <> c2.
Proof. unfold table_to_bipartite_graph. destruct (key_eqb_spec c1 c2); [discriminate|auto]. Qed.

Lemma build_reads rows dis g : build rows dis = Ok g -> exists cells, Forall2 (reads c1 c2) rows cells.
Proof.
  intros H. pose proof (build_differ _ _ _ H) as N. rewrite build_eq in H by assumption. apply bind_Ok in H as (s & H & _). eapply rows_read. eassumption.
Qed.

Lemma build_reads_keys rows g : build rows true = Ok g -> exists ks, Forall2 (reads c1 c2) rows (cells_of ks).
Proof.
  intros H. pose proof (build_differ _ _ _ H) as N. rewrite build_eq in H by assumption. apply bind_Ok in H as (s & H & _). eapply rows_read_keys. eassumption.
Qed.

Lemma flat_map_plans {A} (f : plan -> list A) (h : val * val -> list A) L rows cells : List.length rows = List.length cells ->
  (forall r ab, f (plan_id c1 c2 L r ab) = h ab) -> flat_map f (plans (plan_id c1 c2 L) rows cells) = flat_map h cells.
Proof.
  intros Le E. revert cells Le. induction rows as [|r rows IH]; intros [|ab cells] Le; try discriminate; [reflexivity|].
  cbn [plans combine map flat_map fst snd]. rewrite E. f_equal. apply IH. cbn in Le. lia.
Qed.

Lemma main_ids rows g : build rows false = Ok g -> exists cells, Forall2 (reads c1 c2) rows cells
  /\ binv (plans (plan_id c1 c2 (met c1 c2 cells)) rows cells) g /\ nodes g = ids (List.length (firsts (met c1 c2 cells))).
Proof.
  intros H. pose proof (build_differ _ _ _ H) as N. destruct (build_reads _ _ _ H) as [cells F]. exists cells. split; [assumption|].
  rewrite (build_ids rows cells N F) in H. destruct (gsteps_spec _ _ _ _ _ _ _ _ _ [] _ _ (inv_empty _ _ _ _ _ _ _ _) H) as [I E]. split; [exact I|].
  rewrite E. change (nodes (mkG false false [] [] [])) with (ids (List.length (firsts []))).
  rewrite (flat_map_plans _ (fun ab => map (idk (met c1 c2 cells)) [(c1, fst ab); (c2, snd ab)])) by (eauto using Forall2_len; reflexivity || (eapply Forall2_len; eassumption)).
  replace (flat_map (fun ab => map (idk (met c1 c2 cells)) [(c1, fst ab); (c2, snd ab)]) cells) with (map (idk (met c1 c2 cells)) (met c1 c2 cells)).
  - rewrite <- (app_nil_r (met c1 c2 cells)) at 1. apply (ids_nodes (met c1 c2 cells) [] []).
  - unfold met at 2. generalize (met c1 c2 cells) as L. intros L. clear. induction cells as [|ab cells IH]; [reflexivity|]. cbn [flat_map map app]. rewrite IH. reflexivity.
Qed.

Lemma met_known1 cells ab : In ab cells -> known (c1, fst ab) (met c1 c2 cells) = true.
Proof. intros H. apply known_In. apply in_flat_map. exists ab. split; [assumption|left; reflexivity]. Qed.
Lemma met_known2 cells ab : In ab cells -> known (c2, snd ab) (met c1 c2 cells) = true.
Proof. intros H. apply known_In. apply in_flat_map. exists ab. split; [assumption|right; left; reflexivity]. Qed.

Lemma node_of_item cells x y : In x (met c1 c2 cells) -> (node_of c1 c2 cells x = node_of c1 c2 cells y <-> item_eqb x y = true).
Proof.
  intros Hx. apply known_In in Hx. change (idk (met c1 c2 cells) x = idk (met c1 c2 cells) y <-> item_eqb x y = true). split.
  - intros E. apply (idk_iff _ _ _ Hx (idk_known _ _ _ E Hx)). assumption.
  - intros E. apply idk_iff; [assumption| |assumption]. rewrite <- (known_eq x y _ E). assumption.
Qed.

Lemma links_ids rows cells : List.length rows = List.length cells ->
  links (plans (plan_id c1 c2 (met c1 c2 cells)) rows cells) = map (fun ab => (node_of c1 c2 cells (c1, fst ab), node_of c1 c2 cells (c2, snd ab), [])) cells.
Proof.
  unfold node_of. generalize (met c1 c2 cells) as L. intros L. revert cells. induction rows as [|r rows IH]; intros [|ab cells] Le; try discriminate; [reflexivity|].
  cbn [plans combine map links fst snd]. f_equal. apply IH. cbn in Le. lia.
Qed.

Lemma joined_ids cells a b : c1 <> c2 ->
  List.length (pairs_joined false (node_of c1 c2 cells (c1, a)) (node_of c1 c2 cells (c2, b))
    (map (fun ab => (node_of c1 c2 cells (c1, fst ab), node_of c1 c2 cells (c2, snd ab), [])) cells)) = rows_with a b cells.
Proof.
  intros N. unfold pairs_joined, rows_with. rewrite filter_map. rewrite map_length. f_equal. apply filter_ext_in'. intros [a' b'] Hc. cbn [fst snd].
  assert (K1 : In (c1, a') (met c1 c2 cells)) by (apply in_flat_map; exists (a', b'); split; [assumption|left; reflexivity]).
  assert (K2 : In (c2, b') (met c1 c2 cells)) by (apply in_flat_map; exists (a', b'); split; [assumption|right; left; reflexivity]).
  apply Bool.eq_iff_eq_true. rewrite jn_iff, andb_true_iff.
  rewrite (node_of_item cells _ (c1, a) K1), (node_of_item cells _ (c2, b) K2), (node_of_item cells _ (c2, b) K1), (node_of_item cells _ (c1, a) K2).
  unfold item_eqb. cbn [fst snd]. rewrite !key_eqb_refl. apply key_eqb_neq in N. rewrite N. rewrite key_eqb_sym in N. rewrite N. cbn. intuition discriminate.
Qed.

Theorem counts rows g : build rows false = Ok g -> exists cells, Forall2 (reads c1 c2) rows cells
  /\ g_dir g = false /\ g_multi g = false
  /\ (forall a b, has_edge g (node_of c1 c2 cells (c1, a)) (node_of c1 c2 cells (c2, b)) = true <-> exists ab, In ab cells /\ val_eqb (fst ab) a = true /\ val_eqb (snd ab) b = true)
  /\ (forall a b x, edge_attrs g (node_of c1 c2 cells (c1, a)) (node_of c1 c2 cells (c2, b)) (KInt 0) = Some x -> x = [(w, VInt (Z.of_nat (rows_with a b cells)))])
  /\ (forall u v, has_edge g u v = true -> exists ab, In ab cells /\ joins false (node_of c1 c2 cells (c1, fst ab), node_of c1 c2 cells (c2, snd ab)) u v)
  /\ sum_Z (map (fun e => stored_int w (snd e)) (edges_data g)) = Z.of_nat (List.length rows).
Proof.
  intros H. pose proof (build_differ _ _ _ H) as N. destruct (main_ids rows g H) as (cells & F & (S & _ & C) & _). exists cells. split; [assumption|].
  pose proof S as (W & D & M). split; [assumption|]. split; [assumption|]. pose proof (Forall2_len _ _ _ F) as Le. rewrite links_ids in C by assumption.
  split; [|split; [|split]].
  - intros a b. rewrite (has_edge_simple false) by assumption. rewrite C. pose proof (joined_ids cells a b N) as J. split.
    + intros HE. assert (R : rows_with a b cells <> 0).
      { rewrite <- J. destruct (pairs_joined _ _ _ _); [discriminate|]. cbn. lia. }
      unfold rows_with in R. destruct (filter _ cells) as [|ab l] eqn:Fi; [contradiction|]. exists ab.
      assert (I : In ab (filter (fun ab => val_eqb (fst ab) a && val_eqb (snd ab) b) cells)) by (rewrite Fi; left; reflexivity).
      apply filter_In in I as [I E]. apply andb_true_iff in E. tauto.
    + intros (ab & I & E1 & E2). destruct (pairs_joined _ _ _ _); [exfalso|reflexivity]. cbn in J.
      assert (X : In ab (filter (fun ab => val_eqb (fst ab) a && val_eqb (snd ab) b) cells)) by (apply filter_In; rewrite E1, E2; auto).
      unfold rows_with in J. destruct (filter _ cells); [destruct X|discriminate].
  - intros a b x E. rewrite C in E. rewrite joined_ids in E by assumption. unfold pairs_joined in E. rewrite filter_map in E.
    destruct (filter _ cells); [discriminate|]. cbn [map] in E. inversion E. reflexivity.
  - intros u v HE. rewrite (has_edge_simple false) in HE by assumption. rewrite C in HE.
    destruct (pairs_joined false u v _) as [|t l] eqn:P; [discriminate|]. assert (I : In t (t :: l)) by (left; reflexivity). rewrite <- P in I.
    apply filter_In in I as [I J]. apply in_map_iff in I as (ab & <- & I). exists ab. split; [assumption|]. cbn [fst snd] in J. apply jn_iff in J. unfold joins.
    destruct J as [[-> ->]|(_ & -> & ->)]; auto.
  - rewrite (counted_sum false w _ g S C). rewrite map_length. congruence.
Qed.

(** ** First mentions *)
Lemma dget_mentions_first ps1 p ps2 : ~ In (p_n1 p) (flat_map (fun p => [p_n1 p; p_n2 p]) ps1) ->
  dget (p_n1 p) (mentions d1 d2 n1 n2 (ps1 ++ p :: ps2)) = Some (p_l1 p, n1, d1, p_row p).
Proof.
  intros H. unfold mentions. rewrite flat_map_app, dget_app. replace (dget (p_n1 p) _) with (@None (val * val * option data_spec * row)).
  - cbn. rewrite key_eqb_refl. reflexivity.
  - symmetry. apply dget_None. intros I. apply H. clear H. unfold dkeys in I. induction ps1 as [|q ps1 IH]; [exact I|]. cbn in *. destruct I as [I|[I|I]]; auto.
Qed.

Lemma dget_mentions_second ps1 p ps2 : ~ In (p_n2 p) (flat_map (fun p => [p_n1 p; p_n2 p]) ps1) -> p_n1 p <> p_n2 p ->
  dget (p_n2 p) (mentions d1 d2 n1 n2 (ps1 ++ p :: ps2)) = Some (p_l2 p, n2, d2, p_row p).
Proof.
  intros H N. unfold mentions. rewrite flat_map_app, dget_app. replace (dget (p_n2 p) _) with (@None (val * val * option data_spec * row)).
  - cbn. rewrite key_eqb_refl. assert (X : key_eqb (p_n2 p) (p_n1 p) = false) by (apply key_eqb_neq; congruence). rewrite X. reflexivity.
  - symmetry. apply dget_None. intros I. apply H. clear H. unfold dkeys in I. induction ps1 as [|q ps1 IH]; [exact I|]. cbn in *. destruct I as [I|[I|I]]; auto.
Qed.

Lemma plans_split {A B C} (f : A -> B -> C) l l' i a b : List.length l = List.length l' -> nth_error l i = Some a -> nth_error l' i = Some b ->
  exists q1 q2 l1 l1', plans f l l' = q1 ++ f a b :: q2 /\ q1 = plans f l1 l1' /\ List.length l1 = List.length l1' /\ List.length l1' = i /\ (exists x, l' = l1' ++ b :: x).
Proof.
  revert l' i. induction l as [|x l IH]; intros [|y l'] [|i] Le Ha Hb; try discriminate; cbn in *.
  - inversion Ha; inversion Hb; subst. exists [], (plans f l l'), [], []. repeat split. exists l'. reflexivity.
  - destruct (IH l' i ltac:(lia) Ha Hb) as (q1 & q2 & l1 & l1' & E & -> & Le1 & Li & [z Ez]). exists (f x y :: plans f l1 l1'), q2, (x :: l1), (y :: l1').
    cbn [plans combine map fst snd] in *. unfold plans in *. cbn [combine map fst snd]. rewrite E. repeat split; cbn; try congruence. exists z. congruence.
Qed.

Theorem data_ids rows g : proper d1 -> proper d2 -> build rows false = Ok g -> exists cells, Forall2 (reads c1 c2) rows cells
  /\ forall i r a b, nth_error rows i = Some r -> nth_error cells i = Some (a, b) ->
     ((forall j ab, j < i -> nth_error cells j = Some ab -> val_eqb (fst ab) a = false) ->
        exists x, node_data g (node_of c1 c2 cells (c1, a)) = Some x /\ node_attrs repr frepr part n1 d1 r a x)
     /\ ((forall j ab, j < i -> nth_error cells j = Some ab -> val_eqb (snd ab) b = false) ->
        exists x, node_data g (node_of c1 c2 cells (c2, b)) = Some x /\ node_attrs repr frepr part n2 d2 r b x).
Proof.
  intros P1 P2 H. pose proof (build_differ _ _ _ H) as N. destruct (main_ids rows g H) as (cells & F & (_ & (_ & Nd) & _) & _). exists cells. split; [assumption|].
  pose proof (Forall2_len _ _ _ F) as Le. intros i r a b Hr Hab.
  destruct (plans_split (plan_id c1 c2 (met c1 c2 cells)) rows cells i r (a, b) Le Hr Hab) as (q1 & q2 & l1 & l1' & E & -> & Le1 & Li & [z Ez]).
  rewrite E in Nd. set (p := plan_id c1 c2 (met c1 c2 cells) r (a, b)) in *.
  assert (Before : forall n, In n (flat_map (fun p => [p_n1 p; p_n2 p]) (plans (plan_id c1 c2 (met c1 c2 cells)) l1 l1')) ->
     exists j ab, j < i /\ nth_error cells j = Some ab /\ (n = node_of c1 c2 cells (c1, fst ab) \/ n = node_of c1 c2 cells (c2, snd ab))).
  { intros n Hn. rewrite (flat_map_plans (fun p => [p_n1 p; p_n2 p]) (fun ab => [node_of c1 c2 cells (c1, fst ab); node_of c1 c2 cells (c2, snd ab)]) _ _ _ Le1) in Hn by reflexivity.
    apply in_flat_map in Hn as (ab & Hab' & Hn). apply In_nth_error in Hab' as [j Hj]. exists j, ab. split; [|split].
    - rewrite <- Li. apply nth_error_Some. congruence.
    - rewrite Ez. rewrite nth_error_app1; [assumption|]. apply nth_error_Some. congruence.
    - destruct Hn as [<- |[<- |[]]]; auto. }
  assert (K1 : In (c1, a) (met c1 c2 cells)) by (apply in_flat_map; exists (a, b); split; [eapply nth_error_In; eassumption|left; reflexivity]).
  assert (K2 : In (c2, b) (met c1 c2 cells)) by (apply in_flat_map; exists (a, b); split; [eapply nth_error_In; eassumption|right; left; reflexivity]).
  assert (Nb : key_eqb c1 c2 = false) by (apply key_eqb_neq; assumption).
  split; intros Fi.
  - assert (D : dget (p_n1 p) (mentions d1 d2 n1 n2 (plans (plan_id c1 c2 (met c1 c2 cells)) l1 l1' ++ p :: q2)) = Some (a, n1, d1, r)).
    { apply dget_mentions_first. intros I. destruct (Before _ I) as (j & ab & Hj & Hc & [X|X]).
      - apply (node_of_item cells _ _ K1) in X. unfold item_eqb in X. cbn in X. rewrite key_eqb_refl in X. cbn in X. rewrite val_eqb_sym in X. rewrite (Fi j ab Hj Hc) in X. discriminate.
      - apply (node_of_item cells _ _ K1) in X. unfold item_eqb in X. cbn in X. rewrite Nb in X. discriminate. }
    destruct (Nd _ _ D) as (x & Fx & _ & Dx). exists x. rewrite dupdate_nil in Dx by (eapply fresh_nodup; exact Fx). split; [exact Dx|]. apply fresh_spec; assumption.
  - assert (D : dget (p_n2 p) (mentions d1 d2 n1 n2 (plans (plan_id c1 c2 (met c1 c2 cells)) l1 l1' ++ p :: q2)) = Some (b, n2, d2, r)).
    { apply dget_mentions_second.
      - intros I. destruct (Before _ I) as (j & ab & Hj & Hc & [X|X]).
        + apply (node_of_item cells _ _ K2) in X. unfold item_eqb in X. cbn in X. rewrite key_eqb_sym, Nb in X. discriminate.
        + apply (node_of_item cells _ _ K2) in X. unfold item_eqb in X. cbn in X. rewrite key_eqb_refl in X. cbn in X. rewrite val_eqb_sym in X. rewrite (Fi j ab Hj Hc) in X. discriminate.
      - intros X. apply (node_of_item cells (c1, a) (c2, b) K1) in X. unfold item_eqb in X. cbn in X. rewrite Nb in X. discriminate. }
    destruct (Nd _ _ D) as (x & Fx & _ & Dx). exists x. rewrite dupdate_nil in Dx by (eapply fresh_nodup; exact Fx). split; [exact Dx|]. apply fresh_spec; assumption.
Qed.

(** ** Known keys *)
Lemma flat_map_plan_key {A} (f : plan -> list A) (h : key * key -> list A) rows ks : List.length rows = List.length ks ->
  (forall r k, f (plan_key r k) = h k) -> flat_map f (plans plan_key rows ks) = flat_map h ks.
Proof.
  intros Le E. revert ks Le. induction rows as [|r rows IH]; intros [|ab ks] Le; try discriminate; [reflexivity|].
  cbn [plans combine map flat_map fst snd]. rewrite E. f_equal. apply IH. cbn in Le. lia.
Qed.

Theorem data_keys rows g : proper d1 -> proper d2 -> build rows true = Ok g -> exists ks, Forall2 (reads c1 c2) rows (cells_of ks)
  /\ (forall n, In n (nodes g) <-> exists e, In e ks /\ (n = fst e \/ n = snd e))
  /\ forall i r u v, nth_error rows i = Some r -> nth_error ks i = Some (u, v) ->
     ((forall j e, j < i -> nth_error ks j = Some e -> fst e <> u /\ snd e <> u) ->
        exists x, node_data g u = Some x /\ node_attrs repr frepr part n1 d1 r (VKey u) x)
     /\ ((forall j e, j < i -> nth_error ks j = Some e -> fst e <> v /\ snd e <> v) -> u <> v ->
        exists x, node_data g v = Some x /\ node_attrs repr frepr part n2 d2 r (VKey v) x).
Proof.
  intros P1 P2 H. pose proof (build_differ _ _ _ H) as N. destruct (build_reads_keys _ _ H) as [ks F]. exists ks. split; [assumption|].
  rewrite (build_keys rows ks N F) in H. destruct (gsteps_spec _ _ _ _ _ _ _ _ _ [] _ _ (inv_empty _ _ _ _ _ _ _ _) H) as [(_ & (Ns & Nd) & _) _]. cbn [app] in Ns, Nd.
  assert (Le : List.length rows = List.length ks) by (rewrite (Forall2_len _ _ _ F); apply map_length). split.
  - intros n. rewrite Ns. unfold mentions, dkeys. rewrite in_map_iff. split.
    + intros (x & <- & Hx). rewrite (flat_map_concat_map _ (plans plan_key rows ks)) in Hx. apply in_concat in Hx as (l & Hl & Hx). apply in_map_iff in Hl as (p & <- & Hp).
      apply in_map_iff in Hp as ((r & e) & <- & Hp). apply in_combine_r in Hp. exists e. split; [assumption|]. cbn in Hx. destruct Hx as [<- |[<- |[]]]; auto.
    + intros (e & He & Hn).
      assert (X : exists r, In (r, e) (combine rows ks)).
      { clear - He Le. revert ks He Le. induction rows as [|r rows IH]; intros [|k ks] He Le; try discriminate; [destruct He|]. destruct He as [->|He]; [exists r; left; reflexivity|].
        destruct (IH ks He ltac:(cbn in Le; lia)) as [r' Hr]. exists r'. right. assumption. }
      destruct X as [r Hr]. assert (Hp : In (plan_key r e) (plans plan_key rows ks)) by (apply in_map_iff; exists (r, e); auto).
      destruct Hn as [->| ->].
      * exists (fst e, (VKey (fst e), n1, d1, r)). split; [reflexivity|]. apply in_flat_map. exists (plan_key r e). split; [exact Hp|]. left. reflexivity.
      * exists (snd e, (VKey (snd e), n2, d2, r)). split; [reflexivity|]. apply in_flat_map. exists (plan_key r e). split; [exact Hp|]. right. left. reflexivity.
  - intros i r u v Hr Huv.
    destruct (plans_split plan_key rows ks i r (u, v) Le Hr Huv) as (q1 & q2 & l1 & l1' & E & -> & Le1 & Li & [z Ez]).
    rewrite E in Nd. set (p := plan_key r (u, v)) in *.
    assert (Before : forall n, In n (flat_map (fun p => [p_n1 p; p_n2 p]) (plans plan_key l1 l1')) ->
       exists j e, j < i /\ nth_error ks j = Some e /\ (n = fst e \/ n = snd e)).
    { intros n Hn. rewrite (flat_map_plan_key (fun p => [p_n1 p; p_n2 p]) (fun e => [fst e; snd e]) _ _ Le1) in Hn by reflexivity.
      apply in_flat_map in Hn as (ab & Hab' & Hn). apply In_nth_error in Hab' as [j Hj]. exists j, ab. split; [|split].
      - rewrite <- Li. apply nth_error_Some. congruence.
      - rewrite Ez. rewrite nth_error_app1; [assumption|]. apply nth_error_Some. congruence.
      - destruct Hn as [<- |[<- |[]]]; auto. }
    split; intros Fi.
    + assert (D : dget (p_n1 p) (mentions d1 d2 n1 n2 (plans plan_key l1 l1' ++ p :: q2)) = Some (VKey u, n1, d1, r)).
      { apply dget_mentions_first. intros I. destruct (Before _ I) as (j & e & Hj & Hc & X). cbn in X. destruct (Fi j e Hj Hc). destruct X; congruence. }
      destruct (Nd _ _ D) as (x & Fx & _ & Dx). exists x. rewrite dupdate_nil in Dx by (eapply fresh_nodup; exact Fx). split; [exact Dx|]. apply fresh_spec; assumption.
    + intros Nuv. assert (D : dget (p_n2 p) (mentions d1 d2 n1 n2 (plans plan_key l1 l1' ++ p :: q2)) = Some (VKey v, n2, d2, r)).
      { apply dget_mentions_second; [|exact Nuv]. intros I. destruct (Before _ I) as (j & e & Hj & Hc & X). cbn in X. destruct (Fi j e Hj Hc). destruct X; congruence. }
      destruct (Nd _ _ D) as (x & Fx & _ & Dx). exists x. rewrite dupdate_nil in Dx by (eapply fresh_nodup; exact Fx). split; [exact Dx|]. apply fresh_spec; assumption.
Qed.

(** ** Disjoint columns *)
Definition id_of (ks : list (key * key)) (k : key) : key :=
  node_of c1 c2 (cells_of ks) (if existsb (fun e => key_eqb (fst e) k) ks then (c1, VKey k) else (c2, VKey k)).

Lemma val_key_eqb a b : val_eqb (VKey a) (VKey b) = true -> a = b.
Proof.
  unfold val_eqb. destruct a as [z|s|n], b as [z'|s'|n']; cbn [num_of key_eqb]; try discriminate.
  - unfold q_eqb. intros H. apply Qeq_bool_iff in H. unfold inject_Z, Qeq in H. cbn in H. f_equal. lia.
  - intros H. apply String.eqb_eq in H. congruence.
  - intros H. apply Nat.eqb_eq in H. congruence.
Qed.

Theorem disjoint rows ks : c1 <> c2 -> Forall2 (reads c1 c2) rows (cells_of ks) ->
  (forall e e', In e ks -> In e' ks -> fst e <> snd e') ->
  let f := id_of ks in
  (forall e, In e ks -> f (fst e) = node_of c1 c2 (cells_of ks) (c1, VKey (fst e)) /\ f (snd e) = node_of c1 c2 (cells_of ks) (c2, VKey (snd e)))
  /\ (forall x y, In x (map fst ks ++ map snd ks) -> In y (map fst ks ++ map snd ks) -> f x = f y -> x = y)
  /\ build rows false = let* g := build rows true in Ok (rename f g).
Proof.
  intros N F Dj f. set (cells := cells_of ks).
  assert (Fst : forall e, In e ks -> f (fst e) = node_of c1 c2 cells (c1, VKey (fst e))).
  { intros e He. unfold f, id_of. replace (existsb _ ks) with true; [reflexivity|]. symmetry. apply existsb_exists. exists e. split; [assumption|apply key_eqb_refl]. }
  assert (Snd : forall e, In e ks -> f (snd e) = node_of c1 c2 cells (c2, VKey (snd e))).
  { intros e He. unfold f, id_of. replace (existsb _ ks) with false; [reflexivity|]. symmetry. apply not_true_iff_false. intros X. apply existsb_exists in X as (e' & He' & X).
    apply key_eqb_eq in X. exact (Dj e' e He' He X). }
  split; [auto|].
  assert (Me : forall e, In e ks -> In (c1, VKey (fst e)) (met c1 c2 cells) /\ In (c2, VKey (snd e)) (met c1 c2 cells)).
  { intros e He. assert (X : In (VKey (fst e), VKey (snd e)) cells) by (apply in_map_iff; exists e; auto). split; apply in_flat_map; eexists; (split; [exact X|]); cbn; auto. }
  assert (Nb : key_eqb c1 c2 = false) by (apply key_eqb_neq; assumption).
  assert (Nb' : key_eqb c2 c1 = false) by (rewrite key_eqb_sym; assumption).
  assert (Inj : forall x y, In x (map fst ks ++ map snd ks) -> In y (map fst ks ++ map snd ks) -> f x = f y -> x = y).
  { intros x y Hx Hy E. apply in_app_iff in Hx, Hy. rewrite !in_map_iff in Hx, Hy.
    destruct Hx as [(e & <- & He)|(e & <- & He)], Hy as [(e' & <- & He')|(e' & <- & He')].
    - rewrite (Fst e He), (Fst e' He') in E. apply node_of_item in E; [|apply Me; assumption]. unfold item_eqb in E. cbn in E. rewrite key_eqb_refl in E. apply val_key_eqb. exact E.
    - rewrite (Fst e He), (Snd e' He') in E. apply node_of_item in E; [|apply Me; assumption]. unfold item_eqb in E. cbn in E. rewrite Nb in E. discriminate.
    - rewrite (Snd e He), (Fst e' He') in E. apply node_of_item in E; [|apply Me; assumption]. unfold item_eqb in E. cbn in E. rewrite Nb' in E. discriminate.
    - rewrite (Snd e He), (Snd e' He') in E. apply node_of_item in E; [|apply Me; assumption]. unfold item_eqb in E. cbn in E. rewrite key_eqb_refl in E. apply val_key_eqb. exact E. }
  split; [exact Inj|]. rewrite (build_ids rows cells N F), (build_keys rows ks N F).
  replace (plans (plan_id c1 c2 (met c1 c2 cells)) rows cells) with (map (ren_plan f) (plans plan_key rows ks)).
  - change (mkG false false [] [] []) with (rename f (mkG false false [] [] [])) at 1. apply gsteps_ren with (N := map fst ks ++ map snd ks); [exact Inj|reflexivity| |].
    + split; [intros x []|intros b []].
    + intros p Hp. apply in_map_iff in Hp as ((r & e) & <- & Hp). apply in_combine_r in Hp. cbn. split; apply in_app_iff; [left|right]; apply in_map; assumption.
  - assert (G : forall l rs, incl l ks -> map (ren_plan f) (plans plan_key rs l) = plans (plan_id c1 c2 (met c1 c2 cells)) rs (cells_of l)).
    { induction l as [|e l IH]; intros [|r rs] I; try reflexivity. cbn [plans combine map cells_of fst snd]. f_equal.
      - unfold ren_plan, plan_key, plan_id. cbn [p_row p_l1 p_l2 p_n1 p_n2 fst snd]. f_equal; [rewrite Fst|rewrite Snd]; try (apply I; left; reflexivity); reflexivity.
      - apply IH. intros x Hx. apply I. right. exact Hx. }
    apply G. apply incl_refl.
Qed.

(** ** Success *)
Theorem build_ok rows cells : c1 <> c2 -> Forall2 (reads c1 c2) rows cells -> node_name part -> edge_name w ->
  (forall r, In r rows -> accepts d1 r /\ accepts d2 r) ->
  (exists g, build rows false = Ok g) /\ forall ks, cells = cells_of ks -> exists g, build rows true = Ok g.
Proof.
  intros N F Np Ew A. split.
  - rewrite (build_ids rows cells N F). eapply gsteps_ok; [assumption|assumption| |apply inv_empty]. intros p Hp. apply A.
    apply in_map_iff in Hp as ((r & e) & <- & Hp). apply in_combine_l in Hp. exact Hp.
  - intros ks ->. rewrite (build_keys rows ks N F). eapply gsteps_ok; [assumption|assumption| |apply inv_empty]. intros p Hp. apply A.
    apply in_map_iff in Hp as ((r & e) & <- & Hp). apply in_combine_l in Hp. exact Hp.
Qed.

Theorem lacking l1 r l2 dis g : build l1 dis = Ok g -> (forall ab, ~ reads c1 c2 r ab) -> build (l1 ++ r :: l2) dis = Err TypeError.
Proof.
  intros H L. pose proof (build_differ _ _ _ H) as N. rewrite build_eq in * by assumption. apply bind_Ok in H as (s & H & _).
  rewrite foldM_app, H. cbn [bind foldM]. unfold row_step at 1, bipartite_row. destruct s as [nid h].
  replace (row_labels c1 c2 r) with (@Err (val * val) TypeError); [reflexivity|]. symmetry. unfold row_labels.
  destruct (row_item r c1) as [a|e] eqn:Ea; cbn [bind].
  - destruct (row_item r c2) as [b|e] eqn:Eb; cbn [bind]; [destruct (L (a, b)); split; assumption|].
    unfold row_item in Eb. destruct r as [d|l]; [destruct (dget c2 d); inversion Eb; reflexivity|]. destruct c2; try (inversion Eb; reflexivity).
    match type of Eb with (if ?c then _ else _) = _ => destruct c end; [destruct (nth_error l _)|]; inversion Eb; reflexivity.
  - unfold row_item in Ea. destruct r as [d|l]; [destruct (dget c1 d); inversion Ea; reflexivity|]. destruct c1; try (inversion Ea; reflexivity).
    match type of Ea with (if ?c then _ else _) = _ => destruct c end; [destruct (nth_error l _)|]; inversion Ea; reflexivity.
Qed.
End Bip.
