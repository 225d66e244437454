(** * Lemmas about graphs made from tables of edges *)
From Coq Require Import List ZArith QArith Lia Bool String.
From Verif Require Import PyBase NxGraph L_Base L_Nx L_Nx2 M_Graph M_Json M_Tabular S_Graph S_Json S_Tabular L_Graph L_Graph2 L_Sparse L_Rename L_Json L_Tab L_Bip L_Bip2 L_Bip3.
Import ListNotations.
Open Scope list_scope.

(** ** Data of rows *)
Definition col_name (repr : nat -> string) (c : key) : key := KStr (py_str repr c).

Lemma row_data_fold repr r cols : forall (acc a : attrs), foldM (fun d c => let* v := row_item r c in Ok (dset (KStr (py_str repr c)) v d)) cols acc = Ok a ->
  dkeys a = fold_left add_id (map (col_name repr) cols) (dkeys acc)
  /\ (NoDup (dkeys acc) -> NoDup (dkeys a))
  /\ forall k v, dget k a = Some v <->
     (exists l1 c l2, cols = l1 ++ c :: l2 /\ KStr (py_str repr c) = k /\ row_item r c = Ok v /\ forall c', In c' l2 -> KStr (py_str repr c') <> k)
     \/ (dget k acc = Some v /\ forall c', In c' cols -> KStr (py_str repr c') <> k).
Proof.
  induction cols as [|c cols IH]; intros acc a H; cbn [foldM] in H.
  - inversion H; subst. split; [reflexivity|]. split; [auto|]. intros k v. split.
    + intros E. right. split; [assumption|]. intros c' [].
    + intros [(l1 & c & l2 & E & _)|[E _]]; [destruct l1; discriminate|assumption].
  - apply bind_Ok in H as (acc2 & H1 & H). apply bind_Ok in H1 as (v0 & Hv0 & H1). inversion H1; subst acc2. clear H1.
    destruct (IH _ _ H) as (Ks & ND & G). split; [|split].
    + rewrite Ks. cbn [map fold_left]. f_equal. rewrite dkeys_dset. unfold add_id. rewrite dmem_dget. unfold col_name.
      destruct (dget (KStr (py_str repr c)) acc) eqn:E.
      * apply dget_Some_key in E. apply mem_In in E. rewrite E. reflexivity.
      * apply dget_None in E. apply mem_nIn in E. rewrite E. reflexivity.
    + intros N. apply ND, NoDup_dset, N.
    + intros k v. rewrite G, dget_dset. split.
      * intros [(l1 & c' & l2 & -> & X)|[X1 X2]].
        -- left. exists (c :: l1), c', l2. split; [reflexivity|assumption].
        -- destruct (key_eqb_spec k (KStr (py_str repr c))) as [->|N].
           ++ inversion X1; subst. left. exists [], c, cols. auto.
           ++ right. split; [assumption|]. intros c' [<- |Hc]; auto.
      * intros [([|c0 l1] & c' & l2 & Eq & En & Hr & Hl)|[X1 X2]].
        -- inversion Eq; subst. right. rewrite key_eqb_refl. split; [congruence|assumption].
        -- inversion Eq; subst. left. exists l1, c', l2. auto.
        -- destruct (key_eqb_spec k (KStr (py_str repr c))) as [->|N]; [destruct (X2 c (or_introl eq_refl)); reflexivity|].
           right. split; [assumption|]. intros c' Hc. apply X2. right. assumption.
Qed.

Lemma row_data_spec repr cols r a : row_data repr cols r = Ok a -> kept repr cols r a /\ NoDup (dkeys a) /\ dkeys a = fold_left add_id (map (col_name repr) cols) [].
Proof.
  intros H. destruct (row_data_fold repr r cols [] a H) as (Ks & ND & G). split; [|split; [apply ND; constructor|exact Ks]].
  intros k v. rewrite G. split; [intros [X|[X _]]; [exact X|discriminate]|auto].
Qed.

Lemma row_data_ok repr cols r : (forall c, In c cols -> exists v, row_item r c = Ok v) -> exists a, row_data repr cols r = Ok a.
Proof.
  unfold row_data. generalize (@nil (key * val)) as acc. induction cols as [|c cols IH]; intros acc H; [exists acc; reflexivity|].
  cbn [foldM]. destruct (H c (or_introl eq_refl)) as [v ->]. cbn [bind]. apply IH. intros c' Hc. apply H. right. exact Hc.
Qed.

Lemma add_ids_In l : forall acc n, In n (fold_left add_id l acc) <-> In n l \/ In n acc.
Proof.
  induction l as [|x l IH]; intros acc n; [cbn; tauto|]. cbn [fold_left]. rewrite IH. unfold add_id. destruct (mem_spec x acc) as [I|I].
  - cbn. intuition congruence.
  - rewrite in_app_iff. cbn. tauto.
Qed.

Lemma row_data_names repr cols r a k : row_data repr cols r = Ok a -> In k (dkeys a) -> exists c, In c cols /\ k = KStr (py_str repr c).
Proof.
  intros H Hk. destruct (row_data_spec _ _ _ _ H) as (_ & _ & E). rewrite E in Hk. apply add_ids_In in Hk as [Hk|[]]. apply in_map_iff in Hk as (c & <- & Hc). eauto.
Qed.

Lemma dupdate_same_keys (e : attrs) : forall d1 d2 : attrs, dkeys d2 = dkeys e -> NoDup (dkeys (d1 ++ e)) -> dupdate (d1 ++ d2) e = d1 ++ e.
Proof.
  induction e as [|[k v] e IH]; intros d1 d2 K N.
  - destruct d2; [rewrite app_nil_r; reflexivity|discriminate].
  - destruct d2 as [|[k2 v2] d2]; [discriminate|]. cbn in K. inversion K; subst. cbn [dupdate fold_left fst snd].
    assert (E : dset k v (d1 ++ (k, v2) :: d2) = (d1 ++ [(k, v)]) ++ d2).
    { unfold dkeys in N. rewrite map_app in N. apply NoDup_app_iff in N as (_ & _ & Dj). assert (Nk : ~ In k (map fst d1)) by (intros X; apply (Dj k X); left; reflexivity).
      clear - Nk. induction d1 as [|[k0 v0] d1 IH]; cbn; [rewrite key_eqb_refl; reflexivity|]. destruct (key_eqb_spec k k0) as [->|Ne]; [destruct Nk; left; reflexivity|].
      f_equal. apply IH. intros X. apply Nk. right. exact X. }
    change (dupdate (dset k v (d1 ++ (k, v2) :: d2)) e = d1 ++ (k, v) :: e). rewrite E. rewrite IH; [rewrite <- app_assoc; reflexivity|assumption|]. rewrite <- app_assoc. exact N.
Qed.

Lemma dupdate_replace (d e : attrs) : dkeys d = dkeys e -> NoDup (dkeys e) -> dupdate d e = e.
Proof. intros K N. apply (dupdate_same_keys e [] d K N). Qed.

(** ** Steps *)
Definition last_joined (dir : bool) (ks : list key) (T : list (key * key * attrs)) (g : graph) : Prop :=
  (forall t, In t T -> dkeys (snd t) = ks) /\ NoDup ks /\
  forall x y, edge_attrs g x y (KInt 0) = match rev (pairs_joined dir x y T) with [] => None | t :: _ => Some (snd t) end.

Lemma last_step dir ks T g u v a : simple dir g -> last_joined dir ks T g -> dkeys a = ks -> NoDup ks -> 
  simple dir (add_edge g u v a) /\ last_joined dir ks (T ++ [(u, v, a)]) (add_edge g u v a).
Proof.
  intros S (Ks & ND & L) Ka _. pose proof S as (W & D & M). split; [split; [apply WF_add_edge; assumption|split; [rewrite dir_add_edge|rewrite multi_add_edge]; assumption]|].
  split; [intros t Ht; apply in_app_iff in Ht as [Ht|[<- |[]]]; auto|]. split; [assumption|]. intros x y.
  unfold pairs_joined. rewrite filter_app. cbn [filter fst snd]. fold (pairs_joined dir x y T). unfold add_edge. rewrite M, edge_attrs_add_edge_at, D, key_eqb_refl, andb_true_r.
  rewrite (jn_sym dir u v x y). destruct (jn dir x y u v).
  - rewrite rev_app_distr. cbn [rev app]. f_equal. rewrite L. destruct (rev (pairs_joined dir x y T)) as [|t l] eqn:R; [apply dupdate_nil; rewrite <- Ka in ND; exact ND|].
    apply dupdate_replace; [|rewrite <- Ka in ND; exact ND]. transitivity ks; [|symmetry; exact Ka]. apply Ks. assert (I : In t (rev (pairs_joined dir x y T))) by (rewrite R; left; reflexivity).
    apply in_rev in I. apply filter_In in I. tauto.
  - rewrite app_nil_r. apply L.
Qed.

Section Edges.
Variables (repr : nat -> string) (sc tc : key) (edge_data : list key) (count : bool) (w : key) (add_missing : bool).
Notation estep := (edge_row repr sc tc edge_data count w add_missing).

Definition triple_step (g : graph) (t : key * key * attrs) : res graph :=
  if count then count_step w g t else add_edge_kw g (fst (fst t)) (snd (fst t)) (snd t).

Definition reads_edge (r : row) (t : key * key * attrs) : Prop :=
  ends sc tc r (fst t) /\ row_data repr edge_data r = Ok (snd t).

Lemma edge_row_Ok g r g' : estep g r = Ok g' -> exists t, reads_edge r t /\ triple_step g t = Ok g'
  /\ (add_missing = false -> In (fst (fst t)) (nodes g) /\ In (snd (fst t)) (nodes g)).
Proof.
  unfold edge_row. intros H. apply bind_Ok in H as (v1 & H1 & H). apply bind_Ok in H as (v2 & H2 & H). apply bind_Ok in H as (n1 & K1 & H). apply bind_Ok in H as (n2 & K2 & H).
  apply bind_Ok in H as (u & C & H). apply bind_Ok in H as (data & D & H). exists (n1, n2, data). cbn [fst snd]. split; [|split].
  - split; [|assumption]. split; cbn [fst snd]; [destruct v1|destruct v2]; inversion K1; inversion K2; subst; assumption.
  - unfold triple_step, count_step. exact H.
  - intros Hm. rewrite Hm in C. unfold check_node_exists in C. destruct (has_node g n1) eqn:E1; [|discriminate]. cbn [bind] in C. destruct (has_node g n2) eqn:E2; [|discriminate].
    split; apply has_node_In; assumption.
Qed.

Lemma edge_row_eq g r t : reads_edge r t -> (add_missing = false -> In (fst (fst t)) (nodes g) /\ In (snd (fst t)) (nodes g)) -> estep g r = triple_step g t.
Proof.
  intros [[E1 E2] D] Hm. destruct t as [[u v] a]. cbn [fst snd] in *. unfold edge_row. rewrite E1, E2. cbn [bind key_of]. unfold triple_step. cbn [fst snd].
  assert (C : (if add_missing then Ok tt else let* _ := check_node_exists g u in let* _ := check_node_exists g v in Ok tt) = Ok tt).
  { destruct add_missing; [reflexivity|]. destruct (Hm eq_refl) as [Hu Hv]. unfold check_node_exists. apply has_node_In in Hu, Hv. rewrite Hu, Hv. reflexivity. }
  rewrite C. cbn [bind]. rewrite D. reflexivity.
Qed.

Definition data_keys : list key := fold_left add_id (map (col_name repr) edge_data) [].

Definition einv (dir : bool) (g0 : graph) (T : list (key * key * attrs)) (g : graph) : Prop :=
  simple dir g /\ (if count then counted dir w T g else last_joined dir data_keys T g)
  /\ (forall n, In n (nodes g) <-> In n (nodes g0) \/ exists t, In t T /\ (n = fst (fst t) \/ n = snd (fst t)))
  /\ (forall n, node_data g n = match node_data g0 n with Some a => Some a | None => if mem n (nodes g) then Some [] else None end)
  /\ (add_missing = false -> g_nodes g = g_nodes g0).

Lemma einv_start dir g0 : simple dir g0 -> g_adj g0 = [] -> einv dir g0 [] g0.
Proof.
  intros S A. split; [assumption|]. split; [|split; [|split]].
  - assert (E : forall x y k, edge_attrs g0 x y k = None) by (intros; unfold edge_attrs, NxGraph.edge_data; rewrite A; reflexivity).
    destruct count; [intros x y; apply E|]. split; [intros t []|]. split; [|intros x y; apply E].
    unfold data_keys. assert (G : forall l acc, NoDup acc -> NoDup (fold_left add_id l acc)).
    { induction l as [|x l IH]; intros acc N; [exact N|]. apply IH. unfold add_id. destruct (mem_spec x acc); [assumption|apply NoDup_snoc; assumption]. }
    apply G. constructor.
  - intros n. split; [auto|intros [H|(t & [] & _)]; assumption].
  - intros n. unfold node_data. destruct (dget n (g_nodes g0)) eqn:E; [reflexivity|]. apply dget_None in E. apply mem_nIn in E. unfold nodes. rewrite E. reflexivity.
  - reflexivity.
Qed.

Lemma node_data_none g n : node_data g n = None <-> ~ In n (nodes g).
Proof. unfold node_data. rewrite dget_None. reflexivity. Qed.

Lemma triple_step_spec dir g0 T g r t g' : einv dir g0 T g -> reads_edge r t -> (add_missing = false -> In (fst (fst t)) (nodes g) /\ In (snd (fst t)) (nodes g)) ->
  triple_step g t = Ok g' -> einv dir g0 (T ++ [t]) g'.
Proof.
  intros (S & E & N & Nd & Ng) [R D] Hm H. destruct t as [[u v] a]. cbn [fst snd] in *. destruct (row_data_spec _ _ _ _ D) as (_ & NDa & Ka).
  assert (X : simple dir g' /\ (if count then counted dir w (T ++ [(u, v, a)]) g' else last_joined dir data_keys (T ++ [(u, v, a)]) g')
     /\ (forall n, In n (nodes g') <-> n = u \/ n = v \/ In n (nodes g)) /\ (forall n, node_data g' n = match node_data g n with Some a => Some a | None => if mem n (nodes g') then Some [] else None end)
     /\ (In u (nodes g) -> In v (nodes g) -> g_nodes g' = g_nodes g)).
  { unfold triple_step in H. destruct count.
    - destruct (count_step_spec dir w T g u v a g' S E NDa H) as (S' & C' & K & I). split; [assumption|]. split; [assumption|]. split; [assumption|]. split; [|assumption].
      unfold count_step in H. destruct (has_edge g u v) eqn:HE.
      + assert (Huv : In u (nodes g) /\ In v (nodes g)).
        { destruct S as (W & _). unfold has_edge, NxGraph.edge_data in HE. destruct (List.find _ (g_adj g)) as [b|] eqn:Fb; [|discriminate]. apply find_some in Fb as [Ib Sb].
          destruct (wf_ends g W b Ib) as [X Y]. apply same_ends_iff in Sb. destruct Sb as [[<- <-]|(_ & <- & <-)]; auto. }
        destruct Huv as [Hu Hv]. intros n. unfold node_data, nodes. rewrite (K Hu Hv). destruct (dget n (g_nodes g)) eqn:G; [reflexivity|]. apply dget_None in G. apply mem_nIn in G. rewrite G. reflexivity.
      + destruct S as (_ & _ & M). rewrite add_edge_kw_simple in H by assumption. destruct (kwargs_ok _ _); [|discriminate]. inversion H; subst g'. intros n. unfold add_edge at 1. rewrite node_data_add_edge_at.
        destruct (node_data g n) eqn:G; [reflexivity|]. apply node_data_none in G. replace (key_eqb n u || key_eqb n v) with (mem n (nodes (add_edge g u v (dset w (VInt 1) a)))); [reflexivity|].
        apply Bool.eq_iff_eq_true. rewrite mem_In, I, orb_true_iff, !key_eqb_eq. tauto.
    - cbn [fst snd] in H. pose proof S as (W & _ & M). rewrite add_edge_kw_simple in H by assumption. destruct (kwargs_ok _ _); [|discriminate]. inversion H; subst g'.
      destruct (last_step dir data_keys T g u v a S E Ka (proj1 (proj2 E))) as [S' L']. split; [assumption|]. split; [assumption|].
      assert (I : forall n, In n (nodes (add_edge g u v a)) <-> n = u \/ n = v \/ In n (nodes g)) by (intros n; apply In_nodes_add_edge_at). split; [exact I|]. split.
      + intros n. unfold add_edge at 1. rewrite node_data_add_edge_at. destruct (node_data g n) eqn:G; [reflexivity|]. apply node_data_none in G.
        replace (key_eqb n u || key_eqb n v) with (mem n (nodes (add_edge g u v a))); [reflexivity|]. apply Bool.eq_iff_eq_true. rewrite mem_In, I, orb_true_iff, !key_eqb_eq. tauto.
      + intros Hu Hv. unfold add_edge, add_edge_at. cbn [g_nodes]. rewrite (ensure_present g u) by assumption. rewrite ensure_present by assumption. reflexivity. }
  destruct X as (S' & E' & I & Nd' & K). split; [assumption|]. split; [assumption|]. split; [|split].
  - intros n. rewrite I, N. split.
    + intros [->|[->|[H0|(t & Ht & Hn)]]].
      * right. exists (u, v, a). split; [apply in_app_iff; right; left; reflexivity|auto].
      * right. exists (u, v, a). split; [apply in_app_iff; right; left; reflexivity|auto].
      * auto.
      * right. exists t. split; [apply in_app_iff; auto|assumption].
    + intros [H0|(t & Ht & Hn)]; [auto|]. apply in_app_iff in Ht as [Ht|[<- |[]]]; [right; right; right; eauto|]. cbn in Hn. tauto.
  - intros n. rewrite Nd', Nd. destruct (node_data g0 n); [reflexivity|]. destruct (mem_spec n (nodes g)) as [J|J]; [|reflexivity].
    assert (Y : In n (nodes g')) by (apply I; auto). apply mem_In in Y. rewrite Y. reflexivity.
  - intros Hf. destruct (Hm Hf) as [Hu Hv]. rewrite (K Hu Hv). auto.
Qed.

Lemma edges_spec dir g0 rows : forall done g g', einv dir g0 done g -> foldM estep rows g = Ok g' ->
  exists T, Forall2 reads_edge rows T /\ einv dir g0 (done ++ T) g' /\ (add_missing = false -> forall t, In t T -> In (fst (fst t)) (nodes g0) /\ In (snd (fst t)) (nodes g0)).
Proof.
  induction rows as [|r rows IH]; intros done g g' I H; cbn [foldM] in H.
  - inversion H; subst. exists []. rewrite app_nil_r. split; [constructor|]. split; [assumption|]. intros _ t [].
  - apply bind_Ok in H as (g1 & H1 & H). destruct (edge_row_Ok _ _ _ H1) as (t & R & St & Hm). pose proof (triple_step_spec _ _ _ _ _ _ _ I R Hm St) as I1.
    destruct (IH _ _ _ I1 H) as (T & F & IT & HT). exists (t :: T). split; [constructor; assumption|]. split; [rewrite <- app_assoc in IT; exact IT|].
    intros Hf t' [<- |Ht]; [|apply HT; assumption]. destruct I as (_ & _ & _ & _ & Ng). specialize (Ng Hf). unfold nodes in *. rewrite <- Ng. apply Hm. assumption.
Qed.

Lemma triple_step_ok dir g0 T g t r : einv dir g0 T g -> reads_edge r t -> (forall c, In c edge_data -> edge_name (KStr (py_str repr c))) -> (count = true -> edge_name w) ->
  exists g', triple_step g t = Ok g'.
Proof.
  intros (S & E & _) [_ D] Hn Hw. destruct t as [[u v] a]. cbn [snd] in D. unfold triple_step. destruct count.
  - eapply count_step_ok; [exact S|exact E|]. apply kwargs_ok_iff. intros k Hk. apply In_dkeys_dset in Hk as [->|Hk]; [apply Hw; reflexivity|].
    destruct (row_data_names _ _ _ _ _ D Hk) as (c & Hc & ->). apply Hn. assumption.
  - cbn [fst snd]. destruct S as (_ & _ & M). rewrite add_edge_kw_simple by assumption. replace (kwargs_ok _ a) with true; [eauto|]. symmetry. apply kwargs_ok_iff. intros k Hk.
    destruct (row_data_names _ _ _ _ _ D Hk) as (c & Hc & ->). apply Hn. assumption.
Qed.

Lemma edges_ok dir g0 rows T : (forall c, In c edge_data -> edge_name (KStr (py_str repr c))) -> (count = true -> edge_name w) -> Forall2 reads_edge rows T ->
  (add_missing = false -> forall t, In t T -> In (fst (fst t)) (nodes g0) /\ In (snd (fst t)) (nodes g0)) ->
  forall done g, einv dir g0 done g -> exists g', foldM estep rows g = Ok g'.
Proof.
  intros Hn Hw F. induction F as [|r t rows T R F IH]; intros Hm done g I; [exists g; reflexivity|]. cbn [foldM].
  assert (Hm1 : add_missing = false -> In (fst (fst t)) (nodes g) /\ In (snd (fst t)) (nodes g)).
  { intros Hf. destruct I as (_ & _ & _ & _ & Ng). specialize (Ng Hf). unfold nodes. rewrite Ng. apply Hm; [assumption|left; reflexivity]. }
  rewrite (edge_row_eq g r t R Hm1). destruct (triple_step_ok _ _ _ _ _ _ I R Hn Hw) as [g1 E1]. rewrite E1. cbn [bind].
  eapply IH; [|eapply triple_step_spec; eassumption]. intros Hf t' Ht. apply Hm; [assumption|right; assumption].
Qed.
End Edges.

(** ** First and last *)
Lemma filter_first {A} (b : A -> bool) l x l' : filter b l = x :: l' -> exists i, nth_error l i = Some x /\ b x = true /\ forall j y, j < i -> nth_error l j = Some y -> b y = false.
Proof.
  induction l as [|a l IH]; cbn; [discriminate|]. destruct (b a) eqn:E.
  - intros H. inversion H; subst. exists 0. split; [reflexivity|]. split; [assumption|]. intros j y Hj. lia.
  - intros H. destruct (IH H) as (i & Hi & Hb & Hf). exists (Datatypes.S i). split; [assumption|]. split; [assumption|]. intros [|j] y Hj Hy; [inversion Hy; subst; assumption|]. apply (Hf j); [lia|assumption].
Qed.

Lemma filter_last {A} (b : A -> bool) l x l' : rev (filter b l) = x :: l' -> exists i, nth_error l i = Some x /\ b x = true /\ forall j y, i < j -> nth_error l j = Some y -> b y = false.
Proof.
  revert l'. induction l as [|a l IH] using rev_ind; intros l'; [discriminate|]. rewrite filter_app. cbn [filter]. destruct (b a) eqn:E.
  - rewrite rev_app_distr. cbn. intros H. inversion H; subst. exists (List.length l). split; [rewrite nth_error_app2, Nat.sub_diag by lia; reflexivity|]. split; [assumption|].
    intros j y Hj Hy. assert (X : j < List.length (l ++ [x])) by (apply nth_error_Some; congruence). rewrite app_length in X. cbn in X. lia.
  - rewrite app_nil_r. intros H. destruct (IH _ H) as (i & Hi & Hb & Hf). exists i.
    assert (Li : i < List.length l) by (apply nth_error_Some; congruence). split; [rewrite nth_error_app1 by assumption; assumption|]. split; [assumption|].
    intros j y Hj Hy. destruct (Nat.lt_ge_cases j (List.length l)) as [X|X]; [rewrite nth_error_app1 in Hy by assumption; eauto|].
    rewrite nth_error_app2 in Hy by assumption. destruct (j - List.length l) as [|k]; cbn in Hy; [inversion Hy; subst; assumption|destruct k; discriminate].
Qed.

Lemma jn_joins dir u v e : jn dir u v (fst e) (snd e) = true <-> joins dir e u v.
Proof.
  destruct e as [x y]. cbn. rewrite jn_iff. unfold joins. split.
  - intros [[-> ->]|(D & -> & ->)]; auto.
  - intros [E|[D E]]; inversion E; subst; auto.
Qed.

Lemma joinsb_jn dir u v e : joinsb dir u v e = jn dir u v (fst e) (snd e).
Proof. reflexivity. Qed.

Lemma nth_map_fst {A B} (T : list (A * B)) i e : nth_error (map fst T) i = Some e -> exists b, nth_error T i = Some (e, b).
Proof. rewrite nth_error_map. destruct (nth_error T i) as [[x b]|]; [|discriminate]. cbn. intros E. inversion E; subst. eauto. Qed.

Lemma joined_length dir u v (T : list (key * key * attrs)) : List.length (pairs_joined dir u v T) = rows_joining dir (map fst T) u v.
Proof. unfold pairs_joined, rows_joining. rewrite filter_map, map_length. reflexivity. Qed.

Lemma counted_spec dir w T g : simple dir g -> counted dir w T g ->
  (forall u v, has_edge g u v = true <-> exists e, In e (map fst T) /\ joins dir e u v)
  /\ forall u v a, edge_attrs g u v (KInt 0) = Some a -> exists i t, nth_error T i = Some t /\ first_row dir (map fst T) u v i
      /\ a = dset w (VInt (Z.of_nat (rows_joining dir (map fst T) u v))) (snd t).
Proof.
  intros S C. split.
  - intros u v. rewrite (has_edge_simple dir) by assumption. rewrite C. split.
    + destruct (pairs_joined dir u v T) as [|t l] eqn:P; [discriminate|]. intros _. assert (I : In t (pairs_joined dir u v T)) by (rewrite P; left; reflexivity).
      apply filter_In in I as [I J]. exists (fst t). split; [apply in_map; assumption|apply jn_joins; assumption].
    + intros (e & I & J). apply in_map_iff in I as (t & <- & I). apply jn_joins in J. assert (X : In t (pairs_joined dir u v T)) by (apply filter_In; auto).
      destruct (pairs_joined dir u v T); [destruct X|reflexivity].
  - intros u v a E. rewrite C in E. rewrite joined_length in E. destruct (pairs_joined dir u v T) as [|t l] eqn:P; [discriminate|].
    destruct (filter_first _ _ _ _ P) as (i & Hi & Hb & Hf). exists i, t. split; [assumption|]. split; [|inversion E; reflexivity]. split.
    + exists (fst t). split; [rewrite nth_error_map, Hi; reflexivity|apply jn_joins; assumption].
    + intros j e Hj He J. destruct (nth_map_fst _ _ _ He) as [b Hb']. specialize (Hf j _ Hj Hb'). apply jn_joins in J. cbn [fst] in Hf. congruence.
Qed.

Lemma last_spec dir ks T g : simple dir g -> last_joined dir ks T g ->
  (forall u v, has_edge g u v = true <-> exists e, In e (map fst T) /\ joins dir e u v)
  /\ forall u v a, edge_attrs g u v (KInt 0) = Some a -> exists i t, nth_error T i = Some t /\ last_row dir (map fst T) u v i /\ a = snd t.
Proof.
  intros S (_ & _ & C). split.
  - intros u v. rewrite (has_edge_simple dir) by assumption. rewrite C. split.
    + destruct (rev (pairs_joined dir u v T)) as [|t l] eqn:P; [discriminate|]. intros _. assert (I : In t (pairs_joined dir u v T)) by (apply in_rev; rewrite P; left; reflexivity).
      apply filter_In in I as [I J]. exists (fst t). split; [apply in_map; assumption|apply jn_joins; assumption].
    + intros (e & I & J). apply in_map_iff in I as (t & <- & I). apply jn_joins in J. assert (X : In t (rev (pairs_joined dir u v T))) by (apply -> in_rev; apply filter_In; auto).
      destruct (rev (pairs_joined dir u v T)); [destruct X|reflexivity].
  - intros u v a E. rewrite C in E. destruct (rev (pairs_joined dir u v T)) as [|t l] eqn:P; [discriminate|]. inversion E; subst a.
    destruct (filter_last _ _ _ _ P) as (i & Hi & Hb & Hf). exists i, t. split; [assumption|]. split; [|reflexivity]. split.
    + exists (fst t). split; [rewrite nth_error_map, Hi; reflexivity|apply jn_joins; assumption].
    + intros j e Hj He J. destruct (nth_map_fst _ _ _ He) as [b Hb']. specialize (Hf j _ Hj Hb'). apply jn_joins in J. cbn [fst] in Hf. congruence.
Qed.

(** ** Tables of nodes *)
Section Nodes.
Variables (repr : nat -> string) (node_col : key) (node_data : list key).
Notation nstep := (node_row repr node_col node_data).
Definition reads_node (r : row) (t : key * attrs) : Prop := row_item r node_col = Ok (VKey (fst t)) /\ row_data repr node_data r = Ok (snd t).

Definition ninv (dir : bool) (T : list (key * attrs)) (g : graph) : Prop :=
  simple dir g /\ g_adj g = [] /\ nodes g = fold_left add_id (map fst T) []
  /\ (forall t, In t T -> dkeys (snd t) = data_keys repr node_data)
  /\ forall n, NxGraph.node_data g n = match rev (filter (fun t => key_eqb n (fst t)) T) with [] => None | t :: _ => Some (snd t) end.

Lemma node_row_Ok g r g' : nstep g r = Ok g' -> exists t, reads_node r t /\ g' = add_node g (fst t) (snd t).
Proof.
  unfold node_row. intros H. apply bind_Ok in H as (v & Hv & H). apply bind_Ok in H as (a & Ha & H). apply bind_Ok in H as (n & Hn & H). apply add_node_kw_Ok in H as [_ ->].
  exists (n, a). split; [|reflexivity]. split; cbn; [|assumption]. destruct v; inversion Hn; subst. assumption.
Qed.

Lemma node_row_ok g r t : reads_node r t -> (forall c, In c node_data -> node_name (KStr (py_str repr c))) -> nstep g r = Ok (add_node g (fst t) (snd t)).
Proof.
  intros [H1 H2] Hn. unfold node_row. rewrite H1. cbn [bind]. rewrite H2. cbn [bind key_of]. apply add_node_kw_Ok. split; [|reflexivity]. apply kwargs_ok_iff. intros k Hk.
  destruct (row_data_names _ _ _ _ _ H2 Hk) as (c & Hc & ->). apply Hn. assumption.
Qed.

Lemma node_step dir T g r t : ninv dir T g -> reads_node r t -> ninv dir (T ++ [t]) (add_node g (fst t) (snd t)).
Proof.
  intros (S & A & N & Ks & Nd) [R D]. pose proof S as (W & Di & M). destruct (row_data_spec _ _ _ _ D) as (_ & NDa & Ka). split; [split; [apply WF_add_node; assumption|split; assumption]|].
  split; [exact A|]. split; [|split].
  - rewrite nodes_add_node. rewrite map_app, fold_left_app. cbn [map fold_left]. rewrite <- N. unfold add_id.
    replace (has_node g (fst t)) with (mem (fst t) (nodes g)); [reflexivity|]. apply Bool.eq_iff_eq_true. rewrite has_node_In, mem_In. reflexivity.
  - intros t' Ht. apply in_app_iff in Ht as [Ht|[<- |[]]]; [apply Ks; assumption|exact Ka].
  - intros n. rewrite node_data_add_node. rewrite filter_app. cbn [filter]. destruct (key_eqb_spec n (fst t)) as [->|Ne].
    + rewrite rev_app_distr. cbn [rev app]. f_equal. rewrite Nd. destruct (rev (filter _ T)) as [|t' l] eqn:P; [apply dupdate_nil; exact NDa|].
      apply dupdate_replace; [|exact NDa]. transitivity (data_keys repr node_data); [|symmetry; exact Ka]. apply Ks.
      assert (I : In t' (rev (filter (fun t0 => key_eqb (fst t) (fst t0)) T))) by (rewrite P; left; reflexivity). apply in_rev in I. apply filter_In in I. tauto.
    + rewrite app_nil_r. apply Nd.
Qed.

Lemma ninv_start dir : ninv dir [] (mkG dir false [] [] []).
Proof. split; [apply simple_empty|]. split; [reflexivity|]. split; [reflexivity|]. split; [intros t []|reflexivity]. Qed.

Lemma nodes_spec dir rows : forall done g g', ninv dir done g -> foldM nstep rows g = Ok g' -> exists T, Forall2 reads_node rows T /\ ninv dir (done ++ T) g'.
Proof.
  induction rows as [|r rows IH]; intros done g g' I H; cbn [foldM] in H.
  - inversion H; subst. exists []. rewrite app_nil_r. split; [constructor|assumption].
  - apply bind_Ok in H as (g1 & H1 & H). destruct (node_row_Ok _ _ _ H1) as (t & R & ->). pose proof (node_step _ _ _ _ _ I R) as I1. destruct (IH _ _ _ I1 H) as (T & F & IT).
    exists (t :: T). split; [constructor; assumption|]. rewrite <- app_assoc in IT. exact IT.
Qed.

Lemma nodes_ok dir rows T : (forall c, In c node_data -> node_name (KStr (py_str repr c))) -> Forall2 reads_node rows T ->
  forall done g, ninv dir done g -> exists g', foldM nstep rows g = Ok g' /\ ninv dir (done ++ T) g'.
Proof.
  intros Hn F. induction F as [|r t rows T R F IH]; intros done g I; [exists g; rewrite app_nil_r; auto|]. cbn [foldM]. rewrite (node_row_ok g r t R Hn). cbn [bind].
  destruct (IH _ _ (node_step _ _ _ _ _ I R)) as (g' & E & I'). exists g'. split; [assumption|]. rewrite <- app_assoc in I'. exact I'.
Qed.
End Nodes.
