(** * Lemmas about bipartite graphs made from tables: counts, ids, renaming *)
From Coq Require Import List ZArith QArith Lia Bool String.
From Verif Require Import PyBase NxGraph L_Base L_Nx L_Nx2 M_Graph M_Json M_Tabular S_Graph S_Json S_Tabular L_Graph L_Graph2 L_Sparse L_Rename L_Json L_Tab L_Bip.
Import ListNotations.
Open Scope list_scope.

(** ** Sums over edges *)
Lemma filter_split {A} (f : A -> bool) l : List.length l = List.length (filter f l) + List.length (filter (fun x => negb (f x)) l).
Proof. induction l as [|x l IH]; [reflexivity|]. cbn. destruct (f x); cbn; lia. Qed.

Lemma sum_matches {A B} (m : A -> B -> bool) (es : list A) : forall T : list B,
  ForallOrdPairs (fun e f => forall t, m e t = true -> m f t = false) es ->
  (forall t, In t T -> exists e, In e es /\ m e t = true) ->
  sum_Z (map (fun e => Z.of_nat (List.length (filter (m e) T))) es) = Z.of_nat (List.length T).
Proof.
  induction es as [|e es IH]; intros T F C; cbn [map sum_Z fold_right].
  - destruct T as [|t T]; [reflexivity|]. destruct (C t (or_introl eq_refl)) as (e & [] & _).
  - inversion F as [|? ? F1 F2]; subst. rewrite (filter_split (m e) T), Nat2Z.inj_add. f_equal.
    rewrite <- (IH (filter (fun x => negb (m e x)) T) F2).
    + unfold sum_Z. f_equal. apply map_ext_in. intros f Hf. f_equal. f_equal. rewrite filter_filter. apply filter_ext. intros t. rewrite Forall_forall in F1.
      destruct (m f t) eqn:E; cbn [andb]; [|rewrite ?andb_false_r; reflexivity]. destruct (m e t) eqn:G; [|reflexivity]. rewrite (F1 f Hf t G) in E. discriminate.
    + intros t Ht. apply filter_In in Ht as [Ht N]. destruct (C t Ht) as (f & [<- |Hf] & G); [rewrite G in N; discriminate|]. eauto.
Qed.

Lemma counted_sum dir w T g : simple dir g -> counted dir w T g ->
  sum_Z (map (fun e => stored_int w (snd e)) (edges_data g)) = Z.of_nat (List.length T).
Proof.
  intros S C. pose proof S as (W & D & M).
  transitivity (sum_Z (map (fun e => Z.of_nat (List.length (filter (fun t : key * key * attrs => jn dir (fst e) (snd e) (fst (fst t)) (snd (fst t))) T))) (edges g))).
  - rewrite <- (edges_data_simple_fst g W M). rewrite map_map. f_equal. apply map_ext_in. intros [[u v] a] H.
    cbn [fst snd]. pose proof (edges_data_attrs g u v a W M H) as E. rewrite C in E. fold (pairs_joined dir u v T).
    destruct (pairs_joined dir u v T) as [|t l]; [discriminate|]. inversion E; subst. unfold stored_int. rewrite dget_dset, key_eqb_refl. reflexivity.
  - apply (sum_matches (fun (e : key * key) (t : key * key * attrs) => jn dir (fst e) (snd e) (fst (fst t)) (snd (fst t)))).
    + pose proof (edges_apart g W) as F. rewrite D in F. induction F as [|e l F1 F2 IH]; constructor; [|assumption].
      rewrite Forall_forall in *. intros f Hf t J. specialize (F1 f Hf). destruct (jn dir (fst f) (snd f) _ _) eqn:G; [|reflexivity]. rewrite <- F1. symmetry.
      apply jn_iff. apply jn_iff in J, G. intuition congruence.
    + intros [[u v] a] Ht. cbn [fst snd].
      assert (H : has_edge g u v = true).
      { rewrite (has_edge_simple dir) by assumption. rewrite C. destruct (pairs_joined dir u v T) as [|t l] eqn:P; [|reflexivity]. exfalso.
        assert (I : In (u, v, a) (pairs_joined dir u v T)) by (apply filter_In; split; [assumption|apply jn_refl]). rewrite P in I. destruct I. }
      apply has_edge_edges in H; [|assumption]. rewrite D in H. destruct H as [H|[Hd H]]; eexists; (split; [exact H|]); cbn [fst snd]; apply jn_iff; auto.
Qed.

(** ** Ids *)
Definition idk (L : list item) (x : item) : key := KInt (Z.of_nat (position x (firsts L))).
Definition ids (n : nat) : list key := map (fun i => KInt (Z.of_nat i)) (seq 0 n).

Lemma mem_ids i n : mem (KInt (Z.of_nat i)) (ids n) = (i <? n).
Proof.
  apply Bool.eq_iff_eq_true. rewrite mem_In, Nat.ltb_lt. unfold ids. rewrite in_map_iff. split.
  - intros (j & E & H). apply in_seq in H. inversion E as [E']. apply Nat2Z.inj in E'. lia.
  - intros H. exists i. split; [reflexivity|]. apply in_seq. lia.
Qed.

Lemma ids_nodes l2 : forall l1 l3, fold_left add_id (map (idk (l1 ++ l2 ++ l3)) l2) (ids (List.length (firsts l1)))
  = ids (List.length (firsts (l1 ++ l2))).
Proof.
  induction l2 as [|x l2 IH]; intros l1 l3; [rewrite app_nil_r; reflexivity|]. cbn [map fold_left].
  assert (K : idk (l1 ++ (x :: l2) ++ l3) x = KInt (Z.of_nat (position x (firsts (l1 ++ [x]))))).
  { unfold idk. do 2 f_equal. replace (l1 ++ (x :: l2) ++ l3) with ((l1 ++ [x]) ++ l2 ++ l3) by (rewrite <- !app_assoc; reflexivity).
    apply position_stable. apply known_In. apply in_or_app. right. left. reflexivity. }
  rewrite K. replace (add_id (ids (List.length (firsts l1))) (KInt (Z.of_nat (position x (firsts (l1 ++ [x])))))) with (ids (List.length (firsts (l1 ++ [x])))).
  - replace (l1 ++ (x :: l2) ++ l3) with ((l1 ++ [x]) ++ l2 ++ l3) by (rewrite <- !app_assoc; reflexivity). rewrite IH. rewrite <- app_assoc. reflexivity.
  - unfold add_id. rewrite mem_ids. rewrite firsts_snoc. destruct (known x (firsts l1)) eqn:E.
    + apply position_lt in E. apply Nat.ltb_lt in E. rewrite E. reflexivity.
    + rewrite position_new by assumption. rewrite Nat.ltb_irrefl. unfold ids. rewrite app_length. cbn [List.length]. rewrite seq_app, map_app. reflexivity.
Qed.

Lemma idk_iff L x y : known x L = true -> known y L = true -> (idk L x = idk L y <-> item_eqb x y = true).
Proof.
  intros Kx Ky. unfold idk. split.
  - intros E. inversion E as [E']. apply Nat2Z.inj in E'. eapply position_inj; [|exact E'|]; rewrite known_firsts; assumption.
  - intros E. rewrite (position_eq x y _ E). reflexivity.
Qed.

(** an id outside of the register is equal to no id *)
Lemma idk_known L x y : idk L x = idk L y -> known x L = true -> known y L = true.
Proof.
  unfold idk. intros E K. inversion E as [E']. apply Nat2Z.inj in E'. rewrite <- known_firsts in K |- *. rewrite position_lt in *. lia.
Qed.

Lemma position_nth l : unequal l -> forall i x, nth_error l i = Some x -> position x l = i.
Proof.
  induction 1 as [|y l F1 F2 IH]; intros [|i] x H; try discriminate; cbn in *.
  - inversion H; subst. rewrite item_eqb_refl. reflexivity.
  - rewrite Forall_forall in F1. rewrite item_eqb_sym, (F1 x (nth_error_In _ _ H)). f_equal. apply IH. assumption.
Qed.

(** ** Renaming *)
Lemma res_map_Ok {A B} (f : A -> B) (r : res A) b : (let* a := r in Ok (f a)) = Ok b -> exists a, r = Ok a /\ b = f a.
Proof. destruct r; cbn; intros H; inversion H. eauto. Qed.

Section Rename.
Variables (f : key -> key) (N : list key).
Hypothesis inj : forall x y, In x N -> In y N -> f x = f y -> x = y.

Lemma eqb_ren x y : In x N -> In y N -> key_eqb (f x) (f y) = key_eqb x y.
Proof.
  intros Hx Hy. apply Bool.eq_iff_eq_true. rewrite !key_eqb_eq. split; [apply inj; assumption|congruence].
Qed.

Definition within (g : graph) : Prop := incl (nodes g) N /\ forall b, In b (g_adj g) -> In (b_src b) N /\ In (b_dst b) N.

Lemma dget_ren {A} (d : dict A) n : incl (dkeys d) N -> In n N -> dget (f n) (map (fun na => (f (fst na), snd na)) d) = dget n d.
Proof.
  intros I Hn. induction d as [|[k v] d IH]; [reflexivity|]. cbn. rewrite eqb_ren; [|assumption|apply I; left; reflexivity].
  destruct (key_eqb n k); [reflexivity|]. apply IH. intros x Hx. apply I. right. exact Hx.
Qed.

Lemma dset_ren {A} (d : dict A) n (a : A) : incl (dkeys d) N -> In n N ->
  dset (f n) a (map (fun na => (f (fst na), snd na)) d) = map (fun na => (f (fst na), snd na)) (dset n a d).
Proof.
  intros I Hn. induction d as [|[k v] d IH]; [reflexivity|]. cbn. rewrite eqb_ren; [|assumption|apply I; left; reflexivity].
  destruct (key_eqb n k); [reflexivity|]. cbn. f_equal. apply IH. intros x Hx. apply I. right. exact Hx.
Qed.

Lemma has_node_ren g n : within g -> In n N -> has_node (rename f g) (f n) = has_node g n.
Proof. intros [I _] Hn. unfold has_node. rewrite !dmem_dget. cbn [rename g_nodes]. rewrite dget_ren; [reflexivity|exact I|exact Hn]. Qed.

Lemma add_node_ren g n a : within g -> In n N -> add_node (rename f g) (f n) a = rename f (add_node g n a) /\ within (add_node g n a).
Proof.
  intros [I B] Hn. split.
  - unfold add_node, node_data. cbn [rename g_dir g_multi g_attr g_nodes g_adj]. rewrite dget_ren by assumption. rewrite dset_ren by assumption. reflexivity.
  - split; [|exact B]. intros m Hm. apply In_nodes_add_node in Hm as [->|Hm]; auto.
Qed.

Lemma same_ends_ren dir u v b : In u N -> In v N -> In (b_src b) N -> In (b_dst b) N ->
  same_ends dir (f u) (f v) (mkB (f (b_src b)) (f (b_dst b)) (b_data b)) = same_ends dir u v b.
Proof. intros. unfold same_ends. cbn [b_src b_dst]. rewrite !eqb_ren by assumption. reflexivity. Qed.

Lemma edge_data_ren g u v : within g -> In u N -> In v N -> edge_data (rename f g) (f u) (f v) = edge_data g u v.
Proof.
  intros [_ B] Hu Hv. unfold edge_data. cbn [rename g_dir g_adj]. induction (g_adj g) as [|b l IH]; [reflexivity|]. cbn [map List.find].
  destruct (B b (or_introl eq_refl)) as [X Y]. rewrite (same_ends_ren _ u v b) by assumption. destruct (same_ends (g_dir g) u v b); [reflexivity|].
  apply IH. intros b' Hb'. apply B. right. exact Hb'.
Qed.

Lemma map_edge_ren g u v k h : within g -> In u N -> In v N ->
  map_edge (rename f g) (f u) (f v) k h = rename f (map_edge g u v k h) /\ within (map_edge g u v k h).
Proof.
  intros [I B] Hu Hv. split.
  - unfold map_edge, rename. cbn [g_dir g_multi g_attr g_nodes g_adj]. f_equal. rewrite !map_map. apply map_ext_in. intros b Hb.
    destruct (B b Hb) as [X Y]. rewrite (same_ends_ren _ u v b) by assumption. destruct (same_ends (g_dir g) u v b); reflexivity.
  - split; [exact I|]. cbn [map_edge g_adj]. intros b Hb. apply in_map_iff in Hb as (b' & <- & Hb'). destruct (B b' Hb').
    destruct (same_ends (g_dir g) u v b'); auto.
Qed.

Lemma ensure_ren g n : within g -> In n N -> ensure_node (rename f g) (f n) = rename f (ensure_node g n) /\ within (ensure_node g n).
Proof.
  intros W Hn. unfold ensure_node. rewrite has_node_ren by assumption. destruct (has_node g n); [auto|]. split.
  - unfold rename. cbn [g_dir g_multi g_attr g_nodes g_adj]. rewrite map_app. reflexivity.
  - destruct W as [I B]. split; [|exact B]. intros m Hm. unfold nodes, dkeys in Hm. cbn [g_nodes] in Hm. rewrite map_app, in_app_iff in Hm.
    destruct Hm as [Hm|[<- |[]]]; [apply I; exact Hm|assumption].
Qed.

Lemma add_edge_ren g u v a : g_multi g = false -> within g -> In u N -> In v N ->
  add_edge (rename f g) (f u) (f v) a = rename f (add_edge g u v a) /\ within (add_edge g u v a).
Proof.
  intros M W Hu Hv. unfold add_edge. assert (M' : g_multi (rename f g) = false) by exact M. rewrite M, M'.
  destruct (ensure_ren g u W Hu) as [E1 W1]. destruct (ensure_ren _ v W1 Hv) as [E2 W2]. unfold add_edge_at. rewrite E1, E2.
  set (g2 := ensure_node (ensure_node g u) v) in *. destruct W2 as [I B]. split.
  - unfold rename. cbn [g_dir g_multi g_attr g_nodes g_adj]. f_equal. clear - inj B Hu Hv. induction (g_adj g2) as [|b l IH]; [reflexivity|].
    cbn [map set_bundle]. destruct (B b (or_introl eq_refl)) as [X Y]. rewrite (same_ends_ren _ u v b) by assumption.
    destruct (same_ends (g_dir g2) u v b); cbn [map b_src b_dst b_data]; [reflexivity|]. f_equal. apply IH. intros b' Hb'. apply B. right. exact Hb'.
  - split; [exact I|]. cbn [g_adj]. intros b Hb. apply set_bundle_In in Hb.
    destruct Hb as [Hb|[(-> & -> & _)|(c & Hc & -> & -> & _)]]; [apply B; exact Hb|auto|apply B; exact Hc].
Qed.

Variables (repr : nat -> string) (frepr : Q -> string) (part w : key) (d1 d2 : option data_spec) (name1 name2 : val).

Lemma part_node_ren name spec r label g n g' : within g -> In n N ->
  part_node repr frepr part name spec r label (rename f g) (f n) = (let* g' := part_node repr frepr part name spec r label g n in Ok (rename f g'))
  /\ (part_node repr frepr part name spec r label g n = Ok g' -> within g' /\ g_multi g' = g_multi g).
Proof.
  intros W Hn. rewrite !part_node_eq. rewrite has_node_ren by assumption. destruct (has_node g n).
  - split; [reflexivity|]. intros E. inversion E; subst. auto.
  - destruct (fresh_attrs _ _ _ _) as [a|e]; cbn [bind]; [|split; [reflexivity|discriminate]]. destruct (add_node_ren g n a W Hn) as [E W'].
    unfold add_node_kw. destruct (kwargs_ok _ a); [|split; [reflexivity|discriminate]]. cbn [bind]. rewrite E. split; [reflexivity|].
    intros E'. inversion E'; subst. auto.
Qed.

Lemma count_edge_ren g u v g' : g_multi g = false -> within g -> In u N -> In v N ->
  count_edge w (rename f g) (f u) (f v) = (let* g' := count_edge w g u v in Ok (rename f g'))
  /\ (count_edge w g u v = Ok g' -> within g' /\ g_multi g' = g_multi g).
Proof.
  intros M W Hu Hv. unfold count_edge, has_edge, incr_edge, edge_attrs. rewrite edge_data_ren by assumption. destruct (edge_data g u v) as [kd|].
  - destruct (dget (KInt 0) kd) as [a|]; [|split; [reflexivity|discriminate]]. destruct (dget w a) as [x|]; [|split; [reflexivity|discriminate]].
    destruct (plus_one x) as [y|]; cbn [bind]; [|split; [reflexivity|discriminate]]. destruct (map_edge_ren g u v (KInt 0) (dset w y) W Hu Hv) as [E W'].
    rewrite E. split; [reflexivity|]. intros E'. inversion E'; subst. auto.
  - rewrite !add_edge_kw_simple by assumption. destruct (kwargs_ok _ _); [|split; [reflexivity|discriminate]]. destruct (add_edge_ren g u v [(w, VInt 1)] M W Hu Hv) as [E W'].
    cbn [bind]. rewrite E. split; [reflexivity|]. intros E'. inversion E'; subst. split; [assumption|apply multi_add_edge].
Qed.

Definition ren_plan (p : plan) : plan := mkP (p_row p) (p_l1 p) (p_l2 p) (f (p_n1 p)) (f (p_n2 p)).

Lemma gsteps_ren ps : forall g, g_multi g = false -> within g -> (forall p, In p ps -> In (p_n1 p) N /\ In (p_n2 p) N) ->
  foldM (gstep repr frepr part w d1 d2 name1 name2) (map ren_plan ps) (rename f g) =
  let* g' := foldM (gstep repr frepr part w d1 d2 name1 name2) ps g in Ok (rename f g').
Proof.
  induction ps as [|p ps IH]; intros g M W Hp; [reflexivity|]. cbn [map foldM]. destruct (Hp p (or_introl eq_refl)) as [H1 H2].
  unfold gstep at 1 3. cbn [ren_plan p_row p_l1 p_l2 p_n1 p_n2].
  destruct (part_node_ren name1 d1 (p_row p) (p_l1 p) g (p_n1 p) g W H1) as [E _]. rewrite E. clear E.
  destruct (part_node repr frepr part name1 d1 (p_row p) (p_l1 p) g (p_n1 p)) as [g1|e] eqn:E1; cbn [bind]; [|reflexivity].
  destruct (part_node_ren name1 d1 (p_row p) (p_l1 p) g (p_n1 p) g1 W H1) as [_ W1]. destruct (W1 E1) as [W1' M1]. clear W1 E1.
  destruct (part_node_ren name2 d2 (p_row p) (p_l2 p) g1 (p_n2 p) g W1' H2) as [E _]. rewrite E. clear E.
  destruct (part_node repr frepr part name2 d2 (p_row p) (p_l2 p) g1 (p_n2 p)) as [g2|e] eqn:E2; cbn [bind]; [|reflexivity].
  destruct (part_node_ren name2 d2 (p_row p) (p_l2 p) g1 (p_n2 p) g2 W1' H2) as [_ W2]. destruct (W2 E2) as [W2' M2]. clear W2 E2.
  assert (Mg : g_multi g2 = false) by congruence.
  destruct (count_edge_ren g2 (p_n1 p) (p_n2 p) g Mg W2' H1 H2) as [E _]. rewrite E. clear E.
  destruct (count_edge w g2 (p_n1 p) (p_n2 p)) as [g3|e] eqn:E3; cbn [bind]; [|reflexivity].
  destruct (count_edge_ren g2 (p_n1 p) (p_n2 p) g3 Mg W2' H1 H2) as [_ W3]. destruct (W3 E3) as [W3' M3]. apply IH; [congruence|assumption|].
  intros q Hq. apply Hp. right. exact Hq.
Qed.
End Rename.

(** ** Collected data *)
Lemma collect_dict d r cols : r = RDict d -> forall acc, exists a,
  foldM (fun attr (ca : key * key) => collect_cell r attr (fst ca) (snd ca)) cols acc = Ok a
  /\ (NoDup (dkeys acc) -> NoDup (dkeys a))
  /\ (forall k, In k (dkeys a) -> In k (dkeys acc) \/ exists c, In (c, k) cols)
  /\ forall k v, dget k a = Some v <->
      (exists l1 c l2, cols = l1 ++ (c, k) :: l2 /\ dget c d = Some v /\ v <> VNone /\ forall c', In (c', k) l2 -> dget c' d = None \/ dget c' d = Some VNone)
      \/ (dget k acc = Some v /\ forall c', In (c', k) cols -> dget c' d = None \/ dget c' d = Some VNone).
Proof.
  intros ->. induction cols as [|[c n] cols IH]; intros acc; cbn [foldM].
  - exists acc. split; [reflexivity|]. split; [auto|]. split; [auto|]. intros k v. split.
    + intros E. right. split; [assumption|]. intros c' [].
    + intros [(l1 & c & l2 & E & _)|[E _]]; [destruct l1; discriminate|assumption].
  - cbn [fst snd]. unfold collect_cell at 1. cbn [row_get bind].
    assert (Skip : forall acc2 : attrs, (dget c d = None \/ dget c d = Some VNone) -> acc2 = acc -> exists a,
      foldM (fun attr (ca : key * key) => collect_cell (RDict d) attr (fst ca) (snd ca)) cols acc2 = Ok a
      /\ (NoDup (dkeys acc) -> NoDup (dkeys a))
      /\ (forall k, In k (dkeys a) -> In k (dkeys acc) \/ exists c', In (c', k) ((c, n) :: cols))
      /\ forall k v, dget k a = Some v <->
      (exists l1 c' l2, (c, n) :: cols = l1 ++ (c', k) :: l2 /\ dget c' d = Some v /\ v <> VNone /\ forall c', In (c', k) l2 -> dget c' d = None \/ dget c' d = Some VNone)
      \/ (dget k acc = Some v /\ forall c', In (c', k) ((c, n) :: cols) -> dget c' d = None \/ dget c' d = Some VNone)).
    { intros acc2 Ab ->. destruct (IH acc) as (a & E & ND & Ks & G). exists a. split; [assumption|]. split; [assumption|]. split.
      - intros k Hk. destruct (Ks k Hk) as [H|[c' H]]; [auto|]. right. exists c'. right. assumption.
      - intros k v. rewrite G. split.
        + intros [(l1 & c' & l2 & -> & H)|[H1 H2]].
          * left. exists ((c, n) :: l1), c', l2. split; [reflexivity|assumption].
          * right. split; [assumption|]. intros c' [Ec|Hc]; [inversion Ec; subst; assumption|apply H2; assumption].
        + intros [([|[c0 n0] l1] & c' & l2 & Eq & Hv & Nv & Hl)|[H1 H2]].
          * inversion Eq; subst. destruct Ab as [Ab|Ab]; rewrite Ab in Hv; inversion Hv; subst. contradiction.
          * inversion Eq; subst. left. exists l1, c', l2. auto.
          * right. split; [assumption|]. intros c' Hc. apply H2. right. assumption. }
    assert (Take : forall v0, dget c d = Some v0 -> v0 <> VNone -> exists a,
      foldM (fun attr (ca : key * key) => collect_cell (RDict d) attr (fst ca) (snd ca)) cols (dset n v0 acc) = Ok a
      /\ (NoDup (dkeys acc) -> NoDup (dkeys a))
      /\ (forall k, In k (dkeys a) -> In k (dkeys acc) \/ exists c', In (c', k) ((c, n) :: cols))
      /\ forall k v, dget k a = Some v <->
      (exists l1 c' l2, (c, n) :: cols = l1 ++ (c', k) :: l2 /\ dget c' d = Some v /\ v <> VNone /\ forall c', In (c', k) l2 -> dget c' d = None \/ dget c' d = Some VNone)
      \/ (dget k acc = Some v /\ forall c', In (c', k) ((c, n) :: cols) -> dget c' d = None \/ dget c' d = Some VNone)).
    { intros v0 Hv0 Nv0. destruct (IH (dset n v0 acc)) as (a & E & ND & Ks & G). exists a. split; [assumption|]. split; [intros H; apply ND, NoDup_dset, H|]. split.
      - intros k Hk. destruct (Ks k Hk) as [H|[c' H]].
        + apply In_dkeys_dset in H as [->|H]; [right; exists c; left; reflexivity|auto].
        + right. exists c'. right. assumption.
      - intros k v. rewrite G, dget_dset. split.
        + intros [(l1 & c' & l2 & -> & H)|[H1 H2]].
          * left. exists ((c, n) :: l1), c', l2. split; [reflexivity|assumption].
          * destruct (key_eqb_spec k n) as [->|N].
            -- inversion H1; subst. left. exists [], c, cols. auto.
            -- right. split; [assumption|]. intros c' [Ec|Hc]; [inversion Ec; subst; contradiction|auto].
        + intros [([|[c0 n0] l1] & c' & l2 & Eq & Hv & Nv & Hl)|[H1 H2]].
          * inversion Eq; subst. right. rewrite key_eqb_refl. split; [congruence|assumption].
          * inversion Eq; subst. left. exists l1, c', l2. auto.
          * destruct (key_eqb_spec k n) as [->|N].
            -- destruct (H2 c (or_introl eq_refl)) as [X|X]; rewrite Hv0 in X; inversion X; subst; contradiction.
            -- right. split; [assumption|]. intros c' Hc. apply H2. right. assumption. }
    destruct (dget c d) as [v0|] eqn:Ec; [|apply Skip; auto]. destruct v0; try (apply Take; [reflexivity|discriminate]). apply Skip; auto.
Qed.

Lemma collect_list l cols acc : cols <> [] -> foldM (fun attr (ca : key * key) => collect_cell (RList l) attr (fst ca) (snd ca)) cols acc = Err AttributeError.
Proof. destruct cols as [|ca cols]; [contradiction|]. reflexivity. Qed.

Lemma collect_seq r cols : forall acc, foldM (fun attr c => collect_cell r attr c c) cols acc
  = foldM (fun attr (ca : key * key) => collect_cell r attr (fst ca) (snd ca)) (map (fun c => (c, c)) cols) acc.
Proof.
  induction cols as [|c cols IH]; intros acc; [reflexivity|]. cbn [map foldM fst snd]. destruct (collect_cell r acc c c); cbn [bind]; [apply IH|reflexivity].
Qed.

Lemma split_last (k : key) l : In k l -> exists l1 l2, l = l1 ++ k :: l2 /\ ~ In k l2.
Proof.
  induction l as [|x l IH]; [intros []|]. intros H. destruct (in_dec key_eq_dec k l) as [I|N].
  - destruct (IH I) as (l1 & l2 & -> & N). exists (x :: l1), l2. auto.
  - destruct H as [<- |H]; [|contradiction]. exists [], l. auto.
Qed.

Lemma seq_picked cols d a : picked (map (fun c => (c, c)) cols) d a ->
  forall k v, dget k a = Some v <-> In k cols /\ dget k d = Some v /\ v <> VNone.
Proof.
  intros P k v. rewrite (P k v). split.
  - intros (l1 & c & l2 & E & H & N & _). assert (I : In (c, k) (map (fun c => (c, c)) cols)) by (rewrite E; apply in_or_app; right; left; reflexivity).
    apply in_map_iff in I as (c' & Ec & I). inversion Ec; subst. auto.
  - intros (I & H & N). destruct (split_last k cols I) as (l1 & l2 & -> & NI). exists (map (fun c => (c, c)) l1), k, (map (fun c => (c, c)) l2).
    split; [rewrite map_app; reflexivity|]. split; [assumption|]. split; [assumption|]. intros c' Hc. apply in_map_iff in Hc as (c2 & E & Hc). inversion E; subst. contradiction.
Qed.

Lemma collect_spec s r a : proper (Some s) -> collect_row_data s r = Ok a -> collected (Some s) r a /\ NoDup (dkeys a).
Proof.
  intros P H. destruct s as [f|cols|cols|]; cbn in *; [| | |discriminate].
  - apply bind_Ok in H as ([x|] & E & H); inversion H; subst. split; [assumption|]. eapply P. eassumption.
  - destruct cols as [|ca cols]; [inversion H; subst; split; [auto|constructor]|]. destruct r as [d|l]; [|rewrite collect_list in H by discriminate; discriminate].
    destruct (collect_dict d _ (ca :: cols) eq_refl []) as (a' & E & ND & _ & G). rewrite E in H. inversion H; subst. split; [|apply ND; constructor].
    right. exists d. split; [reflexivity|]. intros k v. rewrite G. split; [intros [X|[X _]]; [exact X|discriminate]|auto].
  - rewrite collect_seq in H. destruct cols as [|c cols]; [inversion H; subst; split; [auto|constructor]|]. destruct r as [d|l]; [|rewrite collect_list in H by discriminate; discriminate].
    destruct (collect_dict d _ (map (fun c => (c, c)) (c :: cols)) eq_refl []) as (a' & E & ND & _ & G). rewrite E in H. inversion H; subst. split; [|apply ND; constructor].
    right. exists d. split; [reflexivity|]. apply seq_picked. intros k v. rewrite G. split; [intros [X|[X _]]; [exact X|discriminate]|auto].
Qed.

Lemma fresh_spec repr frepr part label name spec r a : proper spec -> fresh_attrs repr frepr part (label, name, spec, r) = Ok a ->
  node_attrs repr frepr part name spec r label a.
Proof.
  intros P H. unfold node_attrs.
  assert (B : forall k, dget k (dset (K "label") (VStr (str_val repr frepr label)) [(part, name)]) =
    if key_eqb k (K "label") then Some (VStr (str_val repr frepr label)) else if key_eqb k part then Some name else None).
  { intros k. rewrite dget_dset. cbn [dget]. reflexivity. }
  assert (Plain : fresh_attrs repr frepr part (label, name, spec, r) = Ok a -> given spec = false -> collected spec r [] -> exists data, collected spec r data /\
    forall k, dget k a = match dget k data with Some v => Some v | None => if key_eqb k (K "label") then Some (VStr (str_val repr frepr label)) else if key_eqb k part then Some name else None end).
  { intros F G C. exists []. split; [assumption|]. cbn [dget]. intros k. rewrite <- B. unfold fresh_attrs in F. rewrite G in F. destruct spec; inversion F; reflexivity. }
  destruct spec as [s|]; [|apply Plain; auto; reflexivity]. destruct (given (Some s)) eqn:G.
  - unfold fresh_attrs in H. rewrite G in H. apply bind_Ok in H as (data & E & H). inversion H; subst. destruct (collect_spec s r data P E) as [C ND].
    exists data. split; [assumption|]. intros k. rewrite dget_dupdate_nodup by assumption. destruct (dget k data); [reflexivity|apply B].
  - apply Plain; auto. destruct s as [f|cols|cols|]; try discriminate; destruct cols; try discriminate; cbn; auto.
Qed.

Lemma fresh_nodup repr frepr part x a : fresh_attrs repr frepr part x = Ok a -> NoDup (dkeys a).
Proof.
  destruct x as [[[label name] spec] r]. unfold fresh_attrs.
  assert (B : NoDup (dkeys (dset (K "label") (VStr (str_val repr frepr label)) [(part, name)]))) by (apply NoDup_dset; constructor; [intros []|constructor]).
  destruct spec as [s|]; [|intros H; inversion H; subst; exact B]. destruct (given (Some s)); [|intros H; inversion H; subst; exact B].
  intros H. apply bind_Ok in H as (d & _ & H). inversion H; subst. apply NoDup_dupdate. exact B.
Qed.

(** ** Success *)
Lemma fresh_ok repr frepr part label name spec r : accepts spec r -> node_name part ->
  exists a, fresh_attrs repr frepr part (label, name, spec, r) = Ok a /\ kwargs_ok node_reserved a = true.
Proof.
  intros A Np.
  assert (B : forall k, In k (dkeys (dset (K "label") (VStr (str_val repr frepr label)) [(part, name)])) -> node_name k).
  { intros k Hk. apply In_dkeys_dset in Hk as [->|[<- |[]]]; [|exact Np]. split; [exists "label"%string; reflexivity|]. intros [E|[E|[]]]; discriminate. }
  assert (U : forall data, (forall k, In k (dkeys data) -> node_name k) ->
    kwargs_ok node_reserved (dupdate (dset (K "label") (VStr (str_val repr frepr label)) [(part, name)]) data) = true).
  { intros data Hd. apply kwargs_ok_iff. intros k Hk. apply In_dkeys_dupdate in Hk as [Hk|Hk]; [apply Hd|apply B]; assumption. }
  assert (P : given spec = false -> exists a, fresh_attrs repr frepr part (label, name, spec, r) = Ok a /\ kwargs_ok node_reserved a = true).
  { intros G. exists (dset (K "label") (VStr (str_val repr frepr label)) [(part, name)]). unfold fresh_attrs. rewrite G. split; [destruct spec; reflexivity|].
    apply (U []). intros k []. }
  destruct spec as [[f|cols|cols|]|]; cbn [accepts] in A; try contradiction; try (apply P; reflexivity).
  - destruct A as (a & E & Hk). unfold fresh_attrs. cbn [given collect_row_data]. rewrite E. cbn [bind]. eexists. split; [reflexivity|]. apply U. assumption.
  - destruct cols as [|ca cols]; [apply P; reflexivity|]. destruct A as [A|[[d ->] Hn]]; [discriminate|].
    destruct (collect_dict d _ (ca :: cols) eq_refl []) as (a & E & _ & Ks & _). unfold fresh_attrs. cbn [given collect_row_data]. rewrite E. cbn [bind]. eexists. split; [reflexivity|].
    apply U. intros k Hk. destruct (Ks k Hk) as [[]|[c Hc]]. eapply Hn. eassumption.
  - destruct cols as [|c cols]; [apply P; reflexivity|]. destruct A as [A|[[d ->] Hn]]; [discriminate|].
    destruct (collect_dict d _ (map (fun c => (c, c)) (c :: cols)) eq_refl []) as (a & E & _ & Ks & _). unfold fresh_attrs. cbn [given collect_row_data]. rewrite collect_seq, E. cbn [bind]. eexists. split; [reflexivity|].
    apply U. intros k Hk. destruct (Ks k Hk) as [[]|[c' Hc]]. apply in_map_iff in Hc as (c2 & Ec & Hc). inversion Ec; subst. apply Hn. assumption.
Qed.

Lemma gsteps_ok repr frepr part w d1 d2 name1 name2 ps : node_name part -> edge_name w ->
  (forall p, In p ps -> accepts d1 (p_row p) /\ accepts d2 (p_row p)) ->
  forall done g, inv repr frepr part w d1 d2 name1 name2 done g -> exists g', foldM (gstep repr frepr part w d1 d2 name1 name2) ps g = Ok g'.
Proof.
  intros Np Ew. induction ps as [|p ps IH]; intros A done g I; [exists g; reflexivity|]. cbn [foldM].
  assert (G : exists g1, gstep repr frepr part w d1 d2 name1 name2 g p = Ok g1).
  { destruct (A p (or_introl eq_refl)) as [A1 A2]. destruct I as (S & N & C). unfold gstep.
    assert (PN : forall name spec label h n, accepts spec (p_row p) -> exists h', part_node repr frepr part name spec (p_row p) label h n = Ok h').
    { intros name spec label h n Ac. rewrite part_node_eq. destruct (has_node h n); [eauto|]. destruct (fresh_ok repr frepr part label name spec (p_row p) Ac Np) as (a & E & Ka).
      rewrite E. cbn [bind]. unfold add_node_kw. rewrite Ka. eauto. }
    destruct (PN name1 d1 (p_l1 p) g (p_n1 p) A1) as [g1 E1]. rewrite E1. cbn [bind]. destruct (PN name2 d2 (p_l2 p) g1 (p_n2 p) A2) as [g2 E2]. rewrite E2. cbn [bind].
    destruct (part_node_spec _ _ _ _ _ _ _ _ _ _ _ _ _ S N C E1) as (S1 & N1 & C1 & _). destruct (part_node_spec _ _ _ _ _ _ _ _ _ _ _ _ _ S1 N1 C1 E2) as (S2 & N2 & C2 & _).
    rewrite count_edge_eq. apply (count_step_ok false w _ g2 _ _ [] S2 C2). apply kwargs_ok_iff. intros k [<- |[]]. exact Ew. }
  destruct G as [g1 E1]. rewrite E1. cbn [bind]. destruct (gstep_spec _ _ _ _ _ _ _ _ _ _ _ _ I E1) as [I1 _]. eapply IH; [|exact I1].
  intros q Hq. apply A. right. exact Hq.
Qed.
