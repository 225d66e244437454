(** * Lemmas about tables: ids, counted edges *)
From Coq Require Import List ZArith QArith Lia Bool String.
From Verif Require Import PyBase NxGraph L_Base L_Nx L_Nx2 M_Graph M_Json M_Tabular S_Graph S_Json S_Tabular L_Graph L_Graph2 L_Sparse L_Rename L_Json.
Import ListNotations.
Open Scope list_scope.

(** ** Equality of items *)
Lemma val_eqb_refl v : val_eqb v v = true.
Proof.
  unfold val_eqb. destruct (num_of v) eqn:E; [apply Qeq_bool_iff; reflexivity|]. destruct v as [|b|q|k]; try reflexivity; [destruct b; discriminate|discriminate|apply key_eqb_refl].
Qed.

Lemma val_eqb_sym a b : val_eqb a b = val_eqb b a.
Proof.
  unfold val_eqb. destruct (num_of a) as [x|], (num_of b) as [y|]; try reflexivity.
  - unfold q_eqb. destruct (Qeq_bool x y) eqn:E, (Qeq_bool y x) eqn:F; try reflexivity.
    + apply Qeq_bool_iff in E. apply Qeq_bool_neq in F. destruct F. symmetry. assumption.
    + apply Qeq_bool_iff in F. apply Qeq_bool_neq in E. destruct E. symmetry. assumption.
  - destruct a, b; try reflexivity. apply key_eqb_sym.
Qed.

Lemma val_eqb_trans a b c : val_eqb a b = true -> val_eqb b c = true -> val_eqb a c = true.
Proof.
  unfold val_eqb. destruct (num_of a) as [x|], (num_of b) as [y|], (num_of c) as [z|]; try discriminate.
  - unfold q_eqb. rewrite !Qeq_bool_iff. apply Qeq_trans.
  - destruct a, b, c; try discriminate; try reflexivity. rewrite !key_eqb_eq. congruence.
Qed.

Lemma item_eqb_refl x : item_eqb x x = true.
Proof. unfold item_eqb. rewrite key_eqb_refl, val_eqb_refl. reflexivity. Qed.

Lemma item_eqb_sym x y : item_eqb x y = item_eqb y x.
Proof. unfold item_eqb. rewrite key_eqb_sym, val_eqb_sym. reflexivity. Qed.

Lemma item_eqb_trans x y z : item_eqb x y = true -> item_eqb y z = true -> item_eqb x z = true.
Proof.
  unfold item_eqb. rewrite !andb_true_iff, !key_eqb_eq. intros [A B] [C D]. split; [congruence|]. eapply val_eqb_trans; eassumption.
Qed.

Lemma item_eqb_left x y z : item_eqb x y = true -> item_eqb x z = item_eqb y z.
Proof.
  intros H. destruct (item_eqb y z) eqn:E.
  - eapply item_eqb_trans; eassumption.
  - destruct (item_eqb x z) eqn:F; [|reflexivity]. rewrite <- E. symmetry. eapply item_eqb_trans; [rewrite item_eqb_sym; exact H|exact F].
Qed.

(** ** First occurrences *)
Definition known (x : item) (l : list item) : bool := existsb (item_eqb x) l.

Lemma known_filter x y l : item_eqb y x = false -> known x (filter (fun z => negb (item_eqb y z)) l) = known x l.
Proof.
  intros H. unfold known. induction l as [|z l IH]; [reflexivity|]. cbn [filter existsb]. destruct (item_eqb y z) eqn:E; cbn [negb existsb]; rewrite IH.
  - replace (item_eqb x z) with false; [reflexivity|]. symmetry. rewrite item_eqb_sym. rewrite <- (item_eqb_left y z x E). exact H.
  - reflexivity.
Qed.

Lemma known_firsts x l : known x (firsts l) = known x l.
Proof.
  induction l as [|y l IH]; [reflexivity|]. cbn [firsts]. unfold known in *. cbn [existsb]. destruct (item_eqb x y) eqn:E; [reflexivity|]. cbn [orb].
  fold (known x (filter (fun z => negb (item_eqb y z)) (firsts l))). rewrite known_filter by (rewrite item_eqb_sym; exact E). exact IH.
Qed.

Lemma firsts_snoc l x : firsts (l ++ [x]) = if known x (firsts l) then firsts l else firsts l ++ [x].
Proof.
  induction l as [|y l IH]; [reflexivity|]. cbn [app firsts]. rewrite IH. unfold known at 2. cbn [existsb]. rewrite (item_eqb_sym x y).
  destruct (item_eqb y x) eqn:E; cbn [orb].
  - destruct (known x (firsts l)); [reflexivity|]. rewrite filter_app. cbn [filter]. rewrite E. cbn [negb]. rewrite app_nil_r. reflexivity.
  - fold (known x (filter (fun z => negb (item_eqb y z)) (firsts l))). rewrite known_filter by assumption.
    destruct (known x (firsts l)); [reflexivity|]. rewrite filter_app. cbn [filter]. rewrite E. reflexivity.
Qed.

Lemma position_app x l l' : known x l = true -> position x (l ++ l') = position x l.
Proof.
  unfold known. induction l as [|y l IH]; [discriminate|]. cbn. destruct (item_eqb x y); [reflexivity|]. cbn [orb]. intros H. rewrite IH; auto.
Qed.

Lemma position_new x l l' : known x l = false -> position x (l ++ x :: l') = List.length l.
Proof.
  unfold known. induction l as [|y l IH]; cbn.
  - rewrite item_eqb_refl. reflexivity.
  - destruct (item_eqb x y); [discriminate|]. cbn [orb]. intros H. rewrite IH; auto.
Qed.

Lemma position_lt x l : known x l = true <-> position x l < List.length l.
Proof.
  unfold known. induction l as [|y l IH]; cbn; [split; [discriminate|lia]|]. destruct (item_eqb x y); cbn [orb]; [split; [lia|reflexivity]|].
  rewrite IH. lia.
Qed.

(** items which are not equal, pairwise *)
Definition unequal (l : list item) : Prop := ForallOrdPairs (fun x y => item_eqb x y = false) l.

Lemma firsts_unequal l : unequal (firsts l).
Proof.
  induction l as [|x l IH]; [constructor|]. cbn [firsts]. constructor.
  - apply Forall_forall. intros y Hy. apply filter_In in Hy as [_ Hy]. apply negb_true_iff. assumption.
  - unfold unequal in *. induction IH as [|y l' F IH' IH2]; [constructor|]. cbn [filter]. destruct (negb (item_eqb x y)); [|assumption].
    constructor; [|assumption]. rewrite Forall_forall in *. intros z Hz. apply filter_In in Hz as [Hz _]. auto.
Qed.

Lemma position_inj x y l : known x l = true -> position x l = position y l -> known y l = true -> item_eqb x y = true.
Proof.
  unfold known. induction l as [|z l IH]; [discriminate|]. cbn. destruct (item_eqb x z) eqn:E, (item_eqb y z) eqn:F; cbn [orb]; intros A B C; try discriminate.
  - eapply item_eqb_trans; [exact E|]. rewrite item_eqb_sym. exact F.
  - apply IH; [assumption|lia|assumption].
Qed.

Lemma position_eq x y l : item_eqb x y = true -> position x l = position y l.
Proof. intros H. induction l as [|z l IH]; [reflexivity|]. cbn. rewrite (item_eqb_left x y z H), IH. reflexivity. Qed.

Lemma known_eq x y l : item_eqb x y = true -> known x l = known y l.
Proof. intros H. unfold known. induction l as [|z l IH]; [reflexivity|]. cbn. rewrite (item_eqb_left x y z H), IH. reflexivity. Qed.

Lemma known_In x l : In x l -> known x l = true.
Proof. intros H. apply existsb_exists. exists x. split; [assumption|apply item_eqb_refl]. Qed.

(** ** The register *)
Definition register_of (l : list item) : id_register :=
  (List.length (firsts l), combine (firsts l) (seq 0 (List.length (firsts l)))).

Lemma find_position x l : forall z, List.find (fun p => item_eqb x (fst p)) (combine l (seq z (List.length l)))
  = if known x l then option_map (fun y => (y, z + position x l)) (List.find (item_eqb x) l) else None.
Proof.
  unfold known. induction l as [|y l IH]; intros z; [reflexivity|]. cbn [List.length seq combine List.find fst existsb position].
  destruct (item_eqb x y) eqn:E; cbn [orb].
  - cbn. f_equal. f_equal. lia.
  - rewrite IH. destruct (existsb (item_eqb x) l); [|reflexivity]. destruct (List.find (item_eqb x) l); [|reflexivity]. cbn. f_equal. f_equal. lia.
Qed.

Lemma register_item_spec l x :
  register_item (register_of l) x = (register_of (l ++ [x]), position x (firsts (l ++ [x]))).
Proof.
  unfold register_item, register_of. cbn [fst snd]. rewrite find_position, firsts_snoc. destruct (known x (firsts l)) eqn:K.
  - unfold known in K. destruct (List.find (item_eqb x) (firsts l)) as [y|] eqn:F; [reflexivity|]. exfalso.
    apply existsb_exists in K as (y & Hy & E). rewrite (find_none _ _ F y Hy) in E. discriminate.
  - rewrite app_length. cbn [List.length]. rewrite position_new by assumption. f_equal. f_equal.
    rewrite seq_app. cbn [plus seq].
    assert (A : forall (a : list item) (b : list nat) a' b', List.length a = List.length b -> combine (a ++ a') (b ++ b') = combine a b ++ combine a' b').
    { clear. induction a as [|x a IH]; intros [|y b] a' b' H; try discriminate; [reflexivity|]. cbn. f_equal. apply IH. cbn in H. lia. }
    rewrite A by (rewrite seq_length; reflexivity). reflexivity.
Qed.

Lemma position_stable x l l' : known x l = true -> position x (firsts (l ++ l')) = position x (firsts l).
Proof.
  revert l. induction l' as [|y l' IH]; intros l K; [rewrite app_nil_r; reflexivity|].
  replace (l ++ y :: l') with ((l ++ [y]) ++ l') by (rewrite <- app_assoc; reflexivity). rewrite IH.
  - rewrite firsts_snoc. destruct (known y (firsts l)); [reflexivity|]. apply position_app. rewrite known_firsts. assumption.
  - unfold known in *. rewrite existsb_app, K. reflexivity.
Qed.

(** ** Attributes of edges of simple graphs *)
Lemma edge_attrs_map_edge g u v k f x y k' : edge_attrs (map_edge g u v k f) x y k' =
  if jn (g_dir g) u v x y && key_eqb k' k then option_map f (edge_attrs g x y k) else edge_attrs g x y k'.
Proof.
  unfold edge_attrs, edge_data, map_edge. cbn [g_dir g_adj]. induction (g_adj g) as [|b l IH]; cbn [map List.find].
  - cbn. destruct (_ && _); reflexivity.
  - assert (S : same_ends (g_dir g) x y (if same_ends (g_dir g) u v b then mkB (b_src b) (b_dst b)
        (map (fun ka : key * attrs => if key_eqb k (fst ka) then (fst ka, f (snd ka)) else ka) (b_data b)) else b) = same_ends (g_dir g) x y b)
      by (destruct (same_ends (g_dir g) u v b); reflexivity).
    rewrite S. clear S. destruct (same_ends (g_dir g) x y b) eqn:B; [|apply IH]. cbn [option_map].
    destruct (jn (g_dir g) u v x y) eqn:J.
    + rewrite <- (jn_same _ _ _ _ _ b J), B. cbn [b_data andb]. destruct (key_eqb_spec k' k) as [->|N].
      * induction (b_data b) as [|[k2 a2] d ID]; [reflexivity|]. cbn [map fst snd]. destruct (key_eqb_spec k k2) as [->|N]; cbn.
        -- rewrite key_eqb_refl. reflexivity.
        -- apply key_eqb_neq in N. rewrite N. exact ID.
      * induction (b_data b) as [|[k2 a2] d ID]; [reflexivity|]. cbn [map fst snd]. destruct (key_eqb_spec k k2) as [->|N2]; cbn.
        -- apply key_eqb_neq in N. rewrite N. exact ID.
        -- destruct (key_eqb k' k2); [reflexivity|exact ID].
    + destruct (same_ends (g_dir g) u v b) eqn:B2; [|reflexivity]. rewrite (jn_diff _ _ _ _ _ b J B2) in B. discriminate.
Qed.

Definition simple (dir : bool) (g : graph) : Prop := WF g /\ g_dir g = dir /\ g_multi g = false.

Lemma simple_empty dir : simple dir (mkG dir false [] [] []).
Proof. split; [apply (WF_empty dir false [])|split; reflexivity]. Qed.

Lemma has_edge_simple dir g u v : simple dir g -> has_edge g u v = match edge_attrs g u v (KInt 0) with Some _ => true | None => false end.
Proof.
  intros (W & _ & M). destruct (has_edge g u v) eqn:H.
  - destruct (has_edge_attrs g u v W M H) as [a ->]. reflexivity.
  - destruct (edge_attrs g u v (KInt 0)) eqn:E; [|reflexivity]. apply edge_attrs_has in E. congruence.
Qed.

Definition pairs_joined (dir : bool) (x y : key) (T : list (key * key * attrs)) : list (key * key * attrs) :=
  filter (fun t => jn dir x y (fst (fst t)) (snd (fst t))) T.

(** each pair of nodes has the attributes of its first triple, and the number of its triples as [w] *)
Definition counted (dir : bool) (w : key) (T : list (key * key * attrs)) (g : graph) : Prop :=
  forall x y, edge_attrs g x y (KInt 0) =
    match pairs_joined dir x y T with
    | [] => None
    | t :: _ => Some (dset w (VInt (Z.of_nat (List.length (pairs_joined dir x y T)))) (snd t))
    end.

(** a row of edges, counting *)
Definition count_step (w : key) (g : graph) (t : key * key * attrs) : res graph :=
  let '(u, v, a) := t in
  if has_edge g u v then incr_edge g u v w else add_edge_kw g u v (dset w (VInt 1) a).

Lemma dset_dset (k : key) (v v' : val) (a : attrs) : dset k v' (dset k v a) = dset k v' a.
Proof.
  induction a as [|[k2 v2] a IH]; cbn; [rewrite key_eqb_refl; reflexivity|].
  destruct (key_eqb k k2) eqn:E; cbn; rewrite E; [reflexivity|]. f_equal. exact IH.
Qed.

Lemma count_step_spec dir w T g u v a g' : simple dir g -> counted dir w T g -> NoDup (dkeys a) -> count_step w g (u, v, a) = Ok g' ->
  simple dir g' /\ counted dir w (T ++ [(u, v, a)]) g'
  /\ (In u (nodes g) -> In v (nodes g) -> g_nodes g' = g_nodes g)
  /\ (forall n, In n (nodes g') <-> n = u \/ n = v \/ In n (nodes g)).
Proof.
  intros S C ND H. pose proof S as (W & D & M). unfold count_step in H.
  assert (F : forall x y, pairs_joined dir x y (T ++ [(u, v, a)]) = pairs_joined dir x y T ++ if jn dir x y u v then [(u, v, a)] else []).
  { intros x y. unfold pairs_joined. rewrite filter_app. cbn [filter fst snd]. destruct (jn dir x y u v); reflexivity. }
  assert (Eq : forall x y, jn dir u v x y = true -> pairs_joined dir x y T = pairs_joined dir u v T).
  { intros x y J. apply filter_ext. intros [[p q] b]. cbn [fst snd]. apply jn_iff in J. apply Bool.eq_iff_eq_true. rewrite !jn_iff. intuition congruence. }
  rewrite (has_edge_simple dir) in H by assumption. destruct (edge_attrs g u v (KInt 0)) as [e|] eqn:E.
  - unfold incr_edge in H. rewrite E in H. pose proof (C u v) as Cuv. rewrite E in Cuv.
    destruct (pairs_joined dir u v T) as [|t l] eqn:P; [discriminate|]. inversion Cuv; subst e. rewrite dget_dset, key_eqb_refl in H. cbn [plus_one bind VInt] in H.
    inversion H; subst g'. clear H.
    assert (HE : has_edge g u v = true) by (eapply edge_attrs_has; exact E).
    assert (Hu : In u (nodes g) /\ In v (nodes g)).
    { unfold has_edge, edge_data in HE. destruct (List.find _ (g_adj g)) as [b|] eqn:Fb; [|discriminate]. apply find_some in Fb as [Ib Sb].
      destruct (wf_ends g W b Ib) as [X Y]. apply same_ends_iff in Sb. destruct Sb as [[<- <-]|(_ & <- & <-)]; auto. }
    split; [split; [apply WF_map_edge; [assumption|intros; apply NoDup_dset; assumption]|split; assumption]|]. split; [|split].
    + intros x y. rewrite edge_attrs_map_edge, D, key_eqb_refl, andb_true_r, F. rewrite (jn_sym dir x y u v). destruct (jn dir u v x y) eqn:J.
      * rewrite (Eq x y J). assert (J' : jn (g_dir g) u v x y = true) by (rewrite D; exact J).
        rewrite (edge_attrs_jn g u v x y (KInt 0) J'), E. cbn [option_map app]. rewrite dset_dset. f_equal. f_equal. f_equal. f_equal.
        cbn [List.length]. rewrite app_length. cbn [List.length]. lia.
      * rewrite app_nil_r. apply C.
    + reflexivity.
    + intros n. destruct Hu as [Hu Hv]. split; [intros X; right; right; exact X|intros [->|[->|X]]; assumption].
  - rewrite add_edge_kw_simple in H by assumption. destruct (kwargs_ok _ _); [|discriminate]. inversion H; subst g'. clear H.
    split; [split; [apply WF_add_edge; assumption|split; [rewrite dir_add_edge|rewrite multi_add_edge]; assumption]|]. unfold add_edge. rewrite M.
    pose proof (C u v) as Cuv. rewrite E in Cuv. destruct (pairs_joined dir u v T) as [|t l] eqn:P; [|discriminate]. split; [|split].
    + intros x y. rewrite edge_attrs_add_edge_at, D, F, (jn_sym dir x y u v). destruct (jn dir u v x y) eqn:J.
      * rewrite (Eq x y J). cbn [app List.length andb]. rewrite key_eqb_refl. cbn [andb]. rewrite (edge_attrs_jn g u v x y (KInt 0)) by (rewrite D; exact J). rewrite E. rewrite dupdate_nil; [reflexivity|]. apply NoDup_dset. assumption.
      * cbn [andb]. rewrite app_nil_r. apply C.
    + intros Hu Hv. unfold add_edge_at. cbn [g_nodes]. rewrite (ensure_present g u) by assumption. rewrite ensure_present by assumption. reflexivity.
    + intros n. apply In_nodes_add_edge_at.
Qed.

Lemma count_step_ok dir w T g u v a : simple dir g -> counted dir w T g -> kwargs_ok (edge_reserved false) (dset w (VInt 1) a) = true ->
  exists g', count_step w g (u, v, a) = Ok g'.
Proof.
  intros S C K. unfold count_step. rewrite (has_edge_simple dir) by assumption. destruct (edge_attrs g u v (KInt 0)) as [e|] eqn:E.
  - unfold incr_edge. rewrite E. pose proof (C u v) as Cuv. rewrite E in Cuv. destruct (pairs_joined dir u v T) as [|t l] eqn:P; [discriminate|].
    inversion Cuv; subst e. rewrite dget_dset, key_eqb_refl. cbn. eauto.
  - destruct S as (_ & _ & M). rewrite add_edge_kw_simple by assumption. rewrite K. eauto.
Qed.
