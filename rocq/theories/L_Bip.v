(** * Lemmas about bipartite graphs made from tables *)
From Coq Require Import List ZArith QArith Lia Bool String.
From Verif Require Import PyBase NxGraph L_Base L_Nx L_Nx2 M_Graph M_Json M_Tabular S_Graph S_Json S_Tabular L_Graph L_Graph2 L_Sparse L_Rename L_Json L_Tab.
Import ListNotations.
Open Scope list_scope.

Section Bip.
Variables (repr : nat -> string) (frepr : Q -> string) (c1 c2 part w : key) (d1 d2 : option data_spec) (name1 name2 : val).

(** a row whose labels and nodes are known *)
Record plan : Type := mkP { p_row : row; p_l1 : val; p_l2 : val; p_n1 : key; p_n2 : key }.

Definition gstep (g : graph) (p : plan) : res graph :=
  let* g := part_node repr frepr part name1 d1 (p_row p) (p_l1 p) g (p_n1 p) in
  let* g := part_node repr frepr part name2 d2 (p_row p) (p_l2 p) g (p_n2 p) in
  count_edge w g (p_n1 p) (p_n2 p).

(** the attributes of a new node *)
Definition fresh_attrs (x : val * val * option data_spec * row) : res attrs :=
  let '(label, name, spec, r) := x in
  let node_attr := dset (K "label") (VStr (str_val repr frepr label)) [(part, name)] in
  match spec with
  | Some s => if given spec then let* a := collect_row_data s r in Ok (dupdate node_attr a) else Ok node_attr
  | None => Ok node_attr
  end.

Lemma part_node_eq name spec r label g n : part_node repr frepr part name spec r label g n =
  if has_node g n then Ok g else let* a := fresh_attrs (label, name, spec, r) in add_node_kw g n a.
Proof. reflexivity. Qed.

(** who mentions a node *)
Definition mentions (ps : list plan) : list (key * (val * val * option data_spec * row)) :=
  flat_map (fun p => [(p_n1 p, (p_l1 p, name1, d1, p_row p)); (p_n2 p, (p_l2 p, name2, d2, p_row p))]) ps.
Definition links (ps : list plan) : list (key * key * attrs) := map (fun p => (p_n1 p, p_n2 p, [])) ps.

Definition nodes_inv (m : list (key * (val * val * option data_spec * row))) (g : graph) : Prop :=
  (forall n, In n (nodes g) <-> In n (dkeys m)) /\
  forall n x, dget n m = Some x -> exists a, fresh_attrs x = Ok a /\ kwargs_ok node_reserved a = true /\ node_data g n = Some (dupdate [] a).

Lemma part_node_spec m name spec r label g n g' T : simple false g -> nodes_inv m g -> counted false w T g ->
  part_node repr frepr part name spec r label g n = Ok g' ->
  simple false g' /\ nodes_inv (m ++ [(n, (label, name, spec, r))]) g' /\ counted false w T g' /\ In n (nodes g') /\ incl (nodes g) (nodes g')
  /\ nodes g' = (if has_node g n then nodes g else nodes g ++ [n]).
Proof.
  intros S [I D] C H. pose proof S as (W & Di & Mu). rewrite part_node_eq in H. destruct (has_node g n) eqn:E.
  - inversion H; subst g'. apply has_node_In in E. split; [assumption|]. split; [|split; [assumption|split; [assumption|split; [apply incl_refl|reflexivity]]]]. split.
    + intros x. unfold dkeys. rewrite map_app, in_app_iff. fold (dkeys m). rewrite <- I. cbn. intuition congruence.
    + intros x y Hx. apply D. rewrite dget_app in Hx. apply I in E. destruct (dget x m) eqn:G; [assumption|].
      cbn in Hx. destruct (key_eqb_spec x n) as [->|]; [|discriminate]. apply dget_None in G. contradiction.
  - apply bind_Ok in H as (a & Fa & H). apply add_node_kw_Ok in H as [Ka ->]. apply has_node_nIn in E.
    split; [split; [apply WF_add_node; assumption|split; assumption]|]. split.
    + split.
      * intros x. rewrite In_nodes_add_node, I. unfold dkeys. rewrite map_app, in_app_iff. cbn. intuition congruence.
      * intros x y Hx. rewrite node_data_add_node. rewrite dget_app in Hx. destruct (key_eqb_spec x n) as [->|N].
        -- assert (G : dget n m = None) by (apply dget_None; rewrite <- I; assumption). rewrite G in Hx. cbn in Hx. rewrite key_eqb_refl in Hx. inversion Hx; subst y.
           exists a. split; [assumption|split; [assumption|]]. unfold node_data. assert (G2 : dget n (g_nodes g) = None) by (apply dget_None; assumption). rewrite G2. reflexivity.
        -- destruct (dget x m) eqn:G; [inversion Hx; subst; apply D; assumption|]. cbn in Hx. apply key_eqb_neq in N. rewrite N in Hx. discriminate.
    + split; [exact C|]. split; [apply In_nodes_add_node; auto|]. split; [intros x Hx; apply In_nodes_add_node; auto|].
      rewrite nodes_add_node. apply has_node_nIn in E. rewrite E. reflexivity.
Qed.

Lemma count_edge_eq g u v : count_edge w g u v = count_step w g (u, v, []).
Proof. reflexivity. Qed.

Definition inv (ps : list plan) (g : graph) : Prop :=
  simple false g /\ nodes_inv (mentions ps) g /\ counted false w (links ps) g.

Definition add_id (l : list key) (n : key) : list key := if mem n l then l else l ++ [n].

Lemma gstep_spec ps p g g' : inv ps g -> gstep g p = Ok g' ->
  inv (ps ++ [p]) g' /\ nodes g' = add_id (add_id (nodes g) (p_n1 p)) (p_n2 p).
Proof.
  intros (S & N & C) H. unfold gstep in H. apply bind_Ok in H as (g1 & H1 & H). apply bind_Ok in H as (g2 & H2 & H). rewrite count_edge_eq in H.
  destruct (part_node_spec _ _ _ _ _ _ _ _ _ S N C H1) as (S1 & N1 & C1 & I1 & _ & L1).
  destruct (part_node_spec _ _ _ _ _ _ _ _ _ S1 N1 C1 H2) as (S2 & N2 & C2 & I2 & J & L2).
  destruct (count_step_spec false w _ g2 _ _ [] g' S2 C2 (NoDup_nil key) H) as (S3 & C3 & E & _).
  specialize (E (J _ I1) I2). assert (En : nodes g' = nodes g2) by (unfold nodes; rewrite E; reflexivity). split.
  - split; [assumption|]. split.
    + unfold mentions in *. rewrite flat_map_app. cbn [flat_map app]. rewrite <- app_assoc in N2. destruct N2 as [A B].
      split; [intros n; rewrite En; apply A|]. intros n x Hx. unfold node_data. rewrite E. apply (B n x Hx).
    + unfold links in *. rewrite map_app. exact C3.
  - rewrite En, L2. unfold add_id. assert (Hm : forall g n, has_node g n = mem n (nodes g)).
    { intros h n. apply Bool.eq_iff_eq_true. rewrite has_node_In, mem_In. reflexivity. }
    rewrite !Hm, L1, Hm. reflexivity.
Qed.

Lemma inv_empty : inv [] (mkG false false [] [] []).
Proof.
  split; [apply simple_empty|]. split; [split; [intros n; reflexivity|discriminate]|]. intros x y. reflexivity.
Qed.

Lemma gsteps_spec ps : forall done g g', inv done g -> foldM gstep ps g = Ok g' ->
  inv (done ++ ps) g' /\ nodes g' = fold_left add_id (flat_map (fun p => [p_n1 p; p_n2 p]) ps) (nodes g).
Proof.
  induction ps as [|p ps IH]; intros done g g' I H; cbn [foldM] in H.
  - inversion H; subst. rewrite app_nil_r. split; [assumption|reflexivity].
  - apply bind_Ok in H as (g1 & H1 & H). destruct (gstep_spec _ _ _ _ I H1) as [I1 L1]. destruct (IH _ _ _ I1 H) as [I2 L2].
    rewrite <- app_assoc in I2. split; [exact I2|]. rewrite L2, L1. reflexivity.
Qed.

(** ** Planning *)
Definition row_step := bipartite_row repr frepr c1 c2 part w d1 d2 name1 name2.

Definition plan_id (l : list item) (r : row) (ab : val * val) : plan :=
  mkP r (fst ab) (snd ab) (KInt (Z.of_nat (position (c1, fst ab) (firsts l)))) (KInt (Z.of_nat (position (c2, snd ab) (firsts l)))).

Definition plans {A B C} (f : A -> B -> C) (a : list A) (b : list B) : list C := map (fun p => f (fst p) (snd p)) (combine a b).

Lemma row_labels_reads r ab : reads c1 c2 r ab -> row_labels c1 c2 r = Ok ab.
Proof. intros [A B]. unfold row_labels. rewrite A, B. destruct ab. reflexivity. Qed.

Lemma row_labels_Ok r ab : row_labels c1 c2 r = Ok ab -> reads c1 c2 r ab.
Proof.
  unfold row_labels, reads. destruct (row_item r c1) as [a|e]; cbn [bind].
  - destruct (row_item r c2) as [b|e]; cbn [bind]; [intros H; inversion H; auto|destruct e; discriminate].
  - destruct e; discriminate.
Qed.

Lemma plan_ids rows cells : Forall2 (reads c1 c2) rows cells -> forall l g,
  foldM (row_step false) rows (register_of l, g) =
  let* g' := foldM gstep (plans (plan_id (l ++ met c1 c2 cells)) rows cells) g in Ok (register_of (l ++ met c1 c2 cells), g').
Proof.
  induction 1 as [|r ab rows cells R F IH]; intros l g.
  - cbn. rewrite app_nil_r. reflexivity.
  - cbn [foldM combine plans map fst snd]. unfold row_step at 1, bipartite_row. rewrite (row_labels_reads r ab R). cbn [bind]. destruct ab as [a b].
    rewrite register_item_spec. rewrite register_item_spec. cbn [bind]. unfold gstep at 1. cbn [p_row p_l1 p_l2 p_n1 p_n2 plan_id fst snd].
    assert (E1 : position (c1, a) (firsts (l ++ met c1 c2 ((a, b) :: cells))) = position (c1, a) (firsts (l ++ [(c1, a)]))).
    { cbn [met flat_map app fst snd]. replace (l ++ (c1, a) :: (c2, b) :: flat_map (fun ab => [(c1, fst ab); (c2, snd ab)]) cells)
        with ((l ++ [(c1, a)]) ++ (c2, b) :: flat_map (fun ab => [(c1, fst ab); (c2, snd ab)]) cells) by (rewrite <- app_assoc; reflexivity).
      apply position_stable. apply known_In. apply in_or_app. right. left. reflexivity. }
    assert (E2 : position (c2, b) (firsts (l ++ met c1 c2 ((a, b) :: cells))) = position (c2, b) (firsts ((l ++ [(c1, a)]) ++ [(c2, b)]))).
    { cbn [met flat_map app fst snd]. replace (l ++ (c1, a) :: (c2, b) :: flat_map (fun ab => [(c1, fst ab); (c2, snd ab)]) cells)
        with (((l ++ [(c1, a)]) ++ [(c2, b)]) ++ flat_map (fun ab => [(c1, fst ab); (c2, snd ab)]) cells) by (rewrite <- !app_assoc; reflexivity).
      apply position_stable. apply known_In. apply in_or_app. right. left. reflexivity. }
    rewrite E1, E2.
    assert (EL : l ++ met c1 c2 ((a, b) :: cells) = ((l ++ [(c1, a)]) ++ [(c2, b)]) ++ met c1 c2 cells) by (rewrite <- !app_assoc; reflexivity).
    destruct (part_node repr frepr part name1 d1 r a g _) as [g1|]; cbn [bind]; [|reflexivity].
    destruct (part_node repr frepr part name2 d2 r b g1 _) as [g2|]; cbn [bind]; [|reflexivity].
    destruct (count_edge w g2 _ _) as [g3|]; cbn [bind]; [|reflexivity].
    rewrite IH. rewrite EL. reflexivity.
Qed.

Definition key_cell (ab : val * val) (k : key * key) : Prop := ab = (VKey (fst k), VKey (snd k)).
Definition plan_key (r : row) (k : key * key) : plan := mkP r (VKey (fst k)) (VKey (snd k)) (fst k) (snd k).
Definition cells_of (ks : list (key * key)) : list (val * val) := map (fun k => (VKey (fst k), VKey (snd k))) ks.

Lemma plan_keys rows ks : Forall2 (reads c1 c2) rows (cells_of ks) -> forall s g,
  foldM (row_step true) rows (s, g) = let* g' := foldM gstep (plans plan_key rows ks) g in Ok (s, g').
Proof.
  revert rows. induction ks as [|[k1 k2] ks IH]; intros rows F s g; inversion F as [|r ab rows' cells' R F']; subst.
  - reflexivity.
  - cbn [foldM combine plans map fst snd]. unfold row_step at 1, bipartite_row. rewrite (row_labels_reads r _ R). cbn [bind fst snd key_of].
    unfold gstep at 1. cbn [p_row p_l1 p_l2 p_n1 p_n2 plan_key fst snd].
    destruct (part_node repr frepr part name1 d1 r (VKey k1) g _) as [g1|]; cbn [bind]; [|reflexivity].
    destruct (part_node repr frepr part name2 d2 r (VKey k2) g1 _) as [g2|]; cbn [bind]; [|reflexivity].
    destruct (count_edge w g2 _ _) as [g3|]; cbn [bind]; [|reflexivity]. apply IH. assumption.
Qed.

Lemma rows_read dis rows : forall s s', foldM (row_step dis) rows s = Ok s' -> exists cells, Forall2 (reads c1 c2) rows cells.
Proof.
  induction rows as [|r rows IH]; intros s s' H; [exists []; constructor|]. cbn [foldM] in H. apply bind_Ok in H as (s1 & H1 & H).
  destruct (IH _ _ H) as [cells F]. unfold row_step, bipartite_row in H1. destruct s as [nid g]. apply bind_Ok in H1 as (ab & R & _).
  exists (ab :: cells). constructor; [apply row_labels_Ok; assumption|assumption].
Qed.

Lemma rows_read_keys rows : forall s s', foldM (row_step true) rows s = Ok s' -> exists ks, Forall2 (reads c1 c2) rows (cells_of ks).
Proof.
  induction rows as [|r rows IH]; intros s s' H; [exists []; constructor|]. cbn [foldM] in H. apply bind_Ok in H as (s1 & H1 & H).
  destruct (IH _ _ H) as [ks F]. unfold row_step, bipartite_row in H1. destruct s as [nid g]. apply bind_Ok in H1 as ((a & b) & R & H1).
  apply bind_Ok in H1 as (ns & H1 & _). apply bind_Ok in H1 as (n1 & K1 & H1). apply bind_Ok in H1 as (n2 & K2 & _).
  exists ((n1, n2) :: ks). constructor; [|assumption]. destruct a; inversion K1; subst. destruct b; inversion K2; subst. apply row_labels_Ok. assumption.
Qed.
End Bip.
