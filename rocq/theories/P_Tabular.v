(** * C51-C60, C82, C83: tables *)
From Coq Require Import List ZArith QArith Lia Bool String.
From Verif Require Import PyBase NxGraph L_Base L_Nx L_Nx2 M_Graph M_Shim M_Json M_Tabular S_Graph S_Json S_Tabular L_Graph L_Graph2 L_Sparse L_Rename L_Json L_Tab L_Bip L_Bip2 L_Bip3 L_Edges L_Frame L_Frame2 L_Frame3 L_Comp P_Json.
Import ListNotations.
Open Scope list_scope.

(** rows for the examples *)
Definition of_row (l : list (string * val)) : row := RDict (map (fun p => (KStr (fst p), snd p)) l).
Definition st (s : string) : val := VStr s.
Definition no_frepr (q : Q) : string := "float"%string.
Definition pair_row (a b : val) : row := of_row [("c1"%string, a); ("c2"%string, b)].

(** ** cells: [row[column]] gives the value in that column, and nothing when there is none *)
Theorem C52_cells r c v : row_item r c = Ok v <-> holds r c v.
Proof.
  destruct r as [d|l]; cbn [row_item holds].
  - transitivity (dget c d = Some v); [destruct (dget c d); split; congruence|]. split.
    + induction d as [|[k x] d IH]; [discriminate|]. cbn [dget]. destruct (key_eqb c k) eqn:E.
      * apply key_eqb_eq in E. subst k. intros H. injection H as ->. exists [], d. split; [reflexivity|intros []].
      * intros H. destruct (IH H) as (l1 & l2 & -> & N). exists ((k, x) :: l1), l2. split; [reflexivity|]. apply key_eqb_neq in E. intros [X|X]; [cbn in X; congruence|contradiction].
    + intros (l1 & l2 & -> & N). induction l1 as [|[k x] l1 IH]; cbn [app dget map fst] in *; [rewrite key_eqb_refl; reflexivity|].
      destruct (key_eqb c k) eqn:E; [apply key_eqb_eq in E; subst; destruct N; left; reflexivity|]. apply IH. intros X. apply N. right; exact X.
  - destruct c as [z|s|n]; [|split; [discriminate|intros (l1 & l2 & _ & [X|X]); discriminate X]..].
    cbv zeta. set (i := if (z <? 0)%Z then (z + Z.of_nat (List.length l))%Z else z). split.
    + destruct ((0 <=? i)%Z && (i <? Z.of_nat (List.length l))%Z) eqn:B; [|discriminate]. apply andb_true_iff in B as [B1 B2]. apply Z.leb_le in B1. apply Z.ltb_lt in B2.
      destruct (nth_error l (Z.to_nat i)) as [x|] eqn:X; [|discriminate]. intros H. injection H as ->. apply nth_error_split in X as (l1 & l2 & -> & L).
      assert (Li : i = Z.of_nat (List.length l1)) by lia. unfold i in Li. rewrite app_length in Li. cbn [List.length] in *.
      exists l1, l2. split; [reflexivity|]. destruct (Z.ltb_spec z 0); [right|left]; f_equal; lia.
    + intros (l1 & l2 & -> & H). assert (L : i = Z.of_nat (List.length l1)).
      { subst i. rewrite app_length. cbn [List.length] in *. destruct H as [H|H]; injection H as H; destruct (Z.ltb_spec z 0) as [X|X]; lia. }
      rewrite L. assert (B : ((0 <=? Z.of_nat (List.length l1))%Z && (Z.of_nat (List.length l1) <? Z.of_nat (List.length (l1 ++ v :: l2)))%Z) = true).
      { rewrite app_length. cbn [List.length]. apply andb_true_iff. split; [apply Z.leb_le|apply Z.ltb_lt]; lia. }
      rewrite B, Nat2Z.id, nth_error_app2, Nat.sub_diag by lia. reflexivity.
Qed.
Print Assumptions C52_cells.

Example C52_ex_cells : row_item (RList [VInt 5; VInt 6; VInt 7]) (KInt (-1)) = Ok (VInt 7) /\ holds (RList [VInt 5; VInt 6; VInt 7]) (KInt (-3)) (VInt 5)
  /\ forall v, ~ holds (RList [VInt 5; VInt 6; VInt 7]) (KInt 3) v.
Proof. split; [reflexivity|]. split; [apply C52_cells; reflexivity|]. intros v H. apply C52_cells in H. discriminate H. Qed.

Section Bipartite.
Variables (repr : nat -> string) (frepr : Q -> string) (c1 c2 part w : key) (d1 d2 : option data_spec) (name1 name2 : option val).
Notation build rows dis := (table_to_bipartite_graph repr frepr (TRows rows) c1 c2 part w d1 d2 name1 name2 dis).

(** ** C51 weights *)
Theorem C51_counts rows g : build rows false = Ok g -> exists cells, Forall2 (reads c1 c2) rows cells
  /\ g_dir g = false /\ g_multi g = false
  /\ (forall a b, edge_attrs g (node_of c1 c2 cells (c1, a)) (node_of c1 c2 cells (c2, b)) (KInt 0) =
        match rows_with a b cells with 0 => None | n => Some [(w, VInt (Z.of_nat n))] end)
  /\ (forall u v, has_edge g u v = true -> exists ab, In ab cells /\ joins false (node_of c1 c2 cells (c1, fst ab), node_of c1 c2 cells (c2, snd ab)) u v)
  /\ sum_Z (map (fun e => stored_int w (snd e)) (edges_data g)) = Z.of_nat (List.length rows).
Proof.
  intros H. destruct (counts repr frepr c1 c2 part w d1 d2 name1 name2 rows g H) as (cells & F & D & M & E & A & J & Sm). exists cells. split; [assumption|]. split; [assumption|]. split; [assumption|]. split; [|split; assumption].
  destruct (main_ids repr frepr c1 c2 part w d1 d2 name1 name2 rows g H) as (cells' & F' & (Si & _) & _). destruct Si as (Wg & _ & _).
  intros a b. destruct (edge_attrs g _ _ (KInt 0)) as [x|] eqn:X.
  - pose proof (A a b x X) as ->. apply edge_attrs_has in X. apply E in X as (ab & I & Xa & Xb).
    assert (In ab (filter (fun ab => val_eqb (fst ab) a && val_eqb (snd ab) b) cells)) by (apply filter_In; rewrite Xa, Xb; auto). unfold rows_with. destruct (filter _ cells); [contradiction|reflexivity].
  - destruct (rows_with a b cells) eqn:R; [reflexivity|]. exfalso. unfold rows_with in R. destruct (filter _ cells) as [|ab l] eqn:Q; [discriminate|].
    assert (I : In ab (filter (fun ab => val_eqb (fst ab) a && val_eqb (snd ab) b) cells)) by (rewrite Q; left; reflexivity). apply filter_In in I as [I V]. apply andb_true_iff in V as [Va Vb].
    assert (HE : has_edge g (node_of c1 c2 cells (c1, a)) (node_of c1 c2 cells (c2, b)) = true) by (apply E; eauto). apply has_edge_attrs in HE as [y Y]; [congruence|assumption|assumption].
Qed.

(** it does not fail *)
Theorem C51_built rows cells : c1 <> c2 -> Forall2 (reads c1 c2) rows cells -> node_name part -> edge_name w ->
  (forall r, In r rows -> accepts d1 r /\ accepts d2 r) -> exists g, build rows false = Ok g.
Proof. intros N F P E A. apply (build_ok repr frepr c1 c2 part w d1 d2 name1 name2 rows cells N F P E A). Qed.

(** ** C52 one node for each value of each column *)
Theorem C52_nodes rows g : build rows false = Ok g -> exists cells, Forall2 (reads c1 c2) rows cells
  /\ nodes g = map (fun i => KInt (Z.of_nat i)) (seq 0 (List.length (firsts (met c1 c2 cells))))
  /\ (forall i x, nth_error (firsts (met c1 c2 cells)) i = Some x -> node_of c1 c2 cells x = KInt (Z.of_nat i))
  /\ (forall x y, In x (met c1 c2 cells) -> (node_of c1 c2 cells x = node_of c1 c2 cells y <-> fst x = fst y /\ val_eqb (snd x) (snd y) = true))
  /\ (forall u v, has_edge g u v = true -> exists ab, In ab cells /\ joins false (node_of c1 c2 cells (c1, fst ab), node_of c1 c2 cells (c2, snd ab)) u v)
  /\ (forall a b, node_of c1 c2 cells (c1, a) = node_of c1 c2 cells (c2, b) -> ~ In (c1, a) (met c1 c2 cells) /\ ~ In (c2, b) (met c1 c2 cells)).
Proof.
  intros H. pose proof (build_differ _ _ _ _ _ _ _ _ _ _ _ _ _ H) as N. destruct (counts repr frepr c1 c2 part w d1 d2 name1 name2 rows g H) as (cells & F & _ & _ & _ & _ & J & _).
  destruct (main_ids repr frepr c1 c2 part w d1 d2 name1 name2 rows g H) as (cells' & F' & _ & Ns).
  assert (cells' = cells) as -> by (eapply Forall2_fun; [apply reads_fun|exact F'|exact F]). exists cells. split; [assumption|]. split; [exact Ns|]. split; [|split; [|split; [assumption|]]].
  - intros i x Hx. unfold node_of. rewrite (position_nth _ (firsts_unequal _) i x Hx). reflexivity.
  - intros x y I. rewrite (node_of_item c1 c2 cells x y I). unfold item_eqb. rewrite andb_true_iff, key_eqb_eq. reflexivity.
  - intros a b E. apply key_eqb_neq in N. split; intros I.
    + apply (node_of_item c1 c2 cells _ (c2, b) I) in E. unfold item_eqb in E. cbn in E. rewrite N in E. discriminate.
    + symmetry in E. apply (node_of_item c1 c2 cells _ (c1, a) I) in E. unfold item_eqb in E. cbn in E. rewrite key_eqb_sym, N in E. discriminate.
Qed.

Theorem C52_lacking l1 r l2 dis g : build l1 dis = Ok g -> (forall ab, ~ reads c1 c2 r ab) -> build (l1 ++ r :: l2) dis = Err TypeError.
Proof. apply lacking. Qed.

(** ** C53 the first row gives the data *)
Theorem C53_first_row rows g : proper d1 -> proper d2 -> build rows false = Ok g -> exists cells, Forall2 (reads c1 c2) rows cells
  /\ forall i r a b, nth_error rows i = Some r -> nth_error cells i = Some (a, b) ->
     ((forall j ab, j < i -> nth_error cells j = Some ab -> val_eqb (fst ab) a = false) ->
        exists x, node_data g (node_of c1 c2 cells (c1, a)) = Some x /\ node_attrs repr frepr part (part_name name1 c1) d1 r a x)
     /\ ((forall j ab, j < i -> nth_error cells j = Some ab -> val_eqb (snd ab) b = false) ->
        exists x, node_data g (node_of c1 c2 cells (c2, b)) = Some x /\ node_attrs repr frepr part (part_name name2 c2) d2 r b x).
Proof. apply data_ids. Qed.

Theorem C53_first_row_disjoint rows g : proper d1 -> proper d2 -> build rows true = Ok g -> exists ks, Forall2 (reads c1 c2) rows (map (fun k => (VKey (fst k), VKey (snd k))) ks)
  /\ (forall n, In n (nodes g) <-> exists e, In e ks /\ (n = fst e \/ n = snd e))
  /\ forall i r u v, nth_error rows i = Some r -> nth_error ks i = Some (u, v) ->
     ((forall j e, j < i -> nth_error ks j = Some e -> fst e <> u /\ snd e <> u) ->
        exists x, node_data g u = Some x /\ node_attrs repr frepr part (part_name name1 c1) d1 r (VKey u) x)
     /\ ((forall j e, j < i -> nth_error ks j = Some e -> fst e <> v /\ snd e <> v) -> u <> v ->
        exists x, node_data g v = Some x /\ node_attrs repr frepr part (part_name name2 c2) d2 r (VKey v) x).
Proof. exact (L_Bip3.data_keys repr frepr c1 c2 part w d1 d2 name1 name2 rows g). Qed.

(** ** C54 disjoint columns *)
Theorem C54_disjoint rows ks g : Forall2 (reads c1 c2) rows (map (fun k => (VKey (fst k), VKey (snd k))) ks) ->
  (forall e e', In e ks -> In e' ks -> fst e <> snd e') -> build rows true = Ok g ->
  exists h f, build rows false = Ok h
  /\ (forall e, In e ks -> f (fst e) = node_of c1 c2 (map (fun k => (VKey (fst k), VKey (snd k))) ks) (c1, VKey (fst e))
                        /\ f (snd e) = node_of c1 c2 (map (fun k => (VKey (fst k), VKey (snd k))) ks) (c2, VKey (snd e)))
  /\ injective_on (nodes g) f /\ renamed_copy f g h.
Proof.
  intros F Dj H. pose proof (build_differ _ _ _ _ _ _ _ _ _ _ _ _ _ H) as N. destruct (disjoint repr frepr c1 c2 part w d1 d2 name1 name2 rows ks N F Dj) as (X1 & X2 & X3). rewrite H in X3. cbn [bind] in X3.
  exists (rename (id_of c1 c2 ks) g), (id_of c1 c2 ks). split; [assumption|]. split; [exact X1|].
  assert (G : simple false g /\ forall n, In n (nodes g) -> In n (map fst ks ++ map snd ks)).
  { rewrite (build_keys repr frepr c1 c2 part w d1 d2 name1 name2 rows ks N F) in H. destruct (gsteps_spec _ _ _ _ _ _ _ _ _ [] _ _ (inv_empty _ _ _ _ _ _ _ _) H) as [(Si & (Ns & _) & _) _]. split; [assumption|].
    intros n Hn. apply Ns in Hn. cbn [app] in Hn. unfold mentions, dkeys in Hn. apply in_map_iff in Hn as (x & <- & Hx). rewrite (flat_map_concat_map _ (plans plan_key rows ks)) in Hx. apply in_concat in Hx as (l & Hl & Hx).
    apply in_map_iff in Hl as (p & <- & Hp). apply in_map_iff in Hp as ((r & e) & <- & Hp). apply in_combine_r in Hp. apply in_or_app. cbn in Hx. destruct Hx as [<- |[<- |[]]]; [left; exact (in_map fst ks e Hp)|right; exact (in_map snd ks e Hp)]. }
  destruct G as ((Wg & Dg & Mg) & G). assert (I : injective_on (nodes g) (id_of c1 c2 ks)) by (intros x y Hx Hy; apply X2; apply G; assumption). split; [assumption|].
  split; [split; reflexivity|]. split; [reflexivity|]. split; [reflexivity|]. split; [|split].
  - intros u v Hu Hv. unfold parallel. rewrite edge_data_rename by assumption. reflexivity.
  - intros u v kd Hkd. eapply simple_numbered; [apply WF_rename; eassumption|exact Mg|exact Hkd].
  - apply edges_data_rename; assumption.
Qed.

(** it fails only when the other does *)
Theorem C54_failure rows ks e : c1 <> c2 -> Forall2 (reads c1 c2) rows (map (fun k => (VKey (fst k), VKey (snd k))) ks) ->
  (forall e e', In e ks -> In e' ks -> fst e <> snd e') -> build rows true = Err e -> build rows false = Err e.
Proof. intros N F Dj H. destruct (disjoint repr frepr c1 c2 part w d1 d2 name1 name2 rows ks N F Dj) as (_ & _ & X). rewrite X, H. reflexivity. Qed.
End Bipartite.
Print Assumptions C51_counts.
Print Assumptions C51_built.
Print Assumptions C52_nodes.
Print Assumptions C52_lacking.
Print Assumptions C53_first_row.
Print Assumptions C53_first_row_disjoint.
Print Assumptions C54_disjoint.
Print Assumptions C54_failure.

Definition bip (rows : list row) (d1 d2 : option data_spec) (dis : bool) : res graph :=
  table_to_bipartite_graph no_repr no_frepr (TRows rows) (K "c1") (K "c2") (K "part") (K "weight") d1 d2 None None dis.
Definition some_cells : list row :=
  [pair_row (st "a") (st "x"); pair_row (st "b") (st "a"); pair_row (st "a") (st "x"); pair_row (VFloat 1) (st "x"); pair_row (VInt 1) (st "x"); pair_row VNone (st "a")].
Example C51_ex : (let* g := bip some_cells None None false in Ok (map (fun e => (fst e, dget (K "weight") (snd e))) (edges_data g))) =
  Ok [(KInt 0, KInt 1, Some (VInt 2)); (KInt 1, KInt 4, Some (VInt 2)); (KInt 2, KInt 3, Some (VInt 1)); (KInt 3, KInt 5, Some (VInt 1))].
Proof. vm_compute. reflexivity. Qed.
Example C52_ex : (let* g := bip some_cells None None false in Ok (map (fun na => (fst na, dget (K "part") (snd na), dget (K "label") (snd na))) (g_nodes g))) =
  Ok [(KInt 0, Some (st "c1"), Some (st "a")); (KInt 1, Some (st "c2"), Some (st "x")); (KInt 2, Some (st "c1"), Some (st "b")); (KInt 3, Some (st "c2"), Some (st "a"));
      (KInt 4, Some (st "c1"), Some (st "float")); (KInt 5, Some (st "c1"), Some (st "None"))]
  /\ bip (some_cells ++ [of_row [("c1"%string, st "z")]; pair_row (st "a") (st "b")]) None None false = Err TypeError
  /\ bip (some_cells ++ [RList [st "z"]]) None None false = Err TypeError.
Proof. vm_compute. auto. Qed.
Definition data_row (a b : string) (n : Z) (l : val) : row := of_row [("c1"%string, st a); ("c2"%string, st b); ("n"%string, VInt n); ("label"%string, l)].
Example C53_ex : (let* g := bip [data_row "a" "x" 1 (st "A"); data_row "a" "y" 2 (st "B"); data_row "b" "x" 3 VNone] (Some (DSeq [K "n"; K "label"])) (Some (DMap [(K "n", K "m")])) true in Ok (g_nodes g)) =
  Ok [(K "a", [(K "part", st "c1"); (K "label", st "A"); (K "n", VInt 1)]); (K "x", [(K "part", st "c2"); (K "label", st "x"); (K "m", VInt 1)]);
      (K "y", [(K "part", st "c2"); (K "label", st "y"); (K "m", VInt 2)]); (K "b", [(K "part", st "c1"); (K "label", st "b"); (K "n", VInt 3)])].
Proof. vm_compute. reflexivity. Qed.
Example C54_ex : (let* g := bip [pair_row (st "a") (st "x"); pair_row (st "b") (st "x"); pair_row (st "a") (st "x")] None None true in Ok (edges_data g)) =
    Ok [(K "a", K "x", [(K "weight", VInt 2)]); (K "x", K "b", [(K "weight", VInt 1)])]
  /\ (let* g := bip [pair_row (st "a") (st "x"); pair_row (st "b") (st "x"); pair_row (st "a") (st "x")] None None false in Ok (edges_data g)) =
    Ok [(KInt 0, KInt 1, [(K "weight", VInt 2)]); (KInt 1, KInt 2, [(K "weight", VInt 1)])].
Proof. vm_compute. auto. Qed.
(** the same value in both columns *)
Example C54_not_disjoint : (let* g := bip [pair_row (st "a") (st "a")] None None true in Ok (nodes g)) = Ok [K "a"]
  /\ (let* g := bip [pair_row (st "a") (st "a")] None None false in Ok (nodes g)) = Ok [KInt 0; KInt 1].
Proof. vm_compute. auto. Qed.

(** ** C55, C56 tables of edges *)
Section EdgeTables.
Variables (repr : nat -> string) (sc tc : key) (ed : list key) (w : key) (dir : bool).
Notation build rows count := (edges_table_to_graph repr (TRows rows) sc tc ed count w dir).

Lemma edge_tables rows count g : build rows count = Ok g -> exists T, Forall2 (reads_edge repr sc tc ed) rows T /\ Forall2 (ends sc tc) rows (map fst T)
  /\ einv repr ed count w true dir (mkG dir false [] [] []) T g.
Proof.
  unfold edges_table_to_graph, edges_rows_to_graph. cbn [iterator_from_dataframe bind]. intros H.
  destruct (edges_spec repr sc tc ed count w true dir _ rows [] _ g (einv_start _ _ _ _ _ dir _ (simple_empty dir) eq_refl) H) as (T & F & I & _). exists T. split; [assumption|]. split; [|exact I].
  clear - F. induction F as [|r t rows T [E _] F IH]; constructor; assumption.
Qed.

Lemma einv_nodes T count g : einv repr ed count w true dir (mkG dir false [] [] []) T g ->
  forall n, In n (nodes g) <-> exists e, In e (map fst T) /\ (n = fst e \/ n = snd e).
Proof.
  intros (_ & _ & N & _) n. rewrite N. split.
  - intros [[]|(t & Ht & E)]. exists (fst t). split; [apply in_map; assumption|assumption].
  - intros (e & He & E). apply in_map_iff in He as (t & <- & Ht). right. eauto.
Qed.

Lemma einv_data T count g n : einv repr ed count w true dir (mkG dir false [] [] []) T g -> In n (nodes g) -> node_data g n = Some [].
Proof. intros (_ & _ & _ & D & _) Hn. rewrite D. cbn. apply mem_In in Hn. rewrite Hn. reflexivity. Qed.

Theorem C55_last_row rows g : build rows false = Ok g -> exists es, Forall2 (ends sc tc) rows es
  /\ g_dir g = dir /\ g_multi g = false
  /\ (NoDup (nodes g) /\ forall n, In n (nodes g) <-> exists e, In e es /\ (n = fst e \/ n = snd e))
  /\ (forall n, In n (nodes g) -> node_data g n = Some [])
  /\ (forall u v, has_edge g u v = true <-> exists e, In e es /\ joins dir e u v)
  /\ (forall u v a, edge_attrs g u v (KInt 0) = Some a -> exists i r, nth_error rows i = Some r /\ last_row dir es u v i /\ kept repr ed r a).
Proof.
  intros H. destruct (edge_tables _ _ _ H) as (T & F & Fe & I). exists (map fst T). split; [assumption|]. pose proof I as ((Wg & Dg & Mg) & L & _).
  split; [assumption|]. split; [assumption|]. split; [split; [apply Wg|apply (einv_nodes T false g I)]|]. split; [intros n; apply (einv_data T false g n I)|].
  destruct (last_spec dir _ T g (conj Wg (conj Dg Mg)) L) as [HE HA]. split; [assumption|]. intros u v a Ha. destruct (HA u v a Ha) as (i & t & Ht & Lr & ->).
  destruct (Forall2_nth_ex _ _ _ _ _ F Ht) as (r & Hr & _ & D). exists i, r. split; [assumption|]. split; [assumption|]. eapply row_data_spec; eassumption.
Qed.

Theorem C56_counts rows g : build rows true = Ok g -> exists es, Forall2 (ends sc tc) rows es
  /\ g_dir g = dir /\ g_multi g = false
  /\ (NoDup (nodes g) /\ forall n, In n (nodes g) <-> exists e, In e es /\ (n = fst e \/ n = snd e))
  /\ (forall n, In n (nodes g) -> node_data g n = Some [])
  /\ (forall u v, has_edge g u v = true <-> exists e, In e es /\ joins dir e u v)
  /\ (forall u v a, edge_attrs g u v (KInt 0) = Some a ->
        dget w a = Some (VInt (Z.of_nat (rows_joining dir es u v)))
        /\ exists i r data, nth_error rows i = Some r /\ first_row dir es u v i /\ kept repr ed r data /\ forall k, k <> w -> dget k a = dget k data).
Proof.
  intros H. destruct (edge_tables _ _ _ H) as (T & F & Fe & I). exists (map fst T). split; [assumption|]. pose proof I as ((Wg & Dg & Mg) & L & _).
  split; [assumption|]. split; [assumption|]. split; [split; [apply Wg|apply (einv_nodes T true g I)]|]. split; [intros n; apply (einv_data T true g n I)|].
  destruct (counted_spec dir _ T g (conj Wg (conj Dg Mg)) L) as [HE HA]. split; [assumption|]. intros u v a Ha. destruct (HA u v a Ha) as (i & t & Ht & Lr & ->). split; [rewrite dget_dset, key_eqb_refl; reflexivity|].
  destruct (Forall2_nth_ex _ _ _ _ _ F Ht) as (r & Hr & _ & D). exists i, r, (snd t). split; [assumption|]. split; [assumption|]. split; [eapply row_data_spec; eassumption|].
  intros k Hk. rewrite dget_dset. apply key_eqb_neq in Hk. rewrite Hk. reflexivity.
Qed.

(** it does not fail *)
Theorem C55_built rows es count : Forall2 (ends sc tc) rows es -> (forall r c, In r rows -> In c ed -> exists v, row_item r c = Ok v) ->
  (forall c, In c ed -> edge_name (KStr (key_text repr c))) -> (count = true -> edge_name w) -> exists g, build rows count = Ok g.
Proof.
  intros F D N Hw. assert (X : exists T, Forall2 (reads_edge repr sc tc ed) rows T).
  { clear N Hw. induction F as [|r e rows es E F IH]; [exists []; constructor|]. destruct IH as [T FT]; [intros; apply D; [right|]; assumption|].
    destruct (row_data_ok repr ed r) as [a A]; [intros c; apply D; left; reflexivity|]. exists ((e, a) :: T). constructor; [split; assumption|assumption]. }
  destruct X as [T FT]. unfold edges_table_to_graph, edges_rows_to_graph. cbn [iterator_from_dataframe bind].
  apply (edges_ok repr sc tc ed count w true dir (mkG dir false [] [] []) rows T N Hw FT ltac:(discriminate) []). apply einv_start; [apply simple_empty|reflexivity].
Qed.
End EdgeTables.
Print Assumptions C55_last_row.
Print Assumptions C56_counts.
Print Assumptions C55_built.

Definition edge_ex (u v : string) (n : Z) : row := of_row [("source"%string, st u); ("target"%string, st v); ("n"%string, VInt n)].
Definition some_edges : list row := [edge_ex "a" "b" 1; edge_ex "b" "c" 2; edge_ex "b" "a" 3; edge_ex "a" "b" 4; edge_ex "b" "a" 5].
Definition edges_ex (count dir : bool) : res (list (key * key * attrs)) :=
  let* g := edges_table_to_graph no_repr (TRows some_edges) (K "source") (K "target") [K "n"] count (K "weight") dir in Ok (edges_data g).
Definition wn (w n : Z) : attrs := [(K "n", VInt n); (K "weight", VInt w)].
Example C55_ex : edges_ex false false = Ok [(K "a", K "b", n_attr 5); (K "b", K "c", n_attr 2)]
  /\ edges_ex false true = Ok [(K "a", K "b", n_attr 4); (K "b", K "c", n_attr 2); (K "b", K "a", n_attr 5)].
Proof. vm_compute. auto. Qed.
Example C56_ex : edges_ex true false = Ok [(K "a", K "b", wn 4 1); (K "b", K "c", wn 1 2)]
  /\ edges_ex true true = Ok [(K "a", K "b", wn 2 1); (K "b", K "c", wn 1 2); (K "b", K "a", wn 2 3)].
Proof. vm_compute. auto. Qed.

(** ** C57, C82 tables of nodes and edges *)
Section TwoTables.
Variables (repr : nat -> string) (nc sc tc : key) (nd ed : list key) (count : bool) (w : key) (dir : bool).
Notation build nrows erows miss := (tables_to_graph repr (TRows nrows) (TRows erows) nc sc tc nd ed count w miss dir).

Lemma two_tables nrows erows miss g : build nrows erows miss = Ok g -> exists TN TE g0, Forall2 (reads_node repr nc nd) nrows TN /\ Forall2 (reads_edge repr sc tc ed) erows TE
  /\ ninv repr nd dir TN g0 /\ einv repr ed count w miss dir g0 TE g /\ (miss = false -> forall t, In t TE -> In (fst (fst t)) (nodes g0) /\ In (snd (fst t)) (nodes g0)).
Proof.
  unfold tables_to_graph, edges_rows_to_graph. cbn [iterator_from_dataframe bind]. intros H. apply bind_Ok in H as (g0 & H0 & H).
  destruct (nodes_spec repr nc nd dir nrows [] _ g0 (ninv_start _ _ dir) H0) as (TN & FN & IN). pose proof IN as (S0 & A0 & _).
  destruct (edges_spec repr sc tc ed count w miss dir g0 erows [] g0 g (einv_start _ _ _ _ _ dir _ S0 A0) H) as (TE & FE & IE & M). exists TN, TE, g0. auto 6.
Qed.

Lemma node_rows nrows TN : Forall2 (reads_node repr nc nd) nrows TN -> Forall2 (fun r n => row_item r nc = Ok (VKey n)) nrows (map fst TN).
Proof. induction 1 as [|r t rows T [E _] F IH]; constructor; assumption. Qed.
Lemma edge_rows erows TE : Forall2 (reads_edge repr sc tc ed) erows TE -> Forall2 (ends sc tc) erows (map fst TE).
Proof. induction 1 as [|r t rows T [E _] F IH]; constructor; assumption. Qed.

Theorem C57_nodes nrows erows g : build nrows erows false = Ok g -> exists ns es,
  Forall2 (fun r n => row_item r nc = Ok (VKey n)) nrows ns /\ Forall2 (ends sc tc) erows es
  /\ (forall n, In n (nodes g) <-> In n ns) /\ (forall e, In e es -> In (fst e) ns /\ In (snd e) ns).
Proof.
  intros H. destruct (two_tables _ _ _ _ H) as (TN & TE & g0 & FN & FE & (S0 & A0 & N0 & _) & (_ & _ & _ & _ & G) & M). exists (map fst TN), (map fst TE).
  split; [apply node_rows; assumption|]. split; [apply edge_rows; assumption|]. specialize (G eq_refl). specialize (M eq_refl).
  assert (X : forall n, In n (nodes g0) <-> In n (map fst TN)) by (intros n; rewrite N0, add_ids_In; cbn; tauto). split.
  - intros n. rewrite <- X. unfold nodes. rewrite G. reflexivity.
  - intros e He. apply in_map_iff in He as (t & <- & Ht). rewrite <- !X. apply M. assumption.
Qed.

Theorem C57_missing_added nrows erows g : build nrows erows true = Ok g -> exists ns es,
  Forall2 (fun r n => row_item r nc = Ok (VKey n)) nrows ns /\ Forall2 (ends sc tc) erows es
  /\ (forall n, In n (nodes g) <-> In n ns \/ exists e, In e es /\ (n = fst e \/ n = snd e))
  /\ (forall n, In n (nodes g) -> ~ In n ns -> node_data g n = Some []).
Proof.
  intros H. destruct (two_tables _ _ _ _ H) as (TN & TE & g0 & FN & FE & (S0 & A0 & N0 & _) & (_ & _ & N & D & _) & M). exists (map fst TN), (map fst TE).
  split; [apply node_rows; assumption|]. split; [apply edge_rows; assumption|].
  assert (X : forall n, In n (nodes g0) <-> In n (map fst TN)) by (intros n; rewrite N0, add_ids_In; cbn; tauto). split.
  - intros n. rewrite N, X. split; (intros [A|B]; [left; assumption|right]).
    + destruct B as (t & Ht & E). exists (fst t). split; [apply in_map; assumption|assumption].
    + destruct B as (e & He & E). apply in_map_iff in He as (t & <- & Ht). eauto.
  - intros n Hn Nn. rewrite D. rewrite <- X in Nn. apply node_data_none in Nn. rewrite Nn. apply mem_In in Hn. rewrite Hn. reflexivity.
Qed.

(** tables from which nothing else is missing *)
Definition well_read (nrows erows : list row) (ns : list key) (es : list (key * key)) : Prop :=
  Forall2 (fun r n => row_item r nc = Ok (VKey n)) nrows ns /\ Forall2 (ends sc tc) erows es
  /\ (forall r c, In r nrows -> In c nd -> exists v, row_item r c = Ok v)
  /\ (forall r c, In r erows -> In c ed -> exists v, row_item r c = Ok v)
  /\ (forall c, In c nd -> node_name (KStr (key_text repr c)))
  /\ (forall c, In c ed -> edge_name (KStr (key_text repr c))) /\ (count = true -> edge_name w).

Lemma well_read_triples nrows erows ns es : well_read nrows erows ns es -> exists TN TE, Forall2 (reads_node repr nc nd) nrows TN /\ Forall2 (reads_edge repr sc tc ed) erows TE /\ map fst TN = ns /\ map fst TE = es.
Proof.
  intros (FN & FE & DN & DE & _). assert (X : exists TN, Forall2 (reads_node repr nc nd) nrows TN /\ map fst TN = ns).
  { clear - FN DN. induction FN as [|r e rows es E F IH]; [exists []; split; [constructor|reflexivity]|]. destruct IH as (T & FT & <-); [intros; apply DN; [right|]; assumption|].
    destruct (row_data_ok repr nd r) as [a A]; [intros c; apply DN; left; reflexivity|]. exists ((e, a) :: T). split; [constructor; [split; assumption|assumption]|reflexivity]. }
  assert (Y : exists TE, Forall2 (reads_edge repr sc tc ed) erows TE /\ map fst TE = es).
  { clear - FE DE. induction FE as [|r e rows es E F IH]; [exists []; split; [constructor|reflexivity]|]. destruct IH as (T & FT & <-); [intros; apply DE; [right|]; assumption|].
    destruct (row_data_ok repr ed r) as [a A]; [intros c; apply DE; left; reflexivity|]. exists ((e, a) :: T). split; [constructor; [split; assumption|assumption]|reflexivity]. }
  destruct X as (TN & ? & ?), Y as (TE & ? & ?). exists TN, TE. auto.
Qed.

Theorem C57_built nrows erows ns es miss : well_read nrows erows ns es -> (miss = false -> forall e, In e es -> In (fst e) ns /\ In (snd e) ns) -> exists g, build nrows erows miss = Ok g.
Proof.
  intros R M. destruct (well_read_triples _ _ _ _ R) as (TN & TE & FN & FE & <- & <-). destruct R as (_ & _ & _ & _ & NN & NE & NW).
  unfold tables_to_graph, edges_rows_to_graph. cbn [iterator_from_dataframe bind].
  destruct (nodes_ok repr nc nd dir nrows TN NN FN [] _ (ninv_start _ _ dir)) as (g0 & -> & S0 & A0 & N0 & _). cbn [bind app] in *.
  apply (edges_ok repr sc tc ed count w miss dir g0 erows TE NE NW FE) with (done := []); [|apply einv_start; assumption].
  intros Hm t Ht. rewrite N0, !add_ids_In. destruct (M Hm (fst t) (in_map _ _ _ Ht)). auto.
Qed.

Theorem C57_raises nrows erows ns es : well_read nrows erows ns es -> (exists e, In e es /\ (~ In (fst e) ns \/ ~ In (snd e) ns)) -> build nrows erows false = Err KeyError.
Proof.
  intros R M. destruct (well_read_triples _ _ _ _ R) as (TN & TE & FN & FE & <- & <-). destruct R as (_ & _ & _ & _ & NN & NE & NW).
  unfold tables_to_graph, edges_rows_to_graph. cbn [iterator_from_dataframe bind].
  destruct (nodes_ok repr nc nd dir nrows TN NN FN [] _ (ninv_start _ _ dir)) as (g0 & -> & S0 & A0 & N0 & _). cbn [bind app] in *.
  assert (M' : exists t, In t TE /\ (~ In (fst (fst t)) (nodes g0) \/ ~ In (snd (fst t)) (nodes g0))).
  { destruct M as (e & He & M). apply in_map_iff in He as (t & <- & Ht). exists t. split; [assumption|]. rewrite N0, !add_ids_In. cbn. tauto. }
  clear M. assert (I : einv repr ed count w false dir g0 [] g0) by (apply einv_start; assumption).
  assert (G : forall erows TE done g, Forall2 (reads_edge repr sc tc ed) erows TE -> (exists t, In t TE /\ (~ In (fst (fst t)) (nodes g0) \/ ~ In (snd (fst t)) (nodes g0))) ->
    einv repr ed count w false dir g0 done g -> foldM (edge_row repr sc tc ed count w false) erows g = Err KeyError).
  { clear - NE NW. induction erows as [|r erows IH]; intros TE done g F M I; inversion F as [|x t l T Ht FT]; subst; [destruct M as (? & [] & _)|]. cbn [foldM].
    pose proof I as (_ & _ & _ & _ & Gn). specialize (Gn eq_refl). assert (Nn : nodes g = nodes g0) by (unfold nodes; congruence).
    destruct (in_dec key_eq_dec (fst (fst t)) (nodes g0)) as [I1|N1]; [destruct (in_dec key_eq_dec (snd (fst t)) (nodes g0)) as [I2|N2]|].
    - assert (E : edge_row repr sc tc ed count w false g r = triple_step count w g t) by (apply (edge_row_eq repr sc tc ed count w false g r t Ht); intros _; rewrite Nn; auto). rewrite E.
      destruct (triple_step_ok repr sc tc ed count w false dir g0 done g t r I Ht NE NW) as [g' Eg]. rewrite Eg. cbn [bind]. apply (IH T (done ++ [t]) g' FT).
      + destruct M as (t' & [<- |Ht'] & M'); [tauto|eauto].
      + eapply triple_step_spec; [exact I|exact Ht|intros _; rewrite Nn; auto|exact Eg].
    - assert (E : edge_row repr sc tc ed count w false g r = Err KeyError).
      { destruct Ht as [[E1 E2] _]. unfold edge_row. rewrite E1, E2. cbn [bind key_of]. unfold check_node_exists.
        replace (has_node g (fst (fst t))) with true by (symmetry; apply has_node_In; rewrite Nn; assumption).
        replace (has_node g (snd (fst t))) with false by (symmetry; apply not_true_iff_false; rewrite has_node_In, Nn; assumption). reflexivity. }
      rewrite E. reflexivity.
    - assert (E : edge_row repr sc tc ed count w false g r = Err KeyError).
      { destruct Ht as [[E1 E2] _]. unfold edge_row. rewrite E1, E2. cbn [bind key_of]. unfold check_node_exists.
        replace (has_node g (fst (fst t))) with false by (symmetry; apply not_true_iff_false; rewrite has_node_In, Nn; assumption). reflexivity. }
      rewrite E. reflexivity. }
  apply (G erows TE [] g0 FE M' I).
Qed.

(** C82: nodes in the order of the table, with the data of their last row; edges as for a table of edges *)
Theorem C82_tables nrows erows miss g : build nrows erows miss = Ok g -> exists ns es,
  Forall2 (fun r n => row_item r nc = Ok (VKey n)) nrows ns /\ Forall2 (ends sc tc) erows es
  /\ g_dir g = dir /\ g_multi g = false
  /\ (forall n, In n ns -> exists i r a, nth_error nrows i = Some r /\ nth_error ns i = Some n /\ (forall j, i < j -> nth_error ns j <> Some n)
                           /\ node_data g n = Some a /\ kept repr nd r a)
  /\ (forall u v, has_edge g u v = true <-> exists e, In e es /\ joins dir e u v)
  /\ (count = false -> forall u v a, edge_attrs g u v (KInt 0) = Some a -> exists i r, nth_error erows i = Some r /\ last_row dir es u v i /\ kept repr ed r a)
  /\ (count = true -> forall u v a, edge_attrs g u v (KInt 0) = Some a -> dget w a = Some (VInt (Z.of_nat (rows_joining dir es u v)))
        /\ exists i r data, nth_error erows i = Some r /\ first_row dir es u v i /\ kept repr ed r data /\ forall k, k <> w -> dget k a = dget k data).
Proof.
  intros H. destruct (two_tables _ _ _ _ H) as (TN & TE & g0 & FN & FE & (S0 & A0 & N0 & _ & D0) & ((Wg & Dg & Mg) & L & N & D & _) & M). exists (map fst TN), (map fst TE).
  split; [apply node_rows; assumption|]. split; [apply edge_rows; assumption|]. split; [assumption|]. split; [assumption|]. split; [|split; [|split]].
  - intros n Hn. specialize (D0 n). destruct (rev (filter (fun t => key_eqb n (fst t)) TN)) as [|t l] eqn:R.
    + exfalso. apply in_map_iff in Hn as (t & E & Ht). assert (X : In t (rev (filter (fun t => key_eqb n (fst t)) TN))) by (apply -> in_rev; apply filter_In; split; [assumption|rewrite E; apply key_eqb_refl]). rewrite R in X. destruct X.
    + apply filter_last in R as (i & Hi & E & Last). apply key_eqb_eq in E. destruct (Forall2_nth_ex _ _ _ _ _ FN Hi) as (r & Hr & _ & Dr). exists i, r, (snd t). split; [assumption|].
      split; [rewrite nth_error_map, Hi; cbn; congruence|]. split.
      * intros j Hj X. apply nth_map_fst in X as (b & X). specialize (Last j _ Hj X). cbn in Last. rewrite key_eqb_refl in Last. discriminate.
      * split; [rewrite D, D0; reflexivity|]. eapply row_data_spec; eassumption.
  - destruct count; [apply (counted_spec dir w TE g)|apply (last_spec dir (data_keys repr ed) TE g)]; try exact L; repeat (split; [assumption|]); assumption.
  - intros ->. destruct (last_spec dir _ TE g (conj Wg (conj Dg Mg)) L) as [_ HA]. intros u v a Ha. destruct (HA u v a Ha) as (i & t & Ht & Lr & ->).
    destruct (Forall2_nth_ex _ _ _ _ _ FE Ht) as (r & Hr & _ & Dr). exists i, r. split; [assumption|]. split; [assumption|]. eapply row_data_spec; eassumption.
  - intros ->. destruct (counted_spec dir _ TE g (conj Wg (conj Dg Mg)) L) as [_ HA]. intros u v a Ha. destruct (HA u v a Ha) as (i & t & Ht & Lr & ->). split; [rewrite dget_dset, key_eqb_refl; reflexivity|].
    destruct (Forall2_nth_ex _ _ _ _ _ FE Ht) as (r & Hr & _ & Dr). exists i, r, (snd t). split; [assumption|]. split; [assumption|]. split; [eapply row_data_spec; eassumption|].
    intros k Hk. rewrite dget_dset. apply key_eqb_neq in Hk. rewrite Hk. reflexivity.
Qed.
End TwoTables.
Print Assumptions C57_nodes.
Print Assumptions C57_missing_added.
Print Assumptions C57_built.
Print Assumptions C57_raises.
Print Assumptions C82_tables.

Definition node_ex (u : string) (n : Z) : row := of_row [("key"%string, st u); ("n"%string, VInt n)].
Definition tables_ex (ns es : list row) (miss : bool) : res graph :=
  tables_to_graph no_repr (TRows ns) (TRows es) (K "key") (K "source") (K "target") [K "n"] [K "n"] false (K "weight") miss true.
Example C57_ex : tables_ex [node_ex "a" 1; node_ex "b" 2] some_edges false = Err KeyError
  /\ (let* g := tables_ex [node_ex "a" 1; node_ex "c" 3; node_ex "b" 2] some_edges false in Ok (nodes g)) = Ok [K "a"; K "c"; K "b"]
  /\ (let* g := tables_ex [node_ex "a" 1] some_edges true in Ok (g_nodes g)) = Ok [(K "a", n_attr 1); (K "b", []); (K "c", [])].
Proof. vm_compute. auto. Qed.
Example C57_ex_read : well_read no_repr (K "key") (K "source") (K "target") [K "n"] [K "n"] false (K "weight") [node_ex "a" 1; node_ex "b" 2] [edge_ex "a" "b" 1; edge_ex "b" "c" 2]
  [K "a"; K "b"] [(K "a", K "b"); (K "b", K "c")].
Proof.
  split; [repeat constructor|]. split; [repeat constructor|]. split; [|split; [|split; [|split]]].
  - intros r c Hr [<- |[]]. cbn in Hr. destruct Hr as [<- |[<- |[]]]; eexists; reflexivity.
  - intros r c Hr [<- |[]]. cbn in Hr. destruct Hr as [<- |[<- |[]]]; eexists; reflexivity.
  - intros c [<- |[]]. split; [eexists; reflexivity|]. intros X. cbn in X. repeat (destruct X as [X|X]; [discriminate|]). destruct X.
  - intros c [<- |[]]. split; [eexists; reflexivity|]. intros X. cbn in X. repeat (destruct X as [X|X]; [discriminate|]). destruct X.
  - discriminate.
Qed.
Example C82_ex : tables_ex [node_ex "a" 1; node_ex "c" 3; node_ex "b" 2; node_ex "a" 7] some_edges false =
  Ok (json_graph true false [] [(K "a", n_attr 7); (K "c", n_attr 3); (K "b", n_attr 2)] [(K "a", K "b", n_attr 4); (K "b", K "c", n_attr 2); (K "b", K "a", n_attr 5)]).
Proof. vm_compute. reflexivity. Qed.

(** ** C58 DataFrames *)
Theorem C58_iterate f cols : rectangular f -> cols <> [] -> (forall c, In c cols -> In c (dkeys (f_cols f))) ->
  exists rows, iterator_from_dataframe (TFrame f) (Some cols) = Ok rows /\ List.length rows = f_rows f
  /\ forall i r, nth_error rows i = Some r -> exists d, r = RDict d /\ NoDup (dkeys d) /\ forall c, dget c d = if mem c cols then cell f c i else None.
Proof. apply iterate. Qed.
Print Assumptions C58_iterate.

Theorem C58_bipartite repr frepr f c1 c2 part w d1 d2 name1 name2 dis : rectangular f ->
  rows_of f (records f) /\ table_to_bipartite_graph repr frepr (TFrame f) c1 c2 part w d1 d2 name1 name2 dis = table_to_bipartite_graph repr frepr (TRows (records f)) c1 c2 part w d1 d2 name1 name2 dis.
Proof. intros R. split; [apply records_rows; assumption|]. unfold table_to_bipartite_graph. rewrite iterate_all by assumption. reflexivity. Qed.
Print Assumptions C58_bipartite.

Theorem C58_edges repr f rows sc tc ed count w dir : rectangular f -> (forall c, In c ([sc; tc] ++ ed) -> In c (dkeys (f_cols f))) -> rows_of f rows ->
  edges_table_to_graph repr (TFrame f) sc tc ed count w dir = edges_table_to_graph repr (TRows rows) sc tc ed count w dir.
Proof. apply edges_frame. Qed.
Print Assumptions C58_edges.

Theorem C58_tables repr nf nrows ef erows nc sc tc nd ed count w miss dir :
  rectangular nf -> rectangular ef -> (forall c, In c (nc :: nd) -> In c (dkeys (f_cols nf))) -> (forall c, In c ([sc; tc] ++ ed) -> In c (dkeys (f_cols ef))) ->
  rows_of nf nrows -> rows_of ef erows ->
  tables_to_graph repr (TFrame nf) (TFrame ef) nc sc tc nd ed count w miss dir = tables_to_graph repr (TRows nrows) (TRows erows) nc sc tc nd ed count w miss dir.
Proof. apply tables_frames. Qed.
Print Assumptions C58_tables.

Definition frame_ex : frame :=
  mkFrame 3 [(K "n", [VInt 1; VInt 2; VInt 3]); (K "target", [st "b"; st "c"; st "a"]); (K "other", [VNone; VNone; VNone]); (K "source", [st "a"; st "b"; st "b"])] (Some [K "i"; K "j"; K "k"]).
Example C58_ex : iterator_from_dataframe (TFrame frame_ex) (Some [K "source"; K "n"]) =
    Ok [of_row [("source"%string, st "a"); ("n"%string, VInt 1)]; of_row [("source"%string, st "b"); ("n"%string, VInt 2)]; of_row [("source"%string, st "b"); ("n"%string, VInt 3)]]
  /\ iterator_from_dataframe (TFrame frame_ex) (Some [K "source"; K "absent"]) = Err KeyError
  /\ (let* g := edges_table_to_graph no_repr (TFrame frame_ex) (K "source") (K "target") [K "n"] false (K "weight") false in Ok (edges_data g)) =
    Ok [(K "a", K "b", n_attr 3); (K "b", K "c", n_attr 2)].
Proof. vm_compute. auto. Qed.
Example C58_ex_rectangular : rectangular frame_ex.
Proof.
  split; [|split; [|discriminate]].
  - cbn. repeat constructor; cbn; intros X; repeat (destruct X as [X|X]; [discriminate|]); destruct X.
  - intros c l H. cbn in H. repeat (destruct H as [H|H]; [inversion H; reflexivity|]). destruct H.
Qed.

(** ** C59 there and back *)
Definition there_and_back_again (repr : nat -> string) (nan : val) (s : shim) (g : graph) (c sc tc w : key) (A B : list key) : res graph :=
  let* ne := graph_to_dataframes s nan g (Some c) sc tc None None in
  tables_to_graph repr (TFrame (fst ne)) (TFrame (snd ne)) c sc tc A B false w false (g_dir g).

(** a graph without edges cannot come back: its DataFrame has no columns; otherwise the graph comes back
    with what the DataFrames show, which is the graph itself iff columns are clean *)
Theorem C59_exact repr nan s g c sc tc w A B : tabular g c sc tc A B -> pd s = true -> val_eqb VNone nan = false ->
  ((exists h, there_and_back_again repr nan s g c sc tc w A B = Ok h /\ same_values g h) <->
   edges_data g <> [] /\ clean_columns A (map snd (g_nodes g)) /\ clean_columns B (map snd (edges_data g)))
  /\ (edges_data g = [] -> there_and_back_again repr nan s g c sc tc w A B = Err KeyError)
  /\ (edges_data g <> [] -> exists h, there_and_back_again repr nan s g c sc tc w A B = Ok h /\ shown_values nan g h).
Proof.
  intros T P Nn. unfold there_and_back_again, graph_to_dataframes, graph_to_nodes_dataframe, graph_to_edges_dataframe, check_pandas. rewrite P. cbn [bind check_columns fst snd].
  destruct (edges_data g) as [|e l] eqn:Q.
  - match goal with |- ((exists h, ?m = Ok h /\ _) <-> _) /\ _ => assert (E : m = Err KeyError) end.
    { unfold tables_to_graph. cbn [map]. destruct (iterator_from_dataframe _ _) as [rows|e0] eqn:E0; cbn [bind]; [|f_equal; eapply iterate_error; exact E0]. reflexivity. }
    rewrite E. split; [|split; [reflexivity|intros X; destruct (X eq_refl)]]. split; [intros (h & X & _); discriminate X|intros (X & _); destruct (X eq_refl)].
  - rewrite <- Q. assert (He : edges_data g <> []) by (rewrite Q; discriminate). clear e l Q. destruct (back_shown repr nan g c sc tc w A B T He) as (h & E & Sh & Sv). unfold node_line, plain_edge_line in E.
    match goal with |- ((exists h, ?m = Ok h /\ _) <-> _) /\ _ => assert (E' : m = Ok h) by exact E end. rewrite E'.
    split; [|split; [intros X; contradiction|intros _; eauto]]. split.
    + intros (h' & X & V). inversion X; subst h'. split; [assumption|]. apply Sv; assumption.
    + intros (_ & C). exists h. split; [reflexivity|]. apply Sv; assumption.
Qed.
Print Assumptions C59_exact.

Definition round_ex : graph := json_graph false false [] [(K "a", [(K "n", VInt 1); (K "b", VBool true)]); (K "b", [(K "b", VNone); (K "n", VFloat (1 # 2))]); (KInt 3, [(K "n", VInt 7); (K "b", st "x")])]
  [(K "a", K "b", [(K "weight", VInt 3)]); (K "b", K "b", [(K "weight", VInt 4)])].
Definition back (g : graph) (A B : list key) : res graph := there_and_back_again no_repr (st "nan") (import_shim true) g (K "key") (K "source") (K "target") (K "weight") A B.

Lemma tabular_ex g A B : wf g = true -> g_multi g = false ->
  forallb (fun na => forallb (fun k => mem k (map KStr A)) (dkeys (snd na)) && forallb (fun k => mem k (dkeys (snd na))) (map KStr A)) (g_nodes g) = true ->
  forallb (fun na => forallb (fun k => mem k (map KStr B)) (dkeys (snd na)) && forallb (fun k => mem k (dkeys (snd na))) (map KStr B)) (edges_data g) = true ->
  forallb (fun s => negb (mem (KStr s) (K "key" :: node_reserved))) A = true -> forallb (fun s => negb (mem (KStr s) (K "source" :: K "target" :: edge_reserved false))) B = true ->
  tabular g (K "key") (K "source") (K "target") (map KStr A) (map KStr B).
Proof.
  intros H1 H2 H3 H4 H5 H6. split; [apply wf_WF; assumption|]. split; [assumption|].
  assert (U : forall {X} (names : list string) (l : list (X * attrs)), forallb (fun na => forallb (fun k => mem k (map KStr names)) (dkeys (snd na)) && forallb (fun k => mem k (dkeys (snd na))) (map KStr names)) l = true -> uniform (map KStr names) (map snd l)).
  { clear. intros X names l H a Ha k. apply in_map_iff in Ha as (na & <- & Ha). rewrite forallb_forall in H. specialize (H na Ha). apply andb_true_iff in H as [A1 A2]. rewrite forallb_forall in A1, A2.
    split; intros I; [apply A1 in I|apply A2 in I]; apply mem_In in I; exact I. }
  assert (N : forall l bad, forallb (fun s => negb (mem (KStr s) bad)) l = true -> forall k, In k (map KStr l) -> (exists s, k = KStr s) /\ ~ In k bad).
  { clear. intros l bad H k Hk. apply in_map_iff in Hk as (s & <- & Hs). rewrite forallb_forall in H. specialize (H s Hs). apply negb_true_iff in H. apply mem_nIn in H. split; [eauto|assumption]. }
  split; [apply U; assumption|]. split; [apply U; assumption|].
  split; [|split; [|split; [|split; [|split; [|discriminate]]]]].
  - intros k Hk. destruct (N _ _ H5 k Hk) as [X Y]. split; [assumption|]. intros I. apply Y. right. assumption.
  - intros k Hk. destruct (N _ _ H6 k Hk) as [X Y]. split; [assumption|]. intros I. apply Y. right. right. assumption.
  - intros Hk. destruct (N _ _ H5 _ Hk) as [X Y]. apply Y. left. reflexivity.
  - intros Hk. destruct (N _ _ H6 _ Hk) as [X Y]. apply Y. left. reflexivity.
  - intros Hk. destruct (N _ _ H6 _ Hk) as [X Y]. apply Y. right. left. reflexivity.
Qed.

Example C59_ex : (let* h := back round_ex [K "n"; K "b"] [K "weight"] in Ok (g_nodes h, edges_data h)) =
  Ok ([(K "a", [(K "n", VFloat 1); (K "b", VBool true)]); (K "b", [(K "n", VFloat (1 # 2)); (K "b", VNone)]); (KInt 3, [(K "n", VFloat 7); (K "b", st "x")])],
      [(K "a", K "b", [(K "weight", VInt 3)]); (K "b", K "b", [(K "weight", VInt 4)])]).
Proof. vm_compute. reflexivity. Qed.
Example C59_ex_tabular : tabular round_ex (K "key") (K "source") (K "target") (map KStr ["n"; "b"]%string) (map KStr ["weight"]%string)
  /\ edges_data round_ex <> [] /\ clean_columns [K "n"; K "b"] (map snd (g_nodes round_ex)) /\ clean_columns [K "weight"] (map snd (edges_data round_ex)).
Proof.
  split; [apply tabular_ex; vm_compute; reflexivity|]. split; [vm_compute; discriminate|]. split.
  - intros k [<- |[<- |[]]].
    + right. split; [intros H; vm_compute in H; repeat (destruct H as [H|H]; [discriminate H|]); destruct H|].
      intros q z _ H. cbv in H. repeat (destruct H as [H|H]; [inversion H; subst z; vm_compute; reflexivity|]). destruct H.
    + left. exists (VBool true). split; [vm_compute; auto|exact I].
  - intros k [<- |[]]. right. split; [intros H; vm_compute in H; repeat (destruct H as [H|H]; [discriminate H|]); destruct H|].
    intros q z H. vm_compute in H. repeat (destruct H as [H|H]; [discriminate H|]). destruct H.
Qed.

Definition no_edges : graph := json_graph false false [] [(K "a", n_attr 1); (K "b", n_attr 2)] [].
Definition with_none : graph := json_graph false false [] [(K "a", n_attr 1); (K "b", [(K "n", VNone)])] [(K "a", K "b", [])].
Theorem C59_refuted : exists g g',
  tabular g (K "key") (K "source") (K "target") [K "n"] [] /\ tabular g' (K "key") (K "source") (K "target") [K "n"] []
  /\ back g [K "n"] [] = Err KeyError
  /\ exists h, back g' [K "n"] [] = Ok h /\ ~ same_values g' h.
Proof.
  exists no_edges, with_none. split; [apply (tabular_ex _ ["n"%string] []); vm_compute; reflexivity|]. split; [apply (tabular_ex _ ["n"%string] []); vm_compute; reflexivity|]. split; [vm_compute; reflexivity|].
  eexists. split; [vm_compute; reflexivity|]. intros (_ & _ & _ & D & _). destruct (D (K "b") [(K "n", VNone)] ltac:(vm_compute; reflexivity)) as (b & E & S). vm_compute in E. inversion E; subst b. specialize (S (K "n")). vm_compute in S. discriminate.
Qed.
Print Assumptions C59_refuted.

(** an int beside a float is rounded: 2^53 + 1 comes back as 2^53 *)
Definition with_float : graph := json_graph false false [] [(K "a", n_attr (2 ^ 53 + 1)); (K "b", [(K "n", VFloat (1 # 2))])] [(K "a", K "b", [])].
Theorem C59_rounding_refuted : exists g h, tabular g (K "key") (K "source") (K "target") [K "n"] []
  /\ back g [K "n"] [] = Ok h /\ ~ same_values g h
  /\ (exists x y, node_data g (K "a") = Some [(K "n", VInt x)] /\ node_data h (K "a") = Some [(K "n", VFloat y)] /\ (y + 1 == inject_Z x)%Q).
Proof.
  exists with_float. eexists. split; [apply (tabular_ex _ ["n"%string] []); vm_compute; reflexivity|]. split; [vm_compute; reflexivity|]. split.
  - intros (_ & _ & _ & D & _). destruct (D (K "a") (n_attr (2 ^ 53 + 1)) ltac:(vm_compute; reflexivity)) as (b & E & S). vm_compute in E. inversion E; subst b. specialize (S (K "n")). vm_compute in S. discriminate.
  - eexists. eexists. split; [vm_compute; reflexivity|]. split; [vm_compute; reflexivity|]. vm_compute. reflexivity.
Qed.
Print Assumptions C59_rounding_refuted.

(** ** C60 the columns of keys *)
Theorem C60_nodes s nan g c f : WF g -> no_node_attr g c -> graph_to_nodes_dataframe s nan g (Some c) = Ok f ->
  f_rows f = List.length (nodes g) /\ forall i n, nth_error (nodes g) i = Some n -> cell f c i = Some (VKey n).
Proof.
  unfold graph_to_nodes_dataframe. intros W N H. destruct (check_pandas s) as [p0|]; [|discriminate]. cbn [bind] in H. inversion H; subst f. clear H. split.
  - cbn [make_frame f_rows]. unfold nodes, dkeys. rewrite !map_length. reflexivity.
  - exact (node_keys nan g c None W N).
Qed.
Print Assumptions C60_nodes.

Theorem C60_index s nan g f : graph_to_nodes_dataframe s nan g None = Ok f -> f_rows f = List.length (nodes g) /\ f_index f = Some (nodes g).
Proof.
  unfold graph_to_nodes_dataframe. intros H. destruct (check_pandas s) as [p0|]; [|discriminate]. cbn [bind] in H. inversion H; subst f. split; [|reflexivity].
  cbn [make_frame f_rows]. unfold nodes, dkeys. rewrite !map_length. reflexivity.
Qed.
Print Assumptions C60_index.

Theorem C60_edges s nan g sc tc sd td f : WF g -> sc <> tc -> no_edge_attr g sc -> no_edge_attr g tc ->
  (forall c, c = sc \/ c = tc -> no_column sd c /\ no_column td c) -> graph_to_edges_dataframe s nan g sc tc sd td = Ok f ->
  f_rows f = List.length (edges_data g) /\ forall i u v a, nth_error (edges_data g) i = Some (u, v, a) -> cell f sc i = Some (VKey u) /\ cell f tc i = Some (VKey v).
Proof.
  unfold graph_to_edges_dataframe. intros W N Ns Nt C H. destruct (check_pandas s) as [p0|]; [|discriminate]. cbn [bind] in H. apply bind_Ok in H as (sd' & Es & H). apply bind_Ok in H as (td' & Et & H). inversion H; subst f. clear H.
  assert (G : forall o o' k, check_columns o = Ok o' -> no_column o k -> forall l c x, o' = Some l -> In (c, x) l -> x <> k).
  { intros o o' k E Q l c x -> I ->. apply (check_columns_Ok o l E) in I. destruct o as [[cols|cols| ]|]; cbn in Q; [exact (Q c I)|destruct I as [-> I]; exact (Q I)|destruct I|destruct I]. }
  split; [cbn [make_frame f_rows]; apply map_length|]. intros i u v a Hi. split.
  - apply (key_column nan _ None sc (map (fun e => fst (fst e)) (edges_data g))); [|rewrite nth_error_map, Hi; reflexivity].
    rewrite !map_map. apply map_ext_in. intros [[p q] b] I. destruct (C sc (or_introl eq_refl)). rewrite (edge_line_plain g sc tc sd' td' _ sc (G sd sd' sc Es H) (G td td' sc Et H0)).
    rewrite edge_line_get by (eapply edges_data_NoDup; eassumption). pose proof (Ns p q b I) as X. apply dget_None in X. rewrite X. apply key_eqb_neq in N. rewrite N, key_eqb_refl. reflexivity.
  - apply (key_column nan _ None tc (map (fun e => snd (fst e)) (edges_data g))); [|rewrite nth_error_map, Hi; reflexivity].
    rewrite !map_map. apply map_ext_in. intros [[p q] b] I. destruct (C tc (or_intror eq_refl)). rewrite (edge_line_plain g sc tc sd' td' _ tc (G sd sd' tc Es H) (G td td' tc Et H0)).
    rewrite edge_line_get by (eapply edges_data_NoDup; eassumption). pose proof (Nt p q b I) as X. apply dget_None in X. rewrite X, key_eqb_refl. reflexivity.
Qed.
Print Assumptions C60_edges.

Definition column (f : frame) (c : key) : option (list val) := dget c (f_cols f).
Example C60_ex :
  (let* f := graph_to_nodes_dataframe (import_shim true) (st "nan") round_ex (Some (K "key")) in Ok (column f (K "key"), column f (K "n"))) =
    Ok (Some [st "a"; st "b"; VInt 3], Some [VFloat 1; VFloat (1 # 2); VFloat 7])
  /\ (let* f := graph_to_edges_dataframe (import_shim true) (st "nan") round_ex (K "source") (K "target") (Some (NIter [K "n"])) (Some (NMap [(K "b", K "tb")])) in
      Ok (column f (K "source"), column f (K "target"), column f (K "n"), column f (K "tb"))) =
    Ok (Some [st "a"; st "b"], Some [st "b"; st "b"], Some [VFloat 1; VFloat (1 # 2)], Some [VNone; VNone]).
Proof. vm_compute. auto. Qed.

(** an attribute named like the column, of a node or of an edge, or a column of node data *)
Theorem C60_refuted : exists g,
  wf g = true /\ g_multi g = false /\ nodes g = [K "a"; K "b"] /\ edges g = [(K "a", K "b")]
  /\ (let* f := graph_to_nodes_dataframe (import_shim true) (st "nan") g (Some (K "key")) in Ok (column f (K "key"))) = Ok (Some [st "z"; st "b"])
  /\ (let* f := graph_to_edges_dataframe (import_shim true) (st "nan") g (K "source") (K "target") None None in Ok (column f (K "source"))) = Ok (Some [st "y"])
  /\ (let* f := graph_to_edges_dataframe (import_shim true) (st "nan") g (K "s") (K "key") (Some (NIter [K "key"])) None in Ok (column f (K "key"))) = Ok (Some [st "z"]).
Proof. exists (json_graph false false [] [(K "a", [(K "key", st "z")]); (K "b", [])] [(K "a", K "b", [(K "source", st "y")])]). vm_compute. auto 10. Qed.
Print Assumptions C60_refuted.

(** ** C83 what the cells hold *)
Theorem C83_edges s nan g sc tc sd td f : WF g -> graph_to_edges_dataframe s nan g sc tc sd td = Ok f ->
  forall i u v a c, nth_error (edges_data g) i = Some (u, v, a) ->
  (forall attr, asks td attr c -> exists w, cell f c i = Some w /\ shows nan (attr_of g v attr) w)
  /\ (forall attr, no_column td c -> asks sd attr c -> exists w, cell f c i = Some w /\ shows nan (attr_of g u attr) w)
  /\ (no_column td c -> no_column sd c ->
        (forall x, dget c a = Some x -> exists w, cell f c i = Some w /\ shows nan x w)
        /\ (dget c a = None -> c <> sc -> c <> tc -> cell f c i = None \/ cell f c i = Some nan)).
Proof.
  unfold graph_to_edges_dataframe. intros W H i u v a c Hi. destruct (check_pandas s) as [p0|]; [|discriminate]. cbn [bind] in H.
  apply bind_Ok in H as (sd' & Es & H). apply bind_Ok in H as (td' & Et & H). inversion H; subst f. clear H.
  assert (Hr : nth_error (map (edge_line g sc tc sd' td') (edges_data g)) i = Some (edge_line g sc tc sd' td' (u, v, a))) by (rewrite nth_error_map, Hi; reflexivity).
  split; [|split].
  - intros attr A. destruct (asks_split _ _ _ _ Et A) as (l1 & l2 & -> & N). eapply cell_shows; [exact Hr|]. cbn [edge_line]. apply add_node_columns_last. exact N.
  - intros attr NC A. destruct (asks_split _ _ _ _ Es A) as (l1 & l2 & -> & N). eapply cell_shows; [exact Hr|]. cbn [edge_line].
    rewrite add_node_columns_get by (exact (no_column_spec _ _ _ Et NC)). apply add_node_columns_last. exact N.
  - intros NT NS. assert (E : dget c (edge_line g sc tc sd' td' (u, v, a)) = match dget c a with Some x => Some x | None => if key_eqb c tc then Some (VKey v) else if key_eqb c sc then Some (VKey u) else None end).
    { rewrite edge_line_plain; [|exact (no_column_spec _ _ _ Es NS)|exact (no_column_spec _ _ _ Et NT)]. apply edge_line_get. eapply edges_data_NoDup; [eassumption|]. eapply nth_error_In; eassumption. }
    split.
    + intros x Dx. eapply cell_shows; [exact Hr|]. rewrite E, Dx. reflexivity.
    + intros Dx Ns Nt. eapply cell_absent; [exact Hr|]. rewrite E, Dx. apply key_eqb_neq in Ns, Nt. rewrite Ns, Nt. reflexivity.
Qed.
Print Assumptions C83_edges.

(** the columns, which are those of the given names and of the attributes of some edge *)
Theorem C83_columns s nan g sc tc sd td f c : WF g -> graph_to_edges_dataframe s nan g sc tc sd td = Ok f ->
  In c (dkeys (f_cols f)) <-> edges_data g <> [] /\
    (c = sc \/ c = tc \/ (exists attr, asks sd attr c) \/ (exists attr, asks td attr c) \/ exists u v a, In (u, v, a) (edges_data g) /\ In c (dkeys a)).
Proof.
  unfold graph_to_edges_dataframe. intros W H. destruct (check_pandas s) as [p0|]; [|discriminate]. cbn [bind] in H.
  apply bind_Ok in H as (sd' & Es & H). apply bind_Ok in H as (td' & Et & H). inversion H; subst f. clear H. rewrite frame_cols.
  assert (G : forall u v a, In (u, v, a) (edges_data g) -> In c (dkeys (edge_line g sc tc sd' td' (u, v, a))) <->
    c = sc \/ c = tc \/ (exists attr, asks sd attr c) \/ (exists attr, asks td attr c) \/ In c (dkeys a)).
  { intros u v a I. rewrite <- (dget_key c (edge_line g sc tc sd' td' (u, v, a))). cbn [edge_line].
    destruct (asked td c) as [(attr & A)|NT].
    { destruct (asks_split _ _ _ _ Et A) as (l1 & l2 & -> & N). rewrite add_node_columns_last by exact N. split; [eauto 6|eauto]. }
    assert (NT' : forall attr, ~ asks td attr c).
    { intros attr A. destruct (asks_split _ _ _ _ Et A) as (l1 & l2 & E & N). apply (no_column_spec _ _ _ Et NT _ attr c E); [apply in_or_app; right; left|]; reflexivity. }
    rewrite add_node_columns_get by (exact (no_column_spec _ _ _ Et NT)).
    destruct (asked sd c) as [(attr & A)|NS].
    { destruct (asks_split _ _ _ _ Es A) as (l1 & l2 & -> & N). rewrite add_node_columns_last by exact N. split; [eauto 6|eauto]. }
    assert (NS' : forall attr, ~ asks sd attr c).
    { intros attr A. destruct (asks_split _ _ _ _ Es A) as (l1 & l2 & E & N). apply (no_column_spec _ _ _ Es NS _ attr c E); [apply in_or_app; right; left|]; reflexivity. }
    rewrite add_node_columns_get by (exact (no_column_spec _ _ _ Es NS)).
    pose proof (edge_line_get sc tc u v a c (edges_data_NoDup g u v a W I)) as E. unfold plain_edge_line in E. rewrite E. rewrite <- (dget_key c a).
    destruct (dget c a) as [x|]; [split; [eauto 6|eauto]|]. destruct (key_eqb c tc) eqn:K1; [apply key_eqb_eq in K1; split; [auto|eauto]|].
    destruct (key_eqb c sc) eqn:K2; [apply key_eqb_eq in K2; split; [auto|eauto]|]. apply key_eqb_neq in K1, K2.
    split; [intros (x & X); discriminate|]. intros [X|[X|[(attr & X)|[(attr & X)|(x & X)]]]]; try contradiction; try discriminate; [elim (NS' attr X)|elim (NT' attr X)]. }
  split.
  - intros (r & Ir & Ic). apply in_map_iff in Ir as ([[u v] a] & <- & I). apply (G u v a I) in Ic. split; [intros N; rewrite N in I; destruct I|].
    destruct Ic as [X|[X|[X|[X|X]]]]; eauto 10.
  - intros [N X]. destruct X as [X|[X|[X|[X|(u & v & a & I & X)]]]];
      try (destruct (edges_data g) as [|[[u v] a] l] eqn:E; [congruence|]; assert (I : In (u, v, a) (edges_data g)) by (rewrite E; left; reflexivity); rewrite <- E in *);
      (exists (edge_line g sc tc sd' td' (u, v, a)); split; [apply in_map; exact I|apply (G u v a I); eauto 10]).
Qed.
Print Assumptions C83_columns.

Theorem C83_nodes s nan g kc f : WF g -> graph_to_nodes_dataframe s nan g kc = Ok f ->
  forall i n a c, nth_error (g_nodes g) i = Some (n, a) ->
  (forall x, dget c a = Some x -> exists w, cell f c i = Some w /\ shows nan x w)
  /\ (dget c a = None -> kc <> Some c -> cell f c i = None \/ cell f c i = Some nan).
Proof.
  unfold graph_to_nodes_dataframe. intros W H i n a c Hi. destruct (check_pandas s) as [p0|]; [|discriminate]. cbn [bind] in H.
  destruct kc as [k|]; inversion H; subst f; clear H.
  - assert (Hr : nth_error (map (node_line k) (g_nodes g)) i = Some (node_line k (n, a))) by (rewrite nth_error_map, Hi; reflexivity).
    pose proof (node_line_get k (n, a) c (wf_nattrs g W n a (nth_error_In _ _ Hi))) as E. cbn [fst snd] in E. split.
    + intros x Dx. eapply cell_shows; [exact Hr|]. rewrite E, Dx. reflexivity.
    + intros Dx N. eapply cell_absent; [exact Hr|]. rewrite E, Dx. destruct (key_eqb c k) eqn:K1; [apply key_eqb_eq in K1; congruence|reflexivity].
  - assert (Hr : nth_error (map snd (g_nodes g)) i = Some a) by (rewrite nth_error_map, Hi; reflexivity). split.
    + intros x Dx. eapply cell_shows; eassumption.
    + intros Dx _. eapply cell_absent; eassumption.
Qed.
Print Assumptions C83_nodes.

(** the column "n" of the target hides the one of the source and the attribute "n" of the edges *)
Example C83_ex :
  let g := json_graph false false [] [(K "a", [(K "n", VInt 1); (K "b", st "x")]); (K "b", [(K "n", VInt 2)]); (KInt 3, [])]
             [(K "a", K "b", [(K "n", VInt 7); (K "weight", VInt 5)]); (K "b", KInt 3, [])] in
  let td := Some (NMap [(K "b", K "n"); (K "n", K "n")]) in
  asks td (K "n") (K "n") /\ asks (Some (NIter [K "n"; K "b"])) (K "b") (K "b")
  /\ (let* f := graph_to_edges_dataframe (import_shim true) (st "nan") g (K "source") (K "target") (Some (NIter [K "n"; K "b"])) td in Ok (f_cols f)) =
     Ok [(K "source", [st "a"; st "b"]); (K "target", [st "b"; VInt 3]); (K "n", [VFloat 2; st "nan"]); (K "weight", [VFloat 5; st "nan"]); (K "b", [st "x"; VNone])].
Proof. cbn zeta. split; [exists [(K "b", K "n")], []; auto|]. split; [cbn; auto|]. vm_compute. reflexivity. Qed.
