(** * C102: a table projected on one of its columns *)
From Coq Require Import List ZArith QArith Lia Bool String.
From Verif Require Import PyBase PyNum NxGraph L_Base L_Nx L_Nx2 S_Partition L_Partition M_Graph M_Json M_Tabular S_Graph S_Json L_Graph L_Graph2 M_Proj S_Num L_Num S_Proj L_Proj S_Pipe
  S_Tabular L_Tab L_Bip L_Bip2 L_Bip3 L_Pipe P_Json P_Tabular P_Proj.
Import ListNotations.
Close Scope Q_scope.
Open Scope list_scope.

(** The bipartite graph of the table is built, and projected on the first column: the nodes are its values, two of them are linked exactly when
    some value of the second column comes with both; the weight is the number of such values without metric, and the sum of
    the products of numbers of rows with the metric [dot_product]. *)
Theorem C102_pipeline repr frepr c1 c2 part w d1 d2 name1 name2 rows cells lib chk name m :
  c1 <> c2 -> rows <> [] -> Forall2 (reads c1 c2) rows cells -> node_name part -> edge_name w -> part <> K "label" -> w <> part ->
  (forall r, In r rows -> accepts d1 r /\ accepts d2 r) -> proper d1 -> proper d2 -> leaves d1 part -> leaves d2 part ->
  val_eqb (part_name name2 c2) (part_name name1 c1) = false ->
  binary64 lib -> In (name, m) metric_names -> m = Intersection \/ m = DotProduct ->
  exists g h, table_to_bipartite_graph repr frepr (TRows rows) c1 c2 part w d1 d2 name1 name2 false = Ok g
  /\ monopartite_projection lib g (ByValue (part_name name1 c1)) part w name chk VNone = Ok h
  /\ (forall n, In n (nodes h) <-> exists a, In a (map fst cells) /\ n = node_of c1 c2 cells (c1, a))
  /\ forall a a', In a (map fst cells) -> In a' (map fst cells) ->
     let u := node_of c1 c2 cells (c1, a) in let v := node_of c1 c2 cells (c1, a') in
     (u = v <-> val_eqb a a' = true)
     /\ (has_edge h u v = true <-> val_eqb a a' = false /\ exists b, 0 < rows_with a b cells /\ 0 < rows_with a' b cells)
     /\ forall x, edge_attrs h u v (KInt 0) = Some x -> exists y, x = [(K "weight", y)]
        /\ num_of y = Some (inject_Z (if match m with DotProduct => true | _ => false end then products a a' cells else Z.of_nat (List.length (together a a' cells)))).
Proof.
  intros N NE F NP EW PL WP A P1 P2 L1 L2 ND B64 Hn Hm.
  destruct (C51_built repr frepr c1 c2 part w d1 d2 name1 name2 rows cells N F NP EW A) as (g & Bg).
  assert (A1 : forall r, In r rows -> accepts d1 r) by (intros r I; apply A, I).
  assert (A2 : forall r, In r rows -> accepts d2 r) by (intros r I; apply A, I).
  destruct (table_kind repr frepr c1 c2 part w d1 d2 name1 name2 rows g Bg) as (W & D & M).
  assert (KT := kept_table repr frepr c1 c2 part w d1 d2 name1 name2 rows cells g Bg F PL P1 P2 L1 L2 ND).
  assert (IE : exists ab, In ab cells).
  { destruct F as [|r ab rows cells]; [contradiction|]. exists ab. left. reflexivity. }
  assert (NU : forall x y a v, edge_attrs g x y (KInt 0) = Some a -> dget w a = Some v -> exists n, v = VInt n).
  { intros x y a v E Dv. pose proof (edge_attrs_has _ _ _ _ _ E) as He.
    assert (E' : exists a0 b0, edge_attrs g (node_of c1 c2 cells (c1, a0)) (node_of c1 c2 cells (c2, b0)) (KInt 0) = Some a).
    { destruct (table_edges repr frepr c1 c2 part w d1 d2 name1 name2 rows cells g Bg F x y He) as (ab & I & [[-> ->]|[-> ->]]); [eauto|].
      rewrite edge_attrs_sym in E by assumption. eauto. }
    destruct E' as (a0 & b0 & E'). rewrite (table_attrs repr frepr c1 c2 part w d1 d2 name1 name2 rows cells g Bg F) in E'.
    destruct (rows_with a0 b0 cells); [discriminate|]. injection E' as <-. cbn in Dv. rewrite key_eqb_refl in Dv. injection Dv as <-. eauto. }
  destruct (C44_binary64 lib g (ByValue (part_name name1 c1)) part w chk name m W D M B64 eq_refl Hn) as (h & E & H & HW).
  - exact (table_bipartite repr frepr c1 c2 part w d1 d2 name1 name2 rows cells g Bg F PL P1 P2 L1 L2 ND).
  - destruct IE as (ab & I). exists (node_of c1 c2 cells (c1, fst ab)). apply KT. eauto.
  - exact (table_comparable repr frepr c1 c2 part w d1 d2 name1 name2 rows cells g Bg F PL P1 P2 L1 L2 ND).
  - exact (table_names repr frepr c1 c2 part w d1 d2 name1 name2 rows cells g Bg F PL P1 P2 L1 L2 A1 ND).
  - intros _. exact (table_unmarked repr frepr c1 c2 part w d1 d2 name1 name2 rows cells g Bg F PL P1 P2 L2 ND WP).
  - intros _ x y a v Ea Da. destruct (NU x y a v Ea Da) as (n & ->). discriminate.
  - intros ->. destruct Hm; discriminate.
  - intros ->. destruct Hm; discriminate.
  - exists g, h. split; [exact Bg|]. split; [exact E|].
    assert (O : order g <> 0).
    { destruct IE as (ab & I). assert (Kn : S_Proj.kept g (ByValue (part_name name1 c1)) part (node_of c1 c2 cells (c1, fst ab))) by (apply KT; eauto).
      destruct Kn as (x & En & _). apply node_data_Some_In in En. unfold order, nodes, dkeys in *. destruct (g_nodes g); [destruct En|discriminate]. }
    destruct (C43_nodes lib g (ByValue (part_name name1 c1)) part w name chk VNone h W eq_refl O E) as (Wh & Dh & Mh & _ & _ & _ & Nh & _).
    split.
    { intros n. rewrite Nh, KT. split; [intros (ab & I & ->); exists (fst ab); split; [apply in_map, I|reflexivity]|].
      intros (a & I & ->). apply in_map_iff in I as (ab & <- & I). eauto. }
    intros a a' Ia Ia'. cbv zeta.
    assert (EQ : node_of c1 c2 cells (c1, a) = node_of c1 c2 cells (c1, a') <-> val_eqb a a' = true).
    { apply in_map_iff in Ia as (ab & <- & Ia). exact (one_eq c1 c2 cells ab a' Ia). }
    assert (TE := table_edge repr frepr c1 c2 part w d1 d2 name1 name2 rows cells g Bg F).
    assert (ST := shared_table repr frepr c1 c2 part w d1 d2 name1 name2 rows cells g Bg F).
    split; [exact EQ|]. split.
    + rewrite H. split.
      * intros (_ & _ & Ne & t & S). split; [destruct (val_eqb a a'); [destruct Ne; apply EQ; reflexivity|reflexivity]|].
        apply (ST a a' t Ia Ia') in S as (b & Ib & _). exists b. unfold together in Ib. apply filter_In in Ib as [_ Ib].
        apply andb_true_iff in Ib as [B B']. apply Nat.ltb_lt in B, B'. auto.
      * intros (Ne & b & B & B'). split; [|split; [|split]].
        -- apply KT. apply in_map_iff in Ia as (ab & <- & Ia). eauto.
        -- apply KT. apply in_map_iff in Ia' as (ab & <- & Ia'). eauto.
        -- intros X. apply EQ in X. congruence.
        -- exists (node_of c1 c2 cells (c2, b)). split; apply TE; assumption.
    + intros x Ex. destruct (HW _ _ x Ex) as (y & q & -> & ST' & PS). exists y. split; [reflexivity|]. destruct Hm as [-> | ->].
      * destruct ST' as (z & -> & ->). destruct PS as (n1 & n2 & i & (_ & _ & Si) & Eq). cbn in Eq. cbn [num_of VInt]. f_equal. f_equal.
        rewrite (has_size_unique _ _ _ (together_size repr frepr c1 c2 part w d1 d2 name1 name2 rows cells g Bg F a a' Ia Ia') Si).
        unfold nq in Eq. unfold Qeq, inject_Z in Eq. cbn in Eq. lia.
      * destruct PS as (s & Ps & ->). cbn in ST'. rewrite (table_scalar repr frepr c1 c2 part w d1 d2 name1 name2 rows cells g Bg F lib a a' s Ia Ia' Ps) in ST'. exact ST'.
Qed.
Print Assumptions C102_pipeline.

(** people and colours: 1 and 2 share red (twice and once) and blue; 3 has only green *)
Definition likes : list row :=
  map (fun ab => pair_row (VInt (fst ab)) (st (snd ab))) [(1, "red"); (1, "red"); (2, "red"); (1, "blue"); (2, "blue"); (3, "green")]%Z%string.

Definition liked : list (val * val) := map (fun ab => (VInt (fst ab), st (snd ab))) [(1, "red"); (1, "red"); (2, "red"); (1, "blue"); (2, "blue"); (3, "green")]%Z%string.

Example C102_ex :
  (let* g := bip likes None None false in
   let* h := monopartite_projection lib64 g (ByValue (VKey (K "c1"))) (K "part") (K "weight") VNone true VNone in
   let* h' := monopartite_projection lib64 g (ByValue (VKey (K "c1"))) (K "part") (K "weight") (VStr "dot_product") true VNone in
   Ok (nodes h, edges_data h, edges_data h'))
  = Ok ([KInt 0; KInt 2; KInt 4], [(KInt 0, KInt 2, [(K "weight", VInt 2)])], [(KInt 0, KInt 2, [(K "weight", VInt 3)])])
  /\ together (VInt 1) (VInt 2) liked = [st "red"; st "blue"] /\ products (VInt 1) (VInt 2) liked = 3%Z.
Proof. split; [vm_compute; reflexivity|]. split; vm_compute; reflexivity. Qed.

Example C102_ex_hyps : exists g h, bip likes None None false = Ok g
  /\ monopartite_projection lib64 g (ByValue (VKey (K "c1"))) (K "part") (K "weight") (VStr "dot_product") true VNone = Ok h
  /\ has_edge h (node_of (K "c1") (K "c2") liked (K "c1", VInt 1)) (node_of (K "c1") (K "c2") liked (K "c1", VInt 2)) = true.
Proof.
  assert (Nm : node_name (K "part")) by (split; [eexists; reflexivity|]; intros [X|[X|[]]]; discriminate X).
  assert (Ew : edge_name (K "weight")) by (split; [eexists; reflexivity|]; cbn; intros X; repeat (destruct X as [X|X]; [discriminate X|]); destruct X).
  assert (Lv : leaves None (K "part")) by (intros r a C; cbn in C; subst a; reflexivity).
  destruct (C102_pipeline no_repr no_frepr (K "c1") (K "c2") (K "part") (K "weight") None None None None likes liked lib64 true (VStr "dot_product") DotProduct)
    as (g & h & Bg & E & _ & H); try assumption; try discriminate; try exact I; try reflexivity.
  - unfold likes, liked. repeat constructor.
  - intros r _. split; exact I.
  - exact lib64_binary64.
  - cbn; auto 10.
  - right; reflexivity.
  - exists g, h. split; [exact Bg|]. split; [exact E|].
    assert (I1 : In (VInt 1) (map fst liked)) by (cbn; auto). assert (I2 : In (VInt 2) (map fst liked)) by (cbn; auto).
    apply (H (VInt 1) (VInt 2) I1 I2). split; [reflexivity|]. exists (st "blue"). split; vm_compute; lia.
Qed.
