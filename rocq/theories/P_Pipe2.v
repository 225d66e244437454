(** * C103: the pairs of a table which are in enough rows *)
From Coq Require Import List ZArith QArith Lia Bool String.
From Verif Require Import PyBase PyNum NxGraph L_Base L_Nx M_Utils M_UnionFind M_Graph M_Tabular S_Graph L_Graph S_Tabular L_Tab M_Disparity M_Sparse S_Sparse P_Json P_Tabular P_Sparse.
Import ListNotations.
Close Scope Q_scope.
Open Scope list_scope.

Lemma ends_unique sc tc rows es es' : Forall2 (ends sc tc) rows es -> Forall2 (ends sc tc) rows es' -> es = es'.
Proof.
  intros F. revert es'. induction F as [|r e rows es [E1 E2] F IH]; intros es' F'; inversion F' as [|? e' ? ? [E1' E2'] F'']; subst; [reflexivity|].
  f_equal; [|apply IH; assumption]. destruct e, e'. cbn in *. congruence.
Qed.

Lemma rows_joining_pos dir es u v : 0 < rows_joining dir es u v <-> exists e, In e es /\ joins dir e u v.
Proof.
  assert (B : forall e, joinsb dir u v e = true <-> joins dir e u v).
  { intros [x y]. unfold joinsb, joins. cbn [fst snd]. rewrite orb_true_iff, !andb_true_iff, !key_eqb_eq, negb_true_iff. intuition congruence. }
  unfold rows_joining. split.
  - destruct (filter (joinsb dir u v) es) as [|e l] eqn:F; cbn; [lia|]. intros _. exists e.
    assert (I : In e (filter (joinsb dir u v) es)) by (rewrite F; left; reflexivity). apply filter_In in I. rewrite B in I. exact I.
  - intros (e & I & J). apply B in J. assert (X : In e (filter (joinsb dir u v) es)) by (apply filter_In; auto).
    destruct (filter _ es); [destruct X|cbn; lia].
Qed.

Lemma rows_joining_sym es u v : rows_joining false es u v = rows_joining false es v u.
Proof. unfold rows_joining. f_equal. apply filter_ext. intros e. unfold joinsb. cbn [negb andb]. apply orb_comm. Qed.

(** The table is made a graph whose weights are the numbers of rows, and sparsified: the pairs which are left are those
    which are in at least [t] rows (at most with [reverse]), the nodes are all there. *)
Theorem C103_enough_rows repr sc tc ed w dir rows es lib pf t reverse : Forall2 (ends sc tc) rows es ->
  (forall r c, In r rows -> In c ed -> exists v, row_item r c = Ok v) ->
  (forall c, In c ed -> edge_name (KStr (key_text repr c))) -> edge_name w ->
  exists g h, edges_table_to_graph repr (TRows rows) sc tc ed true w dir = Ok g
  /\ global_threshold_sparsification lib pf g t w reverse false = Ok h
  /\ g_dir h = dir /\ g_multi h = false
  /\ (NoDup (nodes h) /\ forall n, In n (nodes h) <-> exists e, In e es /\ (n = fst e \/ n = snd e))
  /\ (forall u v, mentioned h (edges_data h) u v <->
        0 < rows_joining dir es u v /\ right_side reverse t (inject_Z (Z.of_nat (rows_joining dir es u v))))
  /\ (forall u v a, In (u, v, a) (edges_data h) -> dget w a = Some (VInt (Z.of_nat (rows_joining dir es u v)))).
Proof.
  intros F A N Nw. destruct (C55_built repr sc tc ed w dir rows es true F A N (fun _ => Nw)) as (g & Bg).
  destruct (C56_counts repr sc tc ed w dir rows g Bg) as (es' & F' & Dg & Mg & Ng & _ & Eg & Ag).
  rewrite <- (ends_unique sc tc rows es es' F F') in *. clear es' F'.
  assert (W : WF g). { destruct (edge_tables repr sc tc ed w dir rows true g Bg) as (T & _ & _ & ((Wg & _) & _)). exact Wg. }
  assert (EN : edge_names g).
  { intros u v a k I Ik. rewrite Mg. apply edges_data_attrs in I; [|assumption|assumption]. destruct (Ag u v a I) as (Hw & i & r & data & _ & _ & Kd & Hk).
    split; [|split; [|discriminate]];
      (destruct (key_eq_dec k w) as [->|Dk]; [apply Nw|]; apply dkeys_dget in Ik as (x & Ix); rewrite (Hk k Dk) in Ix; apply Kd in Ix as (l1 & c & l2 & -> & <- & _);
       apply N; apply in_or_app; right; left; reflexivity). }
  assert (SW : forall u v a, In (u, v, a) (edges_data g) -> stored_weight w a = Some (inject_Z (Z.of_nat (rows_joining dir es u v)))).
  { intros u v a I. apply edges_data_attrs in I; [|assumption|assumption]. destruct (Ag u v a I) as (Hw & _). unfold stored_weight. rewrite Hw. reflexivity. }
  destruct (C29_threshold lib pf g t w reverse W EN) as (h & keep & Eh & ((SD & SM) & SA & SN) & Dh & Kh).
  { intros u v a I. eauto. }
  exists g, h. split; [exact Bg|]. split; [exact Eh|]. split; [congruence|]. split; [congruence|].
  split; [unfold nodes in *; rewrite <- SN; exact Ng|].
  assert (IH : forall u v a, In (u, v, a) (edges_data h) <-> In (u, v, a) (edges_data g) /\ right_side reverse t (inject_Z (Z.of_nat (rows_joining dir es u v)))).
  { intros u v a. rewrite Dh, filter_In. split; intros [I R]; (split; [exact I|]); apply (Kh u v a _ (SW u v a I)); exact R. }
  split.
  - intros u v. unfold mentioned. rewrite <- SD, Dg. rewrite rows_joining_pos, <- Eg.
    assert (L : has_edge g u v = true <-> exists a, In (u, v, a) (edges_data g) \/ (dir = false /\ In (v, u, a) (edges_data g))).
    { split.
      - intros H. apply has_edge_edges in H; [|exact W]. rewrite Dg in H. destruct H as [H|[D H]]; apply edges_edges_data in H as (a & H); [|exact W| |exact W]; eauto.
      - intros (a & H). apply has_edge_edges; [exact W|]. rewrite Dg. destruct H as [H|[D H]]; apply edges_data_edges in H; auto. }
    rewrite L. split.
    + intros (a & [I|[D I]]); apply IH in I as [I R]; [eauto|]. split; [eauto|]. subst dir. rewrite D in *. rewrite rows_joining_sym. exact R.
    + intros ((a & [I|[D I]]) & R); exists a; [left|right]; rewrite ?IH; [auto|]. split; [exact D|]. split; [exact I|]. rewrite D in *. rewrite rows_joining_sym. exact R.
  - intros u v a I. apply IH in I as [I _]. apply edges_data_attrs in I; [|assumption|assumption]. apply (Ag u v a I).
Qed.
Print Assumptions C103_enough_rows.

Example C103_ex : let count dir := edges_table_to_graph no_repr (TRows some_edges) (K "source") (K "target") [K "n"] true (K "weight") dir in
  let left dir t reverse := let* g := count dir in let* h := global_threshold_sparsification lib64 Long64 g t (K "weight") reverse false in Ok (nodes h, edges_data h) in
  left false (2 # 1)%Q false = Ok ([K "a"; K "b"; K "c"], [(K "a", K "b", wn 4 1)])
  /\ left true (2 # 1)%Q false = Ok ([K "a"; K "b"; K "c"], [(K "a", K "b", wn 2 1); (K "b", K "a", wn 2 3)])
  /\ left true (2 # 1)%Q true = Ok ([K "a"; K "b"; K "c"], [(K "a", K "b", wn 2 1); (K "b", K "c", wn 1 2); (K "b", K "a", wn 2 3)])
  /\ rows_joining false [(K "a", K "b"); (K "b", K "c"); (K "b", K "a"); (K "a", K "b"); (K "b", K "a")] (K "a") (K "b") = 4.
Proof. vm_compute. auto. Qed.
