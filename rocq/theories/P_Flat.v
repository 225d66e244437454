(** * C109: what a projection reads of the edges; multigraphs are projected as if they were simple graphs without weights *)
From Coq Require Import List ZArith QArith Lia Bool.
From Verif Require Import PyBase PyNum S_Num L_Num NxGraph L_Base L_Nx L_Nx2 M_Traversal P_Graph M_Proj S_Proj L_Proj L_Proj2 L_Proj3 L_Proj4 L_Proj5 L_Proj7 P_Proj.
Import ListNotations.
Close Scope Q_scope.

(** the attributes [a] of an edge of a simple graph are those which the dictionary of an edge has under the key 0 *)
Definition sole (d : dict attrs) : attrs := match dget (KInt 0) d with Some a => a | None => [] end.

(** [s] and [g] have the same nodes with the same attributes and the same links in the same order; of the attributes of
    their edges only those named in [l] are compared *)
Definition same_up_to (l : list key) (g s : graph) : Prop :=
  g_dir s = g_dir g /\ g_multi g = false /\ g_multi s = false /\ g_nodes s = g_nodes g
  /\ Forall2 (fun b c => b_src c = b_src b /\ b_dst c = b_dst b
                         /\ forall k, In k l -> dget k (sole (b_data c)) = dget k (sole (b_data b))) (g_adj g) (g_adj s).

(** [s] is the simple graph which has the nodes and the links of the multigraph [g], without attributes on the edges *)
Definition flattened (g s : graph) : Prop :=
  g_dir s = g_dir g /\ g_multi g = true /\ g_multi s = false /\ g_nodes s = g_nodes g
  /\ Forall2 (fun b c => b_src c = b_src b /\ b_dst c = b_dst b /\ sole (b_data c) = []) (g_adj g) (g_adj s).

(** two lists of neighbours, read alike *)
Definition alike (p : part) (attr wattr : key) (chk : bool) (x y : key * attrs) : Prop :=
  fst y = fst x /\ get_weight wattr (snd y) = get_weight wattr (snd x)
  /\ (chk = true -> same_part p attr (fst y) (snd y) = same_part p attr (fst x) (snd x)).

Lemma foldM_alike {A B S} (R : A -> B -> Prop) (f : S -> A -> res S) (f' : S -> B -> res S) l l' : Forall2 R l l' ->
  (forall s a b, R a b -> f s a = f' s b) -> forall s, foldM f l s = foldM f' l' s.
Proof.
  intros F H. induction F as [|a b l l' E F IH]; intros s; [reflexivity|]. cbn [foldM]. rewrite (H s a b E). destruct (f' s b); [apply IH|reflexivity].
Qed.

Lemma projection_alike lib g s p attr wattr name chk thr : g_nodes s = g_nodes g ->
  (forall n, Forall2 (alike p attr wattr chk) (items g n) (items s n)) ->
  monopartite_projection lib g p attr wattr name chk thr = monopartite_projection lib s p attr wattr name chk thr.
Proof.
  intros N A. unfold monopartite_projection. destruct (instantiate_online_metric name) as [m|]; [|reflexivity]. cbn [bind].
  destruct (check_threshold thr) as [t|]; [|reflexivity]. cbn [bind]. unfold order. rewrite N.
  destruct (Nat.eqb (List.length (g_nodes g)) 0); [reflexivity|].
  rewrite (foldM_ext (norms_step lib m s p attr wattr chk) (norms_step lib m g p attr wattr chk)).
  - destruct (foldM _ _ _) as [[[norms h] ex]|]; [|reflexivity]. cbn [bind]. destruct ex; [|reflexivity].
    apply foldM_ext. intros h' n _. unfold project_node. destruct (dget n norms); [|reflexivity].
    replace (intersections_of lib m s wattr n) with (intersections_of lib m g wattr n); [reflexivity|].
    unfold intersections_of. apply (foldM_alike _ _ _ _ _ (A n)). intros i a b (E1 & E2 & _). rewrite E1, E2.
    apply (foldM_alike _ _ _ _ _ (A (fst a))). intros i' a' b' (F1 & F2 & _). rewrite F1, F2. reflexivity.
  - intros [[norms h] ex] na _. unfold norms_step.
    replace (accumulated lib m s p attr wattr chk (fst na)) with (accumulated lib m g p attr wattr chk (fst na)); [reflexivity|].
    unfold accumulated. apply (foldM_alike _ _ _ _ _ (A (fst na))). intros i a b (E1 & E2 & E3). rewrite E2.
    destruct chk; cbn [andb]; [rewrite E3 by reflexivity|]; reflexivity.
Qed.

Lemma items_alike (R : key * attrs -> key * attrs -> Prop) g s n : g_dir s = g_dir g ->
  Forall2 (fun b c => b_src c = b_src b /\ b_dst c = b_dst b /\ forall m,
             R (m, if g_multi g then map (fun ka => (fst ka, attributes_object)) (b_data b) else sole (b_data b))
               (m, if g_multi s then map (fun ka => (fst ka, attributes_object)) (b_data c) else sole (b_data c))) (g_adj g) (g_adj s) ->
  Forall2 R (items g n) (items s n).
Proof.
  intros D F. unfold items, adj_items. rewrite D. induction F as [|b c l l' (E1 & E2 & E) F IH]; [constructor|].
  cbn [flat_map]. rewrite !map_app. apply Forall2_app; [|exact IH].
  replace (other_end (g_dir g) n c) with (other_end (g_dir g) n b) by (unfold other_end; rewrite E1, E2; reflexivity).
  destruct (other_end (g_dir g) n b); cbn [map]; constructor; [|constructor]. apply E.
Qed.

Lemma edge_data_bundle g b : WF g -> In b (g_adj g) -> edge_data g (b_src b) (b_dst b) = Some (b_data b).
Proof. intros W I. apply edge_data_Some; [assumption|]. exists b. repeat split; [assumption|apply same_ends_self]. Qed.

(** Of the attributes of edges, only the weight is read, together with the attribute which should be that of nodes when
    bipartition is checked by value: the others do not change the result, be it a graph or an error. *)
Theorem C109_attributes_read lib g s p attr wattr name (chk : bool) thr :
  same_up_to (wattr :: match p with ByValue _ => if chk then [attr] else [] | ByCollection _ _ => [] end) g s ->
  monopartite_projection lib g p attr wattr name chk thr = monopartite_projection lib s p attr wattr name chk thr.
Proof.
  intros (D & Mg & Ms & N & F). apply projection_alike; [exact N|]. intros n. apply items_alike; [exact D|]. rewrite Mg, Ms.
  induction F as [|b c l l' (E1 & E2 & E) F IH]; constructor; [|exact IH]. split; [exact E1|]. split; [exact E2|]. intros m.
  split; [reflexivity|]. split; cbn [fst snd].
  - unfold get_weight. rewrite E by (left; reflexivity). reflexivity.
  - intros ->. destruct p as [v|[|] l0]; cbn [same_part]; try reflexivity. unfold get_or_none. rewrite E by (right; left; reflexivity). reflexivity.
Qed.
Print Assumptions C109_attributes_read.

(** A multigraph is projected like the simple graph with the same links and no weights, when none of its edges has the
    name of the weight attribute (nor that of the part, when bipartition is checked by value) as a key: the result is
    the same for every metric, directed or not, be it a graph or an error. *)
Theorem C109_multigraph lib g s p attr wattr name chk thr : WF g -> flattened g s -> no_edge_key g wattr ->
  (chk = true -> (exists v, p = ByValue v) -> no_edge_key g attr) ->
  monopartite_projection lib g p attr wattr name chk thr = monopartite_projection lib s p attr wattr name chk thr.
Proof.
  intros W (D & Mg & Ms & N & F) NW NA. apply projection_alike; [exact N|]. intros n. apply items_alike; [exact D|]. rewrite Mg, Ms.
  assert (NK : forall k, no_edge_key g k -> forall b, In b (g_adj g) -> dget k (map (fun ka : key * attrs => (fst ka, attributes_object)) (b_data b)) = None).
  { intros k H b I. specialize (H (b_src b) (b_dst b)). unfold edge_attrs in H. rewrite (edge_data_bundle g b W I) in H.
    destruct (dget k (b_data b)) as [a|] eqn:E; [exfalso; exact (H a eq_refl)|]. clear - E.
    induction (b_data b) as [|[k' a'] l IH]; [reflexivity|]. cbn [map dget fst] in *. destruct (key_eqb k k'); [discriminate|auto]. }
  assert (G : forall l l', (forall b, In b l -> In b (g_adj g)) ->
     Forall2 (fun b c => b_src c = b_src b /\ b_dst c = b_dst b /\ sole (b_data c) = []) l l' ->
     Forall2 (fun b c => b_src c = b_src b /\ b_dst c = b_dst b /\ forall m, alike p attr wattr chk
        (m, map (fun ka : key * attrs => (fst ka, attributes_object)) (b_data b)) (m, sole (b_data c))) l l').
  { intros l l' I F'. induction F' as [|b c l l' (E1 & E2 & E) F' IH]; constructor; [|apply IH; intros; apply I; right; assumption].
    split; [exact E1|]. split; [exact E2|]. intros m. rewrite E. split; [reflexivity|]. split; cbn [fst snd].
    - unfold get_weight. rewrite (NK wattr NW b) by (apply I; left; reflexivity). reflexivity.
    - intros C. destruct p as [v|[|] l0]; cbn [same_part]; try reflexivity. unfold get_or_none.
      rewrite (NK attr (NA C (ex_intro _ v eq_refl)) b) by (apply I; left; reflexivity). reflexivity. }
  apply G; [auto|exact F].
Qed.
Print Assumptions C109_multigraph.

(** a directed multigraph with parallel arrows, and the simple graph with the same arrows; with a label on the arrows *)
Definition doubled : graph :=
  fold_left (fun h e => add_edge h (fst (fst e)) (snd (fst e)) (snd e))
    [(KInt 0, KInt 8, weight 3); (KInt 0, KInt 8, weight 4); (KInt 8, KInt 1, weight 3); (KInt 1, KInt 9, weight 2)]%Z (empty_graph true true).
Definition bare (l : attrs) : graph :=
  fold_left (fun h e => add_edge h (fst e) (snd e) l) [(KInt 0, KInt 8); (KInt 8, KInt 1); (KInt 1, KInt 9)]%Z (empty_graph true false).

Example C109_ex :
  let links g name := match monopartite_projection lib64 g (ByCollection false [KInt 0; KInt 1]) (K "part") (K "weight") name true VNone with
                      | Ok h => Ok (edges_data h) | Err e => Err e end in
  wf doubled = true /\ size doubled = 4 /\ flattened doubled (bare []) /\ no_edge_key doubled (K "weight")
  /\ same_up_to [K "weight"] (bare []) (bare [(K "label", VStr "x")])
  /\ links doubled VNone = Ok [(KInt 0, KInt 1, weight 1)] /\ links (bare [(K "label", VStr "x")]) VNone = Ok [(KInt 0, KInt 1, weight 1)].
Proof.
  cbv zeta. split; [vm_compute; reflexivity|]. split; [vm_compute; reflexivity|].
  split; [split; [reflexivity|]; split; [reflexivity|]; split; [reflexivity|]; split; [vm_compute; reflexivity|]; vm_compute; repeat constructor|].
  split.
  - intros u v a E. assert (W : WF doubled) by (apply graph_WF; vm_compute; reflexivity). unfold edge_attrs in E.
    destruct (edge_data doubled u v) as [kd|] eqn:Ed; [|discriminate]. apply edge_data_Some in Ed as (b & I & _ & <-); [|exact W].
    vm_compute in I. destruct I as [<-|[<-|[<-|[]]]]; vm_compute in E; discriminate.
  - split; [|split; vm_compute; reflexivity].
    split; [reflexivity|]; split; [reflexivity|]; split; [reflexivity|]; split; [vm_compute; reflexivity|].
    repeat constructor; intros k [<-|[]]; vm_compute; reflexivity.
Qed.
