(** * The model of networkx is faithful to its dictionaries

    C84: after any sequence of calls, the dictionaries of networkx and the model of [NxGraph] read
    the same.  C85: how the dictionaries hang together.  C86: the well-formed graphs, over which the
    other theorems quantify, are exactly those that can be built. *)
From Verif Require Import NxGraph NxDicts S_Nx L_Base L_Nx L_NxDicts L_NxDicts5 L_NxDicts6 P_Graph.

(** a graph with a loop, parallel edges, an edge removed and added again, a node
    removed *)
Definition history : list call :=
  [AddEdge (KInt 1) (KInt 2) (weight 1); AddEdge (KInt 2) (KInt 3) []; AddEdge (KInt 2) (KInt 1) (weight 2);
   AddEdge (KInt 3) (KInt 3) []; AddNode (KInt 4) (weight 3); AddEdgeKey (KInt 4) (KInt 1) (KStr "k") [];
   RemoveEdges [(KInt 3, KInt 2); (KInt 2, KInt 1); (KInt 8, KInt 1)]; AddEdge (KInt 3) (KInt 2) [];
   SetEdge (KInt 1) (KInt 4) (KStr "k") (KStr "flag") (VBool true);
   AddEdge (KInt 5) (KInt 1) []; RemoveNodes [KInt 5; KInt 6]; SetGraph [(KStr "name", VInt 1)]].

(** ** C84 *)
Theorem C84_networkx : forall dir multi cs,
  match foldM call_dicts cs (d_empty dir multi), foldM call_model cs (empty_graph dir multi) with
  | Ok d, Ok g => seen_alike d g
  | Err e, Err e' => e = e'
  | _, _ => False
  end.
Proof.
  intros dir multi cs. pose proof (Rep_calls cs _ _ [] (Rep_empty dir multi) (WF_empty dir multi)) as X.
  destruct (foldM call_dicts cs (d_empty dir multi)) as [d|e], (foldM call_model cs (empty_graph dir multi)) as [g|e']; try assumption.
  destruct X as (L & R & W). exact (Rep_alike d g L R W).
Qed.
Print Assumptions C84_networkx.

(** the history on the four classes: edges in the order of [G.edges], degrees, and the neighbours of 1 *)
Example C84_ex :
  map (fun c => match foldM call_dicts history (d_empty (fst c) (snd c)) with
                | Ok d => Ok (map fst (d_edges_keys d), map (d_degree d) (d_nodes d), d_neighbors d (KInt 1), d_size d)
                | Err e => Err e
                end) [(false, true); (true, true); (false, false); (true, false)]
  = [Ok ([(KInt 1, KInt 2, KInt 0); (KInt 1, KInt 4, KStr "k"); (KInt 2, KInt 3, KInt 0); (KInt 3, KInt 3, KInt 0)],
         [2; 2; 3; 1], [KInt 2; KInt 4], 4);
     Err KeyError;
     Ok ([(KInt 1, KInt 4, KInt 0); (KInt 2, KInt 3, KInt 0); (KInt 3, KInt 3, KInt 0)], [1; 1; 3; 1], [KInt 4], 3);
     Err KeyError].
Proof. vm_compute. reflexivity. Qed.

(** ** C85 *)
Theorem C85_dictionaries : forall dir multi cs d,
  foldM call_dicts cs (d_empty dir multi) = Ok d -> dicts_ok d.
Proof.
  intros dir multi cs d E. pose proof (Rep_calls cs _ _ [] (Rep_empty dir multi) (WF_empty dir multi)) as X.
  rewrite E in X. destruct (foldM call_model cs (empty_graph dir multi)) as [g|]; [|destruct X].
  destruct X as (L & R & W). exact (Rep_ok d g L R W).
Qed.
Print Assumptions C85_dictionaries.

(** the only error: writing an attribute of an edge that is not there *)
Theorem C85_errors : forall dir multi cs d c e,
  foldM call_dicts cs (d_empty dir multi) = Ok d ->
  (call_dicts d c = Err e <->
   e = KeyError /\ exists u v k name x, c = SetEdge u v k name x
     /\ match d_edge_data d u v with
        | None => True
        | Some kd => ~ In (if d_multi d then k else KInt 0) (dkeys kd)
        end).
Proof.
  intros dir multi cs d c e E. pose proof (Rep_calls cs _ _ [] (Rep_empty dir multi) (WF_empty dir multi)) as X.
  rewrite E in X. destruct (foldM call_model cs (empty_graph dir multi)) as [g|]; [|destruct X].
  destruct X as (L & R & W). pose proof (Rep_call d g L c R W) as Y.
  assert (Z : call_model g c = Err e <-> e = KeyError /\ exists u v k name x, c = SetEdge u v k name x
     /\ match d_edge_data d u v with None => True | Some kd => ~ In (if d_multi d then k else KInt 0) (dkeys kd) end).
  { destruct c as [n a|u v a|u v k a|l|l|u v k name x|a|]; cbn [call_model];
      try (split; [try destruct (g_multi g); discriminate|intros (_ & ? & ? & ? & ? & ? & F & _); discriminate]).
    rewrite (rep_multi _ _ _ R). unfold edge_attrs. rewrite <- (read_edge_data d g L R W u v).
    set (k' := if g_multi g then k else KInt 0).
    assert (Q : match d_edge_data d u v with Some kd => dget k' kd | None => None end = None <->
                match d_edge_data d u v with None => True | Some kd => ~ In k' (dkeys kd) end).
    { destruct (d_edge_data d u v) as [kd|]; [apply dget_None|tauto]. }
    split.
    - intros H. destruct (match d_edge_data d u v with Some kd => dget k' kd | None => None end); [discriminate|].
      injection H as <-. split; [reflexivity|]. exists u, v, k, name, x. split; [reflexivity|]. now apply Q.
    - intros (-> & u' & v' & k0 & n' & x' & [= <- <- <- <- <-] & H). apply Q in H. now rewrite H. }
  rewrite <- Z. destruct (call_dicts d c) as [d1|e1], (call_model g c) as [g1|e2]; try destruct Y; try contradiction;
    split; congruence.
Qed.
Print Assumptions C85_errors.

(** both sides of the edges of the multigraph reach the same dict *)
Example C85_ex :
  match foldM call_dicts history (d_empty false true) with
  | Ok d => Some (d_succ d, reference (d_succ d) (KInt 4) (KInt 1), option_map (deref d) (reference (d_succ d) (KInt 1) (KInt 4)))
  | Err _ => None
  end
  = Some ([(KInt 1, [(KInt 2, 0); (KInt 4, 3)]); (KInt 2, [(KInt 1, 0); (KInt 3, 4)]);
           (KInt 3, [(KInt 3, 2); (KInt 2, 4)]); (KInt 4, [(KInt 1, 3)])],
          Some 3, Some [(KStr "k", [(KStr "flag", VBool true)])]).
Proof. vm_compute. reflexivity. Qed.

(** ** C86 *)
Theorem C86_well_formed : forall g,
  wf g = true <-> exists cs, foldM call_model cs (empty_graph (g_dir g) (g_multi g)) = Ok g.
Proof.
  intros g. rewrite wf_WF. split.
  - intros W. exists (recipe g). now apply recipe_run.
  - intros (cs & E). pose proof (Rep_calls cs _ _ [] (Rep_empty (g_dir g) (g_multi g)) (WF_empty (g_dir g) (g_multi g))) as X.
    rewrite E in X. destruct (foldM call_dicts cs (d_empty (g_dir g) (g_multi g))); [|destruct X]. now destruct X as (L & _ & W).
Qed.
Print Assumptions C86_well_formed.

Example C86_ex :
  match foldM call_model history (empty_graph false true) with
  | Ok g => (wf g, match foldM call_model (recipe g) (empty_graph false true) with Ok h => map fst (edges_keys h) | Err _ => [] end, map fst (edges_keys g))
  | Err _ => (false, [], [])
  end
  = (true,
     [(KInt 1, KInt 2, KInt 0); (KInt 1, KInt 4, KStr "k"); (KInt 2, KInt 3, KInt 0); (KInt 3, KInt 3, KInt 0)],
     [(KInt 1, KInt 2, KInt 0); (KInt 1, KInt 4, KStr "k"); (KInt 2, KInt 3, KInt 0); (KInt 3, KInt 3, KInt 0)]).
Proof. vm_compute. reflexivity. Qed.
