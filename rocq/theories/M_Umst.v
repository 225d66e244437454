(** * Model of union_of_maximum_spanning_trees, pelote/graph.py lines 484-553 *)
From Coq Require Import QArith.
From Verif Require Import PyBase PyNum NxGraph M_UnionFind.
Close Scope Q_scope.

Definition edge3 : Type := key * key * attrs.

(** WEIGHT_EPSILON, line 484: the float nearest to 1e-8 *)
Definition weight_epsilon (lib : libm) : Q := m_round lib (1 # 100000000).

(** [a.get(edge_weight_attr, 1)], lines 521 and 532.  Simplification: a weight which is not a number is
    reported as TypeError, while a graph with a single edge, or only strings of one bucket,
    would be accepted. *)
Definition weight_of (edge_weight_attr : key) (a : attrs) : res pynum :=
  match dget edge_weight_attr a with Some v => as_number v | None => Ok (NInt 1) end.

(** [sorted(edges, key=..., reverse=True)], lines 519-523: stable, by decreasing weight *)
Fixpoint insert_weight (x : pynum * edge3) (l : list (pynum * edge3)) : list (pynum * edge3) :=
  match l with
  | [] => [x]
  | y :: l' => if n_leb (fst y) (fst x) then x :: l else y :: insert_weight x l'
  end.
Definition sort_weights (l : list (pynum * edge3)) : list (pynum * edge3) := fold_right insert_weight [] l.

(** The local variables, lines 525-527, and the edges yielded so far. *)
Record umst_state : Type := mkUM {
  um_ds : dset_state;
  um_weight : option pynum;        (* current_bucket_weight *)
  um_relevant : list edge3;    (* relevant_bucket_edges; None and [] are only tested for truth *)
  um_out : list edge3
}.

Definition on_ds {A} (m : sm dset_state A) : sm umst_state A := fun s =>
  let (ds, r) := m (um_ds s) in (mkUM ds (um_weight s) (um_relevant s) (um_out s), r).

(** lines 539-542 *)
Fixpoint um_flush (l : list edge3) : sm umst_state unit :=
  match l with
  | [] => sret tt
  | e :: l' =>
      let! _ := smodify (fun s => mkUM (um_ds s) (um_weight s) (um_relevant s) (um_out s ++ [e])) in
      let! _ := on_ds (ds_union (fst (fst e)) (snd (fst e))) in
      um_flush l'
  end.

(** lines 534-546: do we change bucket? *)
Definition um_bucket (lib : libm) (w : pynum) : sm umst_state unit := fun s =>
  let change := match um_weight s with
                | None => true
                | Some c => n_ltb (NFloat (weight_epsilon lib)) (n_sub lib c w)
                end in
  if change then
    (let! _ := um_flush (um_relevant s) in
     smodify (fun s => mkUM (um_ds s) (Some w) [] (um_out s))) s
  else (s, Ok tt).

(** lines 529-549: one edge *)
Definition um_edge (lib : libm) (x : pynum * edge3) : sm umst_state unit :=
  let (w, e) := x in
  let! _ := um_bucket lib w in
  let! same := on_ds (ds_same (fst (fst e)) (snd (fst e))) in
  if (same : bool) then sret tt
  else smodify (fun s => mkUM (um_ds s) (um_weight s) (um_relevant s ++ [e]) (um_out s)).

Fixpoint um_loop (lib : libm) (l : list (pynum * edge3)) : sm umst_state unit :=
  match l with
  | [] => sret tt
  | x :: l' => let! _ := um_edge lib x in um_loop lib l'
  end.

(** lines 514-553: the edges yielded and how the iteration ended.  Simplification: the graph is not
    mutated while the generator is consumed. *)
Definition umst_run (lib : libm) (pf : platform) (g : graph) (edge_weight_attr : key) : list edge3 * res unit :=
  if Nat.eqb (size g) 0 then ([], Ok tt)
  else
    match mapM (fun e => let* w := weight_of edge_weight_attr (snd e) in Ok (w, e)) (edges_data g) with
    | Err e => ([], Err e)
    | Ok l =>
        match make_ds pf (order g) with
        | Err e => ([], Err e)
        | Ok ds =>
            match um_loop lib (sort_weights l) (mkUM ds None [] []) with
            | (s, Ok _) => (um_out s ++ um_relevant s, Ok tt)
            | (s, Err e) => (um_out s, Err e)
            end
        end
    end.

(** [list(union_of_maximum_spanning_trees(graph, edge_weight_attr))] *)
Definition union_of_maximum_spanning_trees (lib : libm) (pf : platform) (g : graph) (edge_weight_attr : key) : res (list edge3) :=
  match umst_run lib pf g edge_weight_attr with (out, Ok _) => Ok out | (_, Err e) => Err e end.
