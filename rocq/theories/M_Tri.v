(** * Model of pelote/metrics/chiba_nishizeki.py

    Simplifications: a generator is modelled by the list of what it yields when consumed to the end
    without touching the graph; a [dllist] is a list (appending at the end, iterating, removing one
    item are all that is used). *)
From Verif Require Import PyBase NxGraph M_Utils M_Disparity.

Definition triangle : Type := key * key * key.

(** ** The graph the functions work on

    What they read of a graph: [iter(graph)], [graph.neighbors(n)], [graph.degree(n)] and [graph.edges()]. *)
Record view : Type := mkView {
  v_nodes : list key;
  v_neighbors : key -> list key;
  v_degree : key -> nat;
  v_edges : list (key * key)
}.

(** [graph.edges()]: an edge of a multigraph is listed once per key *)
Definition edge_list (g : graph) : list (key * key) := map fst (edges_data g).

(** [graph.edges()] of a view: each node in order with its neighbours which are not visited yet, once per key *)
Fixpoint view_edges (g : graph) (nbrs : key -> list key) (seen todo : list key) : list (key * key) :=
  match todo with
  | [] => []
  | n :: todo' =>
      flat_map (fun m => repeat (n, m) (match edge_data g n m with Some kd => List.length kd | None => 0 end))
        (filter (fun m => negb (mem m seen)) (nbrs n))
      ++ view_edges g nbrs (n :: seen) todo'
  end.

(** lines 42-43 and 129-130: [graph.to_undirected(as_view=True)] when the graph is directed.  The neighbours are
    the union of the sets of successors and predecessors, iterated in the order of a Python set: [set_order].  The
    degree is the one of networkx 2.5.1, whose union views count a neighbour, or an edge key, once as
    a successor and once as a predecessor. *)
Definition undirected_view (set_order : list key -> list key) (g : graph) : view :=
  if g_dir g then
    let neighbors := fun n => set_order (neighbors (to_undirected g) n) in
    mkView (nodes g) neighbors
      (fun n => degree g n + match edge_data g n n with
                             | Some kd => if g_multi g then 2 * List.length kd else 1
                             | None => 0
                             end)
      (view_edges (to_undirected g) neighbors [] (nodes g))
  else mkView (nodes g) (neighbors g) (degree g) (edge_list g).

(** ** triangles, lines 21-111 *)

(** [sorted(valid_nodes, key=graph.degree, reverse=True)], line 59: a stable sort *)
Fixpoint insert_degree (degree : key -> nat) (n : key) (l : list key) : list key :=
  match l with
  | [] => [n]
  | m :: l' => if degree m <=? degree n then n :: l else m :: insert_degree degree n l'
  end.
(** lines 49 and 59 *)
Definition sorted_nodes (graph : view) : list key :=
  fold_right (insert_degree (v_degree graph)) [] (filter (fun n => 1 <? v_degree graph n) (v_nodes graph)).

(** lines 63-77: the neighbours kept for [node] *)
Definition adjacency (graph : view) (node : key) : list key :=
  filter (fun neighbor => negb (key_eqb neighbor node) && negb (v_degree graph neighbor <? 2)) (v_neighbors graph node).
Definition adjacencies (graph : view) : dict (list key) :=
  fold_left (fun d node => dset node (adjacency graph node) d) (sorted_nodes graph) [].

(** [neighbor_adjacency.remove(self_dllist_node)], line 109: the last item equal to [x] is removed,
    the one [self_dllist_node] refers to after the loop of lines 93-101; None when there is none *)
Fixpoint remove_last (x : key) (l : list key) : option (list key) :=
  match l with
  | [] => None
  | y :: l' =>
      match remove_last x l' with
      | Some l'' => Some (y :: l'')
      | None => if key_eqb y x then Some l' else None
      end
  end.

(** lines 89-109, for one neighbour taken from marked_nodes; [marked] are those left.  Removing
    None from a dllist raises TypeError. *)
Definition visit_marked (node neighbor : key) (marked : list key) : sm (dict (list key)) (list triangle) :=
  fun adj =>
    match dget neighbor adj with
    | None => (adj, Err KeyError)
    | Some neighbor_adjacency =>
        let found :=
          map (fun nn => (node, neighbor, nn))
            (filter (fun nn => negb (key_eqb nn node) && mem nn marked) neighbor_adjacency) in
        match remove_last node neighbor_adjacency with
        | None => (adj, Err TypeError)
        | Some l => (dset neighbor l adj, Ok found)
        end
    end.

(** lines 87-109: [popitem] takes the last item marked; [marked] lists the items of marked_nodes from
    the last to the first.  Nothing is marked inside the loop, so the recursion is structural. *)
Fixpoint empty_marked (node : key) (marked : list key) : sm (dict (list key)) (list triangle) :=
  match marked with
  | [] => sret []
  | neighbor :: marked' =>
      let! found := visit_marked node neighbor marked' in
      let! rest := empty_marked node marked' in
      sret (found ++ rest)
  end.

(** lines 84-85: marking the neighbours (marked_nodes is empty at this point) *)
Definition mark (l : list key) : list key :=
  rev (dkeys (fold_left (fun d neighbor => dset neighbor true d) l [])).

(** lines 81-109 *)
Fixpoint triangles_from (todo : list key) : sm (dict (list key)) (list triangle) :=
  match todo with
  | [] => sret []
  | node :: todo' =>
      let! l := sread (fun adj => match dget node adj with Some l => Ok l | None => Err KeyError end) in
      let! found := empty_marked node (mark l) in
      let! rest := triangles_from todo' in
      sret (found ++ rest)
  end.

(** triangles, lines 45-111.  [range(0, len(sorted_nodes) - 2)] leaves the last two nodes out. *)
Definition triangles_of (graph : view) : res (list triangle) :=
  let nodes := sorted_nodes graph in
  snd (triangles_from (firstn (List.length nodes - 2) nodes) (adjacencies graph)).

Definition triangles (set_order : list key -> list key) (g : graph) : res (list triangle) :=
  triangles_of (undirected_view set_order g).

(** ** naive_triangular_strength, lines 114-163 *)

(** lines 134-144 *)
Definition neighborhood (graph : view) (node : key) : list key :=
  filter (fun neighbor => negb (key_eqb node neighbor)) (v_neighbors graph node).
Definition neighborhoods (graph : view) : dict (list key) :=
  fold_left (fun d node => let l := neighborhood graph node in
                           if 1 <? List.length l then dset node l d else d) (v_nodes graph) [].

(** lines 148-161.  [n1 is n2] holds when u and v are the same node. *)
Definition naive_edge (nbs : dict (list key)) (full : bool) (strengths : pdict nat) (uv : key * key) : res (pdict nat) :=
  let* b := key_gt (fst uv) (snd uv) in
  let (u, v) := if b then (snd uv, fst uv) else uv in
  match dget u nbs, dget v nbs with
  | Some n1, Some n2 => Ok (pset (u, v) (fast_intersection_size (key_eqb u v) n1 n2) strengths)
  | _, _ => Ok (if full then pset (u, v) 0 strengths else strengths)
  end.

Definition naive_triangular_strength (set_order : list key -> list key) (g : graph) (full : bool) : res (pdict nat) :=
  let graph := undirected_view set_order g in
  foldM (naive_edge (neighborhoods graph) full) (v_edges graph) [].

(** ** triangular_strength, lines 166-204 *)

(** [strengths[p] += 1] on a Counter *)
Definition increment (p : key * key) (c : pdict nat) : pdict nat :=
  pset p ((match pget p c with Some n => n | None => 0 end) + 1) c.

(** lines 189-192, 194-197 and 199-202 *)
Definition count_pair (u v : key) (c : pdict nat) : res (pdict nat) :=
  let* b := key_lt u v in Ok (increment (if b then (u, v) else (v, u)) c).

(** lines 188-202 *)
Definition count_triangle (c : pdict nat) (t : triangle) : res (pdict nat) :=
  let '(u, v, w) := t in
  let* c := count_pair u v c in
  let* c := count_pair u w c in
  count_pair v w c.

(** lines 182-186 *)
Definition zero_edge (c : pdict nat) (uv : key * key) : res (pdict nat) :=
  let* b := key_gt (fst uv) (snd uv) in
  Ok (pset (if b then (snd uv, fst uv) else uv) 0 c).

Definition triangular_strength (set_order : list key -> list key) (g : graph) (full : bool) : res (pdict nat) :=
  let* strengths := if full then foldM zero_edge (edge_list g) [] else Ok [] in
  let* l := triangles set_order g in
  foldM count_triangle l strengths.
