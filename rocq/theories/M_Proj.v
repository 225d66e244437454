(** * Model of pelote/projection.py and pelote/classes/online_metrics.py

    Numbers are Python's ints and floats, with the rounding of PyNum.v; [math.sqrt] and [math.log] are arguments of
    the model. *)
From Coq Require Import QArith.
From Verif Require Import PyBase PyNum NxGraph M_Traversal.
Close Scope Q_scope.

(** ** online_metrics.py *)

(** the classes of lines 76-134 *)
Inductive metric : Set := Intersection | Jaccard | Overlap | Dice | BinaryCosine | DotProduct | Cosine | PMI.

(** SUPPORTED_METRICS and instantiate_online_metric, lines 137-156 *)
Definition instantiate_online_metric (name : val) : res metric :=
  match name with
  | VNone => Ok Intersection
  | VKey (KStr s) =>
      if String.eqb s "jaccard" then Ok Jaccard
      else if String.eqb s "overlap" then Ok Overlap
      else if String.eqb s "cosine" then Ok Cosine
      else if String.eqb s "dice" then Ok Dice
      else if String.eqb s "binary_cosine" then Ok BinaryCosine
      else if String.eqb s "dot_product" then Ok DotProduct
      else if String.eqb s "pmi" then Ok PMI
      else Err TypeError
  | _ => Err TypeError
  end.

(** _accumulate, lines 77-78 and 121-122; accumulate_norm, lines 30-31 *)
Definition accumulate (lib : libm) (m : metric) (norm_acc : pynum) (weight : val) : res pynum :=
  match m with
  | Cosine => let* w := as_number weight in Ok (n_add lib norm_acc (n_mul lib w w))
  | _ => Ok (n_add lib norm_acc (NInt 1))
  end.

(** _should_keep_norm, lines 21-22 and 129-130 *)
Definition should_keep_norm (m : metric) (norm_acc : pynum) : bool :=
  match m with PMI => n_leb (NInt 0) norm_acc | _ => n_ltb (NInt 0) norm_acc end.

(** _finalize_norm, lines 24-25 and 105-106 *)
Definition finalize_norm (lib : libm) (m : metric) (norm : pynum) : pynum :=
  match m with BinaryCosine | Cosine => NFloat (m_sqrt lib (to_float lib norm)) | _ => norm end.

(** add_norm, lines 33-38 *)
Definition add_norm (lib : libm) (m : metric) (norms : dict pynum) (item : key) (norm_acc : pynum) : dict pynum :=
  if should_keep_norm m norm_acc then dset item (finalize_norm lib m norm_acc) norms else norms.

(** _compute_intersection_weight, lines 80-81, 113-114 and 124-125.  The product of two weights which
    are not numbers, or its addition to a number, raises TypeError. *)
Definition intersection_weight (lib : libm) (m : metric) (w1 w2 : val) : res pynum :=
  match m with
  | DotProduct | Cosine => let* x := as_number w1 in let* y := as_number w2 in Ok (n_mul lib x y)
  | _ => Ok (NInt 1)
  end.

(** intersect, lines 59-61: [Counter[target] += weight] *)
Definition intersect (lib : libm) (m : metric) (intersections : dict pynum) (target : key) (w1 w2 : val) : res (dict pynum) :=
  let* weight := intersection_weight lib m w1 w2 in
  Ok (dset target (n_add lib (match dget target intersections with Some q => q | None => NInt 0 end) weight) intersections).

(** _compute_metric, lines 85-86, 90-91, 95-96, 100-101, 108-109, 116-117 and 132-134; [math.log] raises
    ValueError unless its argument is positive *)
Definition compute_metric (lib : libm) (m : metric) (intersection norm1 norm2 : pynum) : res pynum :=
  match m with
  | Intersection | DotProduct => Ok intersection
  | Jaccard => let* x := n_div lib intersection (n_sub lib (n_add lib norm1 norm2) intersection) in Ok (NFloat x)
  | Overlap => let* x := n_div lib intersection (n_min norm1 norm2) in Ok (NFloat x)
  | Dice => let* x := n_div lib (n_mul lib intersection (NInt 2)) (n_add lib norm1 norm2) in Ok (NFloat x)
  | BinaryCosine | Cosine => let* x := n_div lib intersection (n_mul lib norm1 norm2) in Ok (NFloat x)
  | PMI =>
      let* x := n_div lib intersection (n_mul lib norm1 norm2) in
      if q_ltb 0 x then Ok (NFloat (m_log lib x)) else Err ValueError
  end.

(** neighbors, lines 66-73 *)
Definition metric_neighbors (lib : libm) (m : metric) (norms : dict pynum) (norm1 : pynum) (intersections : dict pynum) : res (list (key * pynum)) :=
  mapM (fun ni =>
          match dget (fst ni) norms with
          | None => Err KeyError
          | Some norm2 => let* similarity := compute_metric lib m (snd ni) norm1 norm2 in Ok (fst ni, similarity)
          end) intersections.

(** ** projection.py *)

(** The argument part_to_keep: a value of the part attribute, or a collection of nodes.  Collections which are
    hashable (tuples, frozensets) are taken for a value of the attribute, line 95. *)
Inductive part : Type :=
| ByValue (v : val)
| ByCollection (hashable : bool) (l : list key).

(** [a.get(name)] *)
Definition get_or_none (name : key) (a : attrs) : val := match dget name a with Some v => v | None => VNone end.

(** lines 105-112; an attribute value never equals a collection, as attribute values are not collections
    in this model *)
Definition in_part (p : part) (node_part_attr n1 : key) (a1 : attrs) : bool :=
  match p with
  | ByCollection false l => mem n1 l
  | ByCollection true _ => false
  | ByValue v => val_eqb (get_or_none node_part_attr a1) v
  end.

(** lines 119-121: the test on [token] reads the attributes [ta] of the edge *)
Definition same_part (p : part) (node_part_attr token : key) (ta : attrs) : bool :=
  match p with
  | ByCollection false l => mem token l
  | ByCollection true _ => false
  | ByValue v => val_eqb (get_or_none node_part_attr ta) v
  end.

(** The dictionary of attributes of one of several parallel edges, seen as a value: it is an object which is neither a
    number nor equal to the value of a part, say the object 0. *)
Definition attributes_object : val := VKey (KObj 0).

(** [bipartite_graph[n].items()]: neighbours with the attributes of the edge or, in a multigraph, with the dictionary
    from edge keys to attributes *)
Definition items (g : graph) (n : key) : list (key * attrs) :=
  map (fun mk => (fst mk,
                  if g_multi g then map (fun ka => (fst ka, attributes_object)) (snd mk)
                  else match dget (KInt 0) (snd mk) with Some a => a | None => [] end)) (adj_items g n).

(** [ta.get(edge_weight_attr, 1)], lines 127, 146 and 163 *)
Definition get_weight (edge_weight_attr : key) (ta : attrs) : val :=
  match dget edge_weight_attr ta with Some w => w | None => VInt 1 end.

(** lines 115-128: the accumulated norm of [n1] *)
Definition accumulated (lib : libm) (m : metric) (g : graph) (p : part) (node_part_attr edge_weight_attr : key) (bipartition_check : bool)
  (n1 : key) : res pynum :=
  foldM (fun acc tta =>
           if bipartition_check && same_part p node_part_attr (fst tta) (snd tta) then Err TypeError
           else accumulate lib m acc (get_weight edge_weight_attr (snd tta))) (items g n1) (NInt 0).

(** lines 102-131: norms, projected graph so far and [not part_is_empty] *)
Definition norms_step (lib : libm) (m : metric) (g : graph) (p : part) (node_part_attr edge_weight_attr : key)
  (bipartition_check : bool) (s : dict pynum * graph * bool) (na : key * attrs) : res (dict pynum * graph * bool) :=
  let '(norms, monopartite_graph, _) := s in
  if in_part p node_part_attr (fst na) (snd na) then
    let* acc := accumulated lib m g p node_part_attr edge_weight_attr bipartition_check (fst na) in
    let* h := add_node_kw monopartite_graph (fst na) (dremove [node_part_attr] (snd na)) in
    Ok (add_norm lib m norms (fst na) acc, h, true)
  else Ok s.

(** lines 145-164: the intersections of [n1] *)
Definition intersections_of (lib : libm) (m : metric) (g : graph) (edge_weight_attr n1 : key) : res (dict pynum) :=
  foldM (fun inter tta =>
           foldM (fun inter n2a =>
                    let n2 := fst n2a in
                    if key_eqb n2 n1 then Ok inter
                    else
                      let* skip := key_gt n1 n2 in
                      if skip then Ok inter
                      else intersect lib m inter n2 (get_weight edge_weight_attr (snd tta)) (get_weight edge_weight_attr (snd n2a)))
             (items g (fst tta)) inter)
    (items g n1) [].

(** lines 141-171, for one node *)
Definition project_node (lib : libm) (m : metric) (g : graph) (edge_weight_attr : key) (weight_threshold : option Q)
  (norms : dict pynum) (h : graph) (n1 : key) : res graph :=
  match dget n1 norms with
  | None => Err KeyError
  | Some norm1 =>
      let* inter := intersections_of lib m g edge_weight_attr n1 in
      let* l := metric_neighbors lib m norms norm1 inter in
      Ok (fold_left (fun h ns =>
                       if match weight_threshold with Some t => q_ltb (value (snd ns)) t | None => false end then h
                       else add_edge h n1 (fst ns) [(K "weight", val_of (snd ns))]) l h)
  end.

(** lines 84-87 *)
Definition check_threshold (weight_threshold : val) : res (option Q) :=
  match weight_threshold with
  | VNone => Ok None
  | v => match num_of v with
         | Some t => if q_leb t 0 then Err TypeError else Ok (Some t)
         | None => Err TypeError
         end
  end.

(** monopartite_projection, lines 19-173 *)
Definition monopartite_projection (lib : libm) (g : graph) (part_to_keep : part) (node_part_attr edge_weight_attr : key)
  (metric_name : val) (bipartition_check : bool) (weight_threshold : val) : res graph :=
  let* m := instantiate_online_metric metric_name in
  let* threshold := check_threshold weight_threshold in
  if Nat.eqb (order g) 0 then Ok (empty_graph false false)
  else
    let* s := foldM (norms_step lib m g part_to_keep node_part_attr edge_weight_attr bipartition_check) (g_nodes g)
                ([], empty_graph false false, false) in
    let '(norms, h, part_exists) := s in
    if part_exists then foldM (project_node lib m g edge_weight_attr threshold norms) (dkeys norms) h
    else Err TypeError.

(** bfs_from_node, lines 176-190: what it yields.  [graph.successors] raises NetworkXError for a missing node. *)
Definition bfs_neighbors (g : graph) (reverse : bool) (n : key) : list key :=
  if reverse then predecessors g n else neighbors g n.
Fixpoint bfs_loop (fuel : nat) (g : graph) (reverse : bool) (limit : Z) (queue : trav (key * Z)) : res (list (key * Z)) :=
  match fuel with
  | O => Err OutOfFuel
  | S fuel' =>
      if Nat.eqb (t_len queue) 0 then Ok []
      else
        match t_popleft queue with
        | (_, Err e) => Err e
        | (_, Ok (inl _)) => Err TypeError (* unpacking a node; items are always given *)
        | (queue', Ok (inr (node, depth))) =>
            let yielded := if (0 <? depth)%Z then [(node, depth)] else [] in
            if (limit <=? depth)%Z then
              let* rest := bfs_loop fuel' g reverse limit queue' in Ok (yielded ++ rest)
            else if has_node g node then
              let queue'' := fold_left (fun q neighbor => fst (t_append neighbor (Some (neighbor, (depth + 1)%Z)) q))
                               (bfs_neighbors g reverse node) queue' in
              let* rest := bfs_loop fuel' g reverse limit queue'' in Ok (yielded ++ rest)
            else Err NetworkXError
        end
  end.
Definition bfs_from_node (g : graph) (source : key) (reverse : bool) (limit : Z) : res (list (key * Z)) :=
  let queue := fst (t_append source (Some (source, 0%Z)) (t_make (nodes g))) in
  bfs_loop (S (S (order g))) g reverse limit queue.

(** ** self_similarity_projection, lines 193-261 *)

(** the keys of inverted_index, lines 221 and 231 *)
Definition ikey : Type := bool * Z * key.
Definition ikey_eqb (a b : ikey) : bool :=
  Bool.eqb (fst (fst a)) (fst (fst b)) && Z.eqb (snd (fst a)) (snd (fst b)) && key_eqb (snd a) (snd b).
Fixpoint iget (k : ikey) (d : list (ikey * list key)) : list key :=
  match d with
  | [] => []
  | (k', l) :: d' => if ikey_eqb k k' then l else iget k d'
  end.
(** [inverted_index[k].append(node)] *)
Fixpoint iappend (k : ikey) (node : key) (d : list (ikey * list key)) : list (ikey * list key) :=
  match d with
  | [] => [(k, [node])]
  | (k', l) :: d' => if ikey_eqb k k' then (k', l ++ [node]) :: d' else (k', l) :: iappend k node d'
  end.

(** [candidates[candidate] += 1] *)
Definition dincr (k : key) (d : dict nat) : dict nat :=
  dset k ((match dget k d with Some n => n | None => 0 end) + 1) d.

(** the variables of the loops: norm, candidates, inverted_index, and depth, which the loops of lines 219 and
    229 assign *)
Definition scan : Type := nat * dict nat * list (ikey * list key) * Z.

(** lines 219-227 and 229-237 *)
Definition scan_neighbors (node : key) (out : bool) (l : list (key * Z)) (s : scan) : scan :=
  fold_left (fun s nd =>
               let '(norm, candidates, index, _) := s in
               let k := (out, snd nd, fst nd) in
               (norm + 1, fold_left (fun c x => dincr x c) (iget k index) candidates, iappend k node index, snd nd)) l s.

(** lines 241-259, for one candidate *)
Definition link_candidate (lib : libm) (g : graph) (norms : dict nat) (node : key) (norm : nat) (h : graph) (ci : key * nat) : res graph :=
  let (candidate, intersection) := ci in
  match dget candidate norms with
  | None => Err KeyError
  | Some candidate_norm =>
      let n := (Z.of_nat candidate_norm - (if has_edge g node candidate then 2 else 0)
                - (if has_edge g candidate node then 2 else 0))%Z in
      let* similarity := n_div lib (NInt (Z.of_nat intersection)) (NInt (Z.of_nat norm + n - Z.of_nat intersection)) in
      Ok (add_edge h node candidate [(K "weight", VFloat similarity)])
  end.

(** lines 211-259, for one node; the state is norms, inverted_index, projected_graph and depth *)
Definition similarity_step (lib : libm) (g : graph) (s : dict nat * list (ikey * list key) * graph * Z) (na : key * attrs)
  : res (dict nat * list (ikey * list key) * graph * Z) :=
  let '(norms, index, h, depth) := s in
  let (node, attr) := na in
  let* h := add_node_kw h node attr in
  let* out := bfs_from_node g node false depth in
  let '(norm, candidates, index, depth) := scan_neighbors node true out (0, [], index, depth) in
  let* inn := bfs_from_node g node true depth in
  let '(norm, candidates, index, depth) := scan_neighbors node false inn (norm, candidates, index, depth) in
  let norms := dset node norm norms in
  let* h := foldM (link_candidate lib g norms node norm) candidates h in
  Ok (norms, index, h, depth).

Definition self_similarity_projection (lib : libm) (g : graph) (depth : Z) : res graph :=
  if negb (g_dir g) then Err NotImplementedError
  else if Nat.eqb (order g) 0 then Ok (empty_graph false false)
  else
    let* s := foldM (similarity_step lib g) (g_nodes g) ([], [], empty_graph false false, depth) in
    let '(_, _, h, _) := s in Ok h.
