(** * Model of pelote/sparsification/*.py

    A factory gives, for a graph, an edge predicate; a generator gives the edges it yields.
    Simplification: generators are consumed to the end before anything else happens to the graph (the
    interleaving with the assignments of flags is modelled). *)
From Coq Require Import QArith.
From Verif Require Import PyBase PyNum NxGraph M_UnionFind M_Graph M_Umst M_Disparity.
Close Scope Q_scope.

Definition factory : Type := graph -> res edge_predicate.
Definition generator : Type := graph -> res (list edge3).

Definition pmem (p : key * key) (l : list (key * key)) : bool := existsb (pair_eqb p) l.

(** decorate_predicate_factory_with_umst, utils.py lines 10-20.  A factory which is None raises
    TypeError when called. *)
Definition decorate (lib : libm) (pf : platform) (predicate_factory : option factory) : factory := fun g =>
  match predicate_factory with
  | None => Err TypeError
  | Some f =>
      let* predicate := f g in
      let* umst := union_of_maximum_spanning_trees lib pf g (K "weight") in
      Ok (fun u v a => let* b := predicate u v a in Ok (b || pmem (u, v) (map fst umst)))
  end.

(** utils.py lines 47-48, 53-54, 74-75, 80-81: the smaller end first when undirected *)
Definition normalize (g : graph) (u v : key) : res (key * key) :=
  if g_dir g then Ok (u, v)
  else let* b := key_gt u v in Ok (if b then (v, u) else (u, v)).

(** utils.py lines 43-58 *)
Definition from_redundant (redundant_edges_generator : generator) : factory := fun g =>
  let* l := redundant_edges_generator g in
  let* redundant_edges := mapM (fun e => normalize g (fst (fst e)) (snd (fst e))) l in
  Ok (fun u v _ => let* p := normalize g u v in Ok (negb (pmem p redundant_edges))).

(** utils.py lines 70-85 *)
Definition from_relevant (relevant_edges_generator : generator) : factory := fun g =>
  let* l := relevant_edges_generator g in
  let* relevant_edges := mapM (fun e => normalize g (fst (fst e)) (snd (fst e))) l in
  Ok (fun u v _ => let* p := normalize g u v in Ok (pmem p relevant_edges)).

(** An instance of Sparsifier: a generator left out ([None]) is the function of lines 60-65 (resp. lines
    87-92), which reads the variable edge_predicate_factory when called, hence
    its final value. *)
Record sparsifier : Type := mkSP {
  sp_factory : option factory;
  sp_relevant : option generator;
  sp_redundant : option generator
}.

(** Sparsifier.__init__, utils.py lines 24-101 *)
Definition make_sparsifier (lib : libm) (pf : platform) (edge_predicate_factory : option factory)
  (relevant_edges_generator redundant_edges_generator : option generator) (keep_connected : bool) : res sparsifier :=
  match edge_predicate_factory, relevant_edges_generator, redundant_edges_generator with
  | None, None, None => Err TypeError
  | _, _, _ =>
      let f1 := match relevant_edges_generator, edge_predicate_factory, redundant_edges_generator with
                | None, None, Some red => Some (from_redundant red)
                | _, f, _ => f
                end in
      let f2 := match redundant_edges_generator, f1, relevant_edges_generator with
                | None, None, Some rel => Some (from_relevant rel)
                | _, f, _ => f
                end in
      let f3 := if keep_connected then Some (decorate lib pf f2) else f2 in
      Ok (mkSP f3 relevant_edges_generator redundant_edges_generator)
  end.

(** [self.edge_predicate_factory(graph)], lines 99, 136 and 146 *)
Definition sp_predicate (sp : sparsifier) (g : graph) : res edge_predicate :=
  match sp_factory sp with None => Err TypeError | Some f => f g end.

(** relevant_edges, lines 121-124 and 60-65 *)
Definition relevant_edges (sp : sparsifier) (g : graph) : res (list edge3) :=
  match sp_relevant sp with
  | Some gen => gen g
  | None =>
      let* p := sp_predicate sp g in
      filterM (fun e => let '(u, v, a) := e in p u v a) (edges_data g)
  end.

(** redundant_edges, lines 126-129 and 87-92 *)
Definition redundant_edges (sp : sparsifier) (g : graph) : res (list edge3) :=
  match sp_redundant sp with
  | Some gen => gen g
  | None =>
      let* p := sp_predicate sp g in
      filterM (fun e => let '(u, v, a) := e in notM (p u v a)) (edges_data g)
  end.

(** filter and __call__, lines 103-111 and 118-119 *)
Definition sparsifier_filter (sp : sparsifier) (g : graph) : res graph :=
  let* l := relevant_edges sp g in
  foldM (fun filtered e => let '(u, v, a) := e in add_edge_kw filtered u v a) l (create_empty_copy g).

(** remove, lines 113-116.  [remove_edges_from] is given 3-tuples: a multigraph takes the third
    component, a dict, as the edge key and looks it up, which raises TypeError as dicts are not
    hashable, unless the nodes are not linked. *)
Definition sparsifier_remove (sp : sparsifier) : sm graph unit :=
  let! l := sread (redundant_edges sp) in
  fun g =>
    if g_multi g then
      if existsb (fun e => has_edge g (fst (fst e)) (snd (fst e))) l then (g, Err TypeError) else (g, Ok tt)
    else (remove_edges_from g (map fst l), Ok tt).

(** The loops of lines 131-149 when the edges come from the predicate: [flag b] is what the
    attribute is set to, if it is, for an edge with answer [b].  The dict [a] of each edge is read
    before it is modified and each edge is listed once, so the list can be computed first. *)
Fixpoint flag_loop (p : edge_predicate) (attr : key) (flag : bool -> option bool) (l : list (key * key * key * attrs)) : sm graph unit :=
  match l with
  | [] => sret tt
  | (u, v, k, a) :: l' =>
      let! b := sread (fun _ => p u v a) in
      let! _ := match flag b with
                | Some x => smodify (fun g => map_edge g u v k (dset attr (VBool x)))
                | None => sret tt
                end in
      flag_loop p attr flag l'
  end.

(** The loops of lines 132-134 and 142-144 over the edges of a given generator.  Simplification:
    the graph is simple and the dicts yielded are the graph's own. *)
Definition flag_given (attr : key) (l : list edge3) : sm graph unit :=
  smodify (fun g => fold_left (fun g e => map_edge g (fst (fst e)) (snd (fst e)) (KInt 0) (dset attr (VBool true))) l g).

(** lines 60-65, 87-92 or 135-139, 145-149: the predicate is built, then each edge is visited *)
Definition flag_with (sp : sparsifier) (attr : key) (flag : bool -> option bool) : sm graph unit :=
  fun g =>
    (let! p := sread (sp_predicate sp) in
     flag_loop p attr flag (edges_keys g)) g.

(** flag_relevant_edges, lines 131-139 *)
Definition flag_relevant_edges (sp : sparsifier) (attr : key) (full : bool) : sm graph unit :=
  if full then flag_with sp attr (fun b => Some b)
  else
    match sp_relevant sp with
    | None => flag_with sp attr (fun b => if b then Some true else None)
    | Some gen => let! l := sread gen in flag_given attr l
    end.

(** flag_redundant_edges, lines 141-149 *)
Definition flag_redundant_edges (sp : sparsifier) (attr : key) (full : bool) : sm graph unit :=
  if full then flag_with sp attr (fun b => Some (negb b))
  else
    match sp_redundant sp with
    | None => flag_with sp attr (fun b => if b then None else Some true)
    | Some gen => let! l := sread gen in flag_given attr l
    end.

(** ** global_threshold.py *)

(** GlobalThresholdSparsifier, lines 8-24 *)
Definition threshold_predicate (weight_threshold : Q) (edge_weight_attr : key) (reverse : bool) : edge_predicate :=
  fun _ _ a =>
    match dget edge_weight_attr a with
    | None => Err KeyError
    | Some x => let* w := num x in Ok (if reverse then q_leb w weight_threshold else q_leb weight_threshold w)
    end.
Definition global_threshold_sparsifier (lib : libm) (pf : platform) (weight_threshold : Q) (edge_weight_attr : key) (reverse keep_connected : bool)
  : res sparsifier :=
  make_sparsifier lib pf (Some (fun _ => Ok (threshold_predicate weight_threshold edge_weight_attr reverse))) None None keep_connected.

(** global_threshold_sparsification, lines 27-56 *)
Definition global_threshold_sparsification (lib : libm) (pf : platform) (g : graph) (weight_threshold : Q) (edge_weight_attr : key)
  (reverse keep_connected : bool) : res graph :=
  let* sp := global_threshold_sparsifier lib pf weight_threshold edge_weight_attr reverse keep_connected in
  sparsifier_filter sp g.

(** ** multiscale_backbone.py *)

(** MultiscaleBackboneSparsifier, lines 9-29 *)
Definition backbone_factory (lib : libm) (alpha : Q) (edge_weight_attr : key) : factory := fun g =>
  let* disparity := edge_disparity lib g edge_weight_attr false in
  Ok (fun u v _ =>
        let* b := key_gt u v in
        match pget (if b then (v, u) else (u, v)) disparity with
        | Some d => Ok (q_leb d alpha)
        | None => Err KeyError
        end).
Definition multiscale_backbone_sparsifier (lib : libm) (pf : platform) (alpha : Q) (edge_weight_attr : key) (keep_connected : bool) : res sparsifier :=
  make_sparsifier lib pf (Some (backbone_factory lib alpha edge_weight_attr)) None None keep_connected.

(** multiscale_backbone, lines 32-68 *)
Definition multiscale_backbone (lib : libm) (pf : platform) (g : graph) (alpha : Q) (edge_weight_attr : key) (keep_connected : bool) : res graph :=
  let* sp := multiscale_backbone_sparsifier lib pf alpha edge_weight_attr keep_connected in
  sparsifier_filter sp g.
