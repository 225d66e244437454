(** * Model of pelote/metrics/edge_disparity.py *)
From Coq Require Import QArith Qminmax.
From Verif Require Import PyBase PyNum NxGraph.

(** A dict indexed by pairs of nodes (Python data, no pelote code). *)
Definition pair_eqb (p q : key * key) : bool := key_eqb (fst p) (fst q) && key_eqb (snd p) (snd q).
Definition pdict (A : Type) : Type := list ((key * key) * A).
Fixpoint pget {A} (p : key * key) (d : pdict A) : option A :=
  match d with
  | [] => None
  | (p', v) :: d' => if pair_eqb p p' then Some v else pget p d'
  end.
Fixpoint pset {A} (p : key * key) (v : A) (d : pdict A) : pdict A :=
  match d with
  | [] => [(p, v)]
  | (p', v') :: d' => if pair_eqb p p' then (p', v) :: d' else (p', v') :: pset p v d'
  end.
Definition pkeys {A} (d : pdict A) : list (key * key) := map fst d.

(** [dd.get(weight, 1)] as a number, networkx's weighted degree *)
Definition weight_or_one (edge_weight_attr : key) (kd : dict attrs) : res pynum :=
  match dget (KInt 0) kd with
  | Some a => match dget edge_weight_attr a with Some v => as_number v | None => Ok (NInt 1) end
  | None => Ok (NInt 1) (* no simple graph has such an edge *)
  end.

(** [graph.degree(weight=edge_weight_attr)[n]] for a simple undirected graph: [sum] of the weights from left
    to right starting with the int 0, a loop being added once more; a missing weight is 1.
    Simplifications: a weight which is not a number raises TypeError even when Python could add the
    weights of the node; from Python 3.12 on [sum] adds floats with a compensation, here it does not. *)
Definition weighted_degree (lib : libm) (g : graph) (edge_weight_attr : key) (n : key) : res pynum :=
  let* s := foldM (fun acc mk => let* w := weight_or_one edge_weight_attr (snd mk) in Ok (n_add lib acc w)) (adj_items g n) (NInt 0) in
  match edge_data g n n with
  | Some kd => let* w := weight_or_one edge_weight_attr kd in Ok (n_add lib s w)
  | None => Ok s
  end.

(** [weight / x], lines 92-93: TypeError for a missing weight (None) or a non-number *)
Definition div_weight (lib : libm) (weight : option val) (x : pynum) : res Q :=
  match weight with
  | None => Err TypeError
  | Some v => let* w := as_number v in n_div lib w x
  end.

(** the items of [graph.edges(source, data=edge_weight_attr)], line 85 *)
Definition edges_weight (g : graph) (edge_weight_attr source : key) : list (key * option val) :=
  map (fun e => let '(_, target, _, a) := e in (target, dget edge_weight_attr a)) (edges_of g source).

(** lines 95-108: the score of one edge, on floats *)
Definition disparity_score (lib : libm) (reverse : bool) (source_degree target_degree : nat)
  (normalized_weight_source normalized_weight_target : Q) : Q :=
  let source_score := m_pow lib (m_round lib (1 - normalized_weight_source)%Q) (Z.of_nat source_degree - 1) in
  let target_score := m_pow lib (m_round lib (1 - normalized_weight_target)%Q) (Z.of_nat target_degree - 1) in
  if reverse then Qmax (m_round lib (1 - source_score)%Q) (m_round lib (1 - target_score)%Q)
  else Qmin source_score target_score.

(** lines 85-108: one neighbour of [source] *)
Definition disparity_edge (lib : libm) (g : graph) (reverse : bool) (weighted_degrees : dict pynum) (source : key)
  (disparities : pdict Q) (tw : key * option val) : res (pdict Q) :=
  let (target, weight) := tw in
  let* skip := key_gt source target in
  if skip then Ok disparities
  else
    match dget source weighted_degrees, dget target weighted_degrees with
    | Some ws, Some wt =>
        let* ns := div_weight lib weight ws in
        let* nt := div_weight lib weight wt in
        Ok (pset (source, target) (disparity_score lib reverse (degree g source) (degree g target) ns nt) disparities)
    | _, _ => Err KeyError
    end.

(** edge_disparity, lines 8-110 *)
Definition edge_disparity (lib : libm) (g : graph) (edge_weight_attr : key) (reverse : bool) : res (pdict Q) :=
  if g_dir g || g_multi g then Err TypeError
  else
    let* weighted_degrees := mapM (fun n => let* w := weighted_degree lib g edge_weight_attr n in Ok (n, w)) (nodes g) in
    foldM (fun disparities source =>
             foldM (disparity_edge lib g reverse weighted_degrees source) (edges_weight g edge_weight_attr source) disparities)
      (nodes g) [].
