(** * Specifications for pelote/sparsification and pelote/metrics/edge_disparity.py *)
From Coq Require Import List ZArith QArith Qminmax Bool.
From Verif Require Import PyBase PyNum NxGraph S_Graph S_Num.
Import ListNotations.

(** the number stored under [attr], if any *)
Definition stored_weight (attr : key) (a : attrs) : option Q :=
  match dget attr a with Some v => num_of v | None => None end.

(** [w] is on the right side of the threshold [t] *)
Definition right_side (reverse : bool) (t w : Q) : Prop := if reverse then (w <= t)%Q else (t <= w)%Q.

(** the edge is mentioned in [l], in either orientation when undirected *)
Definition mentioned (g : graph) (l : list (key * key * attrs)) (u v : key) : Prop :=
  exists a, In (u, v, a) l \/ (g_dir g = false /\ In (v, u, a) l).

(** [g'] is [g] except that the attribute [attr] of each edge is what [want] says, if anything *)
Definition flagged (attr : key) (want : key -> key -> attrs -> option bool) (g g' : graph) : Prop :=
  same_but_edges g g'
  /\ map fst (edges_keys g') = map fst (edges_keys g)
  /\ forall u v k a, In (u, v, k, a) (edges_keys g) ->
       exists a', edge_attrs g' u v k = Some a' /\
         forall name, dget name a' =
           match (if key_eqb name attr then want u v a else None) with
           | Some b => Some (VBool b)
           | None => dget name a
           end.

(** the same, for the edges of [done] only *)
Definition flagged_among (attr : key) (want : key -> key -> attrs -> option bool) (g g' : graph) (done : list (key * key * key * attrs)) : Prop :=
  same_but_edges g g'
  /\ map fst (edges_keys g') = map fst (edges_keys g)
  /\ (forall u v k a, In (u, v, k, a) done ->
       exists a', edge_attrs g' u v k = Some a' /\
         forall name, dget name a' =
           match (if key_eqb name attr then want u v a else None) with
           | Some b => Some (VBool b)
           | None => dget name a
           end)
  /\ (forall e, In e (edges_keys g) -> ~ In e done -> In e (edges_keys g')).

(** ** disparity *)

(** every edge of the simple graph has a positive number as weight *)
Definition positive_weights (attr : key) (g : graph) : Prop :=
  forall u v a, In (u, v, a) (edges_data g) -> exists w, stored_weight attr a = Some w /\ (0 < w)%Q.

(** weight of the edge between [u] and [v], 0 when there is none *)
Definition link_weight (attr : key) (g : graph) (u v : key) : Q :=
  match edge_attrs g u v (KInt 0) with
  | Some a => match stored_weight attr a with Some w => w | None => 0%Q end
  | None => 0%Q
  end.

Definition sum_q (l : list Q) : Q := fold_right Qplus 0%Q l.

(** sum of the weights of the edge ends at [u]: a loop counts for two *)
Definition strength (attr : key) (g : graph) (u : key) : Q :=
  (sum_q (map (link_weight attr g u) (nodes g)) + link_weight attr g u u)%Q.

(** (1 - w/s(u))^(deg(u)-1) *)
Definition end_score (attr : key) (g : graph) (u v : key) : Q :=
  ((1 - link_weight attr g u v / strength attr g u) ^ (Z.of_nat (edge_ends g u) - 1))%Q.

Definition disparity_formula (attr : key) (g : graph) (u v : key) : Q :=
  Qmin (end_score attr g u v) (end_score attr g v u).

(** the pair is written with the smaller end first *)
Definition smaller_first (u v : key) : Prop := u = v \/ key_lt u v = Ok true.

(** [h] is [g] with every weight multiplied by [c], other attributes of edges being free *)
Definition rescaled (attr : key) (c : Q) (g h : graph) : Prop :=
  same_kind g h /\ nodes g = nodes h
  /\ Forall2 (fun e e' => fst e = fst e' /\
       exists w w', stored_weight attr (snd e) = Some w /\ stored_weight attr (snd e') = Some w' /\ (w' == c * w)%Q)
       (edges_data g) (edges_data h).

(** the floats among the weights are floats of the given arithmetic *)
Definition float_weights (lib : libm) (attr : key) (g : graph) : Prop :=
  forall u v a w, In (u, v, a) (edges_data g) -> dget attr a = Some w -> float_ok lib w.

(** every weight is a float *)
Definition only_floats (lib : libm) (attr : key) (g : graph) : Prop :=
  forall u v a, In (u, v, a) (edges_data g) -> exists q, dget attr a = Some (VFloat q) /\ representable (m_round lib) q.

(** every weight is an int *)
Definition int_weights (attr : key) (g : graph) : Prop :=
  forall u v a, In (u, v, a) (edges_data g) -> exists z, dget attr a = Some (VInt z).
