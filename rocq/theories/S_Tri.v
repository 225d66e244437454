(** * Specifications for pelote/metrics/chiba_nishizeki.py *)
From Coq Require Import Permutation.
From Verif Require Import PyBase NxGraph S_Partition M_Tri.

(** adjacent, ignoring directions *)
Definition linked (g : graph) (u v : key) : Prop := has_edge g u v = true \/ has_edge g v u = true.

(** three distinct pairwise adjacent nodes *)
Definition is_triangle (g : graph) (x y z : key) : Prop :=
  (x <> y /\ x <> z /\ y <> z) /\ linked g x y /\ linked g x z /\ linked g y z.

Definition corners (t : key * key * key) : list key := [fst (fst t); snd (fst t); snd t].

(** [l] holds exactly one 3-tuple per set of three distinct pairwise adjacent nodes, and nothing else *)
Definition lists_triangles (g : graph) (l : list (key * key * key)) : Prop :=
  (forall x y z, In (x, y, z) l -> is_triangle g x y z)
  /\ (forall x y z, is_triangle g x y z -> exists t, In t l /\ Permutation [x; y; z] (corners t))
  /\ (forall i j t t', nth_error l i = Some t -> nth_error l j = Some t' ->
        Permutation (corners t) (corners t') -> i = j).

(** the nodes making a triangle with [u] and [v] (none when u = v) *)
Definition common (g : graph) (u v w : key) : Prop :=
  (u <> v /\ u <> w /\ v <> w) /\ linked g u w /\ linked g v w.

(** What a view of [g] without directions owes to [g], whatever the order it lists things in: its nodes are those of [g],
    the neighbours of a node are listed once, there are no more of them than the degree tells, and each linked
    pair is among its edges in one direction or the other. *)
Definition shows (g : graph) (v : view) : Prop :=
  v_nodes v = nodes g
  /\ (forall n, NoDup (v_neighbors v n))
  /\ (forall n m, In m (v_neighbors v n) <-> linked g n m)
  /\ (forall n, List.length (v_neighbors v n) <= v_degree v n)
  /\ (forall x y, In (x, y) (v_edges v) -> linked g x y)
  /\ (forall x y, linked g x y -> In (x, y) (v_edges v) \/ In (y, x) (v_edges v)).

(** the order in which a set is iterated: each element once *)
Definition reorders (set_order : list key -> list key) : Prop := forall l, Permutation l (set_order l).
