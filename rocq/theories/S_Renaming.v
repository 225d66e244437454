(** * Specification of renamings: other names for the nodes *)
From Coq Require Import List.
From Verif Require Import PyBase NxGraph.
Import ListNotations.

(** different nodes get different names *)
Definition injective (f : key -> key) : Prop := forall a b, f a = f b -> a = b.

(** names are compared like the nodes they are given to *)
Definition keeps_order (f : key -> key) : Prop := injective f /\ forall a b, key_lt (f a) (f b) = key_lt a b.

(** the graph whose nodes are called differently, all the rest being the same *)
Definition renamed (f : key -> key) (g : graph) : graph :=
  mkG (g_dir g) (g_multi g) (g_attr g) (map (fun na => (f (fst na), snd na)) (g_nodes g))
    (map (fun b => mkB (f (b_src b)) (f (b_dst b)) (b_data b)) (g_adj g)).

(** the results in which nodes appear *)
Definition on_key {A} (f : key -> key) (x : key * A) : key * A := (f (fst x), snd x).
Definition on_edge (f : key -> key) (e : key * key * attrs) : key * key * attrs := (f (fst (fst e)), f (snd (fst e)), snd e).
Definition on_pair {A} (f : key -> key) (x : key * key * A) : key * key * A := (f (fst (fst x)), f (snd (fst x)), snd x).
Definition on_res {A B} (h : A -> B) (r : res A) : res B := match r with Ok a => Ok (h a) | Err e => Err e end.
