(** * What a projection keeps of the graph (C100, C101) *)
From Coq Require Import List ZArith.
From Verif Require Import PyBase NxGraph.
Import ListNotations.

(** [z] is the sum of the weights of the edges, which are ints *)
Definition total_weight (l : list (key * key * attrs)) (z : Z) : Prop :=
  exists zs, Forall2 (fun e x => dget (K "weight") (snd e) = Some (VInt x)) l zs /\ z = fold_right Z.add 0%Z zs.

(** twice the number of pairs which can be chosen among the [d t] neighbours of each [t] of the list *)
Definition twice_pairs (T : list key) (d : key -> nat) : Z :=
  fold_right Z.add 0%Z (map (fun t => Z.of_nat (d t) * (Z.of_nat (d t) - 1))%Z T).
