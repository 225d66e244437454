(** * Specification vocabulary for UnionFind, DisjointSet and IncrementalIdRegister

    Functions of a history of calls and their outcomes only; nothing here
    looks at the state of the model. *)
From Verif Require Import PyBase L_Base M_UnionFind S_Partition.

(** The pairs united since the last clear(): those given to the union calls that
    returned. *)
Fixpoint united_from (acc : list (nat * nat)) (tr : list (uop * res out)) : list (nat * nat) :=
  match tr with
  | [] => acc
  | (UUnion x y, Ok _) :: tr' => united_from ((x, y) :: acc) tr'
  | (UClear, Ok _) :: tr' => united_from [] tr'
  | _ :: tr' => united_from acc tr'
  end.
Definition united (tr : list (uop * res out)) := united_from [] tr.

(** Number of union calls that answered True since the last clear(). *)
Fixpoint successes_from (n : nat) (tr : list (uop * res out)) : nat :=
  match tr with
  | [] => n
  | (UUnion _ _, Ok (OBool true)) :: tr' => successes_from (S n) tr'
  | (UClear, Ok _) :: tr' => successes_from 0 tr'
  | _ :: tr' => successes_from n tr'
  end.
Definition successes (tr : list (uop * res out)) := successes_from 0 tr.

(** No call raised OverflowError. *)
Definition no_overflow {O} (tr : list (O * res out)) : Prop :=
  forall o, ~ In (o, Err OverflowError) tr.

(** The same for DisjointSet. *)
Fixpoint dunited_from (acc : list (key * key)) (tr : list (dop * res out)) : list (key * key) :=
  match tr with
  | [] => acc
  | (DUnion x y, Ok _) :: tr' => dunited_from ((x, y) :: acc) tr'
  | (DClear, Ok _) :: tr' => dunited_from [] tr'
  | _ :: tr' => dunited_from acc tr'
  end.
Definition dunited (tr : list (dop * res out)) := dunited_from [] tr.

(** Keys given to a call since the last clear(), with repetitions. *)
Definition dop_keys (o : dop) : list key :=
  match o with
  | DUnion x y => [x; y] | DFind x => [x] | DCardinality x => [x]
  | DSame x y => [x; y] | DLen => [] | DClear => []
  end.
Fixpoint mentioned_from (acc : list key) (ops : list dop) : list key :=
  match ops with
  | [] => acc
  | DClear :: ops' => mentioned_from [] ops'
  | o :: ops' => mentioned_from (acc ++ dop_keys o) ops'
  end.
Definition mentioned (ops : list dop) := mentioned_from [] ops.

Definition distinct (l : list key) : nat := List.length (nodup key_eq_dec l).

(** The part of [l] before the first occurrence of [k]. *)
Fixpoint before (k : key) (l : list key) : list key :=
  match l with
  | [] => []
  | x :: l' => if key_eqb k x then [] else x :: before k l'
  end.

(** At every moment of the history at most [cap] distinct keys have been mentioned since
    the last clear(). *)
Fixpoint fits_from (cap : nat) (acc : list key) (ops : list dop) : Prop :=
  match ops with
  | [] => True
  | DClear :: ops' => fits_from cap [] ops'
  | o :: ops' => distinct (acc ++ dop_keys o) <= cap /\ fits_from cap (acc ++ dop_keys o) ops'
  end.

(** The capacities for which the size of the set of all elements does not fit in an item of
    the arrays. *)
Definition tight_capacity (pf : platform) (cap : nat) : Prop :=
  (Z.of_nat cap = 2 ^ 8 \/ Z.of_nat cap = 2 ^ 16
   \/ (pf = Long32 /\ Z.of_nat cap = 2 ^ 32) \/ Z.of_nat cap = 2 ^ 64)%Z.

(** A history that unites 0 with 1, 2, ..., n. *)
Definition star (n : nat) : list uop := map (UUnion 0) (seq 1 n).

(** A history that unites 1, 2, ..., n (in that order) with 0. *)
Definition chain (n : nat) : list uop := map (fun i => UUnion i 0) (seq 1 n).
