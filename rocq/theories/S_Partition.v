(** * Specification of partitions: equivalence relations generated by pairs

    Nothing here refers to the model. *)
From Coq Require Import List Relations ZArith.
Import ListNotations.

(** The smallest equivalence relation containing the listed pairs. *)
Definition closure {A} (pairs : list (A * A)) : A -> A -> Prop :=
  clos_refl_sym_trans A (fun x y => In (x, y) pairs).

(** [l] is, without repetition, the set of elements satisfying [P]. *)
Definition enumerates {A} (l : list A) (P : A -> Prop) : Prop :=
  NoDup l /\ forall x, In x l <-> P x.

(** [n] is the number of elements satisfying [P]. *)
Definition has_size {A} (P : A -> Prop) (n : nat) : Prop :=
  exists l, enumerates l P /\ length l = n.

(** The relation [R] has exactly [n] classes on the elements satisfying [D]:
    there is a system of [n] pairwise unrelated representatives reaching every element. *)
Definition has_classes {A} (D : A -> Prop) (R : A -> A -> Prop) (n : nat) : Prop :=
  exists reps,
    NoDup reps /\ length reps = n
    /\ (forall r, In r reps -> D r)
    /\ (forall x, D x -> exists r, In r reps /\ R x r)
    /\ (forall r r', In r reps -> In r' reps -> R r r' -> r = r').
