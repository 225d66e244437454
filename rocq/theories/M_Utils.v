(** * Model of pelote/utils.py

    [uint_representation_for_max] and [uint_representation_for_capacity] are in
    M_UnionFind.v; [iterator_from_dataframe] is in M_Tabular.v;
    [has_constant_time_lookup] (lines 31-35) is an isinstance test, not modelled. *)
From Verif Require Import PyBase M_UnionFind.

(** ** has_mixed_types, utils.py lines 15-28 *)

(** Python types of the modelled values; all opaque objects are given one type each. *)
Inductive pytype : Set := TNone | TBool | TFloat | TInt | TStr | TObj (n : nat).
Definition pytype_eqb (a b : pytype) : bool :=
  match a, b with
  | TNone, TNone | TBool, TBool | TFloat, TFloat | TInt, TInt | TStr, TStr => true
  | TObj n, TObj m => Nat.eqb n m
  | _, _ => false
  end.
(** [type(k)] *)
Definition key_type (k : key) : pytype :=
  match k with KInt _ => TInt | KStr _ => TStr | KObj n => TObj n end.
Definition val_type (v : val) : pytype :=
  match v with
  | VNone => TNone | VBool _ => TBool | VFloat _ => TFloat | VKey k => key_type k
  end.

(** lines 16-28: the first loop takes one item off the iterator, the second goes on *)
Definition has_mixed_types {A} (type_of : A -> pytype) (items : list A) : bool :=
  match items with
  | [] => false
  | first :: rest =>
      let main_type := type_of first in
      existsb (fun item => negb (pytype_eqb (type_of item) main_type)) rest
  end.

(** ** counting_sort, utils.py lines 72-124

    [items] is a sequence; [key] gives integers ([key=None] is the identity).
    Simplifications: the key function is pure; the memory needed for an array of the
    span's size is not modelled. *)

(** lines 92-96 *)
Definition bounds_step (b : option Z * option Z) (k : Z) : option Z * option Z :=
  let (lower, upper) := b in
  (match lower with None => Some k | Some l => if Z.ltb k l then Some k else Some l end,
   match upper with None => Some k | Some u => if Z.ltb u k then Some k else Some u end).

(** lines 103-105: [counts[j] += 1]; [mx] is what an item of [counts] can hold *)
Definition count_step (mx : Z) (lower : Z) (counts : array) (k : Z) : res array :=
  let j := Z.to_nat (k - lower) in
  let* c := aget counts j in
  aset mx counts j (c + 1).

(** lines 108-109: [counts[i] += counts[i - 1]] *)
Definition cumulate_step (mx : Z) (counts : array) (i : nat) : res array :=
  let* a := aget counts i in
  let* b := aget counts (i - 1) in
  aset mx counts i (a + b).

(** [output[i] = item] *)
Fixpoint lset {A} (i : nat) (v : A) (l : list A) : list A :=
  match l, i with
  | [], _ => []
  | _ :: l', O => v :: l'
  | x :: l', S i' => x :: lset i' v l'
  end.

(** lines 114-122; storing [counts[j] - 1 = -1] is an OverflowError *)
Definition place_step {A} (mx : Z) (lower : Z) (l : nat) (reverse : bool)
    (st : array * list (option A)) (ki : Z * A) : res (array * list (option A)) :=
  let (counts, output) := st in
  let (k, item) := ki in
  let j := Z.to_nat (k - lower) in
  let* c := aget counts j in
  match c with
  | O => Err OverflowError
  | S i =>
      let* counts := aset mx counts j i in
      let i' := if reverse then l - i - 1 else i in
      if Nat.ltb i' (List.length output)
      then Ok (counts, lset i' (Some item) output)
      else Err IndexError
  end.

(** lines 72-124; the result is the [output] list, whose slots start as None *)
Definition counting_sort {A} (pf : platform) (key : A -> Z) (reverse : bool) (items : list A)
  : res (list (option A)) :=
  let keys := map key items in
  let l := List.length items in
  match fold_left bounds_step keys (None, None) with
  | (Some lower, Some upper) =>
      let span := Z.to_nat (upper - lower) in
      let* r := uint_representation_for_max (Z.of_nat l) in
      let mx := item_max pf (rep_code r) in
      let* counts := foldM (count_step mx lower) keys (repeat 0 (span + 1)) in
      let* counts := foldM (cumulate_step mx) (seq 1 span) counts in
      let* (_, output) := foldM (place_step mx lower l reverse) (combine keys items) (counts, repeat None l) in
      Ok output
  | _ => Err TypeError (* line 98: None - None *)
  end.

(** ** fast_intersection_size, utils.py lines 127-143

    Sets are lists without repetition; [is_same] is the outcome of [A is B]. *)
Definition fast_intersection_size (is_same : bool) (A B : list key) : nat :=
  let (A, B) := if Nat.ltb (List.length B) (List.length A) then (B, A) else (A, B) in
  match A with
  | [] => 0
  | _ => if is_same then List.length A
         else fold_left (fun i item => if mem item B then i + 1 else i) A 0
  end.
