(** * UnionFind called with any int

    The [array]s of /repo/pelote/classes/union_find.py are indexed as Python sequences
    are: an index from [-len] to [-1] counts from the end.  [M_UnionFind] has the calls with
    an index that is not negative; here are the same lines with any int. *)
From Verif Require Import PyBase M_UnionFind.

(** [a[z]], array.array's indexing (union_find.py lines 58, 67, 94 and 95) *)
Definition zget (a : array) (z : Z) : res nat :=
  if Z.leb 0 z then aget a (Z.to_nat z)
  else if Z.leb (- Z.of_nat (List.length a)) z
       then aget a (Z.to_nat (Z.of_nat (List.length a) + z))
       else Err IndexError.

(** first loop of find, union_find.py lines 57-63: what an array of unsigned ints holds is
    not negative, so only the first index can be *)
Fixpoint zclimb (fuel : nat) (ps : array) (y : Z) : res Z :=
  match fuel with
  | O => Err OutOfFuel
  | S fuel' =>
      let* c := zget ps y in
      if Z.eqb y (Z.of_nat c) then Ok y else zclimb fuel' ps (Z.of_nat c)
  end.

(** second loop of find, union_find.py lines 66-72 *)
Fixpoint zwalk (fuel : nat) (ps : array) (x y : Z) : res unit :=
  match fuel with
  | O => Err OutOfFuel
  | S fuel' =>
      let* p := zget ps x in
      if Z.eqb (Z.of_nat p) y then Ok tt else zwalk fuel' ps (Z.of_nat p) y
  end.

(** find, union_find.py lines 53-74, with [fuel] turns allowed for each loop *)
Definition zfind_fuel (fuel : nat) (s : uf) (x : Z) : res Z :=
  let* y := zclimb fuel (parents s) x in
  let* _ := zwalk fuel (parents s) x y in
  Ok y.

(** one turn more than [find] allows: the first may only put the index right *)
Definition zfind (s : uf) (x : Z) : res Z := zfind_fuel (S (S (capacity s))) s x.

(** cardinality, union_find.py lines 76-77 *)
Definition zcardinality (s : uf) (x : Z) : res nat :=
  let* r := zfind s x in zget (cardinalities s) r.

(** union, union_find.py lines 79-108.  (Simplification: the roots found are not negative,
    [P_UFint.C106_roots], so lines 98-106 are written with those of [M_UnionFind].) *)
Definition zunion (x y : Z) : sm uf bool :=
  let! x_root := sread (fun s => zfind s x) in
  let! y_root := sread (fun s => zfind s y) in
  if Z.eqb x_root y_root then sret false
  else
    let! _ := smodify (fun s => set_count (count s - 1) s) in
    let! x_rank := sread (fun s => zget (ranks s) x) in
    let! y_rank := sread (fun s => zget (ranks s) y) in
    if Nat.ltb x_rank y_rank then
      let! _ := merge_into (Z.to_nat y_root) (Z.to_nat x_root) in sret true
    else if Nat.ltb y_rank x_rank then
      let! _ := merge_into (Z.to_nat x_root) (Z.to_nat y_root) in sret true
    else
      let! _ := merge_into (Z.to_nat x_root) (Z.to_nat y_root) in
      let! _ := bump_rank (Z.to_nat x_root) in sret true.

(** are_in_same_set, union_find.py lines 110-111 *)
Definition zsame (s : uf) (x y : Z) : res bool :=
  let* a := zfind s x in
  let* b := zfind s y in
  Ok (Z.eqb a b).

(** Not code of the repository: sequences of public calls on one UnionFind, as in
    [M_UnionFind.uop], with any ints. *)
Inductive zop : Set :=
| ZUnion (x y : Z) | ZFind (x : Z) | ZCardinality (x : Z)
| ZSame (x y : Z) | ZLen | ZClear.

Definition zstep (o : zop) : sm uf out :=
  match o with
  | ZUnion x y => smap OBool (zunion x y)
  | ZFind x => smap (fun r => ONat (Z.to_nat r)) (sread (fun s => zfind s x))
  | ZCardinality x => smap ONat (sread (fun s => zcardinality s x))
  | ZSame x y => smap OBool (sread (fun s => zsame s x y))
  | ZLen => smap OInt (sread len)
  | ZClear => smap (fun _ => OUnit) clear
  end.
