(** * Model of UnionFind.__repr__, pelote/classes/union_find.py lines 27-32 *)
From Coq Require Import ZArith String DecimalString.
From Verif Require Import PyBase M_UnionFind.

(** [{representation!r}] of a type code, line 28: quoted *)
Definition code_repr (c : code) : string :=
  match c with CodeB => "'B'" | CodeH => "'H'" | CodeL => "'L'" | CodeQ => "'Q'" end.

(** [repr] of an int, in decimal (no pelote code) *)
Definition int_repr (z : Z) : string := NilZero.string_of_int (Z.to_int z).

(** lines 27-32.  Simplification: the attribute representation, which allocate stores on line 39, is
    computed again from the capacity. *)
Definition uf_repr (s : uf) : res string :=
  let* r := uint_representation_for_capacity (Z.of_nat (capacity s)) in
  Ok ("<UnionFind representation=" ++ code_repr (rep_code r) ++ " capacity=" ++ int_repr (Z.of_nat (capacity s))
      ++ " count=" ++ int_repr (count s) ++ ">")%string.
