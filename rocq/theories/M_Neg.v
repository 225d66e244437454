(** * UnionFind made with any int as its capacity

    [M_UnionFind.make] has the capacities which are not negative.  /repo/pelote/classes/union_find.py tests
    nothing of the capacity, so here are the same lines with any int. *)
From Verif Require Import PyBase M_UnionFind M_UFint M_Repr.

(** the attribute [capacity], which [uf] has as a natural number, and the rest *)
Definition cuf : Type := (Z * uf)%type.

(** __init__ and allocate, union_find.py lines 22-25 and 37-43: [range(capacity)] and [repeat(0, capacity)] are
    empty when the capacity is negative *)
Definition make_int (pf : platform) (cap : Z) : res cuf :=
  let* r := uint_representation_for_capacity cap in
  let n := Z.to_nat cap in
  Ok (cap, mkUF cap n (item_max pf (rep_code r)) (seq 0 n) (List.repeat 0 n) (List.repeat 1 n)).

(** clear, union_find.py lines 45-51 *)
Definition clear_int : sm cuf unit := fun '(cap, s) =>
  let (s', r) := clear_loop (seq 0 (Z.to_nat cap)) (set_count cap s) in ((cap, s'), r).

(** __repr__, union_find.py lines 27-32 *)
Definition repr_int (c : cuf) : res string :=
  let (cap, s) := c in
  let* r := uint_representation_for_capacity cap in
  Ok ("<UnionFind representation=" ++ code_repr (rep_code r) ++ " capacity=" ++ int_repr cap ++ " count=" ++ int_repr (count s) ++ ">")%string.

(** Not code of the repository: sequences of public calls, as in [M_UFint.zop].  The other methods do not read the
    attribute [capacity] (the natural number only bounds the turns of the loops of find). *)
Definition cstep (o : zop) : sm cuf out :=
  match o with
  | ZClear => smap (fun _ => OUnit) clear_int
  | _ => fun '(cap, s) => let (s', r) := zstep o s in ((cap, s'), r)
  end.
