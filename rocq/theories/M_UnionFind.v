(** * Model of pelote/classes/union_find.py and pelote/classes/incremental_id_register.py *)
From Verif Require Import PyBase.

(** ** pelote.utils.uint_representation_for_* *)

(** The [array] type codes of /repo/pelote/utils.py lines 50-57. *)
Inductive code : Set := CodeB | CodeH | CodeL | CodeQ.

(** [Representation(max, code)], utils.py line 50. *)
Definition representation : Set := (Z * code)%type.
Definition rep_max (r : representation) : Z := fst r.
Definition rep_code (r : representation) : code := snd r.

(** UINT_REPRESENTATIONS, utils.py lines 52-57. *)
Definition uint_representations : list representation :=
  [ ((2 ^ 8 - 1)%Z, CodeB); ((2 ^ 16 - 1)%Z, CodeH);
    ((2 ^ 32 - 1)%Z, CodeL); ((2 ^ 64 - 1)%Z, CodeQ) ].

(** uint_representation_for_max, utils.py lines 60-65. *)
Definition uint_representation_for_max (upper_bound : Z) : res representation :=
  match find (fun r => Z.leb upper_bound (rep_max r)) uint_representations with
  | Some r => Ok r
  | None => Err TypeError
  end.

(** uint_representation_for_capacity, utils.py lines 68-69. *)
Definition uint_representation_for_capacity (capacity : Z) : res representation :=
  uint_representation_for_max (capacity - 1).

(** Greatest value an [array] of the given code can hold.  "L" is C's unsigned long:
    64 bits on Linux and macOS, 32 on Windows; the model is given which. *)
Inductive platform : Set := Long32 | Long64.
Definition item_max (pf : platform) (c : code) : Z :=
  match c with
  | CodeB => 2 ^ 8 - 1
  | CodeH => 2 ^ 16 - 1
  | CodeL => match pf with Long32 => 2 ^ 32 - 1 | Long64 => 2 ^ 64 - 1 end
  | CodeQ => 2 ^ 64 - 1
  end%Z.

(** ** Arrays of unsigned ints

    Indices are naturals; the calls with any int, Python's negative indices included,
    are in [M_UFint]. *)
Definition array : Set := list nat.

(** [a[i]] *)
Definition aget (a : array) (i : nat) : res nat :=
  match nth_error a i with Some v => Ok v | None => Err IndexError end.

Fixpoint upd (i v : nat) (a : array) : array :=
  match a, i with
  | [], _ => []
  | _ :: a', O => v :: a'
  | x :: a', S i' => x :: upd i' v a'
  end.

(** [a[i] = v]: IndexError out of range, OverflowError when [v] does not fit. *)
Definition aset (mx : Z) (a : array) (i v : nat) : res array :=
  if Nat.ltb i (List.length a) then
    if Z.leb (Z.of_nat v) mx then Ok (upd i v a) else Err OverflowError
  else Err IndexError.

(** ** class UnionFind *)

(** union_find.py lines 13-20.  [count] is the private [__count]; [item_limit] is what
    an item of the three arrays can hold, from [representation]. *)
Record uf : Set := mkUF {
  count : Z;
  capacity : nat;
  item_limit : Z;
  parents : array;
  ranks : array;
  cardinalities : array
}.

Definition set_count (c : Z) (s : uf) : uf :=
  mkUF c (capacity s) (item_limit s) (parents s) (ranks s) (cardinalities s).
Definition set_parents (a : array) (s : uf) : uf :=
  mkUF (count s) (capacity s) (item_limit s) a (ranks s) (cardinalities s).
Definition set_ranks (a : array) (s : uf) : uf :=
  mkUF (count s) (capacity s) (item_limit s) (parents s) a (cardinalities s).
Definition set_cardinalities (a : array) (s : uf) : uf :=
  mkUF (count s) (capacity s) (item_limit s) (parents s) (ranks s) a.

(** __init__ and allocate, union_find.py lines 22-25 and 37-43.  (Simplification: the
    arrays' initial contents always fit, see [P_UnionFind.initial_items_fit].) *)
Definition make (pf : platform) (cap : nat) : res uf :=
  let* r := uint_representation_for_capacity (Z.of_nat cap) in
  Ok (mkUF (Z.of_nat cap) cap (item_max pf (rep_code r))
        (seq 0 cap) (repeat 0 cap) (repeat 1 cap)).

(** __len__, union_find.py lines 34-35; Python's [len] raises ValueError on a
    negative result. *)
Definition len (s : uf) : res Z :=
  if Z.ltb (count s) 0 then Err ValueError else Ok (count s).

(** clear, union_find.py lines 45-51. *)
Definition clear_step (i : nat) : sm uf unit :=
  let! ps := sread (fun s => aset (item_limit s) (parents s) i i) in
  let! _ := smodify (set_parents ps) in
  let! rs := sread (fun s => aset (item_limit s) (ranks s) i 0) in
  let! _ := smodify (set_ranks rs) in
  let! cs := sread (fun s => aset (item_limit s) (cardinalities s) i 1) in
  smodify (set_cardinalities cs).

Fixpoint clear_loop (l : list nat) : sm uf unit :=
  match l with
  | [] => sret tt
  | i :: l' => let! _ := clear_step i in clear_loop l'
  end.

Definition clear : sm uf unit :=
  let! _ := smodify (fun s => set_count (Z.of_nat (capacity s)) s) in
  fun s => clear_loop (seq 0 (capacity s)) s.

(** first loop of find, union_find.py lines 57-63 *)
Fixpoint climb (fuel : nat) (ps : array) (y : nat) : res nat :=
  match fuel with
  | O => Err OutOfFuel
  | S fuel' =>
      let* c := aget ps y in
      if Nat.eqb y c then Ok y else climb fuel' ps c
  end.

(** second loop of find, union_find.py lines 66-72: walks the path again and
    (unlike what its comment says) writes nothing *)
Fixpoint walk (fuel : nat) (ps : array) (x y : nat) : res unit :=
  match fuel with
  | O => Err OutOfFuel
  | S fuel' =>
      let* p := aget ps x in
      if Nat.eqb p y then Ok tt else walk fuel' ps p y
  end.

(** find, union_find.py lines 53-74, with [fuel] turns allowed for each loop *)
Definition find_fuel (fuel : nat) (s : uf) (x : nat) : res nat :=
  let* y := climb fuel (parents s) x in
  let* _ := walk fuel (parents s) x y in
  Ok y.

Definition find (s : uf) (x : nat) : res nat := find_fuel (S (capacity s)) s x.

(** cardinality, union_find.py lines 76-77. *)
Definition cardinality (s : uf) (x : nat) : res nat :=
  let* r := find s x in aget (cardinalities s) r.

(** the two assignments of each branch of union, union_find.py lines 98-99,
    101-102 and 104-105: [cardinalities[into] += cardinalities[from]; parents[from] = into] *)
Definition merge_into (into from : nat) : sm uf unit :=
  let! ci := sread (fun s => aget (cardinalities s) into) in
  let! cf := sread (fun s => aget (cardinalities s) from) in
  let! cs := sread (fun s => aset (item_limit s) (cardinalities s) into (ci + cf)) in
  let! _ := smodify (set_cardinalities cs) in
  let! ps := sread (fun s => aset (item_limit s) (parents s) from into) in
  smodify (set_parents ps).

(** [ranks[x_root] += 1], union_find.py line 106 *)
Definition bump_rank (x_root : nat) : sm uf unit :=
  let! r := sread (fun s => aget (ranks s) x_root) in
  let! rs := sread (fun s => aset (item_limit s) (ranks s) x_root (r + 1)) in
  smodify (set_ranks rs).

(** union, union_find.py lines 79-108.  Lines 94-95 read the ranks of
    [x] and [y], not of their roots. *)
Definition union (x y : nat) : sm uf bool :=
  let! x_root := sread (fun s => find s x) in
  let! y_root := sread (fun s => find s y) in
  if Nat.eqb x_root y_root then sret false
  else
    let! _ := smodify (fun s => set_count (count s - 1) s) in
    let! x_rank := sread (fun s => aget (ranks s) x) in
    let! y_rank := sread (fun s => aget (ranks s) y) in
    if Nat.ltb x_rank y_rank then
      let! _ := merge_into y_root x_root in sret true
    else if Nat.ltb y_rank x_rank then
      let! _ := merge_into x_root y_root in sret true
    else
      let! _ := merge_into x_root y_root in
      let! _ := bump_rank x_root in sret true.

(** are_in_same_set, union_find.py lines 110-111. *)
Definition are_in_same_set (s : uf) (x y : nat) : res bool :=
  let* a := find s x in
  let* b := find s y in
  Ok (Nat.eqb a b).

(** ** class IncrementalIdRegister, incremental_id_register.py lines 7-30 *)

(** lines 12-16 *)
Record register : Type := mkReg { counter : nat; index : dict nat }.
Definition new_register : register := mkReg 0 [].

(** __getitem__, lines 18-26 *)
Definition getitem (r : register) (item : key) : register * nat :=
  match dget item (index r) with
  | Some i => (r, i)
  | None => (mkReg (counter r + 1) (dset item (counter r) (index r)), counter r)
  end.

(** clear, lines 28-30 *)
Definition clear_register (r : register) : register := new_register.

(** ** class DisjointSet, union_find.py lines 114-146 *)

(** lines 117-119 *)
Record dset_state : Type := mkDS { ds_uf : uf; ds_reg : register }.
Definition make_ds (pf : platform) (cap : nat) : res dset_state :=
  let* u := make pf cap in Ok (mkDS u new_register).

(** [self.__register[x]] *)
Definition ds_id (x : key) : sm dset_state nat :=
  fun s => let (r, i) := getitem (ds_reg s) x in (mkDS (ds_uf s) r, Ok i).

(** an operation on the inner union-find *)
Definition ds_lift {A} (m : sm uf A) : sm dset_state A :=
  fun s => let (u, r) := m (ds_uf s) in (mkDS u (ds_reg s), r).

(** clear, lines 121-123 *)
Definition ds_clear : sm dset_state unit :=
  let! _ := ds_lift clear in
  smodify (fun s => mkDS (ds_uf s) (clear_register (ds_reg s))).

(** capacity, lines 125-127; __len__, lines 129-130 *)
Definition ds_capacity (s : dset_state) : nat := capacity (ds_uf s).
Definition ds_len (s : dset_state) : res Z := len (ds_uf s).

(** find, lines 132-134 *)
Definition ds_find (x : key) : sm dset_state nat :=
  let! i := ds_id x in sread (fun s => find (ds_uf s) i).

(** union, lines 136-139 *)
Definition ds_union (x y : key) : sm dset_state bool :=
  let! i := ds_id x in
  let! j := ds_id y in
  ds_lift (union i j).

(** cardinality, lines 141-143 *)
Definition ds_cardinality (x : key) : sm dset_state nat :=
  let! i := ds_id x in sread (fun s => cardinality (ds_uf s) i).

(** are_in_same_set, lines 145-146 *)
Definition ds_same (x y : key) : sm dset_state bool :=
  let! a := ds_find x in
  let! b := ds_find y in
  sret (Nat.eqb a b).

(** ** Histories of calls

    Not code of the repository: sequences of public calls on one UnionFind (resp.
    DisjointSet) and the outcomes they give. *)
Inductive uop : Set :=
| UUnion (x y : nat) | UFind (x : nat) | UCardinality (x : nat)
| USame (x y : nat) | ULen | UClear.

Inductive out : Set := OUnit | OBool (b : bool) | ONat (n : nat) | OInt (z : Z).

Definition smap {S A B} (f : A -> B) (m : sm S A) : sm S B :=
  let! a := m in sret (f a).

Definition ustep (o : uop) : sm uf out :=
  match o with
  | UUnion x y => smap OBool (union x y)
  | UFind x => smap ONat (sread (fun s => find s x))
  | UCardinality x => smap ONat (sread (fun s => cardinality s x))
  | USame x y => smap OBool (sread (fun s => are_in_same_set s x y))
  | ULen => smap OInt (sread len)
  | UClear => smap (fun _ => OUnit) clear
  end.

Inductive dop : Set :=
| DUnion (x y : key) | DFind (x : key) | DCardinality (x : key)
| DSame (x y : key) | DLen | DClear.

Definition dstep (o : dop) : sm dset_state out :=
  match o with
  | DUnion x y => smap OBool (ds_union x y)
  | DFind x => smap ONat (ds_find x)
  | DCardinality x => smap ONat (ds_cardinality x)
  | DSame x y => smap OBool (ds_same x y)
  | DLen => smap OInt (sread ds_len)
  | DClear => smap (fun _ => OUnit) ds_clear
  end.

(** Runs a sequence of calls, the caller catching every exception; gives the final
    state and the outcome of each call. *)
Fixpoint run {O S A} (step : O -> sm S A) (ops : list O) (s : S) : S * list (res A) :=
  match ops with
  | [] => (s, [])
  | o :: ops' =>
      let (s1, r) := step o s in
      let (s2, rs) := run step ops' s1 in
      (s2, r :: rs)
  end.

(** Sequences of lookups and clears on one register. *)
Inductive rop : Set := RGet (k : key) | RClear.
Definition rstep (o : rop) : sm register out :=
  match o with
  | RGet k => fun r => let (r', i) := getitem r k in (r', Ok (ONat i))
  | RClear => fun r => (clear_register r, Ok OUnit)
  end.
