(** * Properties C01-C09: UnionFind, DisjointSet, IncrementalIdRegister *)
From Coq Require Import Lia Relations.
From Verif Require Import PyBase L_Base M_UnionFind S_Partition S_UnionFind L_Partition L_UnionFind L_UnionFind2 L_DisjointSet.

(** For the examples: run a history on a fresh structure and observe. *)
Definition after {A} (cap : nat) (ops : list uop) (f : uf -> list (res out) -> A) : res A :=
  let* s0 := make Long64 cap in
  Ok (let (s, outs) := run ustep ops s0 in f s outs).
Definition ds_after {A} (cap : nat) (ops : list dop) (f : dset_state -> dset_state -> list (res out) -> A) : res A :=
  let* s0 := make_ds Long64 cap in
  Ok (let (s, outs) := run dstep ops s0 in f s0 s outs).

(** The initial contents of the three arrays fit in their item type. *)
Theorem initial_items_fit : forall pf cap s v, make pf cap = Ok s ->
  In v (parents s ++ ranks s ++ cardinalities s) -> (Z.of_nat v <= item_limit s)%Z.
Proof.
  intros pf cap s v M I. destruct (Inv_init _ _ _ M) as (Iv & _).
  pose proof (inv_limit _ _ _ Iv). pose proof (inv_limit255 _ _ _ Iv).
  unfold make in M. apply bind_Ok in M as (r & _ & E). inversion E; subst; simpl in *.
  rewrite !in_app_iff in I. destruct I as [I|[I|I]].
  - apply in_seq in I. lia.
  - apply repeat_spec in I. lia.
  - apply repeat_spec in I. lia.
Qed.

(** C01: after any history of calls, including calls that raised, two
    elements are in the same set exactly when the closure of the pairs united so far
    relates them. *)
Theorem C01_same_set_iff_closure : forall pf cap s0 ops s outs x y,
  make pf cap = Ok s0 -> run ustep ops s0 = (s, outs) -> x < cap -> y < cap ->
  exists b, are_in_same_set s x y = Ok b
    /\ (b = true <-> closure (united (combine ops outs)) x y).
Proof. exact same_set_iff. Qed.
Print Assumptions C01_same_set_iff_closure.

Example C01_case :
  after 6 [UUnion 0 1; UUnion 2 3; UUnion 1 3; UUnion 9 0]
    (fun s outs => (outs, are_in_same_set s 0 2, are_in_same_set s 0 4))
  = Ok ([Ok (OBool true); Ok (OBool true); Ok (OBool true); Err IndexError], Ok true, Ok false).
Proof. vm_compute. reflexivity. Qed.

(** C02: find terminates (any fuel at least the capacity gives the same answer),
    is idempotent and canonical.  find returns no new state: it changes nothing. *)
Theorem C02_find_canonical : forall pf cap s0 ops s outs x,
  make pf cap = Ok s0 -> run ustep ops s0 = (s, outs) -> x < cap ->
  exists r, r < cap
    /\ (forall fuel, cap <= fuel -> find_fuel fuel s x = Ok r)
    /\ find s x = Ok r /\ find s r = Ok r
    /\ closure (united (combine ops outs)) x r
    /\ (forall y r', y < cap -> find s y = Ok r' ->
          (r' = r <-> closure (united (combine ops outs)) x y)).
Proof. exact find_canonical. Qed.
Print Assumptions C02_find_canonical.

Example C02_case :
  after 4 [UUnion 1 0; UUnion 2 0; UUnion 3 0] (fun s _ => (find s 0, find s 3, parents s))
  = Ok (Ok 3, Ok 3, [1; 2; 3; 3]).
Proof. vm_compute. reflexivity. Qed.

(** C03 *)
Theorem C03_union_result : forall pf cap s0 ops s outs x y s' b,
  make pf cap = Ok s0 -> run ustep ops s0 = (s, outs) -> x < cap -> y < cap ->
  union x y s = (s', Ok b) -> (b = true <-> ~ closure (united (combine ops outs)) x y).
Proof. exact union_result. Qed.
Print Assumptions C03_union_result.

Theorem C03_len_counts_sets : forall pf cap s0 ops s outs,
  make pf cap = Ok s0 -> run ustep ops s0 = (s, outs) -> no_overflow (combine ops outs) ->
  exists n, len s = Ok (Z.of_nat n)
    /\ has_classes (fun x => x < cap) (closure (united (combine ops outs))) n
    /\ n + successes (combine ops outs) = cap.
Proof. exact len_counts. Qed.
Print Assumptions C03_len_counts_sets.

Example C03_case :
  after 5 [UUnion 0 1; UUnion 1 0; UUnion 2 0; ULen] (fun _ outs => outs)
  = Ok [Ok (OBool true); Ok (OBool false); Ok (OBool true); Ok (OInt 3)].
Proof. vm_compute. reflexivity. Qed.

(** C04: also after calls that raised. *)
Theorem C04_cardinality_counts : forall pf cap s0 ops s outs x,
  make pf cap = Ok s0 -> run ustep ops s0 = (s, outs) -> x < cap ->
  exists n, cardinality s x = Ok n
    /\ has_size (fun y => y < cap /\ closure (united (combine ops outs)) x y) n.
Proof. exact cardinality_counts. Qed.
Print Assumptions C04_cardinality_counts.

Example C04_case :
  after 6 [UUnion 4 1; UUnion 1 5] (fun s _ => (cardinality s 5, cardinality s 0)) = Ok (Ok 3, Ok 1).
Proof. vm_compute. reflexivity. Qed.

(** C05 as stated ("union never raises on valid indices") is false: at every capacity
    whose maximal set size does not fit in the array items, a history of
    successful unions leads to a union that raises OverflowError. *)
Theorem C05_union_never_raises_refuted : forall pf cap s0,
  make pf cap = Ok s0 -> tight_capacity pf cap ->
  exists s outs s', run ustep (star (cap - 2)) s0 = (s, outs)
    /\ (forall r, In r outs -> exists v, r = Ok v)
    /\ union 0 (cap - 1) s = (s', Err OverflowError).
Proof. exact star_overflow. Qed.
Print Assumptions C05_union_never_raises_refuted.

(** the smallest concrete witness *)
Example C05_witness :
  after 256 (star 254) (fun s outs =>
    (forallb (fun r => match r with Ok _ => true | Err _ => false end) outs, snd (union 0 255 s)))
  = Ok (true, Err OverflowError).
Proof. vm_compute. reflexivity. Qed.

(** What is true of C05: union raises on valid indices exactly when the capacity is one
    of these and the call would merge the last two sets. *)
Theorem C05_union_raises_iff_partial : forall pf cap s0 ops s outs x y,
  make pf cap = Ok s0 -> run ustep ops s0 = (s, outs) -> x < cap -> y < cap ->
  ((exists s' e, union x y s = (s', Err e)) <->
   (tight_capacity pf cap
    /\ ~ closure (united (combine ops outs)) x y
    /\ has_classes (fun z => z < cap) (closure (united (combine ops outs))) 2)).
Proof. exact union_raises_iff. Qed.
Print Assumptions C05_union_raises_iff_partial.

Theorem C05_union_total_partial : forall pf cap s0 ops s outs x y,
  make pf cap = Ok s0 -> run ustep ops s0 = (s, outs) -> x < cap -> y < cap ->
  ~ tight_capacity pf cap -> exists s' b, union x y s = (s', Ok b).
Proof. exact union_total. Qed.
Print Assumptions C05_union_total_partial.

Example C05_case : ~ tight_capacity Long64 1000.
Proof.
  unfold tight_capacity. change (Z.of_nat 1000) with 1000%Z. cbn.
  intros [H|[H|[[_ H]|H]]]; discriminate.
Qed.

(** C06 *)
Theorem C06_clear_restores : forall pf cap s0 ops s outs,
  make pf cap = Ok s0 -> run ustep ops s0 = (s, outs) ->
  clear s = (s0, Ok tt)
  /\ forall later, run ustep later (fst (clear s)) = run ustep later s0.
Proof.
  intros pf cap s0 ops s outs M R. pose proof (clear_restores _ _ _ _ _ _ M R) as E.
  split; [assumption|]. rewrite E. reflexivity.
Qed.
Print Assumptions C06_clear_restores.

Theorem C06_ds_clear_restores : forall pf cap s0 ops s outs,
  make_ds pf cap = Ok s0 -> run dstep ops s0 = (s, outs) ->
  ds_clear s = (s0, Ok tt)
  /\ forall later, run dstep later (fst (ds_clear s)) = run dstep later s0.
Proof.
  intros pf cap s0 ops s outs M R. pose proof (ds_clear_restores _ _ _ _ _ _ M R) as E.
  split; [assumption|]. rewrite E. reflexivity.
Qed.
Print Assumptions C06_ds_clear_restores.

Example C06_case :
  ds_after 2 [DUnion (K "a") (K "b"); DFind (K "c")]
    (fun s0 s outs => (outs, ds_len s0, ds_len s, fst (ds_clear s)))
  = ds_after 2 [] (fun s0 _ _ => ([Ok (OBool true); Err IndexError], Ok 2%Z, Ok 1%Z, s0)).
Proof. vm_compute. reflexivity. Qed.

(** C07 *)
Theorem C07_same_set_iff_closure : forall pf cap s0 s ops outs,
  make_ds pf cap = Ok s0 -> run dstep ops s0 = (s, outs) -> fits_from cap [] ops ->
  forall x y, distinct (mentioned ops ++ [x; y]) <= cap ->
  exists s' b, ds_same x y s = (s', Ok b)
    /\ (b = true <-> closure (dunited (combine ops outs)) x y).
Proof. exact c07_same. Qed.
Print Assumptions C07_same_set_iff_closure.

Theorem C07_union_result : forall pf cap s0 s ops outs,
  make_ds pf cap = Ok s0 -> run dstep ops s0 = (s, outs) -> fits_from cap [] ops ->
  forall x y, distinct (mentioned ops ++ [x; y]) <= cap ->
  exists s' r, ds_union x y s = (s', r) /\
   ((exists b, r = Ok b /\ (b = true <-> ~ closure (dunited (combine ops outs)) x y))
    \/ (r = Err OverflowError /\ tight_capacity pf cap)).
Proof. exact c07_union. Qed.
Print Assumptions C07_union_result.

Theorem C07_cardinality_counts : forall pf cap s0 s ops outs,
  make_ds pf cap = Ok s0 -> run dstep ops s0 = (s, outs) -> fits_from cap [] ops ->
  forall x, distinct (mentioned ops ++ [x]) <= cap ->
  exists s' n, ds_cardinality x s = (s', Ok n)
    /\ has_size (fun y => closure (dunited (combine ops outs)) x y) n.
Proof. exact c07_cardinality. Qed.
Print Assumptions C07_cardinality_counts.

Theorem C07_beyond_capacity : forall pf cap s0 s ops outs x,
  make_ds pf cap = Ok s0 -> run dstep ops s0 = (s, outs) -> fits_from cap [] ops ->
  (forall r e, In r outs -> r <> Err e) ->
  distinct (mentioned ops) = cap -> ~ In x (mentioned ops) ->
  snd (ds_find x s) = Err IndexError /\ snd (ds_cardinality x s) = Err IndexError
  /\ (forall y, snd (ds_union x y s) = Err IndexError)
  /\ (forall y, snd (ds_same x y s) = Err IndexError).
Proof. exact c07_beyond. Qed.
Print Assumptions C07_beyond_capacity.

Definition C07_ops :=
  [DUnion (K "a") (K "b"); DSame (K "a") (K "c"); DUnion (K "b") (K "c")].

Example C07_case_hyps : fits_from 3 [] C07_ops /\ distinct (mentioned C07_ops) = 3.
Proof. vm_compute. repeat constructor. Qed.

Example C07_case :
  ds_after 3 C07_ops (fun _ s outs => (outs, snd (ds_cardinality (K "c") s), snd (ds_find (K "d") s)))
  = Ok ([Ok (OBool true); Ok (OBool false); Ok (OBool true)], Ok 3, Err IndexError).
Proof. vm_compute. reflexivity. Qed.

(** C08: the i-th answer is the number of distinct keys looked up before the first
    lookup of that key. *)
Theorem C08_ids_in_first_seen_order : forall l,
  snd (run rstep (map RGet l) new_register)
  = map (fun k => Ok (ONat (distinct (before k l)))) l.
Proof. exact register_first_seen. Qed.
Print Assumptions C08_ids_in_first_seen_order.

(** two different keys never share an id; a cleared register starts afresh *)
Theorem C08_ids_injective : forall l k k',
  In k l -> In k' l -> distinct (before k l) = distinct (before k' l) -> k = k'.
Proof. exact distinct_before_inj. Qed.
Print Assumptions C08_ids_injective.

Theorem C08_clear : forall r, clear_register r = new_register.
Proof. reflexivity. Qed.

Example C08_case :
  snd (run rstep (map RGet [K "x"; K "y"; K "x"; KInt 3; K "y"]) new_register)
  = map (fun n => Ok (ONat n)) [0; 1; 0; 2; 1].
Proof. reflexivity. Qed.

(** C09 is false: for every n there is a history of n successful unions after which
    find(0) takes more than n turns of its loop (and, with no path compression,
    every later call does too). *)
Theorem C09_logarithmic_find_refuted : forall pf cap s0 n,
  make pf cap = Ok s0 -> n + 1 < cap ->
  exists s outs, run ustep (chain n) s0 = (s, outs)
    /\ (forall r, In r outs -> exists v, r = Ok v)
    /\ climb n (parents s) 0 = Err OutOfFuel.
Proof. exact chain_depth. Qed.
Print Assumptions C09_logarithmic_find_refuted.

Example C09_case :
  after 10 (chain 8) (fun s _ => (climb 8 (parents s) 0, climb 9 (parents s) 0))
  = Ok (Err OutOfFuel, Ok 8).
Proof. vm_compute. reflexivity. Qed.

(** What holds of C09 is a linear bound: after any history, each loop of find(x) ends within as many
    turns as x's set has elements.  By the refutation above no better bound holds in general. *)
Theorem C09_linear_find_partial : forall pf cap s0 ops s outs x n,
  make pf cap = Ok s0 -> run ustep ops s0 = (s, outs) -> x < cap ->
  has_size (fun y => y < cap /\ closure (united (combine ops outs)) x y) n ->
  exists r, find_fuel n s x = Ok r.
Proof. exact find_within_set. Qed.
Print Assumptions C09_linear_find_partial.

Example C09_ex_linear :
  after 10 (chain 8) (fun s _ => (find_fuel 8 s 0, find_fuel 9 s 0, cardinality s 0))
  = Ok (Err OutOfFuel, Ok 8, Ok 9).
Proof. vm_compute. reflexivity. Qed.
