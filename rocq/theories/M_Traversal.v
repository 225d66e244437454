(** * Model of pelote/classes/traversal.py *)
From Verif Require Import PyBase M_UnionFind.

(** ** The state of a DFSStack (lines 14-17) or a BFSQueue (lines 60-63)

    [t_graph] is the list of the graph's nodes, in iteration order; [t_items] the stack
    (list) or queue (deque) in Python's order, so [append] adds at the end; [t_seen] the
    set of seen nodes, as a list without repetition.  A stored element is a node or the
    item given with it: [inl node] or [inr item].  Simplification: the graph is not
    mutated while the structure is in use. *)
Record trav (I : Type) : Type := mkT {
  t_graph : list key;
  t_items : list (key + I);
  t_seen : list key
}.
Arguments mkT {I}. Arguments t_graph {I}. Arguments t_items {I}. Arguments t_seen {I}.

(** __init__, lines 14-17 and 60-63 *)
Definition t_make {I} (graph : list key) : trav I := mkT graph [] [].

(** __len__, lines 19-20 and 65-66 *)
Definition t_len {I} (t : trav I) : nat := List.length (t_items t).

(** __contains__, lines 22-23 and 68-69 *)
Definition t_contains {I} (t : trav I) (node : key) : bool := mem node (t_seen t).

(** has_already_seen_everything, lines 25-26 and 71-72 *)
Definition seen_everything {I} (t : trav I) : bool :=
  Nat.eqb (List.length (t_seen t)) (List.length (t_graph t)).

(** nodes_yet_unseen, lines 28-36 and 74-82, run to its end without touching the
    structure in between.  The loop over the rest [l] of the graph. *)
Fixpoint unseen_loop {I} (t : trav I) (l : list key) : list key :=
  match l with
  | [] => []
  | node :: l' =>
      if seen_everything t then []
      else if mem node (t_seen t) then unseen_loop t l'
      else node :: unseen_loop t l'
  end.
Definition nodes_yet_unseen {I} (t : trav I) : list key := unseen_loop t (t_graph t).

(** [set.add] *)
Definition set_add (k : key) (s : list key) : list key := if mem k s then s else s ++ [k].

(** append, lines 38-48 and 84-94; [item = None] is the default *)
Definition t_append {I} (node : key) (item : option I) : sm (trav I) bool := fun t =>
  let size_before := List.length (t_seen t) in
  let seen := set_add node (t_seen t) in
  if Nat.eqb size_before (List.length seen) then (mkT (t_graph t) (t_items t) seen, Ok false)
  else
    let x := match item with None => inl node | Some i => inr i end in
    (mkT (t_graph t) (t_items t ++ [x]) seen, Ok true).

(** DFSStack.pop, lines 50-51: [list.pop()] *)
Definition t_pop {I} : sm (trav I) (key + I) := fun t =>
  match rev (t_items t) with
  | [] => (t, Err IndexError)
  | x :: r => (mkT (t_graph t) (rev r) (t_seen t), Ok x)
  end.

(** BFSQueue.popleft, lines 96-97: [deque.popleft()] *)
Definition t_popleft {I} : sm (trav I) (key + I) := fun t =>
  match t_items t with
  | [] => (t, Err IndexError)
  | x :: r => (mkT (t_graph t) r (t_seen t), Ok x)
  end.

(** ** Calls made on one structure *)
Inductive top (I : Type) : Type :=
| TAppend (node : key) (item : option I)
| TPop
| TContains (node : key)
| TLen
| TUnseen
| TSeenAll.
Arguments TAppend {I}. Arguments TPop {I}. Arguments TContains {I}. Arguments TLen {I}.
Arguments TUnseen {I}. Arguments TSeenAll {I}.

Inductive tout (I : Type) : Type :=
| OBool (b : bool) | OItem (x : key + I) | OLen (n : nat) | ONodes (l : list key).
Arguments OBool {I}. Arguments OItem {I}. Arguments OLen {I}. Arguments ONodes {I}.

(** one call; [pop] is [t_pop] for a DFSStack and [t_popleft] for a BFSQueue *)
Definition tstep {I} (pop : sm (trav I) (key + I)) (o : top I) : sm (trav I) (tout I) :=
  match o with
  | TAppend n i => smap OBool (t_append n i)
  | TPop => smap OItem pop
  | TContains n => sread (fun t => Ok (OBool (t_contains t n)))
  | TLen => sread (fun t => Ok (OLen (t_len t)))
  | TUnseen => sread (fun t => Ok (ONodes (nodes_yet_unseen t)))
  | TSeenAll => sread (fun t => Ok (OBool (seen_everything t)))
  end.
Definition dfs_step {I} : top I -> sm (trav I) (tout I) := tstep t_pop.
Definition bfs_step {I} : top I -> sm (trav I) (tout I) := tstep t_popleft.
