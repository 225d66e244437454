(** * Specifications for utils.py, traversal.py and shim.py *)
From Coq Require Import Permutation Sorted.
From Verif Require Import PyBase M_UnionFind M_Traversal M_Shim.

(** The documented contract of Python's [sorted(items, key=key, reverse=reverse)]: a
    permutation in key order in which items of equal key keep their order. *)
Definition in_order {A} (key : A -> Z) (reverse : bool) (out : list A) : Prop :=
  StronglySorted (fun x y => if reverse then (key y <= key x)%Z else (key x <= key y)%Z) out.

Definition same_order_on_ties {A} (key : A -> Z) (items out : list A) : Prop :=
  forall k, filter (fun x => Z.eqb (key x) k) out = filter (fun x => Z.eqb (key x) k) items.

Definition sorted_gives {A} (key : A -> Z) (reverse : bool) (items out : list A) : Prop :=
  Permutation out items /\ in_order key reverse out /\ same_order_on_ties key items out.

(** ** Traversal structures, over the history of calls *)

(** nodes given to [append] in a history *)
Definition appended {I} (ops : list (top I)) : list key :=
  flat_map (fun o => match o with TAppend n _ => [n] | _ => [] end) ops.

(** what [append n item] stores *)
Definition stored {I} (n : key) (item : option I) : key + I :=
  match item with None => inl n | Some i => inr i end.

(** the items stored by a history: those of the appends that returned True *)
Definition stored_items {I} (tr : list (top I * res (tout I))) : list (key + I) :=
  flat_map (fun or => match or with
            | (TAppend n i, Ok (OBool true)) => [stored n i] | _ => [] end) tr.

(** the items handed out by a history *)
Definition popped_items {I} (tr : list (top I * res (tout I))) : list (key + I) :=
  flat_map (fun or => match or with (TPop, Ok (OItem x)) => [x] | _ => [] end) tr.

(** A stretch of history that pops exactly what it stored. *)
Inductive balanced {I} : list (top I * res (tout I)) -> Prop :=
| bal_nil : balanced []
| bal_refused n i : balanced [(TAppend n i, Ok (OBool false))]
| bal_look o r : (match o with TAppend _ _ | TPop => False | _ => True end) -> balanced [(o, r)]
| bal_nest n i x tr : balanced tr ->
    balanced ((TAppend n i, Ok (OBool true)) :: tr ++ [(TPop, Ok (OItem x))])
| bal_app tr tr' : balanced tr -> balanced tr' -> balanced (tr ++ tr').

(** ** Clients of the pandas shim *)

(** number of [with missing_pandas()] blocks nested in a program *)
Fixpoint nesting (p : client) : nat :=
  match p with
  | Skip | Check | Raise _ => 0
  | Then p q => Nat.max (nesting p) (nesting q)
  | Try p => nesting p
  | With p => S (nesting p)
  end.
