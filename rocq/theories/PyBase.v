(** * The fragment of Python's data model used by pelote.

    Model file: definitions only.  Nothing here models a pelote function;
    these are the values the models of pelote functions compute with. *)
From Coq Require Export List ZArith Arith Bool String QArith.
Export ListNotations.
Local Open Scope list_scope.
Close Scope Q_scope.
Close Scope Z_scope.
Open Scope nat_scope.
Open Scope list_scope.

(** ** Exceptions as values

    [OutOfFuel] is not a Python exception: it is what the model of a [while]
    loop returns when the loop has not finished within the fuel given to it.
    Theorems show it never comes out, or state divergence with it. *)

Inductive exc : Set :=
| OutOfFuel
| TypeError | KeyError | IndexError | ValueError | ZeroDivisionError
| OverflowError | NotImplementedError | NetworkXError
| MissingPandasException | AttributeError.

Inductive res (A : Type) : Type :=
| Ok (a : A)
| Err (e : exc).
Arguments Ok {A} a.
Arguments Err {A} e.

Definition bind {A B} (m : res A) (f : A -> res B) : res B :=
  match m with Ok a => f a | Err e => Err e end.

Notation "'let*' x := m 'in' k" := (bind m (fun x => k))
  (at level 200, x pattern, m at level 100, k at level 200, right associativity).

(** Code that mutates a state of type [S] and may raise; mutations made
    before the exception are kept, as in Python. *)
Definition sm (S A : Type) : Type := S -> S * res A.
Definition sret {S A} (a : A) : sm S A := fun s => (s, Ok a).
Definition sraise {S A} (e : exc) : sm S A := fun s => (s, Err e).
Definition sbind {S A B} (m : sm S A) (f : A -> sm S B) : sm S B :=
  fun s => match m s with
           | (s', Ok a) => f a s'
           | (s', Err e) => (s', Err e)
           end.
(** read-only computation / assignment of the whole state *)
Definition sread {S A} (f : S -> res A) : sm S A := fun s => (s, f s).
Definition smodify {S} (f : S -> S) : sm S unit := fun s => (f s, Ok tt).

Notation "'let!' x := m 'in' k" := (sbind m (fun x => k))
  (at level 200, x pattern, m at level 100, k at level 200, right associativity).

(** A Python [for] loop whose body updates a state and may raise. *)
Fixpoint foldM {A S} (f : S -> A -> res S) (l : list A) (s : S) : res S :=
  match l with
  | [] => Ok s
  | a :: l' => let* s' := f s a in foldM f l' s'
  end.

(** A comprehension whose element expression may raise. *)
Fixpoint mapM {A B} (f : A -> res B) (l : list A) : res (list B) :=
  match l with
  | [] => Ok []
  | a :: l' => let* b := f a in let* bs := mapM f l' in Ok (b :: bs)
  end.

(** A comprehension with an [if] clause that may raise. *)
Fixpoint filterM {A} (f : A -> res bool) (l : list A) : res (list A) :=
  match l with
  | [] => Ok []
  | a :: l' =>
      let* b := f a in
      let* l'' := filterM f l' in
      Ok (if b then a :: l'' else l'')
  end.

(** ** Hashable keys

    Node keys, attribute names and column names.  Python ints are
    unbounded; strings are byte strings (the byte order of UTF-8 is the code
    point order Python compares with); [KObj n] stands for any other hashable
    object, equal only to itself and not orderable (a frozenset, an instance
    of a user class...).  bools, floats, None and tuples as node keys
    are not modelled. *)
Inductive key : Set :=
| KInt (z : Z)
| KStr (s : string)
| KObj (n : nat).

Definition K (s : string) : key := KStr s.

Definition key_eqb (a b : key) : bool :=
  match a, b with
  | KInt x, KInt y => Z.eqb x y
  | KStr x, KStr y => String.eqb x y
  | KObj x, KObj y => Nat.eqb x y
  | _, _ => false
  end.

(** [a < b] in Python: TypeError unless both are ints or both are strs. *)
Definition key_lt (a b : key) : res bool :=
  match a, b with
  | KInt x, KInt y => Ok (Z.ltb x y)
  | KStr x, KStr y => Ok (String.ltb x y)
  | _, _ => Err TypeError
  end.

(** [a > b] in Python, i.e. [b < a] for these types. *)
Definition key_gt (a b : key) : res bool := key_lt b a.

Definition mem (k : key) (l : list key) : bool := existsb (key_eqb k) l.

(** ** Values

    [VKey] embeds ints, strs and opaque objects; floats are exact
    rationals (no rounding, NaN or infinities). *)
Inductive val : Set :=
| VNone
| VBool (b : bool)
| VFloat (q : Q)
| VKey (k : key).

Definition VInt (z : Z) : val := VKey (KInt z).
Definition VStr (s : string) : val := VKey (KStr s).

(** Numeric value of ints, floats and bools (a bool is an int in Python). *)
Definition num_of (v : val) : option Q :=
  match v with
  | VKey (KInt z) => Some (inject_Z z)
  | VFloat q => Some q
  | VBool true => Some (inject_Z 1)
  | VBool false => Some (inject_Z 0)
  | _ => None
  end.

(** Using a value in arithmetic: TypeError when it is not a number. *)
Definition num (v : val) : res Q :=
  match num_of v with Some q => Ok q | None => Err TypeError end.

Definition q_eqb (a b : Q) : bool := Qeq_bool a b.
Definition q_leb (a b : Q) : bool := Qle_bool a b.
Definition q_ltb (a b : Q) : bool := negb (Qle_bool b a).

(** Python's [==] on values: numbers compare numerically. *)
Definition val_eqb (a b : val) : bool :=
  match num_of a, num_of b with
  | Some x, Some y => q_eqb x y
  | None, None =>
      match a, b with
      | VNone, VNone => true
      | VKey x, VKey y => key_eqb x y
      | _, _ => false
      end
  | _, _ => false
  end.

(** ** Insertion-ordered dicts *)

Definition dict (A : Type) : Type := list (key * A).

Fixpoint dget {A} (k : key) (d : dict A) : option A :=
  match d with
  | [] => None
  | (k', v) :: d' => if key_eqb k k' then Some v else dget k d'
  end.

Definition dkeys {A} (d : dict A) : list key := map fst d.

Definition dmem {A} (k : key) (d : dict A) : bool := mem k (dkeys d).

(** [d[k] = v]: replaces in place, or appends. *)
Fixpoint dset {A} (k : key) (v : A) (d : dict A) : dict A :=
  match d with
  | [] => [(k, v)]
  | (k', v') :: d' => if key_eqb k k' then (k', v) :: d' else (k', v') :: dset k v d'
  end.

(** [d.update(e)] *)
Definition dupdate {A} (d e : dict A) : dict A :=
  fold_left (fun acc kv => dset (fst kv) (snd kv) acc) e d.

(** [{k: v for k, v in d.items() if k not in ks}] *)
Definition dremove {A} (ks : list key) (d : dict A) : dict A :=
  filter (fun kv => negb (mem (fst kv) ks)) d.

Definition attrs : Type := dict val.

(** Python's [==] on attribute dicts (order-insensitive). *)
Definition attrs_eqb (a b : attrs) : bool :=
  Nat.eqb (List.length a) (List.length b) &&
  forallb (fun kv => match dget (fst kv) b with
                     | Some v => val_eqb (snd kv) v
                     | None => false
                     end) a.

(** ** [f( **attr )]

    Passing a dict as keyword arguments raises TypeError when a name is not a
    string or is one of the callee's own positional parameters. *)
Definition is_str (k : key) : bool :=
  match k with KStr _ => true | _ => false end.

Definition kwargs_ok (reserved : list key) (a : attrs) : bool :=
  forallb (fun k => is_str k && negb (mem k reserved)) (dkeys a).
