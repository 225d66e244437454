(** * Specification of threshold learning *)
From Coq Require Import ZArith QArith.
From Verif Require Import PyBase PyNum NxGraph S_Partition S_Graph S_Sparse.
Close Scope Q_scope.

(** every edge has a number as weight *)
Definition all_weighted (g : graph) (attr : key) : Prop :=
  forall u v k a, edge_attrs g u v k = Some a -> stored_weight attr a <> None.

(** the edge has a weight of at least / at most [t] *)
Definition at_least (attr : key) (t : Q) (u v : key) (a : attrs) : bool :=
  match stored_weight attr a with Some w => Qle_bool t w | None => false end.
Definition at_most (attr : key) (t : Q) (u v : key) (a : attrs) : bool :=
  match stored_weight attr a with Some w => Qle_bool w t | None => false end.

(** keeping the edges satisfying [p] leaves a second component with at least [m] nodes *)
Definition drifts (g : graph) (p : key -> key -> attrs -> bool) (m : Z) : Prop :=
  exists sizes c, class_sizes (nodes g) (connected_by g p) sizes /\ second_greatest c sizes /\ (m <= Z.of_nat c)%Z.

(** [k] is the least number satisfying [P] *)
Definition least (P : nat -> Prop) (k : nat) : Prop := P k /\ forall j, j < k -> ~ P j.

(** the threshold after [k] steps of exact arithmetic *)
Definition after (start rate : Q) (k : nat) : Q := (start + inject_Z (Z.of_nat k) * rate)%Q.

(** the threshold after [k] steps of Python's addition *)
Definition reached (lib : libm) (start rate : pynum) (k : nat) : pynum := Nat.iter k (fun t => n_add lib t rate) start.

(** the edge has a weight of at least the threshold reached in [k] steps *)
Definition kept_at (lib : libm) (start rate : pynum) (attr : key) (k : nat) : key -> key -> attrs -> bool :=
  at_least attr (value (reached lib start rate k)).

(** [m] is [x] without its fractional part *)
Definition truncates (x : Q) (m : Z) : Prop :=
  ((0 <= x)%Q /\ (0 <= m)%Z /\ (inject_Z m <= x < inject_Z (m + 1))%Q) \/ ((x < 0)%Q /\ (m <= 0)%Z /\ (inject_Z (m - 1) < x <= inject_Z m)%Q).

(** the order from which a component drifts: given, or the logarithm of the order of the largest component *)
Definition drifter_limit (log : Q -> Q) (g : graph) (max_drifter_order : option Z) (m : Z) : Prop :=
  match max_drifter_order with
  | Some m' => m = m'
  | None => exists sizes n, class_sizes (nodes g) (connected g) sizes /\ greatest n sizes
                            /\ truncates (log (inject_Z (Z.of_nat n))) m
  end.
