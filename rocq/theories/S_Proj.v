(** * Specifications for pelote/projection.py *)
From Coq Require Import QArith Qminmax.
From Verif Require Import PyBase PyNum S_Num NxGraph S_Partition S_Sparse M_Proj.
Close Scope Q_scope.

(** the node, with its attributes, belongs to the part: its attribute equals the given value (a missing attribute
    counts as None), or it is in the given collection *)
Definition keeps (p : part) (attr n : key) (a : attrs) : Prop :=
  match p with
  | ByValue v => (exists w, dget attr a = Some w /\ val_eqb w v = true) \/ (dget attr a = None /\ v = VNone)
  | ByCollection _ l => In n l
  end.

Definition kept (g : graph) (p : part) (attr n : key) : Prop :=
  exists a, node_data g n = Some a /\ keeps p attr n a.

(** every edge has exactly one end in the part *)
Definition bipartite (g : graph) (p : part) (attr : key) : Prop :=
  forall u v, has_edge g u v = true -> (kept g p attr u <-> ~ kept g p attr v).

(** [t] is a neighbour of both *)
Definition shared (g : graph) (u v t : key) : Prop := has_edge g u t = true /\ has_edge g v t = true.

(** the weight of an edge, 1 when not given; 0 without edge *)
Definition bond (attr : key) (g : graph) (u t : key) : Q :=
  match edge_attrs g u t (KInt 0) with
  | Some a => match dget attr a with
              | Some v => match num_of v with Some q => q | None => 0%Q end
              | None => 1%Q
              end
  | None => 0%Q
  end.

(** scalar product of the rows of [u] and [v] in the weighted adjacency matrix *)
Definition scalar (attr : key) (g : graph) (u v : key) : Q :=
  sum_q (map (fun t => bond attr g u t * bond attr g v t)%Q (nodes g)).

Definition nq (n : nat) : Q := inject_Z (Z.of_nat n).

(** the numbers of neighbours of [u], of [v] and of both *)
Definition neighbourhood_sizes (g : graph) (u v : key) (a b i : nat) : Prop :=
  has_size (fun t => has_edge g u t = true) a /\ has_size (fun t => has_edge g v t = true) b /\ has_size (shared g u v) i.

(** [math.sqrt] of a number, converted to float *)
Definition root (lib : libm) (x : Q) : Q := m_sqrt lib (m_round lib x).

(** [x] is the similarity of [u] and [v] according to the metric; quotients are rounded, and so are the products
    of square roots *)
Definition similarity (lib : libm) (m : metric) (attr : key) (g : graph) (u v : key) (x : Q) : Prop :=
  let rnd := m_round lib in
  match m with
  | DotProduct => (x == scalar attr g u v)%Q
  | Cosine => (x == rnd (rnd (scalar attr g u v) / rnd (root lib (scalar attr g u u) * root lib (scalar attr g v v))))%Q
  | Jaccard => exists i n, has_size (shared g u v) i
                 /\ has_size (fun t => has_edge g u t = true \/ has_edge g v t = true) n /\ (x == rnd (nq i / nq n))%Q
  | _ => exists a b i, neighbourhood_sizes g u v a b i /\
           (x == match m with
                 | Overlap => rnd (nq i / Qmin (nq a) (nq b))
                 | Dice => rnd (2 * nq i / (nq a + nq b))
                 | BinaryCosine => rnd (rnd (nq i) / rnd (root lib (nq a) * root lib (nq b)))
                 | PMI => m_log lib (rnd (nq i / (nq a * nq b)))
                 | _ => nq i
                 end)%Q
  end.

(** the weight of an edge, as the number Python computes with *)
Definition bond_number (attr : key) (g : graph) (u t : key) : pynum :=
  match edge_attrs g u t (KInt 0) with
  | Some a => match dget attr a with
              | Some v => match pynum_of v with Some n => n | None => NInt 0 end
              | None => NInt 1
              end
  | None => NInt 0
  end.

(** [s] is the scalar product as Python computes it: from 0, the products of the weights are added one by one, the common
    neighbours being taken in some order *)
Definition python_scalar (lib : libm) (attr : key) (g : graph) (u v : key) (s : pynum) : Prop :=
  exists l, NoDup l /\ (forall t, In t l <-> shared g u v t)
    /\ s = fold_left (n_add lib) (map (fun t => n_mul lib (bond_number attr g u t) (bond_number attr g v t)) l) (NInt 0).

(** [x] is the similarity of [u] and [v] according to the metric, sums of float weights being rounded too *)
Definition python_similarity (lib : libm) (m : metric) (attr : key) (g : graph) (u v : key) (x : Q) : Prop :=
  let rnd := m_round lib in
  match m with
  | DotProduct => exists s, python_scalar lib attr g u v s /\ x = value s
  | Cosine => exists s a b, python_scalar lib attr g u v s /\ python_scalar lib attr g u u a /\ python_scalar lib attr g v v b
                /\ (x == rnd (to_float lib s / rnd (m_sqrt lib (to_float lib a) * m_sqrt lib (to_float lib b))))%Q
  | _ => similarity lib m attr g u v x
  end.

(** [w] is the number [x]: counts are ints, quotients are floats, dot products depend on the weights *)
Definition stored_as (m : metric) (w : val) (x : Q) : Prop :=
  match m with
  | Intersection => exists z, w = VInt z /\ x = inject_Z z
  | DotProduct => num_of w = Some x
  | _ => w = VFloat x
  end.

(** what is asked from the rounding, the square root and the logarithm: equal numbers give equal results, the square
    root of a positive float is positive, and at least 1 when the float is *)
Definition lib_ok (lib : libm) : Prop :=
  rounding (m_round lib)
  /\ (forall x y, (x == y)%Q -> (m_sqrt lib x == m_sqrt lib y)%Q)
  /\ (forall x y, (x == y)%Q -> (m_log lib x == m_log lib y)%Q)
  /\ (forall x, representable (m_round lib) x -> (0 < x)%Q -> (0 < m_sqrt lib x)%Q)
  /\ (forall x, representable (m_round lib) x -> (1 <= x)%Q -> (1 <= m_sqrt lib x)%Q).

(** floats are binary64 numbers, with [math.sqrt] correctly rounded; nothing is known of [math.log] *)
Definition binary64 (lib : libm) : Prop :=
  (forall x, m_round lib x = round64 x) /\ (forall x, m_sqrt lib x = sqrt64 x)
  /\ (forall x y, (x == y)%Q -> (m_log lib x == m_log lib y)%Q).

(** weights, when given, are numbers *)
Definition numeric (attr : key) (g : graph) : Prop :=
  forall u v a w, edge_attrs g u v (KInt 0) = Some a -> dget attr a = Some w -> num_of w <> None.

(** metrics which read the weights *)
Definition weighted (m : metric) : bool := match m with DotProduct | Cosine => true | _ => false end.

(** the metric obtained when all the weights are 1 *)
Definition without_weights (m : metric) : metric := match m with DotProduct => Intersection | Cosine => BinaryCosine | _ => m end.

(** no edge has the given key *)
Definition no_edge_key (g : graph) (k : key) : Prop := forall u v a, edge_attrs g u v k <> Some a.

(** sums of products of weights are not rounded: floats are exact, or the weights are ints *)
Definition exact_sums (lib : libm) (attr : key) (g : graph) : Prop :=
  exact lib
  \/ forall u v a w, edge_attrs g u v (KInt 0) = Some a -> dget attr a = Some w -> exists z, pynum_of w = Some (NInt z).

(** ** breadth-first search *)

(** there is an arrow from [u] to [v], or from [v] to [u] when reading against the arrows *)
Definition arrow (g : graph) (reverse : bool) (u v : key) : Prop :=
  if reverse then has_edge g v u = true else has_edge g u v = true.

(** there is a path with [n] arrows from [u] to [v] *)
Fixpoint reaches (g : graph) (reverse : bool) (n : nat) (u v : key) : Prop :=
  match n with
  | O => u = v
  | S n => exists w, reaches g reverse n u w /\ arrow g reverse w v
  end.

(** the shortest path from [u] to [v] has [n] arrows *)
Definition distance (g : graph) (reverse : bool) (u v : key) (n : nat) : Prop :=
  reaches g reverse n u v /\ forall m, m < n -> ~ reaches g reverse m u v.

(** ** self similarity *)

(** the (direction, distance, node) triples seen from [u] within [out] arrows forwards and [inn] backwards *)
Definition view (g : graph) (u : key) (out inn : Z) (t : bool * Z * key) : Prop :=
  let '(fwd, d, x) := t in
  exists n, d = Z.of_nat n /\ (1 <= n)%nat /\ (d <= if fwd then out else inn)%Z /\ distance g (negb fwd) u x n.

(** the triples which are links between [u] and [v] themselves *)
Definition mutual (u v : key) (t : bool * Z * key) : Prop := snd (fst t) = 1%Z /\ (snd t = u \/ snd t = v).

(** the accepted names of metrics *)
Definition metric_names : list (val * metric) :=
  [(VNone, Intersection); (VStr "jaccard", Jaccard); (VStr "overlap", Overlap); (VStr "cosine", Cosine);
   (VStr "dice", Dice); (VStr "binary_cosine", BinaryCosine); (VStr "dot_product", DotProduct); (VStr "pmi", PMI)].

(** nodes of the part can be compared by Python *)
Definition comparable_part (g : graph) (p : part) (attr : key) : Prop :=
  (forall n, kept g p attr n -> exists z, n = KInt z) \/ (forall n, kept g p attr n -> exists s, n = KStr s).

(** the attributes of the kept nodes can be given to add_node *)
Definition part_names (g : graph) (p : part) (attr : key) : Prop :=
  forall n a k, node_data g n = Some a -> keeps p attr n a -> In k (dkeys a) -> k <> attr ->
    (exists s, k = KStr s) /\ ~ In k node_reserved.

(** no edge has the value of the part under the name of the part attribute *)
Definition unmarked (g : graph) (p : part) (attr : key) : Prop :=
  forall v, p = ByValue v -> forall u t a, kept g p attr u -> edge_attrs g u t (KInt 0) = Some a -> ~ keeps p attr u a.

(** collections which are not hashable, or values of the attribute *)
Definition usable (p : part) : bool := match p with ByCollection true _ => false | _ => true end.

(** [t] is between [u] and [v] in a directed graph *)
Definition between (g : graph) (u v t : key) : Prop := has_edge g u t = true /\ has_edge g t v = true.

(** a path of two arrows from a node of the part to a larger one, which no arrow leaves *)
Definition dead_end (g : graph) (p : part) (attr : key) : Prop :=
  exists u v t, kept g p attr u /\ between g u v t /\ key_lt u v = Ok true /\ forall s, has_edge g v s = false.

(** the norm of the node is positive: an edge leaves it and, for cosines, the square of some weight does not round to 0 *)
Definition live (lib : libm) (m : metric) (attr : key) (g : graph) (u : key) : Prop :=
  exists t, has_edge g u t = true
  /\ (m = Cosine -> 0 < value (n_mul lib (bond_number attr g u t) (bond_number attr g u t)))%Q.

(** Python can compare the live nodes of the part with those two edges away *)
Definition comparable_pairs (lib : libm) (m : metric) (g : graph) (p : part) (attr wattr : key) : Prop :=
  forall u v t, kept g p attr u -> live lib m wattr g u -> between g u v t -> u <> v -> exists b, key_lt u v = Ok b.

(** a path of two arrows from a live node of the part to a larger one which is not *)
Definition blocked (lib : libm) (m : metric) (g : graph) (p : part) (attr wattr : key) : Prop :=
  exists u v t, kept g p attr u /\ live lib m wattr g u /\ between g u v t /\ key_lt u v = Ok true /\ ~ live lib m wattr g v.

(** the sum of the products of the weights along the paths of two arrows, as Python computes it, in some order *)
Definition paths_scalar (lib : libm) (attr : key) (g : graph) (u v : key) (s : pynum) : Prop :=
  exists l, NoDup l /\ (forall t, In t l <-> between g u v t)
    /\ s = fold_left (n_add lib) (map (fun t => n_mul lib (bond_number attr g u t) (bond_number attr g t v)) l) (NInt 0).

(** [x] is the similarity of [u] and [v]: the metric, with the paths of two arrows from [u] to [v] in place of the
    common neighbours and the arrows leaving [u] and [v] in place of their neighbours *)
Definition paths_similarity (lib : libm) (m : metric) (attr : key) (g : graph) (u v : key) (x : Q) : Prop :=
  let rnd := m_round lib in
  match m with
  | DotProduct => exists s, paths_scalar lib attr g u v s /\ x = value s
  | Cosine => exists s a b, paths_scalar lib attr g u v s /\ python_scalar lib attr g u u a /\ python_scalar lib attr g v v b
                /\ (x == rnd (to_float lib s / rnd (m_sqrt lib (to_float lib a) * m_sqrt lib (to_float lib b))))%Q
  | _ => exists a b i, has_size (fun t => has_edge g u t = true) a /\ has_size (fun t => has_edge g v t = true) b
           /\ has_size (between g u v) i /\
           (x == match m with
                 | Jaccard => rnd (nq i / (nq a + nq b - nq i))
                 | Overlap => rnd (nq i / Qmin (nq a) (nq b))
                 | Dice => rnd (2 * nq i / (nq a + nq b))
                 | BinaryCosine => rnd (rnd (nq i) / rnd (root lib (nq a) * root lib (nq b)))
                 | PMI => m_log lib (rnd (nq i / (nq a * nq b)))
                 | _ => nq i
                 end)%Q
  end.

(** metrics which count neighbours and divide *)
Definition counting (m : metric) : bool := match m with Intersection | Jaccard | Overlap | Dice | BinaryCosine => true | _ => false end.

(** the number of arrows of the longest of the shortest paths from [u] with at most [r] arrows, or [r] when
    there are none *)
Definition deepest (g : graph) (reverse : bool) (u : key) (r r' : Z) : Prop :=
  (r' = r /\ forall n x, distance g reverse u x n -> (1 <= Z.of_nat n <= r)%Z -> False)
  \/ ((1 <= r' <= r)%Z /\ (exists x n, r' = Z.of_nat n /\ distance g reverse u x n)
      /\ forall n x, distance g reverse u x n -> (Z.of_nat n <= r)%Z -> (Z.of_nat n <= r')%Z).

(** the radii which are actually used, forwards and backwards, when the nodes are handled in the given order *)
Fixpoint radii (g : graph) (d : Z) (ns : list key) (out inn : key -> Z) : Prop :=
  match ns with
  | [] => True
  | n :: ns => out n = d /\ deepest g false n d (inn n) /\ exists d', deepest g true n (inn n) d' /\ radii g d' ns out inn
  end.

(** a node which can go anywhere can go exactly as far as [d] *)
Definition full (g : graph) (d : Z) : Prop :=
  forall reverse u x n, distance g reverse u x n -> 1 <= n -> exists y k, d = Z.of_nat k /\ distance g reverse u y k.
