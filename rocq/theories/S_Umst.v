(** * Specification of maximum spanning forests

    [E] lists weighted edges (end, end, weight); a set of edges is a list of positions in [E], so that
    parallel edges are told apart.  Nothing here refers to the model. *)
From Coq Require Import List ZArith QArith Relations Permutation Sorting.Sorted.
From Verif Require Import PyBase PyNum S_Num S_Partition.
Import ListNotations.

Section Forests.
  Context (E : list (key * key * Q)).

  Definition edge_at (i : nat) : key * key := fst (nth i E (KInt 0, KInt 0, 0%Q)).
  Definition weight_at (i : nat) : Q := snd (nth i E (KInt 0, KInt 0, 0%Q)).

  Definition joined (T : list nat) : key -> key -> Prop := closure (map edge_at T).

  Definition without (i : nat) (T : list nat) : list nat := filter (fun j => negb (Nat.eqb j i)) T.

  (** some of the edges, without cycle, connecting what can be connected *)
  Record spanning_forest (T : list nat) : Prop := {
    sf_nodup : NoDup T;
    sf_edges : forall i, In i T -> i < List.length E;
    sf_acyclic : forall i, In i T -> ~ joined (without i T) (fst (edge_at i)) (snd (edge_at i));
    sf_spanning : forall x y, closure (map fst E) x y -> joined T x y
  }.

  Definition total_weight (T : list nat) : Q := fold_right Qplus 0%Q (map weight_at T).

  Definition maximum_spanning_forest (T : list nat) : Prop :=
    spanning_forest T /\ forall T', spanning_forest T' -> (total_weight T' <= total_weight T)%Q.

  (** [i] belongs to some maximum spanning forest *)
  Definition in_some_msf (i : nat) : Prop := exists T, maximum_spanning_forest T /\ In i T.

  (** Weights are compared by subtracting floats, rounded by [rnd]: [c] is above [x] by more than 1e-8. *)
  Definition far_below (rnd : Q -> Q) (c x : Q) : Prop := (rnd (1 # 100000000) < rnd (c - x))%Q.

  (** two weights are equal or far apart *)
  Definition separated (rnd : Q -> Q) : Prop := forall i j, i < List.length E -> j < List.length E ->
    (weight_at j < weight_at i)%Q -> far_below rnd (weight_at i) (weight_at j).

  (** Weights grouped in buckets: the greatest weight starts the first one, and the greatest weight
      far below the start of a bucket starts the next one. *)
  Inductive bucket_start (rnd : Q -> Q) : Q -> Prop :=
  | first_start i : i < List.length E -> (forall j, j < List.length E -> (weight_at j <= weight_at i)%Q) ->
      bucket_start rnd (weight_at i)
  | next_start c i : bucket_start rnd c -> i < List.length E -> far_below rnd c (weight_at i) ->
      (forall j, j < List.length E -> far_below rnd c (weight_at j) -> (weight_at j <= weight_at i)%Q) ->
      bucket_start rnd (weight_at i).

  (** the edges of weight greater than [c] *)
  Definition above (c : Q) : list nat :=
    filter (fun j => negb (Qle_bool (weight_at j) c)) (seq 0 (List.length E)).
End Forests.

(** weight of an edge from its attributes: the number stored under [attr], 1 by default *)
Definition edge_weight (attr : key) (a : attrs) : option Q :=
  match dget attr a with None => Some 1%Q | Some v => num_of v end.

(** the same as a Python number *)
Definition edge_number (attr : key) (a : attrs) : option pynum :=
  match dget attr a with None => Some (NInt 1) | Some v => pynum_of v end.

Definition edge_numbers (attr : key) (es : list (key * key * attrs)) (ws : list pynum) : Prop :=
  Forall2 (fun e n => edge_number attr (snd e) = Some n) es ws.

(** the weights are all ints, or all floats and ints which are floats too *)
Definition alike (lib : libm) (attr : key) (es : list (key * key * attrs)) : Prop :=
  (forall e, In e es -> exists z, edge_number attr (snd e) = Some (NInt z))
  \/ (forall e n, In e es -> edge_number attr (snd e) = Some n -> representable (m_round lib) (value n)).

(** a rounding for which 1e-8 is less than 1 *)
Definition fine (lib : libm) : Prop := rounding (m_round lib) /\ (m_round lib (1 # 100000000) < 1)%Q.

(** ** Any numbers

    [ws] are numbers; positions are compared by the numbers there. *)
Section Cut.
  Context (lib : libm) (ws : list pynum).

  Definition number_at (i : nat) : pynum := nth i ws (NInt 0).

  (** what Python answers to [ws[i] - ws[j] > 1e-8] *)
  Definition python_far (i j : nat) : bool :=
    n_ltb (NFloat (m_round lib (1 # 100000000))) (n_sub lib (number_at i) (number_at j)).

  (** heavier first, and in the order of positions between equals *)
  Definition precedes (i j : nat) : Prop :=
    (value (number_at j) < value (number_at i))%Q \/ ((value (number_at i) == value (number_at j))%Q /\ i < j).

  (** the positions, sorted so *)
  Definition sorted_positions (p : list nat) : Prop :=
    Permutation (seq 0 (List.length ws)) p /\ StronglySorted precedes p.

  (** a list of positions cut in buckets, [h :: b] being the first ones of the current bucket *)
  Fixpoint bucket_list (h : nat) (b l : list nat) : list (list nat) :=
    match l with
    | [] => [h :: b]
    | i :: l' => if python_far h i then (h :: b) :: bucket_list i [] l' else bucket_list h (b ++ [i]) l'
    end.
  Definition buckets (l : list nat) : list (list nat) :=
    match l with [] => [] | h :: l' => bucket_list h [] l' end.
End Cut.

(** [E] lists the given edges with their weights *)
Definition weighted_edges (attr : key) (es : list (key * key * attrs)) (E : list (key * key * Q)) : Prop :=
  Forall2 (fun e x => fst e = fst x /\ edge_weight attr (snd e) = Some (snd x)) es E.

(** the elements of [es] at the given positions *)
Definition at_positions (es : list (key * key * attrs)) (sel : list nat) : list (key * key * attrs) :=
  map (fun i => nth i es (KInt 0, KInt 0, [])) sel.
