(** * Model of pelote/learn.py

    Simplifications: the type checks of lines 65-68 (a networkx graph, a callable on_epoch) are left
    out; the epochs passed to on_epoch (lines 92-94) are collected in a list; callbacks which
    raise or change the graph are in M_Epoch. *)
From Coq Require Import ZArith QArith.
From Verif Require Import PyBase PyNum NxGraph M_Graph.
Close Scope Q_scope.

(** FloatsamEpoch, lines 16-18 *)
Record epoch : Set := mkEpoch { e_nth : nat; e_max_drifter_order : Z; e_drifter_order : option nat; e_threshold : pynum }.

(** edge_filter, lines 76-77, for the current value of [threshold]; comparing a weight which is not a
    number raises TypeError *)
Definition edge_filter (edge_weight_attr : key) (threshold : pynum) : edge_predicate := fun _ _ attr =>
  match dget edge_weight_attr attr with
  | None => Err KeyError
  | Some w => let* x := as_number w in Ok (n_leb threshold x)
  end.

(** [int(x)] of a float: truncation *)
Definition int_of (x : Q) : Z := Z.quot (Qnum x) (Zpos (Qden x)).

(** lines 79-80 *)
Definition drifter_order (lib : libm) (graph : graph) (max_drifter_order : option Z) : res Z :=
  match max_drifter_order with
  | Some m => Ok m
  | None =>
      let* o := largest_connected_component_order graph in
      let n := match o with Some (S n) => S n | _ => 1 end in
      Ok (int_of (m_log lib (inject_Z (Z.of_nat n))))
  end.

(** lines 84-99: the [while True] loop; [fuel] bounds the number of epochs *)
Fixpoint floatsam_loop (fuel : nat) (lib : libm) (graph : graph) (learning_rate : pynum) (max_drifter_order : Z) (edge_weight_attr : key)
  (n : nat) (threshold : pynum) : res (pynum * list epoch) :=
  match fuel with
  | O => Err OutOfFuel
  | S fuel' =>
      let n := S n in
      let best_threshold := threshold in
      let threshold := n_add lib threshold learning_rate in
      let* c := second_largest_connected_component_order graph (Some (edge_filter edge_weight_attr threshold)) in
      let e := mkEpoch n max_drifter_order c threshold in
      if match c with Some c => (max_drifter_order <=? Z.of_nat c)%Z | None => false end
      then Ok (best_threshold, [e])
      else
        let* r := floatsam_loop fuel' lib graph learning_rate max_drifter_order edge_weight_attr n threshold in
        Ok (fst r, e :: snd r)
  end.

(** floatsam_threshold_learner, lines 21-99 *)
Definition floatsam_threshold_learner (fuel : nat) (lib : libm) (graph : graph) (starting_threshold learning_rate : pynum)
  (max_drifter_order : option Z) (edge_weight_attr : key) : res (pynum * list epoch) :=
  if Nat.eqb (size graph) 0 then Ok (starting_threshold, [])
  else
    let* m := drifter_order lib graph max_drifter_order in
    floatsam_loop fuel lib graph learning_rate m edge_weight_attr 0 starting_threshold.
