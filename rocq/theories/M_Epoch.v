(** * Model of pelote/learn.py with the calls of on_epoch

    The callback is a function of the user's: it has a state of its own, it can change the graph, which it shares with the
    learner, and it can raise. *)
From Coq Require Import ZArith QArith.
From Verif Require Import PyBase PyNum NxGraph M_Graph M_Learn.
Close Scope Q_scope.

Section Callback.
Variable U : Type.

(** on_epoch(epoch), line 94 *)
Definition callback : Type := epoch -> sm (graph * U) unit.

(** lines 92-94 *)
Definition tell (on_epoch : option callback) (e : epoch) : sm (graph * U) unit :=
  match on_epoch with None => sret tt | Some f => f e end.

(** lines 84-99; [fuel] bounds the number of epochs *)
Fixpoint observed_loop (fuel : nat) (lib : libm) (learning_rate : pynum) (max_drifter_order : Z) (edge_weight_attr : key)
  (on_epoch : option callback) (n : nat) (threshold : pynum) : sm (graph * U) pynum :=
  match fuel with
  | O => sraise OutOfFuel
  | S fuel' =>
      let n := S n in
      let best_threshold := threshold in
      let threshold := n_add lib threshold learning_rate in
      let! c := sread (fun s => second_largest_connected_component_order (fst s) (Some (edge_filter edge_weight_attr threshold))) in
      let! _ := tell on_epoch (mkEpoch n max_drifter_order c threshold) in
      if match c with Some c => (max_drifter_order <=? Z.of_nat c)%Z | None => false end
      then sret best_threshold
      else observed_loop fuel' lib learning_rate max_drifter_order edge_weight_attr on_epoch n threshold
  end.

(** lines 70-99 *)
Definition observed_learner (fuel : nat) (lib : libm) (starting_threshold learning_rate : pynum) (max_drifter_order : option Z)
  (edge_weight_attr : key) (on_epoch : option callback) : sm (graph * U) pynum :=
  let! edges := sread (fun s => Ok (size (fst s))) in
  if Nat.eqb edges 0 then sret starting_threshold
  else
    let! m := sread (fun s => drifter_order lib (fst s) max_drifter_order) in
    observed_loop fuel lib learning_rate m edge_weight_attr on_epoch 0 starting_threshold.
End Callback.
Arguments tell {U}.
Arguments observed_loop {U}.
Arguments observed_learner {U}.
