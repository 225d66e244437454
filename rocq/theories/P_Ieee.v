(** * C93 the floats of the model are IEEE 754's *)
From Coq Require Import ZArith QArith Qabs Qpower.
From Verif Require Import PyBase PyNum S_Num S_Ieee L_Num L_Sqrt L_Ieee.
Local Open Scope Q_scope.

Theorem C93_floats x : representable round64 x <-> float64 x.
Proof. apply float64_representable. Qed.
Print Assumptions C93_floats.

(** rounding to nearest, ties to even *)
Theorem C93_round x r : rounds_to x r <-> r == round64 x.
Proof.
  split; [intros H; eapply rounds_to_unique; [exact H|apply round64_nearest]|].
  intros E. destruct (round64_nearest x) as [F B]. split; [apply (float64_proper (round64 x)); [symmetry; exact E|exact F]|].
  intros f Hf. destruct (B f Hf) as [L T]. assert (A : Qabs (r - x) == Qabs (round64 x - x)) by (rewrite E; reflexivity). rewrite A.
  split; [exact L|]. intros Q. destruct (T Q) as [W|W]; [left; rewrite E; exact W|right]. revert W. apply even_beside_proper; [symmetry; exact E|reflexivity].
Qed.
Print Assumptions C93_round.

(** the square root of a float, correctly rounded *)
Theorem C93_sqrt x r : float64 x -> 0 < x -> root_rounds_to x r <-> r == sqrt64 x.
Proof.
  intros F P. assert (N : root_rounds_to x (sqrt64 x)) by (apply sqrt64_nearest, float_least; [apply float64_representable; exact F|exact P]).
  split; [intros H; eapply root_rounds_to_unique; eassumption|].
  intros E. destruct N as (Fr & R0 & B). split; [apply (float64_proper (sqrt64 x)); [symmetry; exact E|exact Fr]|]. split; [rewrite E; exact R0|].
  intros f Hf F0. cbv zeta. rewrite E. exact (B f Hf F0).
Qed.
Print Assumptions C93_sqrt.

(** 0.1, 1 + 2^-53 and 1 + 3 * 2^-53, which are in the middle of two floats, and the root of 2 *)
Example C93_ex : float64 (3602879701896397 # 36028797018963968)
  /\ round64 (1 # 10) = 3602879701896397 # 36028797018963968
  /\ round64 (1 + (1 # 9007199254740992)) = 1 /\ round64 (1 + (3 # 9007199254740992)) = 2251799813685249 # 2251799813685248
  /\ sqrt64 2 = 6369051672525773 # 4503599627370496
  /\ sqrt64 (1 # 4) = 1 # 2.
Proof. split; [exists 3602879701896397%Z, (-55)%Z; split; [reflexivity|split; [discriminate|reflexivity]]|vm_compute; repeat split]. Qed.
