(** * Floats below the greatest ones *)
From Coq Require Import ZArith QArith Qabs.
From Verif Require Import PyBase PyNum NxGraph.

(** Python's floats end before 2^1024; half of this *)
Definition big : Q := inject_Z (2 ^ 1023).

(** [lib'] gives the floats of [lib] as long as the exact result is at most [big]; above, where Python has infinities and
    OverflowError, it is any function.  A program which gives the same result with all these libraries does not use what
    floats are above [big].  An exception raised by a number which is not used afterwards is not represented. *)
Record agree (lib lib' : libm) : Prop := {
  agree_round : forall x, (Qabs x <= big)%Q -> m_round lib' x = m_round lib x;
  agree_pow : forall x n, (0 <= x <= 1)%Q -> (0 <= n)%Z -> m_pow lib' x n = m_pow lib x n;
  agree_sqrt : forall x, (0 <= x <= big)%Q -> m_sqrt lib' x = m_sqrt lib x;
  agree_log : forall x, (0 < x <= big)%Q -> m_log lib' x = m_log lib x
}.

(** the weights which are numbers are at most 2^k in absolute value *)
Definition weights_below (k : Z) (attr : key) (g : graph) : Prop :=
  forall u v i a w q, edge_attrs g u v i = Some a -> dget attr a = Some w -> num_of w = Some q -> (Qabs q <= inject_Z (2 ^ k))%Q.

(** and those which are not 0 at least 2^-k *)
Definition weights_above (k : Z) (attr : key) (g : graph) : Prop :=
  forall u v i a w q, edge_attrs g u v i = Some a -> dget attr a = Some w -> num_of w = Some q -> (q == 0)%Q \/ (1 / inject_Z (2 ^ k) <= Qabs q)%Q.
