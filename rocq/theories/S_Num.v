(** * What is asked from a rounding of floats *)
From Coq Require Import QArith.
From Verif Require Import PyBase PyNum.
Close Scope Q_scope.

(** the order is kept, rounded numbers are left alone, and 0 and 1 are floats *)
Record rounding (rnd : Q -> Q) : Prop := {
  rnd_le : forall x y, (x <= y)%Q -> (rnd x <= rnd y)%Q;
  rnd_rnd : forall x, (rnd (rnd x) == rnd x)%Q;
  rnd_0 : (rnd 0 == 0)%Q;
  rnd_1 : (rnd 1 == 1)%Q
}.

(** [x] is a float *)
Definition representable (rnd : Q -> Q) (x : Q) : Prop := (rnd x == x)%Q.

(** floats with a sound rounding and powers which keep [0, 1] and only depend on the number *)
Definition sound (lib : libm) : Prop :=
  rounding (m_round lib)
  /\ (forall x n, (0 <= x <= 1)%Q -> (0 <= n)%Z -> (0 <= m_pow lib x n <= 1)%Q)
  /\ (forall x y n, (x == y)%Q -> (m_pow lib x n == m_pow lib y n)%Q).

(** a value of a Python program: if it is a float, a representable one *)
Definition float_ok (lib : libm) (v : val) : Prop := forall q, v = VFloat q -> representable (m_round lib) q.
