(** * IEEE 754's binary64 numbers *)
From Coq Require Import ZArith QArith Qabs Qpower.

(** a finite float: 53 significant bits and the least exponent; the greatest one is left out *)
Definition float64 (x : Q) : Prop := exists m e : Z, (Z.abs m < 2 ^ 53)%Z /\ (-1074 <= e)%Z /\ (x == inject_Z m * 2 ^ e)%Q.

(** [r] and [f] are consecutive floats with the same exponent, and the last bit of [r] is 0 *)
Definition even_beside (r f : Q) : Prop := exists m e : Z, (-1074 <= e)%Z /\ (Z.abs (2 * m) <= 2 ^ 53)%Z
  /\ (r == inject_Z (2 * m) * 2 ^ e)%Q /\ (f == inject_Z (2 * m + 1) * 2 ^ e \/ f == inject_Z (2 * m - 1) * 2 ^ e)%Q.

(** [r] is [x] rounded to nearest, ties to even *)
Definition rounds_to (x r : Q) : Prop := float64 r /\ forall f, float64 f ->
  (Qabs (r - x) <= Qabs (f - x))%Q /\ ((Qabs (r - x) == Qabs (f - x))%Q -> r == f \/ even_beside r f)%Q.

(** no float is nearer the square root of [x] than [r]: the root is on [r]'s side of the middle of [r] and any other *)
Definition root_rounds_to (x r : Q) : Prop := float64 r /\ (0 <= r)%Q /\ forall f, float64 f -> (0 <= f)%Q ->
  let m := ((f + r) / 2)%Q in ((f < r -> m * m <= x) /\ (r < f -> x <= m * m))%Q.
