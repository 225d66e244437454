(** * Python's arithmetic on ints and floats

    Model file: definitions only.  Ints are exact.  A float is a rational; every float operation
    is the exact operation followed by [m_round], a parameter of the model: the identity for exact
    arithmetic, [round64] below for IEEE binary64.  Not modelled: NaN, infinities and overflow
    (OverflowError when converting a huge int), the sign of zero. *)
From Coq Require Import ZArith QArith Qround Qpower.
From Verif Require Import PyBase.
Close Scope Q_scope.

(** rounding of floats, [float ** int] and the functions of the math module which are used *)
Record libm : Type := mkLib { m_round : Q -> Q; m_pow : Q -> Z -> Q; m_sqrt : Q -> Q; m_log : Q -> Q }.

Inductive pynum : Set := NInt (z : Z) | NFloat (q : Q).

Definition value (n : pynum) : Q := match n with NInt z => inject_Z z | NFloat q => q end.

(** the number held by a value; a bool is an int in Python *)
Definition pynum_of (v : val) : option pynum :=
  match v with
  | VKey (KInt z) => Some (NInt z)
  | VFloat q => Some (NFloat q)
  | VBool true => Some (NInt 1)
  | VBool false => Some (NInt 0)
  | _ => None
  end.

(** using a value in arithmetic: TypeError when it is not a number *)
Definition as_number (v : val) : res pynum :=
  match pynum_of v with Some n => Ok n | None => Err TypeError end.

Definition val_of (n : pynum) : val := match n with NInt z => VInt z | NFloat q => VFloat q end.

(** [float(n)] *)
Definition to_float (lib : libm) (n : pynum) : Q :=
  match n with NInt z => m_round lib (inject_Z z) | NFloat q => q end.

(** [a + b], [a - b] and [a * b]: exact on two ints, else on floats *)
Definition n_add (lib : libm) (a b : pynum) : pynum :=
  match a, b with
  | NInt x, NInt y => NInt (x + y)
  | _, _ => NFloat (m_round lib (to_float lib a + to_float lib b))
  end.
Definition n_sub (lib : libm) (a b : pynum) : pynum :=
  match a, b with
  | NInt x, NInt y => NInt (x - y)
  | _, _ => NFloat (m_round lib (to_float lib a - to_float lib b))
  end.
Definition n_mul (lib : libm) (a b : pynum) : pynum :=
  match a, b with
  | NInt x, NInt y => NInt (x * y)
  | _, _ => NFloat (m_round lib (to_float lib a * to_float lib b))
  end.

(** [a / b]: the quotient of two ints is rounded once *)
Definition n_div (lib : libm) (a b : pynum) : res Q :=
  if q_eqb (value b) 0 then Err ZeroDivisionError
  else Ok (m_round lib match a, b with
                       | NInt x, NInt y => inject_Z x / inject_Z y
                       | _, _ => to_float lib a / to_float lib b
                       end)%Q.

(** comparisons between ints and floats are exact in Python *)
Definition n_ltb (a b : pynum) : bool := q_ltb (value a) (value b).
Definition n_leb (a b : pynum) : bool := q_leb (value a) (value b).

(** [min(a, b)] and [max(a, b)]: the first unless the second is strictly better *)
Definition n_min (a b : pynum) : pynum := if n_ltb b a then b else a.

(** ** IEEE binary64, round to nearest, ties to even (no overflow) *)

(** the nearest integer, the even one when there are two *)
Definition nearest (x : Q) : Z :=
  match Qcompare (x - inject_Z (Qfloor x)) (1 # 2) with
  | Lt => Qfloor x
  | Gt => Qfloor x + 1
  | Eq => if Z.even (Qfloor x) then Qfloor x else Qfloor x + 1
  end%Z.

(** [e] such that 2^e <= x < 2^(e + 1), for a positive [x] *)
Definition magnitude (x : Q) : Z :=
  let n := Qnum x in
  let d := Zpos (Qden x) in
  let e := (Z.log2 n - Z.log2 d)%Z in
  if (if (e <? 0)%Z then (d <=? n * 2 ^ (- e))%Z else (2 ^ e * d <=? n)%Z) then e else (e - 1)%Z.

(** [k] such that the floats around [x] are the multiples of 2^(k - 1074): 53 significant bits *)
Definition scale (x : Q) : Z := if q_ltb 0 x then Z.max 0 (magnitude x + 1074 - 52) else 0.
Definition unit_of (k : Z) : Q := if (k <? 1074)%Z then (1 # Z.to_pos (2 ^ (1074 - k)))%Q else inject_Z (2 ^ (k - 1074)).

Definition round64 (x : Q) : Q :=
  let y := if q_ltb x 0 then (- x)%Q else x in
  let u := unit_of (scale y) in
  let r := Qred (inject_Z (nearest (y / u)) * u)%Q in
  if q_ltb x 0 then (- r)%Q else r.

(** the square root, correctly rounded as IEEE 754 asks: with [s] of more than 120 bits, the root can be
    replaced with the middle of the interval ]s, s + 1[ * 2^-j in which it lies, as the rounding of
    the numbers in this interval is the same when [x] is a float.  Only used for positive numbers: the norms. *)
Definition sqrt64 (x : Q) : Q :=
  if q_ltb 0 x then
    let j := Z.max 0 (128 - magnitude x / 2) in
    let n := Qfloor (x * inject_Z (2 ^ (2 * j))) in
    let s := Z.sqrt n in
    if q_eqb (inject_Z (s * s)) (x * inject_Z (2 ^ (2 * j)))
    then round64 (inject_Z s / inject_Z (2 ^ j))
    else round64 (inject_Z (2 * s + 1) / inject_Z (2 ^ (j + 1)))
  else 0%Q.

(** binary64 with correctly rounded powers; no statement depends on this logarithm *)
Definition lib64 : libm := mkLib round64 (fun x n => round64 (x ^ n)) sqrt64 (fun x => x).

(** exact arithmetic *)
Definition exact (lib : libm) : Prop := (forall x, m_round lib x = x) /\ (forall x n, m_pow lib x n = (x ^ n)%Q).
