(** * A table projected on one of its columns (C102) *)
From Coq Require Import List ZArith.
From Verif Require Import PyBase PyNum NxGraph M_Tabular S_Tabular.
Import ListNotations.

(** values which are not [==] to those before *)
Fixpoint distinct (l : list val) : list val :=
  match l with
  | [] => []
  | x :: l' => x :: filter (fun y => negb (val_eqb x y)) (distinct l')
  end.

(** the values of the second column which are in a row with [a] and in a row with [a'] *)
Definition together (a a' : val) (cells : list (val * val)) : list val :=
  filter (fun b => (0 <? rows_with a b cells) && (0 <? rows_with a' b cells)) (distinct (map snd cells)).

(** for each value of the second column, the rows with [a] times the rows with [a'] *)
Definition products (a a' : val) (cells : list (val * val)) : Z :=
  sum_Z (map (fun b => Z.of_nat (rows_with a b cells) * Z.of_nat (rows_with a' b cells))%Z (distinct (map snd cells))).

(** data of rows which do not touch the attribute of parts *)
Definition leaves (spec : option data_spec) (part : key) : Prop := forall r a, collected spec r a -> dget part a = None.
