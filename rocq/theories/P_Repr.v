(** * C112: what repr says of a UnionFind *)
From Coq Require Import List ZArith Lia Bool String Ascii DecimalString Decimal.
From Verif Require Import PyBase S_Partition L_Base M_UnionFind S_UnionFind L_UnionFind L_UnionFind2 S_Json L_Json P_UnionFind M_Repr.
Import ListNotations.

(** a string without the character [c] *)
Fixpoint free_of (c : ascii) (s : string) : bool :=
  match s with EmptyString => true | String d s' => negb (Ascii.eqb d c) && free_of c s' end.

Lemma split_at c s : forall s' r r', free_of c s = true -> free_of c s' = true -> (s ++ String c r = s' ++ String c r')%string -> s = s' /\ r = r'.
Proof.
  induction s as [|d s IH]; intros [|d' s'] r r' F F' E; cbn in *.
  - inversion E. auto.
  - inversion E; subst. rewrite Ascii.eqb_refl in F'. discriminate.
  - inversion E; subst. rewrite Ascii.eqb_refl in F. discriminate.
  - apply andb_prop in F as (_ & F). apply andb_prop in F' as (_ & F'). inversion E as [[A B]]; subst. destruct (IH s' r r' F F' B). subst. auto.
Qed.
Lemma digits_free c u : (forall d, In d ["0"; "1"; "2"; "3"; "4"; "5"; "6"; "7"; "8"; "9"]%char -> Ascii.eqb d c = false) -> free_of c (NilEmpty.string_of_uint u) = true.
Proof. intros H. induction u; cbn [NilEmpty.string_of_uint free_of]; [reflexivity|..]; rewrite IHu, H by (cbn; tauto); reflexivity. Qed.
Lemma int_free c z : (forall d, In d ["0"; "1"; "2"; "3"; "4"; "5"; "6"; "7"; "8"; "9"; "-"]%char -> Ascii.eqb d c = false) -> free_of c (int_repr z) = true.
Proof.
  intros H. assert (U : forall u, free_of c (NilEmpty.string_of_uint u) = true) by (intros u; apply digits_free; intros d I; apply H; cbn in *; tauto).
  assert (N : forall u, free_of c (NilZero.string_of_uint u) = true).
  { intros [| | | | | | | | | |]; try apply U. cbn [NilZero.string_of_uint free_of]. rewrite H by (cbn; tauto). reflexivity. }
  unfold int_repr. destruct (Z.to_int z) as [u|u]; cbn [NilZero.string_of_int]; [apply N|]. cbn [free_of]. rewrite N, H by (cbn; tauto). reflexivity.
Qed.
Lemma free_space z : free_of " " (int_repr z) = true.
Proof. apply int_free. intros d I. cbn in I. intuition (subst; reflexivity). Qed.
Lemma free_end z : free_of ">" (int_repr z) = true.
Proof. apply int_free. intros d I. cbn in I. intuition (subst; reflexivity). Qed.

(** the type code of the cells for a capacity *)
Definition cells (cap : Z) : string := if (cap <=? 256)%Z then "'B'" else if (cap <=? 65536)%Z then "'H'" else if (cap <=? 4294967296)%Z then "'L'" else "'Q'".

Lemma code_cells cap r : uint_representation_for_capacity cap = Ok r -> code_repr (rep_code r) = cells cap.
Proof.
  unfold uint_representation_for_capacity, uint_representation_for_max, cells. cbn [List.find uint_representations rep_max fst].
  repeat match goal with |- context [Z.leb ?a ?b] => destruct (Z.leb_spec a b) end; intros E; inversion E; subst; try reflexivity; cbn in *; lia.
Qed.

(** At any time of its life, repr of a UnionFind shows the type of its cells, its capacity and the number of its sets. *)
Theorem C112_repr pf cap s0 ops s outs : make pf cap = Ok s0 -> run ustep ops s0 = (s, outs) -> no_overflow (combine ops outs) ->
  exists n, has_classes (fun x => x < cap) (closure (united (combine ops outs))) n
  /\ uf_repr s = Ok ("<UnionFind representation=" ++ cells (Z.of_nat cap) ++ " capacity=" ++ decimal (Z.of_nat cap) ++ " count=" ++ decimal (Z.of_nat n) ++ ">")%string.
Proof.
  intros M R N. destruct (C03_len_counts_sets pf cap s0 ops s outs M R N) as (n & L & C & _). exists n. split; [exact C|].
  assert (K : capacity s = cap) by (destruct (from_make _ _ _ _ _ _ M R) as (_ & K & _); exact K).
  assert (Q : count s = Z.of_nat n) by (unfold len in L; destruct (count s <? 0)%Z; [discriminate|]; inversion L; reflexivity).
  unfold uf_repr. rewrite K, Q. unfold make in M. destruct (uint_representation_for_capacity (Z.of_nat cap)) as [r|] eqn:E; [|discriminate M].
  cbn [bind]. rewrite (code_cells _ r E). reflexivity.
Qed.
Print Assumptions C112_repr.

(** UnionFinds with the same repr have the same capacity and count. *)
Theorem C112_same_repr s s' r : uf_repr s = Ok r -> uf_repr s' = Ok r -> capacity s = capacity s' /\ count s = count s'.
Proof.
  unfold uf_repr. destruct (uint_representation_for_capacity (Z.of_nat (capacity s))) as [a|]; [|discriminate].
  destruct (uint_representation_for_capacity (Z.of_nat (capacity s'))) as [b|]; [|discriminate]. cbn [bind]. intros E E'.
  assert (H : (int_repr (Z.of_nat (capacity s)) ++ " count=" ++ int_repr (count s) ++ ">" = int_repr (Z.of_nat (capacity s')) ++ " count=" ++ int_repr (count s') ++ ">")%string).
  { rewrite <- E' in E. clear E'. destruct (rep_code a), (rep_code b); cbn [code_repr append] in E; inversion E as [H]; exact H. }
  clear E E'. cbn [append] in H. apply split_at in H as (H & T); [|apply free_space..]. apply string_of_int_inj in H. split; [lia|].
  cbn [append] in T. inversion T as [Q]. apply split_at in Q as (Q & _); [|apply free_end..]. apply string_of_int_inj in Q. exact Q.
Qed.
Print Assumptions C112_same_repr.

Example C112_ex :
  after 6 [UUnion 0 1; UUnion 2 3; UUnion 1 3] (fun s _ => uf_repr s) = Ok (Ok "<UnionFind representation='B' capacity=6 count=3>"%string)
  /\ after 300 [UUnion 0 1] (fun s _ => uf_repr s) = Ok (Ok "<UnionFind representation='H' capacity=300 count=299>"%string).
Proof. vm_compute. auto. Qed.
