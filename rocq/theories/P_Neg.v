(** * C114: what a UnionFind made with any int does *)
From Coq Require Import List ZArith Lia Bool String.
From Verif Require Import PyBase L_Base M_UnionFind S_UnionFind L_UnionFind L_UnionFind2 M_UFint P_UnionFind P_UFint M_Repr S_Json M_Neg.
Import ListNotations.

(** no call changes the capacity *)
Definition keeps_cap {A} (m : sm uf A) : Prop := forall s, capacity (fst (m s)) = capacity s.
Lemma keeps_bind {A B} (m : sm uf A) (k : A -> sm uf B) : keeps_cap m -> (forall a, keeps_cap (k a)) -> keeps_cap (sbind m k).
Proof. intros M K s. unfold sbind. specialize (M s). destruct (m s) as [s' [a|e]]; cbn [fst] in *; [rewrite K|]; exact M. Qed.
Lemma keeps_read {A} (r : uf -> res A) : keeps_cap (sread r).
Proof. intros s. reflexivity. Qed.
Lemma keeps_ret {A} (a : A) : keeps_cap (sret a).
Proof. intros s. reflexivity. Qed.
Lemma keeps_modify h : (forall s, capacity (h s) = capacity s) -> keeps_cap (smodify h).
Proof. intros H s. apply H. Qed.
Ltac keeps := repeat first [apply keeps_bind; [|intros ?]|apply keeps_read|apply keeps_ret|apply keeps_modify; reflexivity].
Lemma keeps_loop l : keeps_cap (clear_loop l).
Proof. induction l as [|i l IH]; cbn [clear_loop]; [apply keeps_ret|]. apply keeps_bind; [|intros _; exact IH]. unfold clear_step. keeps. Qed.
Lemma keeps_step o : keeps_cap (zstep o).
Proof.
  assert (M : forall i j, keeps_cap (merge_into i j)) by (intros; unfold merge_into; keeps).
  assert (B : forall i, keeps_cap (bump_rank i)) by (intros; unfold bump_rank; keeps).
  destruct o; cbn [zstep]; unfold smap; keeps.
  - unfold zunion. keeps. destruct (Z.eqb _ _); keeps. destruct (Nat.ltb _ _); [keeps; apply M|]. destruct (Nat.ltb _ _); keeps; try apply M; apply B.
  - unfold clear. keeps. intros s. apply (keeps_loop (seq 0 (capacity s)) s).
Qed.

(** A capacity which is not negative gives the UnionFind of the other theorems. *)
Theorem C114_natural pf cap ops : make_int pf (Z.of_nat cap) = match make pf cap with Ok s => Ok (Z.of_nat cap, s) | Err e => Err e end
  /\ (forall s0, make pf cap = Ok s0 ->
        run cstep ops (Z.of_nat cap, s0) = ((Z.of_nat cap, fst (run zstep ops s0)), snd (run zstep ops s0))).
Proof.
  split.
  - unfold make_int, make. destruct (uint_representation_for_capacity (Z.of_nat cap)); cbn [bind]; [|reflexivity]. rewrite Nat2Z.id. reflexivity.
  - intros s0 M. assert (C : capacity s0 = cap).
    { unfold make in M. destruct (uint_representation_for_capacity (Z.of_nat cap)); [|discriminate M]. cbn [bind] in M. inversion M. reflexivity. }
    clear M. revert s0 C. induction ops as [|o ops IH]; intros s C; [reflexivity|]. cbn [run].
    assert (E : cstep o (Z.of_nat cap, s) = ((Z.of_nat cap, fst (zstep o s)), snd (zstep o s))).
    { destruct o; cbn [cstep]; try (destruct (zstep _ s); reflexivity). cbn [zstep]. unfold smap, sbind, clear_int, clear, sbind, smodify.
      rewrite Nat2Z.id. cbn [capacity set_count]. rewrite C. destruct (clear_loop (seq 0 cap) (set_count (Z.of_nat cap) s)) as [s' [|]]; reflexivity. }
    rewrite E. pose proof (keeps_step o s) as Q. destruct (zstep o s) as [s1 r]. cbn [fst snd] in *. rewrite IH by congruence. destruct (run zstep ops s1). reflexivity.
Qed.
Print Assumptions C114_natural.

(** what is answered by a UnionFind whose capacity is negative *)
Definition refusal (o : zop) : res out :=
  match o with ZLen => Err ValueError | ZClear => Ok OUnit | _ => Err IndexError end.

(** The constructor accepts a negative capacity.  Nothing but clear and repr works then: len raises ValueError and all that takes an element raises IndexError, for ever. *)
Theorem C114_negative pf cap ops : (cap < 0)%Z -> exists s0, make_int pf cap = Ok s0
  /\ run cstep ops s0 = (s0, map refusal ops)
  /\ repr_int s0 = Ok ("<UnionFind representation='B' capacity=" ++ decimal cap ++ " count=" ++ decimal cap ++ ">")%string.
Proof.
  intros N. assert (R : uint_representation_for_capacity cap = Ok ((2 ^ 8 - 1)%Z, CodeB)).
  { unfold uint_representation_for_capacity, uint_representation_for_max. cbn [M_UnionFind.find List.find uint_representations rep_max fst].
    destruct (Z.leb_spec (cap - 1) (2 ^ 8 - 1)); [reflexivity|lia]. }
  unfold make_int. rewrite R. cbn [bind]. assert (Z : Z.to_nat cap = 0) by lia. rewrite Z. eexists. split; [reflexivity|]. split.
  - induction ops as [|o ops IH]; [reflexivity|]. cbn [run map].
    assert (S : forall s, s = (cap, mkUF cap 0 (item_max pf (rep_code ((2 ^ 8 - 1)%Z, CodeB))) (seq 0 0) (List.repeat 0 0) (List.repeat 1 0)) -> cstep o s = (s, refusal o)).
    { intros s ->. assert (G : forall z, zget [] z = Err IndexError).
      { intros z. unfold zget. cbn [List.length Z.of_nat Z.opp]. change (- 0)%Z with 0%Z. destruct (0 <=? z)%Z; [unfold aget; destruct (Z.to_nat z); reflexivity|reflexivity]. }
      assert (F : forall s x, parents s = [] -> zfind s x = Err IndexError) by (intros s x P; unfold zfind, zfind_fuel; cbn [zclimb]; rewrite P, G; reflexivity).
      destruct o; cbn [cstep zstep refusal]; unfold smap, sbind, sread.
      - unfold zunion, sbind, sread. rewrite F by reflexivity. reflexivity.
      - rewrite F by reflexivity. reflexivity.
      - unfold zcardinality. rewrite F by reflexivity. reflexivity.
      - unfold zsame. rewrite F by reflexivity. reflexivity.
      - unfold len. cbn [count]. destruct (Z.ltb_spec cap 0); [reflexivity|lia].
      - unfold clear_int. rewrite Z. reflexivity. }
    rewrite (S _ eq_refl), IH. reflexivity.
  - cbn [repr_int count]. rewrite R. reflexivity.
Qed.
Print Assumptions C114_negative.

(** what [h] says of what was made *)
Definition on_made {A B} (r : res A) (h : A -> B) : res B := match r with Ok a => Ok (h a) | Err e => Err e end.

Example C114_ex :
  on_made (make_int Long64 (-3)) (fun s => (snd (run cstep [ZLen; ZUnion (-1) (-2); ZClear; ZFind 0; ZSame 0 0; ZCardinality (-3)] s), repr_int s))
  = Ok ([Err ValueError; Err IndexError; Ok OUnit; Err IndexError; Err IndexError; Err IndexError], Ok "<UnionFind representation='B' capacity=-3 count=-3>"%string)
  /\ on_made (make_int Long64 3) (fun s => (snd (run cstep [ZLen; ZUnion (-1) (-2); ZLen; ZClear; ZLen] s), repr_int s))
  = Ok ([Ok (OInt 3); Ok (OBool true); Ok (OInt 2); Ok OUnit; Ok (OInt 3)], Ok "<UnionFind representation='B' capacity=3 count=3>"%string).
Proof. vm_compute. auto. Qed.
