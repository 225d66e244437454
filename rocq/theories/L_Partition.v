(** * Lemmas about generated equivalence relations *)
From Coq Require Import Lia Relations.
From Verif Require Import PyBase L_Base S_Partition.

Section Closure.
Context {A : Type}.
Implicit Types (P : list (A * A)) (x y u v : A).

Lemma closure_refl P x : closure P x x.
Proof. apply rst_refl. Qed.
Lemma closure_sym P x y : closure P x y -> closure P y x.
Proof. apply rst_sym. Qed.
Lemma closure_trans P x y z : closure P x y -> closure P y z -> closure P x z.
Proof. apply rst_trans. Qed.
Lemma closure_In P x y : In (x, y) P -> closure P x y.
Proof. intros H. apply rst_step. assumption. Qed.

(** a relation containing the pairs and which is an equivalence contains the closure *)
Lemma closure_least P (R : A -> A -> Prop) :
  (forall x, R x x) -> (forall x y, R x y -> R y x) ->
  (forall x y z, R x y -> R y z -> R x z) ->
  (forall x y, In (x, y) P -> R x y) ->
  forall x y, closure P x y -> R x y.
Proof.
  intros Hr Hs Ht Hi x y H. induction H; eauto.
Qed.

Lemma closure_mono P Q x y :
  (forall a b, In (a, b) P -> closure Q a b) -> closure P x y -> closure Q x y.
Proof.
  intros H. apply closure_least; [apply closure_refl|apply closure_sym|apply closure_trans|assumption].
Qed.

Lemma closure_incl P Q x y : incl P Q -> closure P x y -> closure Q x y.
Proof. intros H. apply closure_mono. intros; apply closure_In, H; assumption. Qed.

Lemma closure_nil x y : closure (@nil (A * A)) x y <-> x = y.
Proof.
  split; [|intros ->; apply closure_refl].
  apply (closure_least [] eq); [reflexivity|congruence|congruence|]. simpl. tauto.
Qed.

Lemma closure_cons P a b u v :
  closure ((a, b) :: P) u v <->
  closure P u v \/ (closure P u a /\ closure P b v) \/ (closure P u b /\ closure P a v).
Proof.
  split.
  - apply (closure_least ((a, b) :: P)
      (fun u v => closure P u v \/ (closure P u a /\ closure P b v) \/ (closure P u b /\ closure P a v))).
    + intros x; left; apply closure_refl.
    + intros x y [H|[[H1 H2]|[H1 H2]]].
      * left; apply closure_sym; assumption.
      * right; right; split; apply closure_sym; assumption.
      * right; left; split; apply closure_sym; assumption.
    + intros x y z H1 H2.
      destruct H1 as [H1|[[H1 H1']|[H1 H1']]]; destruct H2 as [H2|[[H2 H2']|[H2 H2']]].
      * left; eapply closure_trans; eassumption.
      * right; left; split; [eapply closure_trans; eassumption|assumption].
      * right; right; split; [eapply closure_trans; eassumption|assumption].
      * right; left; split; [assumption|eapply closure_trans; eassumption].
      * right; left; split; assumption.
      * left. eapply closure_trans; eassumption.
      * right; right; split; [assumption|eapply closure_trans; eassumption].
      * left. eapply closure_trans; eassumption.
      * right; right; split; assumption.
    + intros x y [E|H].
      * inversion E; subst. right; left; split; apply closure_refl.
      * left; apply closure_In; assumption.
  - assert (L : forall x y, closure P x y -> closure ((a, b) :: P) x y)
      by (intros x y; apply closure_incl; intros e He; right; assumption).
    assert (E : closure ((a, b) :: P) a b) by (apply closure_In; left; reflexivity).
    intros [H|[[H1 H2]|[H1 H2]]].
    + auto.
    + eapply closure_trans; [apply L, H1|]. eapply closure_trans; [exact E|apply L, H2].
    + eapply closure_trans; [apply L, H1|]. eapply closure_trans; [apply closure_sym, E|apply L, H2].
Qed.

Lemma closure_cons_same P a b u v :
  closure P a b -> (closure ((a, b) :: P) u v <-> closure P u v).
Proof.
  intros H. rewrite closure_cons. split; [|tauto].
  intros [K|[[K1 K2]|[K1 K2]]]; [assumption| |].
  - eapply closure_trans; [exact K1|]. eapply closure_trans; eassumption.
  - eapply closure_trans; [exact K1|]. eapply closure_trans; [apply closure_sym; exact H|exact K2].
Qed.

Lemma closure_ext P Q :
  (forall a b, In (a, b) P <-> In (a, b) Q) -> forall u v, closure P u v <-> closure Q u v.
Proof.
  intros H u v. split; apply closure_incl; intros [a b] I; apply H; assumption.
Qed.

(** decidable when equality is *)
Lemma closure_dec (eq_dec : forall a b : A, {a = b} + {a <> b}) P :
  forall u v, {closure P u v} + {~ closure P u v}.
Proof.
  induction P as [|[a b] P IH]; intros u v.
  - destruct (eq_dec u v) as [E|E]; [left|right]; rewrite closure_nil; assumption.
  - destruct (IH u v) as [H|H].
    { left. apply closure_cons. auto. }
    destruct (IH u a) as [H1|H1], (IH b v) as [H2|H2], (IH u b) as [H3|H3], (IH a v) as [H4|H4];
      solve [left; apply closure_cons; tauto | right; rewrite closure_cons; tauto].
Qed.

(** an element occurring in no pair is only related to itself *)
Lemma closure_isolated P x y :
  (forall a b, In (a, b) P -> a <> x /\ b <> x) -> closure P x y -> x = y.
Proof.
  intros H C.
  assert (G : forall u v, closure P u v -> (u = x <-> v = x)).
  { apply closure_least.
    - tauto.
    - intros u v I. tauto.
    - intros u v w I1 I2. tauto.
    - intros a b I. destruct (H a b I). tauto. }
  symmetry. apply (G x y C). reflexivity.
Qed.
End Closure.

Lemma closure_map {A B} (f : A -> B) P x y :
  closure P x y -> closure (map (fun e => (f (fst e), f (snd e))) P) (f x) (f y).
Proof.
  apply (closure_least P (fun x y => closure (map (fun e => (f (fst e), f (snd e))) P) (f x) (f y))).
  - intros; apply closure_refl.
  - intros; apply closure_sym; assumption.
  - intros; eapply closure_trans; eassumption.
  - intros a b I. apply closure_In. apply in_map_iff. exists (a, b). auto.
Qed.

Lemma has_size_unique {A} (P : A -> Prop) n m : has_size P n -> has_size P m -> n = m.
Proof.
  intros (l & (N & H) & <-) (l' & (N' & H') & <-).
  apply Nat.le_antisymm; apply NoDup_incl_length; try assumption;
    intros x I; [apply H', H|apply H, H']; assumption.
Qed.

Lemma has_size_ext {A} (P Q : A -> Prop) n :
  (forall x, P x <-> Q x) -> has_size P n -> has_size Q n.
Proof.
  intros E (l & (N & H) & L). exists l. repeat split; try assumption.
  - intros I. apply E, H. assumption.
  - intros I. apply H, E. assumption.
Qed.
