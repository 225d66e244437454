(** * Lemmas on the Python data model *)
From Coq Require Import Lia Permutation OrderedTypeEx.
From Verif Require Import PyBase.

(** ** keys *)

Lemma key_eqb_spec a b : reflect (a = b) (key_eqb a b).
Proof.
  destruct a as [x|x|x], b as [y|y|y]; simpl; try (constructor; discriminate).
  - destruct (Z.eqb_spec x y); constructor; congruence.
  - destruct (String.eqb_spec x y); constructor; congruence.
  - destruct (Nat.eqb_spec x y); constructor; congruence.
Qed.

Lemma key_eqb_eq a b : key_eqb a b = true <-> a = b.
Proof. destruct (key_eqb_spec a b); split; congruence. Qed.
Lemma key_eqb_neq a b : key_eqb a b = false <-> a <> b.
Proof. destruct (key_eqb_spec a b); split; congruence. Qed.
Lemma key_eqb_refl a : key_eqb a a = true.
Proof. apply key_eqb_eq; reflexivity. Qed.
Lemma key_eqb_sym a b : key_eqb a b = key_eqb b a.
Proof. destruct (key_eqb_spec a b), (key_eqb_spec b a); congruence. Qed.
Lemma key_eq_dec (a b : key) : {a = b} + {a <> b}.
Proof. decide equality; [apply Z.eq_dec|apply string_dec|apply Nat.eq_dec]. Defined.
#[export] Hint Rewrite key_eqb_refl : key.

Ltac keq a b := destruct (key_eqb_spec a b); subst.
(** case split on the first key comparison in sight *)
Ltac keqs :=
  repeat match goal with
  | |- context [key_eqb ?a ?b] => destruct (key_eqb_spec a b); subst
  | H : context [key_eqb ?a ?b] |- _ => destruct (key_eqb_spec a b); subst
  end.

Lemma mem_In k l : mem k l = true <-> In k l.
Proof.
  unfold mem. rewrite existsb_exists. split.
  - intros (x & Hx & E). apply key_eqb_eq in E. subst; assumption.
  - intros H. exists k. split; [assumption|apply key_eqb_refl].
Qed.
Lemma mem_nIn k l : mem k l = false <-> ~ In k l.
Proof. rewrite <- mem_In. destruct (mem k l); split; congruence. Qed.
Lemma mem_spec k l : reflect (In k l) (mem k l).
Proof. destruct (mem k l) eqn:E; constructor; [apply mem_In|apply mem_nIn]; assumption. Qed.
Lemma mem_app k a b : mem k (a ++ b) = mem k a || mem k b.
Proof. apply existsb_app. Qed.
Lemma mem_cons k a l : mem k (a :: l) = key_eqb k a || mem k l.
Proof. reflexivity. Qed.

Lemma nodup_eq_dec_keys : forall l : list key, {NoDup l} + {~ NoDup l}.
Proof.
  induction l as [|a l IH]; [left; constructor|].
  destruct (in_dec key_eq_dec a l) as [H|H].
  - right. intros N. inversion N; contradiction.
  - destruct IH as [IH|IH]; [left; constructor; assumption|right; intros N; inversion N; contradiction].
Qed.

(** ** orders on keys *)

Lemma key_lt_str_trans a b c :
  String.ltb a b = true -> String.ltb b c = true -> String.ltb a c = true.
Proof.
  unfold String.ltb.
  assert (E : forall x y, match String.compare x y with Lt => true | _ => false end = true
                          <-> String_as_OT.lt x y).
  { intros x y. rewrite <- String_as_OT.cmp_lt. unfold String_as_OT.cmp.
    destruct (String.compare x y); split; congruence. }
  rewrite !E. apply String_as_OT.lt_trans.
Qed.

Lemma key_lt_irrefl a b : key_lt a a = Ok b -> b = false.
Proof.
  destruct a; simpl; intros H; inversion H.
  - apply Z.ltb_irrefl.
  - unfold String.ltb. destruct (String.compare s s) eqn:E; try reflexivity.
    pose proof (String.compare_antisym s s) as A. rewrite E in A. discriminate.
Qed.

Lemma key_lt_trans a b c :
  key_lt a b = Ok true -> key_lt b c = Ok true -> key_lt a c = Ok true.
Proof.
  destruct a, b, c; simpl; try discriminate; intros H1 H2; injection H1 as H0; injection H2 as H3.
  - f_equal. apply Z.ltb_lt. apply Z.ltb_lt in H0, H3. lia.
  - f_equal. eapply key_lt_str_trans; eassumption.
Qed.

Lemma key_lt_asym a b : key_lt a b = Ok true -> key_lt b a = Ok false.
Proof.
  destruct a, b; simpl; try discriminate; intros H; injection H as H0; f_equal.
  - apply Z.ltb_lt in H0. apply Z.ltb_ge. lia.
  - unfold String.ltb in *. rewrite String.compare_antisym.
    destruct (String.compare s s0); simpl; congruence.
Qed.

Lemma key_lt_total a b : key_lt a b = Ok false -> key_lt b a = Ok false -> a = b.
Proof.
  destruct a, b; simpl; try discriminate; intros H1 H2; injection H1 as E1; injection H2 as E2.
  - apply Z.ltb_ge in E1, E2. f_equal. lia.
  - f_equal. unfold String.ltb in *. rewrite String.compare_antisym in E2.
    destruct (String.compare s s0) eqn:E; simpl in *; try discriminate.
    apply String.compare_eq_iff; assumption.
Qed.

Lemma key_lt_ok_sym a b x : key_lt a b = Ok x -> exists y, key_lt b a = Ok y.
Proof. destruct a, b; simpl; try discriminate; eauto. Qed.

(** ** NoDup as a boolean *)

(** ** dicts *)
Section Dict.
Context {A : Type}.
Implicit Types (d e : dict A) (k : key) (v : A).

Lemma dget_Some_In k v d : dget k d = Some v -> In (k, v) d.
Proof.
  induction d as [|[k' v'] d IH]; simpl; [discriminate|].
  keq k k'; [intros H; inversion H; left; reflexivity|right; auto].
Qed.

Lemma dget_None k d : dget k d = None <-> ~ In k (dkeys d).
Proof.
  induction d as [|[k' v'] d IH]; simpl; [tauto|].
  keq k k'.
  - split; [discriminate|]. intros H. exfalso. apply H. left; reflexivity.
  - rewrite IH. intuition congruence.
Qed.

Lemma dget_Some_key k v d : dget k d = Some v -> In k (dkeys d).
Proof.
  intros H. destruct (in_dec key_eq_dec k (dkeys d)) as [I|I]; [assumption|].
  apply dget_None in I. congruence.
Qed.

Lemma dkeys_dget k d : In k (dkeys d) -> exists v, dget k d = Some v.
Proof.
  intros H. destruct (dget k d) as [v|] eqn:E; [eauto|].
  apply dget_None in E. contradiction.
Qed.

Lemma dget_In k v d : NoDup (dkeys d) -> In (k, v) d -> dget k d = Some v.
Proof.
  induction d as [|[k' v'] d IH]; simpl; [tauto|].
  intros N [E|H]; inversion N; subst.
  - inversion E; subst. rewrite key_eqb_refl; reflexivity.
  - keq k k'; [|auto].
    exfalso. apply H2. change k' with (fst (k', v)). apply in_map; assumption.
Qed.

Lemma dmem_dget k d : dmem k d = match dget k d with Some _ => true | None => false end.
Proof.
  unfold dmem. destruct (mem_spec k (dkeys d)) as [H|H].
  - apply dkeys_dget in H as (v & ->). reflexivity.
  - apply dget_None in H. rewrite H. reflexivity.
Qed.

Lemma dget_dset k v k' d :
  dget k' (dset k v d) = if key_eqb k' k then Some v else dget k' d.
Proof.
  induction d as [|[k0 v0] d IH]; simpl; [reflexivity|].
  keq k k0; simpl; [keqs; congruence|]. rewrite IH. keqs; congruence.
Qed.

Lemma dkeys_dset k v d :
  dkeys (dset k v d) = if dmem k d then dkeys d else dkeys d ++ [k].
Proof.
  unfold dmem.
  induction d as [|[k0 v0] d IH]; [reflexivity|]. simpl dset.
  change (dkeys ((k0, v0) :: d)) with (k0 :: dkeys d). rewrite mem_cons.
  keq k k0; [reflexivity|].
  change (dkeys ((k0, v0) :: dset k v d)) with (k0 :: dkeys (dset k v d)).
  rewrite IH. simpl. destruct (mem k (dkeys d)); reflexivity.
Qed.

Lemma In_dkeys_dset k v d k' : In k' (dkeys (dset k v d)) <-> k' = k \/ In k' (dkeys d).
Proof.
  rewrite dkeys_dset. unfold dmem. destruct (mem_spec k (dkeys d)) as [H|H].
  - intuition congruence.
  - rewrite in_app_iff. simpl. intuition congruence.
Qed.

Lemma NoDup_snoc {B} (l : list B) x : NoDup l -> ~ In x l -> NoDup (l ++ [x]).
Proof.
  intros N H. apply NoDup_incl_NoDup with (l := x :: l).
  - constructor; assumption.
  - rewrite app_length; simpl; lia.
  - intros y [E|I]; apply in_app_iff; [right; left; assumption|left; assumption].
Qed.

Lemma NoDup_dset k v d : NoDup (dkeys d) -> NoDup (dkeys (dset k v d)).
Proof.
  intros N. rewrite dkeys_dset. unfold dmem. destruct (mem_spec k (dkeys d)); [assumption|].
  apply NoDup_snoc; assumption.
Qed.

Lemma dset_notin k v d : ~ In k (dkeys d) -> dset k v d = d ++ [(k, v)].
Proof.
  induction d as [|[k0 v0] d IH]; simpl; [reflexivity|].
  intros H. keq k k0; [tauto|]. f_equal. apply IH. tauto.
Qed.

Lemma dget_app k d e : dget k (d ++ e) = match dget k d with Some v => Some v | None => dget k e end.
Proof.
  induction d as [|[k0 v0] d IH]; simpl; [reflexivity|]. keqs; auto.
Qed.

Lemma dget_dupdate k e d : 
  dget k (dupdate d e) = match dget k (rev e) with Some v => Some v | None => dget k d end.
Proof.
  unfold dupdate. revert d.
  induction e as [|[k0 v0] e IH]; intros d; simpl; [reflexivity|].
  rewrite IH, dget_app, dget_dset. simpl.
  destruct (dget k (rev e)); [reflexivity|]. keqs; congruence.
Qed.

Lemma dkeys_rev d : dkeys (rev d) = rev (dkeys d).
Proof. apply map_rev. Qed.

Lemma dget_rev k d : NoDup (dkeys d) -> dget k (rev d) = dget k d.
Proof.
  intros N. destruct (dget k d) as [v|] eqn:E.
  - apply dget_In; [rewrite dkeys_rev; apply NoDup_rev; assumption|].
    apply in_rev. rewrite rev_involutive. apply dget_Some_In; assumption.
  - apply dget_None in E. apply dget_None. rewrite dkeys_rev. rewrite <- in_rev. assumption.
Qed.

Lemma dget_dupdate_nodup k e d : NoDup (dkeys e) ->
  dget k (dupdate d e) = match dget k e with Some v => Some v | None => dget k d end.
Proof. intros N. rewrite dget_dupdate, dget_rev by assumption. reflexivity. Qed.

Lemma NoDup_dupdate e d : NoDup (dkeys d) -> NoDup (dkeys (dupdate d e)).
Proof.
  unfold dupdate. revert d. induction e as [|[k v] e IH]; intros d N; simpl; [assumption|].
  apply IH. apply NoDup_dset; assumption.
Qed.

Lemma In_dkeys_dupdate e d k : In k (dkeys (dupdate d e)) <-> In k (dkeys e) \/ In k (dkeys d).
Proof.
  unfold dupdate. revert d. induction e as [|[k0 v0] e IH]; intros d; simpl; [tauto|].
  rewrite IH, In_dkeys_dset. intuition congruence.
Qed.

Lemma dupdate_app_disjoint e : forall d,
  NoDup (dkeys e) -> (forall k, In k (dkeys e) -> ~ In k (dkeys d)) ->
  dupdate d e = d ++ e.
Proof.
  unfold dupdate. induction e as [|[k v] e IH]; intros d N D; simpl; [symmetry; apply app_nil_r|].
  inversion N; subst. rewrite dset_notin by (apply D; left; reflexivity).
  rewrite IH; [rewrite <- app_assoc; reflexivity|assumption|].
  intros k' I. unfold dkeys. rewrite map_app, in_app_iff. simpl. intros [I'|[E|[]]].
  - apply (D k'); [right; assumption|assumption].
  - subst. contradiction.
Qed.

Lemma dupdate_nil e : NoDup (dkeys e) -> dupdate [] e = e.
Proof. intros N. rewrite dupdate_app_disjoint; auto. Qed.

Lemma dget_dremove k ks d :
  dget k (dremove ks d) = if mem k ks then None else dget k d.
Proof.
  unfold dremove. induction d as [|[k0 v0] d IH]; simpl.
  - destruct (mem k ks); reflexivity.
  - destruct (mem k0 ks) eqn:E; simpl; rewrite IH; keq k k0; try reflexivity.
    + rewrite E. reflexivity.
    + rewrite E. reflexivity.
Qed.

Lemma NoDup_dkeys_filter (f : key * A -> bool) d : NoDup (dkeys d) -> NoDup (dkeys (filter f d)).
Proof.
  induction d as [|[k v] d IH]; simpl; [auto|]. intros N; inversion N; subst.
  destruct (f (k, v)); simpl; [|auto]. constructor; [|auto].
  intros I. apply H1. apply in_map_iff in I as ([k' v'] & E & I). simpl in E; subst.
  apply filter_In in I as (I & _). change k with (fst (k, v')). apply in_map; assumption.
Qed.

Lemma dget_filter_keys (f : key -> bool) k d :
  dget k (filter (fun kv => f (fst kv)) d) = if f k then dget k d else None.
Proof.
  induction d as [|[k0 v0] d IH]; simpl; [destruct (f k); reflexivity|].
  destruct (f k0) eqn:E; simpl; rewrite IH; keq k k0; try reflexivity; rewrite E; reflexivity.
Qed.

Lemma In_dkeys k d : In k (dkeys d) <-> exists v, In (k, v) d.
Proof.
  unfold dkeys. rewrite in_map_iff. split.
  - intros ([k' v'] & E & I). simpl in E; subst. eauto.
  - intros (v & I). exists (k, v). auto.
Qed.

End Dict.

Lemma nodup_keys_iff l : (fix f (l : list key) := match l with [] => true | k :: l' => negb (mem k l') && f l' end) l = true <-> NoDup l.
Proof.
  induction l as [|k l IH]; [split; constructor|].
  simpl. rewrite andb_true_iff, negb_true_iff, mem_nIn, IH. split.
  - intros (H1 & H2). constructor; assumption.
  - intros N; inversion N; auto.
Qed.

(** ** the error monad *)

Lemma bind_Ok {A B} (m : res A) (f : A -> res B) b :
  bind m f = Ok b <-> exists a, m = Ok a /\ f a = Ok b.
Proof.
  destruct m; simpl; split.
  - eauto.
  - intros (a' & E & H). inversion E; subst; assumption.
  - discriminate.
  - intros (a' & E & _). discriminate.
Qed.

Lemma bind_Err {A B} (m : res A) (f : A -> res B) e :
  bind m f = Err e <-> m = Err e \/ exists a, m = Ok a /\ f a = Err e.
Proof.
  destruct m; simpl; split.
  - eauto.
  - intros [H|(a' & E & H)]; [discriminate|inversion E; subst; assumption].
  - intros H; left; congruence.
  - intros [H|(a' & E & _)]; [congruence|discriminate].
Qed.

Lemma filterM_Ok {A} (f : A -> res bool) (p : A -> bool) l :
  (forall a, In a l -> f a = Ok (p a)) -> filterM f l = Ok (filter p l).
Proof.
  induction l as [|a l IH]; intros H; simpl; [reflexivity|].
  rewrite (H a) by (left; reflexivity). simpl.
  rewrite IH by (intros; apply H; right; assumption). simpl. destruct (p a); reflexivity.
Qed.

Lemma filterM_Ok_inv {A} (f : A -> res bool) l l' :
  filterM f l = Ok l' ->
  (forall a, In a l -> exists b, f a = Ok b) /\
  l' = filter (fun a => match f a with Ok b => b | Err _ => false end) l.
Proof.
  revert l'. induction l as [|a l IH]; intros l'; simpl.
  - intros H; inversion H; subst. split; [tauto|reflexivity].
  - rewrite bind_Ok. intros (b & Hb & H). apply bind_Ok in H as (l2 & Hl & H).
    inversion H; subst. destruct (IH _ Hl) as (I1 & I2). split.
    + intros x [<-|I]; eauto.
    + rewrite Hb, <- I2. destruct b; reflexivity.
Qed.

Lemma mapM_Ok {A B} (f : A -> res B) (p : A -> B) l :
  (forall a, In a l -> f a = Ok (p a)) -> mapM f l = Ok (map p l).
Proof.
  induction l as [|a l IH]; intros H; simpl; [reflexivity|].
  rewrite (H a) by (left; reflexivity). simpl.
  rewrite IH by (intros; apply H; right; assumption). reflexivity.
Qed.

Lemma foldM_Ok {A S} (f : S -> A -> res S) (p : S -> A -> S) l s :
  (forall s a, In a l -> f s a = Ok (p s a)) -> foldM f l s = Ok (fold_left p l s).
Proof.
  revert s. induction l as [|a l IH]; intros s H; simpl; [reflexivity|].
  rewrite (H s a) by (left; reflexivity). simpl. apply IH. intros; apply H; right; assumption.
Qed.

(** invariant rule: the final state of a loop that did not raise *)
Lemma foldM_inv {A S} (P : list A -> S -> Prop) (f : S -> A -> res S) l s s' :
  P [] s ->
  (forall done a todo st st', l = done ++ a :: todo -> P done st -> f st a = Ok st' -> P (done ++ [a]) st') ->
  foldM f l s = Ok s' -> P l s'.
Proof.
  intros H0 HS.
  assert (G : forall todo done st, l = done ++ todo -> P done st -> foldM f todo st = Ok s' -> P l s').
  { induction todo as [|a todo IH]; intros done st E Hp Hf; simpl in Hf.
    - inversion Hf; subst. rewrite app_nil_r. assumption.
    - apply bind_Ok in Hf as (st' & E1 & E2).
      apply (IH (done ++ [a]) st'); [rewrite <- app_assoc; assumption| |assumption].
      eapply HS; eassumption. }
  intros Hf. apply (G l [] s); auto.
Qed.

(** progress rule: a loop whose body never raises under the invariant *)
Lemma foldM_total {A S} (P : list A -> S -> Prop) (f : S -> A -> res S) l s :
  P [] s ->
  (forall done a todo st, l = done ++ a :: todo -> P done st ->
     exists st', f st a = Ok st' /\ P (done ++ [a]) st') ->
  exists s', foldM f l s = Ok s' /\ P l s'.
Proof.
  intros H0 HS.
  assert (G : forall todo done st, l = done ++ todo -> P done st ->
                exists s', foldM f todo st = Ok s' /\ P l s').
  { induction todo as [|a todo IH]; intros done st E Hp; simpl.
    - exists st. subst. rewrite app_nil_r. auto.
    - destruct (HS done a todo st E Hp) as (st' & E1 & Hp').
      rewrite E1. simpl. apply (IH (done ++ [a])); [rewrite <- app_assoc|]; assumption. }
  apply (G l []); auto.
Qed.

Lemma foldM_app {A S} (f : S -> A -> res S) l1 l2 s :
  foldM f (l1 ++ l2) s = bind (foldM f l1 s) (foldM f l2).
Proof.
  revert s. induction l1 as [|a l1 IH]; intros s; simpl; [reflexivity|].
  destruct (f s a); simpl; [apply IH|reflexivity].
Qed.

(** ** list odds and ends *)

Lemma filter_all {A} (f : A -> bool) l : (forall a, In a l -> f a = true) -> filter f l = l.
Proof.
  induction l as [|a l IH]; intros H; simpl; [reflexivity|].
  rewrite (H a) by (left; reflexivity). f_equal. apply IH. intros; apply H; right; assumption.
Qed.

Lemma filter_none {A} (f : A -> bool) l : (forall a, In a l -> f a = false) -> filter f l = [].
Proof.
  induction l as [|a l IH]; intros H; simpl; [reflexivity|].
  rewrite (H a) by (left; reflexivity). apply IH. intros; apply H; right; assumption.
Qed.

Lemma filter_ext_in' {A} (f g : A -> bool) l :
  (forall a, In a l -> f a = g a) -> filter f l = filter g l.
Proof.
  induction l as [|a l IH]; intros H; simpl; [reflexivity|].
  rewrite (H a) by (left; reflexivity). rewrite IH by (intros; apply H; right; assumption). reflexivity.
Qed.

Lemma filter_filter {A} (f g : A -> bool) l :
  filter f (filter g l) = filter (fun a => g a && f a) l.
Proof.
  induction l as [|a l IH]; simpl; [reflexivity|].
  destruct (g a); simpl; rewrite IH; reflexivity.
Qed.

Lemma filter_map {A B} (f : B -> bool) (h : A -> B) l :
  filter f (map h l) = map h (filter (fun a => f (h a)) l).
Proof.
  induction l as [|a l IH]; simpl; [reflexivity|].
  destruct (f (h a)); simpl; rewrite IH; reflexivity.
Qed.

Lemma NoDup_map_inv' {A B} (f : A -> B) l : NoDup (map f l) -> NoDup l.
Proof. apply NoDup_map_inv. Qed.

Lemma NoDup_map_inj {A B} (f : A -> B) l :
  (forall a b, In a l -> In b l -> f a = f b -> a = b) -> NoDup l -> NoDup (map f l).
Proof.
  induction l as [|a l IH]; intros I N; simpl; [constructor|].
  inversion N; subst. constructor.
  - intros H. apply in_map_iff in H as (b & E & Hb).
    assert (b = a) by (apply I; simpl; auto). subst. contradiction.
  - apply IH; [|assumption]. intros; apply I; simpl; auto.
Qed.

Lemma NoDup_app_iff {A} (l1 l2 : list A) :
  NoDup (l1 ++ l2) <-> NoDup l1 /\ NoDup l2 /\ (forall x, In x l1 -> ~ In x l2).
Proof.
  induction l1 as [|a l1 IH]; simpl.
  - split; [intros N; repeat split; [constructor|assumption|tauto]|tauto].
  - split.
    + intros N; inversion N; subst. apply IH in H2 as (N1 & N2 & D).
      rewrite in_app_iff in H1. split; [constructor; tauto|]. split; [assumption|].
      intros x [<-|I]; [tauto|auto].
    + intros (N1 & N2 & D). inversion N1; subst. constructor.
      * rewrite in_app_iff. intros [I|I]; [contradiction|]. apply (D a); auto.
      * apply IH. repeat split; auto.
Qed.

Lemma sum_nat_app l1 l2 :
  fold_right Nat.add 0 (l1 ++ l2) = fold_right Nat.add 0 l1 + fold_right Nat.add 0 l2.
Proof. induction l1; simpl; lia. Qed.

Lemma find_app {A} (f : A -> bool) l1 l2 :
  find f (l1 ++ l2) = match find f l1 with Some x => Some x | None => find f l2 end.
Proof. induction l1 as [|a l IH]; simpl; [reflexivity|]. destruct (f a); auto. Qed.

Lemma find_none_iff {A} (f : A -> bool) l : find f l = None <-> (forall x, In x l -> f x = false).
Proof.
  split; [apply find_none|].
  induction l as [|a l IH]; simpl; intros H; [reflexivity|].
  rewrite H by auto. apply IH. auto.
Qed.

Lemma filter_len {A} (f : A -> bool) l : List.length (filter f l) <= List.length l.
Proof. induction l as [|a l IH]; simpl; [lia|]. destruct (f a); simpl; lia. Qed.

(** a loop which ends has run its body on everything *)
Lemma foldM_ran {A S} (f : S -> A -> res S) l x : forall s s', foldM f l s = Ok s' -> In x l -> exists s1 s2, f s1 x = Ok s2.
Proof.
  induction l as [|a l IH]; intros s s' E I; [destruct I|]. cbn in E. apply bind_Ok in E as (s1 & E1 & E). destruct I as [->|I]; [eauto|].
  eapply IH; eassumption.
Qed.

Lemma mapM_ran {A B} (f : A -> res B) l x : forall l', mapM f l = Ok l' -> In x l -> exists b, f x = Ok b.
Proof.
  induction l as [|a l IH]; intros l' E I; [destruct I|]. cbn in E. apply bind_Ok in E as (b & E1 & E). apply bind_Ok in E as (bs & E2 & E).
  destruct I as [->|I]; [eauto|]. eapply IH; eassumption.
Qed.

Lemma foldM_raises {A S} (f : S -> A -> res S) l s e :
  (forall s a, In a l -> (exists s', f s a = Ok s') \/ f s a = Err e) ->
  (exists s', foldM f l s = Ok s') \/ foldM f l s = Err e.
Proof.
  revert s. induction l as [|a l IH]; intros s H; [left; cbn; eauto|]. cbn.
  destruct (H s a (or_introl eq_refl)) as [(s' & ->)| ->]; [|right; reflexivity]. cbn. apply IH. intros; apply H; right; assumption.
Qed.

Lemma foldM_raises_at {A S} (f : S -> A -> res S) l s e x :
  (forall s a, In a l -> (exists s', f s a = Ok s') \/ f s a = Err e) -> In x l -> (forall s, f s x = Err e) ->
  foldM f l s = Err e.
Proof.
  revert s. induction l as [|a l IH]; intros s H I X; [destruct I|]. cbn.
  destruct (H s a (or_introl eq_refl)) as [(s' & E)| ->]; [|reflexivity]. rewrite E. cbn. destruct I as [->|I].
  - rewrite X in E. discriminate.
  - apply IH; [intros; apply H; right; assumption|assumption|assumption].
Qed.

Lemma foldM_ran_inv {A S} (P : S -> Prop) (f : S -> A -> res S) l x : (forall s a s', In a l -> P s -> f s a = Ok s' -> P s') ->
  forall s s', P s -> foldM f l s = Ok s' -> In x l -> exists s1 s2, P s1 /\ f s1 x = Ok s2.
Proof.
  induction l as [|a l IH]; intros H s s' Ps E I; [destruct I|]. cbn in E. apply bind_Ok in E as (s1 & E1 & E). destruct I as [->|I]; [eauto|].
  apply (IH (fun s a s' J => H s a s' (or_intror J)) s1 s'); [eapply H; [left; reflexivity|eassumption..]|assumption..].
Qed.
