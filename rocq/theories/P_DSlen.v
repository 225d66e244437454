(** * Property C108: len of a DisjointSet *)
From Coq Require Import Lia Relations.
From Verif Require Import PyBase L_Base M_UnionFind S_Partition S_UnionFind L_Partition L_UnionFind L_UnionFind2 L_DisjointSet P_UnionFind.

(** Unions which returned True since the last clear. *)
Fixpoint dsuccesses_from (n : nat) (tr : list (dop * res out)) : nat :=
  match tr with
  | [] => n
  | (DUnion _ _, Ok (OBool true)) :: tr' => dsuccesses_from (S n) tr'
  | (DClear, Ok _) :: tr' => dsuccesses_from 0 tr'
  | _ :: tr' => dsuccesses_from n tr'
  end.
Definition dsuccesses (tr : list (dop * res out)) := dsuccesses_from 0 tr.

(** a call on the keys is a call of the same kind on ids *)
Definition same_call (o : dop) (o' : uop) : Prop :=
  match o, o' with
  | DUnion _ _, UUnion _ _ | DFind _, UFind _ | DCardinality _, UCardinality _
  | DSame _ _, USame _ _ | DLen, ULen | DClear, UClear => True
  | _, _ => False
  end.

Lemma dstep_calls o s s' r : dstep o s = (s', r) ->
  exists o', same_call o o' /\ ustep o' (ds_uf s) = (ds_uf s', r).
Proof.
  destruct o as [x y|x|x|x y| |]; cbn [dstep ustep].
  - unfold smap, sbind, ds_union, sbind, ds_id, ds_lift. intros E.
    destruct (getitem (ds_reg s) x) as (r1, i). cbn [ds_uf ds_reg] in E. destruct (getitem r1 y) as (r2, j). cbn [ds_uf ds_reg] in E.
    exists (UUnion i j). split; [exact I|]. cbn [ustep]. unfold smap, sbind.
    destruct (union i j (ds_uf s)) as (u, [b|e]); inversion E; reflexivity.
  - unfold smap, sbind, ds_find, sbind, ds_id, sread. intros E.
    destruct (getitem (ds_reg s) x) as (r1, i). cbn [ds_uf ds_reg] in E.
    exists (UFind i). split; [exact I|]. cbn [ustep]. unfold smap, sbind, sread.
    destruct (find (ds_uf s) i); inversion E; reflexivity.
  - unfold smap, sbind, ds_cardinality, sbind, ds_id, sread. intros E.
    destruct (getitem (ds_reg s) x) as (r1, i). cbn [ds_uf ds_reg] in E.
    exists (UCardinality i). split; [exact I|]. cbn [ustep]. unfold smap, sbind, sread.
    destruct (cardinality (ds_uf s) i); inversion E; reflexivity.
  - unfold smap, sbind, ds_same, sbind, ds_find, sbind, ds_id, sread. intros E.
    destruct (getitem (ds_reg s) x) as (r1, i). cbn [ds_uf ds_reg] in E. destruct (getitem r1 y) as (r2, j).
    exists (USame i j). split; [exact I|]. cbn [ustep]. unfold smap, sbind, sread, are_in_same_set.
    destruct (find (ds_uf s) i) as [a|e]; cbn [ds_uf ds_reg bind] in E |- *; [|inversion E; reflexivity].
    cbn [ds_uf ds_reg] in E.
    destruct (find (ds_uf s) j) as [b|e]; inversion E; reflexivity.
  - intros E. exists ULen. split; [exact I|]. cbn [ustep]. unfold smap, sbind, sread, ds_len in *.
    destruct (len (ds_uf s)); inversion E; reflexivity.
  - intros E. exists UClear. split; [exact I|]. cbn [ustep]. unfold smap, sbind, ds_clear, sbind, ds_lift, smodify in *.
    destruct (clear (ds_uf s)) as (u, [b|e]); inversion E; reflexivity.
Qed.

Lemma run_calls : forall ops s s' outs, run dstep ops s = (s', outs) ->
  exists ops', Forall2 same_call ops ops' /\ run ustep ops' (ds_uf s) = (ds_uf s', outs).
Proof.
  induction ops as [|o ops IH]; intros s s' outs E; cbn [run] in E.
  - inversion E; subst. exists []. split; [constructor|reflexivity].
  - destruct (dstep o s) as (s1, r) eqn:E1. destruct (run dstep ops s1) as (s2, rs) eqn:E2. inversion E; subst.
    destruct (dstep_calls _ _ _ _ E1) as (o' & Co & Eo). destruct (IH _ _ _ E2) as (ops' & C & Eu).
    exists (o' :: ops'). split; [constructor; assumption|]. cbn [run]. rewrite Eo, Eu. reflexivity.
Qed.

Lemma successes_calls ops ops' : Forall2 same_call ops ops' -> forall outs n,
  successes_from n (combine ops' outs) = dsuccesses_from n (combine ops outs).
Proof.
  induction 1 as [|o o' ops ops' C F IH]; intros [|r outs] n; try reflexivity. cbn [combine].
  destruct o, o'; try contradiction; destruct r as [[|[]| |]|e]; cbn; apply IH.
Qed.

(** C108: after any history without OverflowError, and whatever the keys, the length is the capacity
    minus the unions which returned True: the places which no key has taken count as sets. *)
Theorem C108_len_counts : forall pf cap s0 ops s outs,
  make_ds pf cap = Ok s0 -> run dstep ops s0 = (s, outs) -> no_overflow (combine ops outs) ->
  exists n, ds_len s = Ok (Z.of_nat n) /\ n + dsuccesses (combine ops outs) = cap.
Proof.
  intros pf cap s0 ops s outs M R NO. destruct (run_calls _ _ _ _ R) as (ops' & C & R').
  assert (M' : make pf cap = Ok (ds_uf s0)).
  { unfold make_ds in M. apply bind_Ok in M as (u & Mu & E). inversion E; subst. exact Mu. }
  destruct (C03_len_counts_sets pf cap (ds_uf s0) ops' (ds_uf s) outs M' R') as (n & L & _ & S).
  - intros o' I. assert (Lo : List.length outs = List.length ops) by (pose proof (run_length dstep ops s0) as H; rewrite R in H; exact H).
    assert (X : exists o, In (o, Err OverflowError) (combine ops outs)); [|destruct X as (o & X); exact (NO o X)].
    clear - C I. revert outs I. induction C as [|o o'' ops ops' _ _ IH]; intros [|r outs] I; cbn in *; try contradiction.
    destruct I as [I|I]; [inversion I; subst; exists o; auto|]. destruct (IH _ I) as (p & Hp). eauto.
  - exists n. split; [exact L|]. rewrite <- S. f_equal. unfold dsuccesses, successes. rewrite (successes_calls ops ops' C). reflexivity.
Qed.
Print Assumptions C108_len_counts.

Lemma id_closure_low r DP i j : reg_ok r -> (forall x y, In (x, y) DP -> registered r x /\ registered r y) ->
  closure (id_pairs r DP) i j -> i = j \/ i < List.length (index r) /\ j < List.length (index r).
Proof.
  intros R K. revert i j. apply closure_least; try (intros; intuition congruence).
  intros x y I. unfold id_pairs in I. apply in_map_iff in I as ((a, b) & E & I). inversion E; subst. cbn.
  destruct (K a b I) as (Ra & Rb). right. split; eapply reg_id_lt; try apply idof_registered; assumption.
Qed.

Lemma ids_in_order r : reg_ok r -> map (idof r) (dkeys (index r)) = seq 0 (List.length (index r)).
Proof.
  intros R. rewrite <- (ro_ids _ R). unfold dkeys. rewrite map_map. apply map_ext_in. intros [k i] I. cbn.
  unfold idof. rewrite (dget_In k i (index r)); [reflexivity|apply R|exact I].
Qed.

Lemma no_doverflow tr : (forall r e, In r (map snd tr) -> r <> Err e) -> doverflows_from 0 tr = 0.
Proof.
  induction tr as [|[o r] tr IH]; intros H; [reflexivity|].
  assert (Hr : forall e, r <> Err e) by (intros e; apply H; left; reflexivity).
  destruct r as [v|e]; [|destruct (Hr e eq_refl)].
  destruct o; cbn; apply IH; intros r e I; apply H; right; exact I.
Qed.

(** When no call raised, it is the number of sets of the keys mentioned, plus the places left. *)
Theorem C108_len_counts_sets : forall pf cap s0 ops s outs,
  make_ds pf cap = Ok s0 -> run dstep ops s0 = (s, outs) -> fits_from cap [] ops ->
  (forall r e, In r outs -> r <> Err e) ->
  exists n, has_classes (fun x => In x (mentioned ops)) (closure (dunited (combine ops outs))) n
    /\ distinct (mentioned ops) <= cap
    /\ ds_len s = Ok (Z.of_nat (n + (cap - distinct (mentioned ops)))).
Proof.
  intros pf cap s0 ops s outs M R Fit NE.
  destruct (c07_inv pf cap s0 s ops outs M R Fit) as (D & C & K & _).
  assert (K' : incl (mentioned ops) (dkeys (index (ds_reg s)))).
  { destruct (DInv_init _ _ _ M) as (D0 & C0). eapply (run_registered ops s0 [] 0 s outs []); try eassumption.
    - unfold make_ds in M. apply bind_Ok in M as (u & _ & E). inversion E; subst. simpl. intros z [].
    - intros z [].
    - unfold distinct; simpl; lia.
    - rewrite C0. assumption. }
  rewrite no_doverflow in D.
  2:{ intros r e I. apply NE. clear - I. revert outs I. induction ops as [|o ops IH]; intros [|r0 outs] I; cbn in *; try contradiction.
      destruct I as [->|I]; auto. }
  set (DP := dunited (combine ops outs)) in *. set (r := ds_reg s) in *. set (ps := parents (ds_uf s)).
  destruct D as [I RO DK]. fold r in I, RO, DK. set (L := List.length (index r)) in *.
  assert (Len : distinct (mentioned ops) = L).
  { unfold L. rewrite <- dkeys_len. unfold distinct. apply Nat.le_antisymm.
    - apply NoDup_incl_length; [apply NoDup_nodup|]. intros z Hz. rewrite nodup_In in Hz. auto.
    - apply NoDup_incl_length; [apply RO|]. intros z Hz. rewrite nodup_In. auto. }
  assert (Lps : List.length ps = cap) by (unfold ps; rewrite (inv_len_p _ _ _ I); exact C).
  pose proof (inv_forest _ _ _ I) as F. fold ps in F.
  assert (Rel : forall i j, i < cap -> j < cap -> (rt ps i = rt ps j <-> closure (id_pairs r DP) i j)).
  { intros i j Hi Hj. apply (inv_rel _ _ _ I); unfold ds_capacity in C; lia. }
  assert (Lc : L <= cap).
  { rewrite <- Len. unfold mentioned. clear - Fit. assert (H : distinct [] <= cap) by (unfold distinct; cbn; lia).
    revert H Fit. generalize (@nil key) as acc. induction ops as [|o ops IH]; intros acc H Fit; [exact H|].
    destruct o; cbn [mentioned_from fits_from] in *; try (apply IH; tauto). apply IH; [unfold distinct; cbn; lia|exact Fit]. }
  assert (High : forall i, L <= i -> i < cap -> nth_error ps i = Some i).
  { intros i H1 H2. assert (B : rt ps i < cap) by (rewrite <- Lps; apply rt_lt; [exact F|lia]).
    assert (Rt : nth_error ps (rt ps i) = Some (rt ps i)) by (apply rt_root; [exact F|lia]).
    assert (E : closure (id_pairs r DP) i (rt ps i)) by (apply Rel; [lia|lia|]; symmetry; apply rt_of_root; assumption).
    apply id_closure_low in E as [E|[E _]]; [rewrite <- E in Rt; exact Rt|unfold L in H1; lia|exact RO|exact DK]. }
  set (reps := filter (fun x => is_root ps (idof r x)) (dkeys (index r))).
  exists (List.length reps). split; [|split; [rewrite Len; exact Lc|]].
  - exists reps. split; [apply NoDup_filter, RO|]. split; [reflexivity|]. split; [|split].
    + intros x Hx. apply filter_In in Hx as (Hx & _). apply K, Hx.
    + intros x Hx. apply K' in Hx. fold r in Hx.
      assert (Bx : idof r x < L) by (eapply reg_id_lt; [exact RO|apply idof_registered, Hx]).
      set (j := rt ps (idof r x)).
      assert (Rt : nth_error ps j = Some j) by (apply rt_root; [exact F|lia]).
      assert (Bj : j < cap) by (rewrite <- Lps; apply rt_lt; [exact F|lia]).
      assert (E : closure (id_pairs r DP) (idof r x) j) by (apply Rel; [lia|lia|]; symmetry; apply rt_of_root; assumption).
      assert (Lj : j < L) by (destruct (id_closure_low _ _ _ _ RO DK E) as [X|[_ X]]; [lia|exact X]).
      assert (Ij : In j (map (idof r) (dkeys (index r)))) by (rewrite ids_in_order by exact RO; apply in_seq; unfold L in Lj; lia).
      apply in_map_iff in Ij as (y & Ey & Hy). exists y. split.
      * apply filter_In. split; [exact Hy|]. rewrite Ey. apply is_root_iff, Rt.
      * rewrite <- Ey in E. apply (id_closure r DP x y RO DK Hx Hy), E.
    + intros x y Hx Hy E. apply filter_In in Hx as (Hx & Rx). apply filter_In in Hy as (Hy & Ry).
      apply is_root_iff in Rx, Ry. apply (id_closure r DP x y RO DK Hx Hy) in E.
      assert (Bx : idof r x < L) by (eapply reg_id_lt; [exact RO|apply idof_registered, Hx]).
      assert (By : idof r y < L) by (eapply reg_id_lt; [exact RO|apply idof_registered, Hy]).
      apply Rel in E; [|lia|lia]. rewrite !rt_of_root in E by assumption.
      eapply reg_id_inj; [exact RO|apply idof_registered, Hx|]. rewrite E. apply idof_registered, Hy.
  - assert (Cn : count (ds_uf s) = Z.of_nat (List.length (roots ps))) by (rewrite (inv_count _ _ _ I); fold ps; lia).
    assert (Rn : List.length (roots ps) = List.length reps + (cap - L)).
    { unfold roots. rewrite Lps. replace cap with (L + (cap - L)) at 1 by lia. rewrite seq_app, filter_app, app_length. f_equal.
      - unfold L. rewrite <- (ids_in_order r RO). unfold reps. clear. induction (dkeys (index r)) as [|x l IH]; [reflexivity|].
        cbn. destruct (is_root ps (idof r x)); cbn; congruence.
      - rewrite <- (seq_length (cap - L) (0 + L)) at 2. f_equal. cbn [Nat.add]. assert (H : forall i, In i (seq L (cap - L)) -> is_root ps i = true).
        { intros i Hi. apply in_seq in Hi. apply is_root_iff, High; lia. }
        induction (seq L (cap - L)) as [|i l IH]; [reflexivity|]. cbn. rewrite (H i (or_introl eq_refl)). f_equal. apply IH.
        intros k Hk. apply H. right. exact Hk. }
    unfold ds_len, len. rewrite Cn, Len, <- Rn. destruct (Z.ltb_spec (Z.of_nat (List.length (roots ps))) 0); [lia|reflexivity].
Qed.
Print Assumptions C108_len_counts_sets.

(** five places, three keys in two sets *)
Example C108_ex :
  ds_after 5 [DUnion (K "a") (K "b"); DLen; DUnion (K "b") (K "a"); DFind (K "c"); DLen]
    (fun s0 s outs => (ds_len s0, outs, ds_len s, ds_capacity s))
  = Ok (Ok 5%Z, [Ok (OBool true); Ok (OInt 4); Ok (OBool false); Ok (ONat 2); Ok (OInt 4)], Ok 4%Z, 5)
  /\ fits_from 5 [] [DUnion (K "a") (K "b"); DLen; DUnion (K "b") (K "a"); DFind (K "c"); DLen].
Proof. split; [vm_compute; reflexivity|]. vm_compute. repeat split; repeat constructor. Qed.
