(** * Proofs about pelote/classes/traversal.py and pelote/shim.py *)
From Coq Require Import Lia.
From Verif Require Import PyBase L_Base M_UnionFind M_Traversal M_Shim S_Utils.

Section Trav.
Context {I : Type}.
Implicit Types (t : trav I).

Lemma set_add_In k s x : In x (set_add k s) <-> x = k \/ In x s.
Proof.
  unfold set_add. destruct (mem k s) eqn:E.
  - apply mem_In in E. split; [tauto|]. intros [->|H]; assumption.
  - rewrite in_app_iff. simpl. intuition congruence.
Qed.

Lemma set_add_NoDup k s : NoDup s -> NoDup (set_add k s).
Proof.
  intros N. unfold set_add. destruct (mem k s) eqn:E; [assumption|].
  apply NoDup_snoc; [assumption|]. intros H. apply mem_In in H. congruence.
Qed.

Lemma set_add_length k s : Nat.eqb (List.length s) (List.length (set_add k s)) = mem k s.
Proof.
  unfold set_add. destruct (mem k s); [apply Nat.eqb_refl|].
  rewrite app_length. simpl. apply Nat.eqb_neq. lia.
Qed.

Lemma append_eq t n i :
  t_append n i t = if mem n (t_seen t) then (t, Ok false)
                   else (mkT (t_graph t) (t_items t ++ [stored n i]) (t_seen t ++ [n]), Ok true).
Proof.
  unfold t_append. rewrite set_add_length. unfold set_add.
  destruct (mem n (t_seen t)); [destruct t|]; reflexivity.
Qed.

(** the calls that do not depend on which end is popped *)
Definition is_pop (pop : sm (trav I) (key + I)) : Prop :=
  forall t, t_graph (fst (pop t)) = t_graph t /\ t_seen (fst (pop t)) = t_seen t.

Lemma pop_is_pop : is_pop t_pop.
Proof. intros t. unfold t_pop. destruct (rev (t_items t)); split; reflexivity. Qed.
Lemma popleft_is_pop : is_pop t_popleft.
Proof. intros t. unfold t_popleft. destruct (t_items t); split; reflexivity. Qed.

Lemma step_seen pop o t : is_pop pop ->
  t_graph (fst (tstep pop o t)) = t_graph t /\
  t_seen (fst (tstep pop o t)) =
    match o with TAppend n _ => set_add n (t_seen t) | _ => t_seen t end.
Proof.
  intros P. destruct o; try (split; reflexivity).
  - unfold tstep, smap, sbind. rewrite append_eq. unfold set_add.
    destruct (mem node (t_seen t)); split; reflexivity.
  - unfold tstep, smap, sbind. specialize (P t). destruct (pop t) as [t' [x|e]]; exact P.
Qed.

Lemma run_seen pop ops : is_pop pop -> forall t t' outs,
  run (tstep pop) ops t = (t', outs) -> NoDup (t_seen t) ->
  t_graph t' = t_graph t /\ NoDup (t_seen t')
  /\ (forall k, In k (t_seen t') <-> In k (t_seen t) \/ In k (appended ops)).
Proof.
  intros P. induction ops as [|o ops IH]; intros t t' outs E N.
  - cbn in E. inversion E; subst. split; [reflexivity|]. split; [assumption|]. simpl. tauto.
  - cbn [run] in E. destruct (tstep pop o t) as [t1 r] eqn:E1.
    destruct (run (tstep pop) ops t1) as [t2 rs] eqn:E2. inversion E; subst.
    destruct (step_seen pop o t P) as (G & S). rewrite E1 in G, S. cbn [fst] in G, S.
    assert (N1 : NoDup (t_seen t1)) by (rewrite S; destruct o; auto using set_add_NoDup).
    destruct (IH _ _ _ E2 N1) as (G2 & N2 & S2). split; [congruence|]. split; [assumption|].
    intros k. rewrite S2, S. unfold appended. cbn [flat_map]. rewrite in_app_iff.
    fold (appended ops). destruct o; simpl; try tauto. rewrite set_add_In. intuition congruence.
Qed.

Lemma append_first pop ops g t outs n i b : is_pop pop ->
  run (tstep pop) ops (t_make g) = (t, outs) ->
  snd (tstep pop (TAppend n i) t) = Ok (OBool b) -> (b = true <-> ~ In n (appended ops)).
Proof.
  intros P E. destruct (run_seen pop ops P _ _ _ E) as (_ & _ & S); [constructor|].
  unfold tstep, smap, sbind. rewrite append_eq. specialize (S n). cbn [t_make t_seen] in S.
  destruct (mem n (t_seen t)) eqn:M; cbn; intros H; inversion H; subst b.
  - apply mem_In in M. split; [discriminate|]. intros C. exfalso. apply C. apply S in M. destruct M as [[]|M]; exact M.
  - apply mem_nIn in M. split; [|reflexivity]. intros _ C. apply M. apply S. right; exact C.
Qed.

Lemma append_answers pop n i t : exists b, snd (tstep pop (TAppend n i) t) = Ok (OBool b).
Proof. unfold tstep, smap, sbind. rewrite append_eq. destruct (mem _ _); eexists; reflexivity. Qed.

Lemma contains_iff pop ops g t outs n : is_pop pop ->
  run (tstep pop) ops (t_make g) = (t, outs) -> (t_contains t n = true <-> In n (appended ops)).
Proof.
  intros P E. destruct (run_seen pop ops P _ _ _ E) as (_ & _ & S); [constructor|].
  unfold t_contains. rewrite mem_In, S. simpl. tauto.
Qed.

Lemma seen_all_incl t : NoDup (t_seen t) -> NoDup (t_graph t) -> incl (t_seen t) (t_graph t) ->
  seen_everything t = true -> incl (t_graph t) (t_seen t).
Proof.
  intros N1 N2 H E. apply Nat.eqb_eq in E. apply NoDup_length_incl; [assumption|lia|assumption].
Qed.

Lemma unseen_loop_eq t l :
  unseen_loop t l = if seen_everything t then [] else filter (fun n => negb (mem n (t_seen t))) l.
Proof.
  induction l as [|n l IH]; simpl; [destruct (seen_everything t); reflexivity|].
  destruct (seen_everything t); [reflexivity|]. rewrite IH. destruct (mem n (t_seen t)); reflexivity.
Qed.

Lemma unseen_spec pop ops g t outs : is_pop pop -> NoDup g -> incl (appended ops) g ->
  run (tstep pop) ops (t_make g) = (t, outs) ->
  nodes_yet_unseen t = filter (fun n => negb (mem n (appended ops))) g
  /\ (seen_everything t = true <-> incl g (appended ops)).
Proof.
  intros P N H E. destruct (run_seen pop ops P _ _ _ E) as (G & N2 & S); [constructor|].
  cbn [t_make t_graph t_seen] in G, S.
  assert (S' : forall k, In k (t_seen t) <-> In k (appended ops)) by (intros k; rewrite S; simpl; tauto).
  assert (IN : incl (t_seen t) (t_graph t)) by (intros k Hk; rewrite G; apply H, S', Hk).
  assert (MM : forall k, mem k (t_seen t) = mem k (appended ops)).
  { intros k. destruct (mem k (t_seen t)) eqn:M1, (mem k (appended ops)) eqn:M2; try reflexivity.
    - apply mem_In, S', mem_In in M1. congruence.
    - apply mem_In, S', mem_In in M2. congruence. }
  split.
  - unfold nodes_yet_unseen. rewrite unseen_loop_eq, G. destruct (seen_everything t) eqn:SE.
    + rewrite filter_none; [reflexivity|]. intros n Hn. rewrite <- MM. apply negb_false_iff, mem_In.
      apply seen_all_incl in SE; try assumption; rewrite ?G in *; auto.
    + apply filter_ext. intros n. rewrite MM. reflexivity.
  - split.
    + intros SE. apply seen_all_incl in SE; try assumption; [|congruence].
      intros k Hk. apply S', SE. congruence.
    + intros HI. apply Nat.eqb_eq. apply Nat.le_antisymm.
      * apply NoDup_incl_length; assumption.
      * rewrite G. apply NoDup_incl_length; [assumption|]. intros k Hk. apply S', HI, Hk.
Qed.

(** ** order of the pops *)
Lemma fifo ops : forall t t' outs,
  run bfs_step ops t = (t', outs) ->
  t_items t ++ stored_items (combine ops outs) = popped_items (combine ops outs) ++ t_items t'.
Proof.
  induction ops as [|o ops IH]; intros t t' outs E.
  - cbn in E. inversion E; subst. cbn. rewrite app_nil_r. reflexivity.
  - cbn [run] in E. destruct (bfs_step o t) as [t1 r] eqn:E1.
    destruct (run bfs_step ops t1) as [t2 rs] eqn:E2. inversion E; subst. clear E.
    specialize (IH _ _ _ E2). cbn [combine]. unfold stored_items, popped_items in *. cbn [flat_map].
    destruct o; cbn in E1.
    + unfold smap, sbind in E1. rewrite append_eq in E1.
      destruct (mem node (t_seen t)); inversion E1; subst; cbn [app].
      * exact IH.
      * cbn [t_items] in IH. rewrite <- app_assoc in IH. exact IH.
    + unfold smap, sbind, t_popleft in E1. destruct (t_items t) as [|x l] eqn:EI; inversion E1; subst; cbn [app].
      * rewrite EI in IH. exact IH.
      * cbn [t_items] in IH. rewrite IH. reflexivity.
    + inversion E1; subst. exact IH.
    + inversion E1; subst. exact IH.
    + inversion E1; subst. exact IH.
    + inversion E1; subst. exact IH.
Qed.

Lemma run_app {O S A} (step : O -> sm S A) o1 o2 s :
  run step (o1 ++ o2) s =
  let (s1, r1) := run step o1 s in let (s2, r2) := run step o2 s1 in (s2, r1 ++ r2).
Proof.
  revert s. induction o1 as [|o o1 IH]; intros s; cbn [app run].
  - destruct (run step o2 s); reflexivity.
  - destruct (step o s) as [s1 r]. rewrite IH. destruct (run step o1 s1) as [s2 r2].
    destruct (run step o2 s2); reflexivity.
Qed.

Lemma run_length {O S A} (step : O -> sm S A) (ops : list O) : forall s s' outs,
  run step ops s = (s', outs) -> List.length outs = List.length ops.
Proof.
  induction ops as [|o ops IH]; intros s s' outs E; cbn in E; [inversion E; reflexivity|].
  destruct (step o s) as [s1 r]. destruct (run step ops s1) as [s2 rs] eqn:E2. inversion E; subst.
  simpl. f_equal. eapply IH; eassumption.
Qed.

Lemma combine_split_app {A B} (a : list A) (b : list B) p1 p2 :
  List.length a = List.length b -> combine a b = p1 ++ p2 ->
  exists a1 a2 b1 b2, a = a1 ++ a2 /\ b = b1 ++ b2 /\ combine a1 b1 = p1 /\ combine a2 b2 = p2
    /\ List.length a1 = List.length b1.
Proof.
  revert a b. induction p1 as [|[x y] p1 IH]; intros a b L E.
  - exists [], a, [], b. repeat split; try reflexivity. exact E.
  - destruct a as [|x' a], b as [|y' b]; try discriminate. cbn in E. inversion E; subst. cbn in L.
    destruct (IH a b ltac:(lia) H2) as (a1 & a2 & b1 & b2 & -> & -> & H3 & H4 & H5).
    exists (x :: a1), a2, (y :: b1), b2. subst. repeat split; try reflexivity. simpl. lia.
Qed.

Lemma run_split {O S A} (step : O -> sm S A) o1 o2 r1 r2 s s' :
  run step (o1 ++ o2) s = (s', r1 ++ r2) -> List.length o1 = List.length r1 ->
  exists s1, run step o1 s = (s1, r1) /\ run step o2 s1 = (s', r2).
Proof.
  intros E L. rewrite run_app in E. destruct (run step o1 s) as [s1 q1] eqn:E1.
  destruct (run step o2 s1) as [s2 q2] eqn:E2. inversion E as [[H0 H1]]. subst s2.
  pose proof (run_length _ _ _ _ _ E1) as L1.
  assert (q1 = r1 /\ q2 = r2) as [-> ->].
  { revert H1. assert (LL : List.length q1 = List.length r1) by lia.
    clear -LL. revert r1 LL. induction q1 as [|q q1 IH]; intros [|r r1] LL H; try discriminate.
    - split; [reflexivity|exact H].
    - cbn in LL, H. inversion H; subst. destruct (IH r1 ltac:(lia) H2) as [-> ->]. split; reflexivity. }
  eauto.
Qed.

Lemma combine_one {A B} (a : list A) (b : list B) x y :
  List.length a = List.length b -> combine a b = [(x, y)] -> a = [x] /\ b = [y].
Proof.
  destruct a as [|x' [|]], b as [|y' [|]]; intros L E; try discriminate. inversion E. split; reflexivity.
Qed.

Lemma run_one {O S A} (step : O -> sm S A) o s s' r : run step [o] s = (s', [r]) -> step o s = (s', r).
Proof. cbn. destruct (step o s). intros E; inversion E; reflexivity. Qed.

Lemma pop_last t x l : t_items t = l ++ [x] ->
  t_pop t = (mkT (t_graph t) l (t_seen t), Ok x).
Proof. intros E. unfold t_pop. rewrite E, rev_unit, rev_involutive. reflexivity. Qed.

Lemma balanced_items tr : balanced tr -> forall ops outs t t',
  run dfs_step ops t = (t', outs) -> combine ops outs = tr -> t_items t' = t_items t.
Proof.
  induction 1 as [|n i|o r L|n i x tr B IH|tr1 tr2 B1 IH1 B2 IH2]; intros ops outs t t' E C;
    pose proof (run_length _ _ _ _ _ E) as LN.
  - destruct ops, outs; try discriminate. inversion E; reflexivity.
  - apply combine_one in C; [|congruence]. destruct C as [-> ->]. apply run_one in E.
    cbn in E. unfold smap, sbind in E. rewrite append_eq in E. destruct (mem n (t_seen t)); inversion E; subst; reflexivity.
  - apply combine_one in C; [|congruence]. destruct C as [-> ->]. apply run_one in E.
    destruct o; try contradiction; inversion E; subst; reflexivity.
  - change ((TAppend n i, Ok (OBool true)) :: tr ++ [(TPop, Ok (OItem x))])
      with ([(TAppend n i, Ok (OBool true))] ++ (tr ++ [(TPop, Ok (OItem x))])) in C.
    apply combine_split_app in C; [|congruence].
    destruct C as (a1 & a2 & b1 & b2 & -> & -> & C1 & C2 & L1).
    destruct (run_split _ _ _ _ _ _ _ E L1) as (t1 & R1 & R2).
    apply combine_one in C1; [|assumption]. destruct C1 as [-> ->]. apply run_one in R1.
    pose proof (run_length _ _ _ _ _ R2) as L2.
    apply combine_split_app in C2; [|congruence].
    destruct C2 as (a3 & a4 & b3 & b4 & -> & -> & C3 & C4 & L3).
    destruct (run_split _ _ _ _ _ _ _ R2 L3) as (t2 & R3 & R4).
    pose proof (run_length _ _ _ _ _ R4) as L4.
    apply combine_one in C4; [|congruence]. destruct C4 as [-> ->]. apply run_one in R4.
    specialize (IH _ _ _ _ R3 C3).
    cbn in R1. unfold smap, sbind in R1. rewrite append_eq in R1.
    destruct (mem n (t_seen t)); inversion R1; subst t1. cbn [t_items] in IH.
    cbn in R4. unfold smap, sbind in R4. rewrite (pop_last _ _ _ IH) in R4. inversion R4; subst. reflexivity.
  - apply combine_split_app in C; [|congruence].
    destruct C as (a1 & a2 & b1 & b2 & -> & -> & C1 & C2 & L1).
    destruct (run_split _ _ _ _ _ _ _ E L1) as (t1 & R1 & R2).
    rewrite (IH2 _ _ _ _ R2 C2). apply (IH1 _ _ _ _ R1 C1).
Qed.

Lemma lifo ops n i outs t t1 t2 :
  dfs_step (TAppend n i) t = (t1, Ok (OBool true)) ->
  run dfs_step ops t1 = (t2, outs) -> balanced (combine ops outs) ->
  snd (dfs_step TPop t2) = Ok (OItem (stored n i)) /\ t_items (fst (dfs_step TPop t2)) = t_items t.
Proof.
  intros A R B. pose proof (balanced_items _ B _ _ _ _ R eq_refl) as E.
  cbn in A. unfold smap, sbind in A. rewrite append_eq in A.
  destruct (mem n (t_seen t)); inversion A; subst t1. cbn [t_items] in E.
  cbn. unfold smap, sbind. rewrite (pop_last _ _ _ E). split; reflexivity.
Qed.

Lemma len_dfs ops : forall t t' outs, run dfs_step ops t = (t', outs) ->
  List.length (popped_items (combine ops outs)) + t_len t'
  = t_len t + List.length (stored_items (combine ops outs)).
Proof.
  induction ops as [|o ops IH]; intros t t' outs E.
  - cbn in E. inversion E; subst. cbn. lia.
  - cbn [run] in E. destruct (dfs_step o t) as [t1 r] eqn:E1.
    destruct (run dfs_step ops t1) as [t2 rs] eqn:E2. inversion E; subst. clear E.
    specialize (IH _ _ _ E2). cbn [combine]. unfold stored_items, popped_items in *. cbn [flat_map].
    rewrite !app_length. destruct o; cbn in E1; unfold t_len in *.
    + unfold smap, sbind in E1. rewrite append_eq in E1.
      destruct (mem node (t_seen t)); inversion E1; subst; cbn [List.length t_items] in *; rewrite ?app_length in *; cbn in *; lia.
    + unfold smap, sbind, t_pop in E1.
      assert (LR := rev_length (t_items t)).
      destruct (rev (t_items t)) as [|x l] eqn:EI; inversion E1; subst; cbn [List.length t_items] in *; rewrite ?rev_length in *; lia.
    + inversion E1; subst. cbn. lia.
    + inversion E1; subst. cbn. lia.
    + inversion E1; subst. cbn. lia.
    + inversion E1; subst. cbn. lia.
Qed.

Lemma pop_raises_iff t : (exists e, snd (dfs_step TPop t) = Err e) <-> t_len t = 0.
Proof.
  cbn. unfold smap, sbind, t_pop, t_len. assert (LR := rev_length (t_items t)).
  destruct (rev (t_items t)); cbn in *.
  - split; eauto.
  - split; [intros (e & H); discriminate|lia].
Qed.
Lemma popleft_raises_iff t : (exists e, snd (bfs_step TPop t) = Err e) <-> t_len t = 0.
Proof.
  cbn. unfold smap, sbind, t_popleft, t_len. destruct (t_items t); cbn in *.
  - split; eauto.
  - split; [intros (e & H); discriminate|lia].
Qed.
End Trav.

(** ** shim *)
Lemma run_client_inv p : forall depth s l s' l' r,
  run_client depth p (s, l) = ((s', l'), r) ->
  original_pandas s' = original_pandas s /\ exists l1, l' = l ++ l1
  /\ (nesting p = 0 -> pd s' = pd s /\ Forall (fun o => o = (depth, check_pandas s)) l1)
  /\ (pd s = original_pandas s -> pd s' = original_pandas s')
  /\ (nesting p <= 1 -> depth = 0 -> pd s = original_pandas s ->
      Forall (fun o => snd o = if andb (Nat.eqb (fst o) 0) (original_pandas s)
                               then Ok tt else Err MissingPandasException) l1).
Proof.
  induction p as [| |e|p IHp q IHq|p IHp|p IHp]; intros depth s l s' l' r E; cbn [run_client] in E.
  - inversion E; subst. split; [reflexivity|]. exists []. rewrite app_nil_r.
    repeat split; try reflexivity; try constructor. auto.
  - inversion E; subst. split; [reflexivity|]. eexists. split; [reflexivity|].
    split; [|split].
    + intros _. split; [reflexivity|]. repeat constructor.
    + auto.
    + intros _ -> H. constructor; [|constructor]. unfold check_pandas. cbn. rewrite H.
      destruct (original_pandas s'); reflexivity.
  - inversion E; subst. split; [reflexivity|]. exists []. rewrite app_nil_r.
    repeat split; try reflexivity; try constructor. auto.
  - unfold sbind in E. destruct (run_client depth p (s, l)) as [[s1 l1] r1] eqn:E1.
    destruct (IHp _ _ _ _ _ _ E1) as (O1 & d1 & -> & A1 & B1 & C1).
    destruct r1 as [[]|e].
    + destruct (IHq _ _ _ _ _ _ E) as (O2 & d2 & -> & A2 & B2 & C2).
      split; [congruence|]. exists (d1 ++ d2). rewrite app_assoc. split; [reflexivity|].
      split; [|split].
      * cbn [nesting]. intros N. destruct (A1 ltac:(lia)) as (P1 & F1). destruct (A2 ltac:(lia)) as (P2 & F2).
        split; [congruence|]. apply Forall_app. split; [assumption|].
        assert (CK : check_pandas s1 = check_pandas s) by (unfold check_pandas; rewrite P1; reflexivity).
        rewrite CK in F2. exact F2.
      * auto.
      * cbn [nesting]. intros N D H. apply Forall_app. split; [apply C1; try assumption; lia|].
        rewrite <- O1. apply C2; [lia|assumption|]. apply B1. assumption.
    + inversion E; subst. split; [congruence|]. exists d1. split; [reflexivity|]. split; [|split].
      * cbn [nesting]. intros N. apply A1. lia.
      * auto.
      * cbn [nesting]. intros N. apply C1. lia.
  - destruct (run_client depth p (s, l)) as [[s1 l1] r1] eqn:E1. inversion E; subst.
    destruct (IHp _ _ _ _ _ _ E1) as (O1 & d1 & -> & A1 & B1 & C1).
    split; [assumption|]. exists d1. split; [reflexivity|]. auto.
  - unfold missing_pandas in E. destruct (run_client (S depth) p (obliterate_pandas s, l)) as [[s1 l1] r1] eqn:E1.
    assert (s' = resurrect_pandas s1 /\ l' = l1) as [-> ->] by (destruct r1; inversion E; subst; split; reflexivity).
    destruct (IHp _ _ _ _ _ _ E1) as (O1 & d1 & -> & A1 & B1 & C1).
    cbn [obliterate_pandas original_pandas pd] in *.
    assert (OR : original_pandas (resurrect_pandas s1) = original_pandas s1).
    { unfold resurrect_pandas. destruct (original_pandas s1) eqn:X; [reflexivity|assumption]. }
    split; [congruence|]. exists d1. split; [reflexivity|]. split; [|split].
    + cbn [nesting]. discriminate.
    + intros H. rewrite OR. unfold resurrect_pandas. destruct (original_pandas s1) eqn:X; [reflexivity|].
      symmetry in O1. apply B1. congruence.
    + cbn [nesting]. intros N D H. destruct (A1 ltac:(lia)) as (_ & F).
      eapply Forall_impl; [|exact F]. intros o ->. reflexivity.
Qed.
