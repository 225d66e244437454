(** * C105: on_epoch is called at each epoch *)
From Coq Require Import List Relations ZArith Lia Bool QArith String.
From Verif Require Import PyBase PyNum NxGraph L_Base L_Nx L_Nx2 S_Partition M_Traversal M_Graph S_Graph L_Graph L_Comp L_Comp2 P_Graph
  S_Sparse M_Learn S_Num L_Num S_Learn L_Learn P_Learn M_Epoch.
Import ListNotations.
Close Scope Q_scope.
Open Scope list_scope.

Section Told.
Variable U : Type.
Implicit Types (f : callback U) (s : graph * U).

(** the callback is called on each epoch in turn until one call raises *)
Fixpoint told f (epochs : list epoch) : sm (graph * U) unit :=
  match epochs with [] => sret tt | e :: l => let! _ := f e in told f l end.

(** the graph is left as it is *)
Definition looks_only f : Prop := forall e s, fst (fst (f e s)) = fst s.

Lemma loop_told f lib rate m attr fuel : looks_only f -> forall n t s r ep,
  floatsam_loop fuel lib (fst s) rate m attr n t = Ok (r, ep) ->
  observed_loop fuel lib rate m attr (Some f) n t s = (let! _ := told f ep in sret r) s.
Proof.
  intros L. induction fuel as [|fuel IH]; intros n t s r ep E; cbn [floatsam_loop observed_loop] in *; [discriminate|].
  unfold sbind at 1, sread. destruct (second_largest_connected_component_order _ _) as [c|x] eqn:Ec; cbn [bind] in E; [|discriminate].
  set (e := mkEpoch (S n) m c (n_add lib t rate)) in *. cbn [tell].
  destruct (match c with Some c => _ | None => false end) eqn:V.
  - inversion E; subst r ep. cbn [told]. unfold sbind, sret. destruct (f e s) as [s' [[]|x]]; reflexivity.
  - destruct (floatsam_loop fuel lib (fst s) rate m attr (S n) (n_add lib t rate)) as [[r' l]|x] eqn:E'; cbn [bind fst snd] in E; [|discriminate].
    inversion E; subst r' ep. cbn [told]. unfold sbind at 1 2 3. pose proof (L e s) as Ls. destruct (f e s) as [s' [[]|x]]; [|reflexivity].
    cbn in Ls. rewrite <- Ls in E'. exact (IH _ _ s' _ _ E').
Qed.

Lemma loop_alone lib rate m attr fuel : forall n t s,
  observed_loop fuel lib rate m attr None n t s = (s, let* r := floatsam_loop fuel lib (fst s) rate m attr n t in Ok (fst r)).
Proof.
  induction fuel as [|fuel IH]; intros n t s; cbn [floatsam_loop observed_loop]; [reflexivity|].
  unfold sbind at 1, sread. destruct (second_largest_connected_component_order _ _) as [c|x] eqn:Ec; cbn [bind]; [|reflexivity].
  cbn [tell]. unfold sbind, sret. destruct (match c with Some c => _ | None => false end); [reflexivity|]. rewrite IH.
  destruct (floatsam_loop _ _ _ _ _ _ _ _) as [[r l]|x]; reflexivity.
Qed.

(** without callback *)
Theorem C105_alone fuel lib start rate o attr s :
  observed_learner fuel lib start rate o attr None s
  = (s, let* r := floatsam_threshold_learner fuel lib (fst s) start rate o attr in Ok (fst r)).
Proof.
  unfold observed_learner, floatsam_threshold_learner, sbind, sread. destruct (Nat.eqb (size (fst s)) 0); [reflexivity|].
  destruct (drifter_order lib (fst s) o) as [m|x]; [|reflexivity]. cbn [bind]. apply loop_alone.
Qed.

(** A callback which only looks at the graph is called on the epochs of C80 in turn; the threshold is returned if no call
    raises, and otherwise the first exception goes through. *)
Theorem C105_told fuel lib start rate o attr f s t epochs : looks_only f ->
  floatsam_threshold_learner fuel lib (fst s) start rate o attr = Ok (t, epochs) ->
  observed_learner fuel lib start rate o attr (Some f) s = (let! _ := told f epochs in sret t) s.
Proof.
  intros L. unfold observed_learner, floatsam_threshold_learner, sbind at 1 2, sread. destruct (Nat.eqb (size (fst s)) 0).
  - intros E. inversion E. reflexivity.
  - destruct (drifter_order lib (fst s) o) as [m|x]; cbn [bind]; [|discriminate]. apply loop_told, L.
Qed.

(** A callback which raises from some epoch on ends the learner, even when it would not return (C73). *)
Definition raises_from f (N : nat) : Prop := forall e s, N <= e_nth e -> exists s' x, f e s = (s', Err x).

Lemma loop_ends f N lib rate m attr fuel : looks_only f -> raises_from f N -> forall n t s, WF (fst s) -> g_dir (fst s) = false -> all_weighted (fst s) attr ->
  N <= n + fuel -> 0 < fuel -> exists s' r, observed_loop fuel lib rate m attr (Some f) n t s = (s', r)
    /\ ((exists best, r = Ok best) \/ exists e s0 x, r = Err x /\ f e s0 = (s', Err x) /\ e_nth e <= Nat.max N (S n)).
Proof.
  intros L R. induction fuel as [|fuel IH]; intros n t s W D A Le P; [lia|]. cbn [observed_loop]. unfold sbind at 1, sread.
  destruct (epoch_spec (fst s) attr W D A m (n_add lib t rate)) as (sizes & c & E & _). rewrite E. cbn [tell].
  set (e := mkEpoch (S n) m c (n_add lib t rate)). unfold sbind at 1. pose proof (L e s) as Ls.
  destruct (f e s) as [s' [[]|x]] eqn:F; cbn in Ls.
  - destruct (match c with Some c => _ | None => false end); [exists s', (Ok t); split; [reflexivity|left; eauto]|].
    destruct (Nat.le_gt_cases N (S n)) as [G|G]; [destruct (R e s G) as (s1 & x & F'); congruence|].
    destruct (IH (S n) (n_add lib t rate) s') as (s2 & r & E2 & H); [rewrite Ls; assumption..|lia|lia|]. exists s2, r. split; [exact E2|].
    destruct H as [H|(e' & s0 & x & H1 & H2 & H3)]; [auto|]. right. exists e', s0, x. split; [exact H1|]. split; [exact H2|]. lia.
  - exists s', (Err x). split; [reflexivity|]. right. exists e, s, x. split; [reflexivity|]. split; [exact F|]. cbn. lia.
Qed.

Theorem C105_ends f N fuel lib start rate o attr s : looks_only f -> raises_from f N ->
  WF (fst s) -> g_dir (fst s) = false -> all_weighted (fst s) attr -> N <= fuel -> 0 < fuel ->
  exists s' r, observed_learner fuel lib start rate o attr (Some f) s = (s', r)
    /\ ((exists t, r = Ok t) \/ exists e s0 x, r = Err x /\ f e s0 = (s', Err x) /\ e_nth e <= Nat.max N 1).
Proof.
  intros L R W D A Le P. unfold observed_learner, sbind at 1 2, sread. destruct (Nat.eqb (size (fst s)) 0) eqn:Z; [exists s, (Ok start); split; [reflexivity|eauto]|].
  apply Nat.eqb_neq in Z. destruct (drifter_order lib (fst s) o) as [m|x] eqn:Dm; [apply loop_ends; assumption|]. exfalso.
  destruct o as [m|]; [discriminate|]. cbn in Dm.
  destruct (largest_order_spec (fst s) W D) as [[N' _]|(sz & n & _ & _ & EL)]; [apply size_nodes in N'; [contradiction|assumption]|].
  rewrite EL in Dm. discriminate.
Qed.

(** A callback which changes the graph: the threshold returned is the last one before a component drifts in the graph of that epoch. *)
Definition fit (attr : key) (g : graph) : Prop := WF g /\ g_dir g = false /\ all_weighted g attr.

Lemma loop_changing f lib rate m attr fuel : (forall e s, fit attr (fst s) -> fit attr (fst (fst (f e s)))) -> forall n t s s' best, fit attr (fst s) ->
  observed_loop fuel lib rate m attr (Some f) n t s = (s', Ok best) ->
  exists k s0 e, best = reached lib t rate k /\ f e s0 = (s', Ok tt) /\ e_nth e = n + S k /\ e_threshold e = reached lib t rate (S k)
    /\ fit attr (fst s0) /\ drifts (fst s0) (kept_at lib t rate attr (S k)) m.
Proof.
  intros I. induction fuel as [|fuel IH]; intros n t s s' best F E; cbn [observed_loop] in E; [discriminate|]. unfold sbind at 1, sread in E.
  pose proof F as (W & D & A).
  destruct (epoch_spec (fst s) attr W D A m (n_add lib t rate)) as (sizes & c & Ec & _ & _ & V). rewrite Ec in E. cbn [tell] in E.
  set (e := mkEpoch (S n) m c (n_add lib t rate)) in *. unfold sbind at 1 in E. pose proof (I e s F) as Fs.
  destruct (f e s) as [s1 [[]|x]] eqn:Fe; [|discriminate]. cbn in Fs. fold (verdict m c) in E. destruct (verdict m c) eqn:Vc.
  - inversion E; subst s1 best. exists 0, s, e. split; [reflexivity|]. split; [exact Fe|]. split; [cbn; lia|]. split; [reflexivity|]. split; [exact F|]. apply V. reflexivity.
  - destruct (IH _ _ _ _ _ Fs E) as (k & s0 & e0 & B & H1 & H2 & H3 & H4 & H5). exists (S k), s0, e0.
    assert (Sh : forall j, reached lib (n_add lib t rate) rate j = reached lib t rate (S j)).
    { induction j as [|j IHj]; [reflexivity|]. change (n_add lib (reached lib (n_add lib t rate) rate j) rate = n_add lib (reached lib t rate (S j)) rate). rewrite IHj. reflexivity. }
    split; [rewrite <- Sh; exact B|]. split; [exact H1|]. split; [lia|]. split; [rewrite <- Sh; exact H3|]. split; [exact H4|].
    unfold kept_at in *. rewrite <- Sh. exact H5.
Qed.

Theorem C105_changing f fuel lib start rate o m attr s s' t : (forall e s, fit attr (fst s) -> fit attr (fst (fst (f e s)))) -> fit attr (fst s) ->
  size (fst s) <> 0 -> drifter_limit (m_log lib) (fst s) o m ->
  observed_learner fuel lib start rate o attr (Some f) s = (s', Ok t) ->
  exists k s0 e, t = reached lib start rate k /\ f e s0 = (s', Ok tt) /\ e_nth e = S k /\ e_threshold e = reached lib start rate (S k)
    /\ fit attr (fst s0) /\ drifts (fst s0) (kept_at lib start rate attr (S k)) m.
Proof.
  intros I F NE DL. pose proof F as (W & D & _). unfold observed_learner, sbind at 1 2, sread. apply Nat.eqb_neq in NE as NE'. rewrite NE'.
  apply drifter_order_spec in DL; [|assumption|assumption|apply size_nodes; assumption]. rewrite DL. apply loop_changing; assumption.
Qed.
End Told.
Print Assumptions C105_alone.
Print Assumptions C105_told.
Print Assumptions C105_ends.
Print Assumptions C105_changing.

(** a callback which keeps the thresholds it is told, and raises at the third one *)
Definition diary : callback (list pynum) := fun e s =>
  ((fst s, snd s ++ [e_threshold e]), if 3 <=? e_nth e then Err ValueError else Ok tt).
Lemma diary_looks : looks_only _ diary. Proof. intros e s. reflexivity. Qed.
Lemma diary_raises : raises_from _ diary 3. Proof. intros e s L. unfold diary. apply Nat.leb_le in L. rewrite L. eauto. Qed.
Definition noted (r : (graph * list pynum) * res pynum) : list pynum * res pynum := (snd (fst r), snd r).

(** it returns after two epochs, or is stopped at the third, even for limits never met (C73) *)
Example C105_ex :
  noted (observed_learner 10 log6 (NInt 0) (NInt 1) (Some 3%Z) (K "weight") (Some diary) (barbell, [])) = ([NInt 1; NInt 2], Ok (NInt 1))
  /\ noted (observed_learner 10 log6 (NFloat 0) (NFloat (1 # 2)) (Some 3%Z) (K "weight") (Some diary) (barbell, []))
     = ([NFloat (1 # 2); NFloat 1; NFloat (3 # 2)], Err ValueError)
  /\ noted (observed_learner 10 log6 (NInt 0) (NInt 1) (Some 9%Z) (K "weight") (Some diary) (barbell, [])) = ([NInt 1; NInt 2; NInt 3], Err ValueError)
  /\ floatsam_threshold_learner 10 log6 barbell (NInt 0) (NInt 1) (Some 9%Z) (K "weight") = Err OutOfFuel.
Proof. vm_compute. repeat split; reflexivity. Qed.

(** a callback which adds a node and a link to it at each epoch *)
Definition grower : callback unit := fun e s =>
  ((add_edge (fst s) (KInt 100) (KInt (100 + Z.of_nat (e_nth e))) (weight 50), tt), Ok tt).
Example C105_ex_changing :
  snd (observed_learner 10 log6 (NInt 0) (NInt 0) (Some 3%Z) (K "weight") (Some grower) (barbell, tt)) = Ok (NInt 0)
  /\ floatsam_threshold_learner 10 log6 barbell (NInt 0) (NInt 0) (Some 3%Z) (K "weight") = Err OutOfFuel.
Proof. vm_compute. auto. Qed.
