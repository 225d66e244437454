(** * C115: orders of components of graphs built in other orders *)
From Coq Require Import List ZArith Lia Bool Permutation Relations.
From Verif Require Import PyBase NxGraph L_Base L_Nx S_Partition L_Partition S_Graph L_Graph L_Comp L_Comp2 M_Graph P_Graph S_Shuffled P_Shuffled P_Shuffled2.
Import ListNotations.

Section Classes.
Variable R : key -> key -> Prop.
Hypothesis Rr : forall x, R x x.
Hypothesis Rs : forall x y, R x y -> R y x.
Hypothesis Rt : forall x y z, R x y -> R y z -> R x z.

Definition sized (N : list key) (r : key) (n : nat) : Prop := has_size (fun y => In y N /\ R r y) n.

Lemma match_sizes N N' : (forall x, In x N <-> In x N') -> forall l l' s s',
  Forall2 (sized N) l s -> Forall2 (sized N') l' s' -> NoDup l -> NoDup l' ->
  (forall x y, In x l' -> In y l' -> R x y -> x = y) -> (forall x y, In x l -> In y l -> R x y -> x = y) ->
  (forall x, In x l -> exists y, In y l' /\ R x y) -> (forall y, In y l' -> exists x, In x l /\ R x y) -> Permutation s s'.
Proof.
  intros NN l. induction l as [|r l IH]; intros l' s s' F F' D D' U' U A B.
  - inversion F; subst. destruct l' as [|y l']; [inversion F'; constructor|]. destruct (B y (or_introl eq_refl)) as (x & [] & _).
  - inversion F as [|? n ? s0 Fn Fs]; subst. destruct (A r (or_introl eq_refl)) as (r' & I & E).
    apply in_split in I as (a & b & ->). apply Forall2_app_inv_l in F' as (sa & sb' & Fa & Fb & ->). inversion Fb as [|? n' ? sb Fn' Fb']; subst.
    assert (n = n').
    { eapply has_size_unique; [exact Fn|]. eapply has_size_ext; [|exact Fn']. intros y. rewrite (NN y). split; intros (H & G); (split; [exact H|]); eauto. }
    subst n'. apply Permutation_cons_app. pose proof (NoDup_remove _ _ _ D') as (Dab & Nr). inversion D as [|? ? Nl Dl]; subst.
    assert (W : forall x, In x (a ++ b) -> In x (a ++ r' :: b)) by (intros x H; apply in_app_iff in H; apply in_app_iff; cbn; tauto).
    apply (IH (a ++ b)); [exact Fs|apply Forall2_app; assumption|exact Dl|exact Dab| | | |].
    + intros x y Hx Hy. apply U'; auto.
    + intros x y Hx Hy. apply U; right; assumption.
    + intros x Hx. destruct (A x (or_intror Hx)) as (y & Hy & Rxy). exists y. split; [|exact Rxy]. apply in_app_iff in Hy as [Hy|[->|Hy]]; [apply in_app_iff; auto| |apply in_app_iff; auto].
      exfalso. apply Nl. replace r with x; [exact Hx|]. apply U; [right; exact Hx|left; reflexivity|]. eauto.
    + intros y Hy. destruct (B y (W y Hy)) as (x & [->|Hx] & Rxy); [|exists x; auto].
      exfalso. apply Nr. replace r' with y; [exact Hy|]. apply U'; [apply W, Hy|apply in_elt|]. eauto.
Qed.

Section Firsts.
Variable N : list key.
Variable first : key -> bool.
Hypothesis D : NoDup N.
Hypothesis F : forall pre r post, N = pre ++ r :: post -> (first r = true <-> forall x, In x pre -> ~ R x r).

Lemma firsts_apart x y : In x (filter first N) -> In y (filter first N) -> R x y -> x = y.
Proof.
  intros Hx Hy Q. apply filter_In in Hx as (Ix & Fx). apply filter_In in Hy as (Iy & Fy). apply in_split in Ix as (a & b & E).
  rewrite E in Iy. apply in_app_iff in Iy as [Iy|[Iy|Iy]]; [|exact Iy|]; exfalso.
  - apply (proj1 (F _ _ _ E) Fx y Iy). apply Rs, Q.
  - apply in_split in Iy as (c & d & ->). rewrite app_comm_cons, app_assoc in E. apply (proj1 (F _ _ _ E) Fy x); [apply in_elt|exact Q].
Qed.
Lemma firsts_not_not n : forall pre r post, List.length pre < n -> N = pre ++ r :: post -> ~ ~ exists x, In x (filter first N) /\ R x r.
Proof.
  induction n as [|n IH]; intros pre r post L E H; [lia|]. destruct (first r) eqn:Q.
  - apply H. exists r. split; [apply filter_In; split; [rewrite E; apply in_elt|exact Q]|apply Rr].
  - assert (X : first r = true); [|congruence]. apply (F _ _ _ E). intros x I C. apply in_split in I as (a & b & ->). rewrite app_length in L. cbn in L.
    apply (IH a x (b ++ r :: post)); [lia|rewrite E, <- app_assoc; reflexivity|]. intros (y & I & C'). apply H. exists y. eauto.
Qed.
Lemma firsts_all s r : Forall2 (sized N) (filter first N) s -> In r N -> exists x, In x (filter first N) /\ R x r.
Proof.
  intros S I. assert (Dec : (exists x, In x (filter first N) /\ R x r) \/ ~ exists x, In x (filter first N) /\ R x r).
  { clear F. revert S. generalize (filter first N) as l. intros l S. induction S as [|x n l s (c & (_ & C) & _) S IH].
    - right. intros (x & [] & _).
    - destruct (in_dec key_eq_dec r c) as [Q|Q]; [left; exists x; split; [left; reflexivity|apply C, Q]|].
      destruct IH as [(y & Y & G)|IH]; [left; exists y; cbn; auto|]. right. intros (y & [->|Y] & G); [apply Q, C; auto|apply IH; eauto]. }
  destruct Dec as [Q|Q]; [exact Q|]. apply in_split in I as (a & b & E). exfalso. exact (firsts_not_not (1 + List.length a) a r b ltac:(lia) E Q).
Qed.
End Firsts.

Lemma class_sizes_permuted N N' s s' : Permutation N N' -> NoDup N -> class_sizes N R s -> class_sizes N' R s' -> Permutation s s'.
Proof.
  intros P D (f & F & S) (f' & F' & S'). assert (D' : NoDup N') by (eapply Permutation_NoDup; eassumption).
  assert (NN : forall x, In x N <-> In x N') by (intros x; split; apply Permutation_in; [exact P|apply Permutation_sym, P]).
  apply (match_sizes N N' NN (filter f N) (filter f' N')); [exact S|exact S'|apply NoDup_filter, D|apply NoDup_filter, D'| | | |].
  - intros x y. apply (firsts_apart N' f' F').
  - intros x y. apply (firsts_apart N f F).
  - intros x I. apply filter_In in I as (I & _). destruct (firsts_all N' f' F' s' x S' (proj1 (NN x) I)) as (y & Y & Q). exists y. auto.
  - intros y I. apply filter_In in I as (I & _). destruct (firsts_all N f F s y S (proj2 (NN y) I)) as (x & X & Q). exists x. auto.
Qed.
End Classes.

Lemma shuffled_connected_by g h p u v : shuffled g h -> connected_by g p u v -> connected_by h p u v.
Proof.
  intros (_ & _ & _ & E) C. induction C as [x y (k & a & H & Q)|x|x y C IH|x y z C IH C' IH'].
  - apply rst_step. exists k, a. rewrite <- E. auto.
  - apply rst_refl.
  - apply rst_sym, IH.
  - eapply rst_trans; eassumption.
Qed.
Lemma class_sizes_ext N R R' s : (forall x y, R x y <-> R' x y) -> class_sizes N R s -> class_sizes N R' s.
Proof.
  intros E (f & F & S). exists f. split.
  - intros pre r post Q. rewrite (F pre r post Q). split; intros H x I C; apply (H x I), E, C.
  - revert S. generalize (filter f N) as l. intros l S. induction S as [|r n l s' Z S IH]; constructor; [|exact IH].
    eapply has_size_ext; [|exact Z]. intros y. cbn. rewrite E. tauto.
Qed.

(** ** connected_component_orders of undirected graphs: the same orders, in an order which may differ *)
Theorem C115_orders g h f p : WF g -> WF h -> shuffled g h -> g_dir g = false -> filter_test g f p -> symmetric_test p ->
  exists s s', connected_component_orders g f = Ok s /\ connected_component_orders h f = Ok s' /\ Permutation s s'.
Proof.
  intros W W' S D T Y. assert (T' : filter_test h f p).
  { destruct f as [f|]; [|exact T]. intros u v k a E. apply (T u v k a). destruct S as (_ & _ & _ & Q). rewrite Q. exact E. }
  destruct (C10_component_orders_undirected g f p W D T Y) as (s & E & C).
  destruct (C10_component_orders_undirected h f p W' (eq_trans (eq_sym (proj1 S)) D) T' Y) as (s' & E' & C').
  exists s, s'. split; [exact E|]. split; [exact E'|].
  apply (class_sizes_permuted (connected_by g p)) with (N := nodes g) (N' := nodes h); [intros x; apply rst_refl|intros x y; apply rst_sym|intros x y z; apply rst_trans|
    apply shuffled_permutation; assumption|apply (wf_nodes g W)|exact C|].
  eapply class_sizes_ext; [|exact C']. intros x y. split; apply shuffled_connected_by; [apply shuffled_sym, S|exact S].
Qed.
Print Assumptions C115_orders.

Lemma greatest_permuted m m' s s' : Permutation s s' -> greatest m s -> greatest m' s' -> m = m'.
Proof.
  intros P (I & G) (I' & G'). apply Nat.le_antisymm; [apply G'|apply G]; [exact (Permutation_in _ P I)|exact (Permutation_in _ (Permutation_sym P) I')].
Qed.
Theorem C115_greatest g h f p : WF g -> WF h -> shuffled g h -> g_dir g = false -> filter_test g f p -> symmetric_test p ->
  largest_connected_component_order g = largest_connected_component_order h
  /\ second_largest_connected_component_order g f = second_largest_connected_component_order h f.
Proof.
  intros W W' S D T Y. assert (D' : g_dir h = false) by exact (eq_trans (eq_sym (proj1 S)) D). assert (T' : filter_test h f p).
  { destruct f as [f|]; [|exact T]. intros u v k a E. apply (T u v k a). destruct S as (_ & _ & _ & Q). rewrite Q. exact E. }
  split.
  - destruct (C16_largest_order g W D) as [(Z & E)|(s & m & C & G & E)]; destruct (C16_largest_order h W' D') as [(Z' & E')|(s' & m' & C' & G' & E')].
    + congruence.
    + exfalso. pose proof (shuffled_permutation g h W W' S) as P. rewrite Z in P. apply Permutation_nil in P.
      destruct C' as (q & _ & F). rewrite P in F. inversion F; subst. destruct G' as ([] & _).
    + exfalso. pose proof (Permutation_sym (shuffled_permutation g h W W' S)) as P. rewrite Z' in P. apply Permutation_nil in P.
      destruct C as (q & _ & F). rewrite P in F. inversion F; subst. destruct G as ([] & _).
    + rewrite E, E'. do 2 f_equal. apply (greatest_permuted m m' s s'); [|exact G|exact G'].
      apply (class_sizes_permuted (connected g)) with (N := nodes g) (N' := nodes h); [intros x; apply rst_refl|intros x y; apply rst_sym|intros x y z; apply rst_trans|
        apply shuffled_permutation; assumption|apply (wf_nodes g W)|exact C|].
      eapply class_sizes_ext; [|exact C']. intros x y. split; apply shuffled_connected; auto using shuffled_sym.
  - destruct (C16_second_largest_order g f p W D T Y) as (s & C & H). destruct (C16_second_largest_order h f p W' D' T' Y) as (s' & C' & H').
    assert (P : Permutation s s').
    { apply (class_sizes_permuted (connected_by g p)) with (N := nodes g) (N' := nodes h); [intros x; apply rst_refl|intros x y; apply rst_sym|intros x y z; apply rst_trans|
        apply shuffled_permutation; assumption|apply (wf_nodes g W)|exact C|].
      eapply class_sizes_ext; [|exact C']. intros x y. split; apply shuffled_connected_by; [apply shuffled_sym, S|exact S]. }
    pose proof (Permutation_length P) as L. destruct H as [(H & E)|(m & H & E)]; destruct H' as [(H' & E')|(m' & H' & E')].
    + congruence.
    + exfalso. destruct H' as (a & b & M & -> & _ & (I & _)). rewrite L, app_length in H. cbn in H. assert (In m' (a ++ b)) by exact I.
      destruct a; destruct b; cbn in *; try lia; contradiction.
    + exfalso. destruct H as (a & b & M & -> & _ & (I & _)). rewrite <- L, app_length in H'. cbn in H'.
      destruct a; destruct b; cbn in *; try lia; contradiction.
    + rewrite E, E'. do 2 f_equal. destruct H as (a & b & M & -> & G & G2). destruct H' as (a' & b' & M' & -> & G' & G2').
      assert (M = M') by (eapply greatest_permuted; eassumption). subst M'. apply (greatest_permuted m m' (a ++ b) (a' ++ b')); [|exact G2|exact G2'].
      eapply Permutation_app_inv. exact P.
Qed.
Print Assumptions C115_greatest.

(** ** of directed graphs, even the greatest order depends on the order of the nodes *)
Theorem C115_orders_refuted : exists g h s s' m m', WF g /\ WF h /\ shuffled g h /\ g_dir g = true
  /\ connected_component_orders g None = Ok s /\ connected_component_orders h None = Ok s' /\ ~ Permutation s s'
  /\ largest_connected_component_order g = Ok (Some m) /\ largest_connected_component_order h = Ok (Some m') /\ m <> m'.
Proof.
  pose (g := ex_graph true false [0; 1]%Z (P_Graph.plain [(1, 0)]%Z)). pose (h := ex_graph true false [1; 0]%Z (P_Graph.plain [(1, 0)]%Z)).
  assert (W : WF g) by (apply graph_WF; reflexivity). assert (W' : WF h) by (apply graph_WF; reflexivity).
  exists g, h, [1; 1], [2], 1, 2. split; [exact W|]. split; [exact W'|].
  split; [apply reordered_shuffled; [exact W|exact W'|reflexivity|reflexivity|apply perm_swap|apply Permutation_refl]|].
  split; [reflexivity|]. split; [reflexivity|]. split; [reflexivity|]. split; [intros P; apply Permutation_length in P; discriminate|].
  split; [reflexivity|]. split; [reflexivity|]. discriminate.
Qed.
Print Assumptions C115_orders_refuted.

(** Two components, listed in two orders, with an edge which a filter refuses. *)
Example C115_orders_ex :
  let g := ex_graph false false [0; 1; 2; 3; 4]%Z [(0, 1, weight 1); (1, 2, weight 2); (2, 0, weight 3); (3, 4, weight 4)]%Z in
  let h := ex_graph false false [3; 4; 0; 1; 2]%Z [(3, 4, weight 4); (0, 1, weight 1); (1, 2, weight 2); (2, 0, weight 3)]%Z in
  let f : edge_predicate := fun _ _ a => Ok (match dget (K "weight") a with Some v => negb (val_eqb v (VInt 4)) | None => false end) in
  connected_component_orders g None = Ok [3; 2] /\ connected_component_orders h None = Ok [2; 3]
  /\ connected_component_orders g (Some f) = Ok [3; 1; 1] /\ connected_component_orders h (Some f) = Ok [1; 1; 3]
  /\ largest_connected_component_order g = Ok (Some 3) /\ largest_connected_component_order h = Ok (Some 3)
  /\ second_largest_connected_component_order g (Some f) = Ok (Some 1) /\ second_largest_connected_component_order h (Some f) = Ok (Some 1).
Proof. vm_compute. repeat split. Qed.
