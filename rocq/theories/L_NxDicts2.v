(** * Every edge is counted once by [G.edges] and twice by the degrees *)
From Coq Require Import Lia.
From Verif Require Import NxGraph L_Base L_Utils L_Nx L_Nx2.

Definition weight_of (b : bundle) : nat := List.length (b_data b).
Definition total (l : list bundle) (f : bundle -> nat) : nat := sum_nat (map (fun b => weight_of b * f b) l).

Lemma sum_cons x l : sum_nat (x :: l) = x + sum_nat l.
Proof. reflexivity. Qed.

Lemma sum_app l1 l2 : sum_nat (l1 ++ l2) = sum_nat l1 + sum_nat l2.
Proof. induction l1 as [|x l IH]; [reflexivity|]. cbn [app]. rewrite !sum_cons. lia. Qed.

Lemma total_add l f h : total l f + total l h = total l (fun b => f b + h b).
Proof.
  unfold total. induction l as [|b l IH]; [reflexivity|]. cbn [map]. rewrite !sum_cons, <- IH. lia.
Qed.

Lemma total_ext l f h : (forall b, In b l -> f b = h b) -> total l f = total l h.
Proof. intros H. unfold total. f_equal. apply map_ext_in. intros b I. now rewrite H. Qed.

Definition item (P : key -> bool) (dir : bool) (n : key) (b : bundle) : nat :=
  match other_end dir n b with Some m => if P m then 1 else 0 | None => 0 end.

Lemma items_total P g n : sum_nat (map (fun mk : key * dict attrs => List.length (snd mk)) (filter (fun mk => P (fst mk)) (adj_items g n)))
  = total (g_adj g) (item P (g_dir g) n).
Proof.
  unfold adj_items, total. induction (g_adj g) as [|b l IH]; [reflexivity|]. cbn [flat_map map]. rewrite sum_cons.
  rewrite filter_app, map_app, sum_app, IH. unfold item at 2. destruct (other_end (g_dir g) n b) as [m|]; cbn [filter map fst]; [|change (sum_nat []) with 0; lia].
  destruct (P m); cbn [map snd]; rewrite ?sum_cons; change (sum_nat []) with 0; unfold weight_of; lia.
Qed.

Lemma preds_total g n : sum_nat (map (fun mk : key * dict attrs => List.length (snd mk)) (pred_items g n))
  = total (g_adj g) (fun b => if key_eqb (b_dst b) n then 1 else 0).
Proof.
  unfold pred_items, total. induction (g_adj g) as [|b l IH]; [reflexivity|]. cbn [flat_map map]. rewrite sum_cons.
  rewrite map_app, sum_app, IH. destruct (key_eqb (b_dst b) n); cbn [map snd]; rewrite ?sum_cons; change (sum_nat []) with 0; unfold weight_of; lia.
Qed.

(** ** the edges reported *)
Fixpoint times (dir : bool) (b : bundle) (seen todo : list key) : nat :=
  match todo with
  | [] => 0
  | n :: todo' => item (fun m => dir || negb (mem m seen)) dir n b + times dir b (n :: seen) todo'
  end.

Lemma pairs_total g todo : forall seen,
  sum_nat (map (fun p : key * key * dict attrs => List.length (snd p)) (pairs_from g seen todo)) = total (g_adj g) (fun b => times (g_dir g) b seen todo).
Proof.
  induction todo as [|n todo IH]; intros seen; cbn [pairs_from times].
  - cbn. unfold total. induction (g_adj g) as [|b l IHl]; [reflexivity|]. cbn [map]. rewrite ?sum_cons.
    rewrite Nat.mul_0_r. exact IHl.
  - rewrite map_app, sum_app, IH, map_map. cbn [snd].
    rewrite (items_total (fun m => g_dir g || negb (mem m seen))). apply total_add.
Qed.

Lemma times_directed b todo : forall seen, NoDup todo -> times true b seen todo = if mem (b_src b) todo then 1 else 0.
Proof.
  induction todo as [|n todo IH]; intros seen ND; [reflexivity|]. inversion ND as [|? ? X ND']; subst.
  cbn [times mem existsb]. fold (mem (b_src b) todo). rewrite IH by assumption.
  unfold item, other_end. cbn [negb orb andb]. destruct (key_eqb (b_src b) n) eqn:E; cbn [orb].
  - apply key_eqb_eq in E. subst n. apply mem_nIn in X. now rewrite X.
  - reflexivity.
Qed.

Lemma times_seen b todo : forall seen, NoDup (rev seen ++ todo) -> In (b_src b) seen \/ In (b_dst b) seen ->
  times false b seen todo = 0.
Proof.
  induction todo as [|n todo IH]; intros seen ND H; [reflexivity|]. cbn [times].
  rewrite IH.
  - unfold item, other_end. cbn [negb orb andb].
    assert (X : ~ In n seen).
    { apply NoDup_remove_2 in ND. intros X. apply ND. apply in_or_app. left. now apply -> in_rev. }
    destruct (key_eqb (b_src b) n) eqn:E.
    + apply key_eqb_eq in E. destruct H as [H|H]; [congruence|]. apply mem_In in H. now rewrite H.
    + destruct (key_eqb (b_dst b) n) eqn:E2; [|reflexivity]. apply key_eqb_eq in E2.
      destruct H as [H|H]; [|congruence]. apply mem_In in H. now rewrite H.
  - cbn [rev]. now rewrite <- app_assoc.
  - destruct H; [left|right]; now right.
Qed.

Lemma times_undirected b todo : forall seen, NoDup (rev seen ++ todo) -> In (b_src b) todo -> In (b_dst b) todo ->
  times false b seen todo = 1.
Proof.
  induction todo as [|n todo IH]; intros seen ND A B; [destruct A|]. cbn [times].
  assert (ND' : NoDup (rev (n :: seen) ++ todo)) by (cbn [rev]; now rewrite <- app_assoc).
  assert (Out : forall m, In m (n :: todo) -> mem m seen = false).
  { intros m I. apply mem_nIn. intros X. apply in_rev in X.
    revert ND. clear - X I. intros ND. apply in_split in X as (l1 & l2 & E). rewrite E in ND.
    rewrite <- app_assoc in ND. cbn [app] in ND. apply NoDup_remove_2 in ND. apply ND.
    apply in_or_app. right. apply in_or_app. now right. }
  unfold item, other_end. cbn [negb orb andb].
  destruct (key_eqb (b_src b) n) eqn:E.
  - apply key_eqb_eq in E. rewrite Out by assumption. cbn [negb]. rewrite times_seen; [reflexivity|assumption|].
    left. now left.
  - destruct (key_eqb (b_dst b) n) eqn:E2.
    + apply key_eqb_eq in E2. rewrite Out by assumption. cbn [negb]. rewrite times_seen; [reflexivity|assumption|].
      right. now left.
    + rewrite IH; [reflexivity|assumption| |].
      * destruct A as [->|A]; [rewrite key_eqb_refl in E; discriminate|assumption].
      * destruct B as [->|B]; [rewrite key_eqb_refl in E2; discriminate|assumption].
Qed.

Lemma size_total g : WF g -> size g = total (g_adj g) (fun _ => 1).
Proof.
  intros W. rewrite size_pairs. unfold edge_pairs. rewrite pairs_total. apply total_ext. intros b I.
  destruct (wf_ends g W b I) as [A B]. destruct (g_dir g).
  - rewrite times_directed by apply (wf_nodes g W). apply mem_In in A. now rewrite A.
  - now apply times_undirected; [apply (wf_nodes g W)| |].
Qed.

(** ** the degrees *)
Definition incidences (dir : bool) (n : key) (b : bundle) : nat :=
  (if key_eqb (b_src b) n then 1 else 0) + (if key_eqb (b_dst b) n then 1 else 0).

Lemma loop_total g n : WF g -> match edge_data g n n with Some kd => List.length kd | None => 0 end
  = total (g_adj g) (fun b => if same_ends (g_dir g) n n b then 1 else 0).
Proof.
  intros W. unfold edge_data, total. pose proof (wf_distinct g W) as F. clear W.
  induction (g_adj g) as [|b l IH]; [reflexivity|]. inversion F as [|? ? H F']; subst. cbn [find map]. rewrite sum_cons.
  destruct (same_ends (g_dir g) n n b) eqn:E.
  - cbn [option_map]. fold (weight_of b). 
    assert (Z : sum_nat (map (fun b => weight_of b * (if same_ends (g_dir g) n n b then 1 else 0)) l) = 0).
    { clear - E H. induction l as [|c l IH]; [reflexivity|]. inversion H as [|? ? X H']; subst. cbn [map]. rewrite ?sum_cons.
      specialize (IH H'). rewrite IH. unfold apart in X.
      destruct (same_ends (g_dir g) n n c) eqn:Y; [|lia].
      apply same_ends_iff in E. apply same_ends_iff in Y. exfalso.
      assert (same_ends (g_dir g) (b_src b) (b_dst b) c = true); [|congruence].
      apply same_ends_iff. intuition congruence. }
    rewrite Z. lia.
  - rewrite IH by assumption. lia.
Qed.

Lemma degree_total g n : WF g -> degree g n = total (g_adj g) (incidences (g_dir g) n).
Proof.
  intros W. unfold degree.
  assert (I : sum_nat (map (fun mk => List.length (snd mk)) (adj_items g n)) = total (g_adj g) (item (fun _ => true) (g_dir g) n)).
  { etransitivity; [|apply items_total]. f_equal. apply f_equal.
    induction (adj_items g n) as [|x l IH]; [reflexivity|]. cbn [filter]. now rewrite <- IH. }
  assert (J : sum_nat (map (fun mk => List.length (snd mk)) (pred_items g n)) = total (g_adj g) (fun b => if key_eqb (b_dst b) n then 1 else 0))
    by apply preds_total.
  rewrite I. destruct (g_dir g) eqn:D.
  - rewrite J, total_add. apply total_ext. intros b _. unfold item, other_end, incidences. cbn [negb andb].
    now destruct (key_eqb (b_src b) n).
  - rewrite loop_total by assumption. rewrite D, total_add. apply total_ext. intros b _.
    unfold item, other_end, incidences, same_ends. cbn [negb andb].
    destruct (key_eqb (b_src b) n), (key_eqb (b_dst b) n); reflexivity.
Qed.

Lemma sum_ends N x : NoDup N -> In x N -> sum_nat (map (fun n => if key_eqb x n then 1 else 0) N) = 1.
Proof.
  induction N as [|n N IH]; intros ND I; [destruct I|]. inversion ND as [|? ? X ND']; subst. cbn [map]. rewrite ?sum_cons.
  destruct (key_eqb x n) eqn:E.
  - apply key_eqb_eq in E as ->. assert (Z : sum_nat (map (fun m => if key_eqb n m then 1 else 0) N) = 0).
    { clear - X. induction N as [|m N IH]; [reflexivity|]. cbn [map]. rewrite ?sum_cons.
      destruct (key_eqb n m) eqn:E; [apply key_eqb_eq in E as ->; exfalso; apply X; now left|].
      apply IH. intros Y. apply X. now right. }
    now rewrite Z.
  - destruct I as [->|I]; [rewrite key_eqb_refl in E; discriminate|]. now rewrite IH.
Qed.

Lemma sum_total l (f : key -> bundle -> nat) N :
  sum_nat (map (fun n => total l (f n)) N) = total l (fun b => sum_nat (map (fun n => f n b) N)).
Proof.
  induction N as [|n N IH].
  - cbn [map]. change (sum_nat []) with 0. unfold total. induction l as [|b l IHl]; [reflexivity|]. cbn [map]. rewrite ?sum_cons.
    rewrite Nat.mul_0_r. exact IHl.
  - cbn [map]. rewrite ?sum_cons. rewrite IH, total_add. reflexivity.
Qed.

Lemma sum_add {A} (f h : A -> nat) l : sum_nat (map (fun x => f x + h x) l) = sum_nat (map f l) + sum_nat (map h l).
Proof. induction l as [|x l IH]; [reflexivity|]. cbn [map]. rewrite ?sum_cons. rewrite IH. lia. Qed.

Lemma handshake g : WF g -> sum_nat (map (degree g) (nodes g)) = 2 * size g.
Proof.
  intros W. rewrite (map_ext _ (fun n => total (g_adj g) (incidences (g_dir g) n)) (fun n => degree_total g n W)).
  rewrite sum_total, size_total by assumption. replace (2 * total (g_adj g) (fun _ => 1)) with (total (g_adj g) (fun _ => 1) + total (g_adj g) (fun _ => 1)) by lia.
  rewrite total_add. apply total_ext. intros b I. destruct (wf_ends g W b I) as [A B]. unfold incidences.
  rewrite sum_add, !sum_ends; auto; apply (wf_nodes g W).
Qed.
