(** * Lemmas about the networkx model *)
From Coq Require Import Lia Sorted Permutation.
From Verif Require Import NxGraph L_Base L_Utils.

(** ** well-formedness as a proposition *)
Definition apart (dir : bool) (b c : bundle) : Prop := same_ends dir (b_src b) (b_dst b) c = false.

Record WF (g : graph) : Prop := {
  wf_nodes : NoDup (nodes g);
  wf_nattrs : forall n a, In (n, a) (g_nodes g) -> NoDup (dkeys a);
  wf_gattr : NoDup (dkeys (g_attr g));
  wf_ends : forall b, In b (g_adj g) -> In (b_src b) (nodes g) /\ In (b_dst b) (nodes g);
  wf_ne : forall b, In b (g_adj g) -> b_data b <> [];
  wf_keys : forall b, In b (g_adj g) -> NoDup (dkeys (b_data b));
  wf_eattrs : forall b k a, In b (g_adj g) -> In (k, a) (b_data b) -> NoDup (dkeys a);
  wf_simple : g_multi g = false -> forall b, In b (g_adj g) -> exists a, b_data b = [(KInt 0, a)];
  wf_distinct : ForallOrdPairs (apart (g_dir g)) (g_adj g)
}.

Lemma nodup_keys_NoDup l : nodup_keys l = true <-> NoDup l.
Proof. apply nodup_keys_iff. Qed.

Lemma has_node_In g n : has_node g n = true <-> In n (nodes g).
Proof. apply mem_In. Qed.

Lemma has_node_nIn g n : has_node g n = false <-> ~ In n (nodes g).
Proof. apply mem_nIn. Qed.

Lemma distinct_ends_iff dir l : distinct_ends dir l = true <-> ForallOrdPairs (apart dir) l.
Proof.
  induction l as [|b l IH]; cbn [distinct_ends]; [split; constructor|].
  rewrite andb_true_iff, negb_true_iff, IH. split.
  - intros [H F]. constructor; [|assumption]. apply Forall_forall. intros c Hc. unfold apart.
    destruct (same_ends dir (b_src b) (b_dst b) c) eqn:E; [|reflexivity].
    assert (X : existsb (same_ends dir (b_src b) (b_dst b)) l = true) by (apply existsb_exists; eauto).
    congruence.
  - intros H. inversion H; subst. split; [|assumption].
    destruct (existsb _ l) eqn:E; [|reflexivity]. apply existsb_exists in E as (c & Hc & E).
    rewrite Forall_forall in H2. specialize (H2 c Hc). unfold apart in H2. congruence.
Qed.

Lemma bundle_ok_iff g b : bundle_ok g b = true <->
  (In (b_src b) (nodes g) /\ In (b_dst b) (nodes g)) /\ b_data b <> [] /\ NoDup (dkeys (b_data b))
  /\ (forall k a, In (k, a) (b_data b) -> NoDup (dkeys a))
  /\ (g_multi g = false -> exists a, b_data b = [(KInt 0, a)]).
Proof.
  unfold bundle_ok. rewrite !andb_true_iff, !has_node_In, negb_true_iff, nodup_keys_NoDup, forallb_forall.
  split.
  - intros (((((A & B) & C) & D) & E) & F). split; [tauto|]. split.
    { intros X. rewrite X in C. discriminate. }
    split; [assumption|]. split.
    { intros k a I. apply nodup_keys_NoDup. apply (E (k, a) I). }
    intros M. rewrite M in F. cbn in F. destruct (b_data b) as [|[[[|p|p]|s|n] a] [|]]; try discriminate.
    eauto.
  - intros ((A & B) & C & D & E & F). repeat split; try assumption.
    + destruct (b_data b); [congruence|reflexivity].
    + intros [k a] I. apply nodup_keys_NoDup. eapply E; eassumption.
    + destruct (g_multi g); [reflexivity|]. destruct (F eq_refl) as (a & ->). reflexivity.
Qed.

Lemma wf_WF g : wf g = true <-> WF g.
Proof.
  unfold wf. rewrite !andb_true_iff, !nodup_keys_NoDup, distinct_ends_iff, !forallb_forall.
  split.
  - intros ((((A & B) & C) & D) & E).
    assert (D' : forall b, In b (g_adj g) -> bundle_ok g b = true) by exact D.
    constructor; try assumption.
    + intros n a I. apply nodup_keys_NoDup. apply (B (n, a) I).
    + intros b I. apply D', bundle_ok_iff in I. tauto.
    + intros b I. apply D', bundle_ok_iff in I. tauto.
    + intros b I. apply D', bundle_ok_iff in I. tauto.
    + intros b k a I. apply D', bundle_ok_iff in I. destruct I as (_ & _ & _ & I & _). apply I.
    + intros M b I. apply D', bundle_ok_iff in I. tauto.
  - intros W. destruct W. repeat split; try assumption.
    + intros [n a] I. apply nodup_keys_NoDup. eauto.
    + intros b I. apply bundle_ok_iff. repeat split; try (apply wf_ends0; assumption); eauto.
Qed.

(** ** pairs of ends *)
Lemma same_ends_iff dir u v b : same_ends dir u v b = true <->
  (b_src b = u /\ b_dst b = v) \/ (dir = false /\ b_src b = v /\ b_dst b = u).
Proof.
  unfold same_ends. rewrite orb_true_iff, !andb_true_iff, negb_true_iff, !key_eqb_eq. tauto.
Qed.

Lemma same_ends_sym u v b : same_ends false u v b = same_ends false v u b.
Proof. unfold same_ends. cbn. rewrite orb_comm. reflexivity. Qed.

Lemma same_ends_self dir b : same_ends dir (b_src b) (b_dst b) b = true.
Proof. apply same_ends_iff. tauto. Qed.

(** two bundles joining the same ends join each other's ends *)
Lemma same_ends_trans dir u v b c :
  same_ends dir u v b = true -> same_ends dir u v c = true -> same_ends dir (b_src b) (b_dst b) c = true.
Proof. rewrite !same_ends_iff. intuition congruence. Qed.

Lemma FOP_In {A} (R : A -> A -> Prop) l x y : ForallOrdPairs R l -> In x l -> In y l ->
  x = y \/ R x y \/ R y x.
Proof.
  intros F. induction F as [|a l H F IH]; [contradiction|]. rewrite Forall_forall in H.
  intros [->|Hx] [->|Hy]; auto.
Qed.

Lemma FOP_filter {A} (R : A -> A -> Prop) f l : ForallOrdPairs R l -> ForallOrdPairs R (filter f l).
Proof.
  induction 1 as [|a l H F IH]; cbn [filter]; [constructor|].
  destruct (f a); [|assumption]. constructor; [|assumption].
  rewrite Forall_forall in *. intros x Hx. apply filter_In in Hx. apply H, Hx.
Qed.

Lemma FOP_app {A} (R : A -> A -> Prop) l1 l2 :
  ForallOrdPairs R (l1 ++ l2) <->
  ForallOrdPairs R l1 /\ ForallOrdPairs R l2 /\ (forall a b, In a l1 -> In b l2 -> R a b).
Proof.
  induction l1 as [|x l1 IH]; cbn [app].
  - split; [intros H; split; [constructor|split; [assumption|contradiction]]|tauto].
  - split.
    + intros H. inversion H; subst. apply IH in H3. destruct H3 as (A1 & A2 & A3).
      apply Forall_app in H2. destruct H2 as (B1 & B2). rewrite Forall_forall in B2.
      split; [constructor; assumption|]. split; [assumption|].
      intros a b [<-|Ha] Hb; auto.
    + intros (A1 & A2 & A3). inversion A1; subst. constructor.
      * apply Forall_app. split; [assumption|]. apply Forall_forall. intros b Hb. apply A3; [left; reflexivity|assumption].
      * apply IH. split; [assumption|]. split; [assumption|]. intros; apply A3; [right|]; assumption.
Qed.

Lemma FOP_map {A B} (R : B -> B -> Prop) (S : A -> A -> Prop) (f : A -> B) l :
  (forall a b, S a b -> R (f a) (f b)) -> ForallOrdPairs S l -> ForallOrdPairs R (map f l).
Proof.
  intros H. induction 1 as [|a l F O IH]; cbn [map]; constructor; [|assumption].
  rewrite Forall_forall in *. intros y Hy. apply in_map_iff in Hy as (x & <- & Hx). auto.
Qed.

Lemma apart_sym dir b c : apart dir b c -> apart dir c b.
Proof.
  unfold apart. intros H. destruct (same_ends dir (b_src c) (b_dst c) b) eqn:E; [|reflexivity].
  rewrite <- H. symmetry. eapply same_ends_trans; [exact E|apply same_ends_self].
Qed.

Lemma bundle_unique g u v b c : WF g -> In b (g_adj g) -> In c (g_adj g) ->
  same_ends (g_dir g) u v b = true -> same_ends (g_dir g) u v c = true -> b = c.
Proof.
  intros W Hb Hc Sb Sc. destruct (FOP_In _ _ b c (wf_distinct g W) Hb Hc) as [E|[E|E]]; [assumption| |].
  - unfold apart in E. rewrite (same_ends_trans _ _ _ _ _ Sb Sc) in E. discriminate.
  - unfold apart in E. rewrite (same_ends_trans _ _ _ _ _ Sc Sb) in E. discriminate.
Qed.

(** ** lookups *)
Lemma find_bundle g u v : WF g -> forall b,
  find (same_ends (g_dir g) u v) (g_adj g) = Some b <->
  In b (g_adj g) /\ same_ends (g_dir g) u v b = true.
Proof.
  intros W b. split; [apply find_some|]. intros [I S].
  destruct (find (same_ends (g_dir g) u v) (g_adj g)) as [c|] eqn:E.
  - apply find_some in E. destruct E as [I' S']. f_equal. eapply bundle_unique; eassumption.
  - eapply find_none in E; [|exact I]. congruence.
Qed.

Lemma edge_data_Some g u v kd : WF g ->
  (edge_data g u v = Some kd <->
   exists b, In b (g_adj g) /\ same_ends (g_dir g) u v b = true /\ b_data b = kd).
Proof.
  intros W. unfold edge_data. split.
  - destruct (find _ _) as [b|] eqn:E; cbn; [|discriminate]. intros H; inversion H; subst.
    apply find_some in E. exists b. tauto.
  - intros (b & I & S & <-). assert (E := proj2 (find_bundle g u v W b) (conj I S)).
    rewrite E. reflexivity.
Qed.

Lemma edge_data_sym g u v : g_dir g = false -> edge_data g u v = edge_data g v u.
Proof.
  intros D. unfold edge_data. rewrite D. f_equal. 
  induction (g_adj g) as [|b l IH]; cbn [find]; [reflexivity|].
  rewrite (same_ends_sym u v). destruct (same_ends false v u b); [reflexivity|assumption].
Qed.

Lemma has_edge_sym g u v : g_dir g = false -> has_edge g u v = has_edge g v u.
Proof. intros D. unfold has_edge. rewrite edge_data_sym by assumption. reflexivity. Qed.

Lemma edge_attrs_sym g u v k : g_dir g = false -> edge_attrs g u v k = edge_attrs g v u k.
Proof. intros D. unfold edge_attrs. rewrite edge_data_sym by assumption. reflexivity. Qed.

Lemma edge_data_nodes g u v kd : WF g -> edge_data g u v = Some kd -> In u (nodes g) /\ In v (nodes g).
Proof.
  intros W H. apply edge_data_Some in H; [|assumption]. destruct H as (b & I & S & _).
  apply same_ends_iff in S. destruct (wf_ends g W b I). destruct S as [[<- <-]|(_ & <- & <-)]; tauto.
Qed.

Lemma edge_data_ne g u v kd : WF g -> edge_data g u v = Some kd -> kd <> [].
Proof.
  intros W H. apply edge_data_Some in H; [|assumption]. destruct H as (b & I & S & <-).
  apply (wf_ne g W b I).
Qed.

Lemma edge_data_keys g u v kd : WF g -> edge_data g u v = Some kd -> NoDup (dkeys kd).
Proof.
  intros W H. apply edge_data_Some in H; [|assumption]. destruct H as (b & I & S & <-).
  apply (wf_keys g W b I).
Qed.

Lemma edge_data_attrs g u v kd k a : WF g -> edge_data g u v = Some kd -> In (k, a) kd -> NoDup (dkeys a).
Proof.
  intros W H. apply edge_data_Some in H; [|assumption]. destruct H as (b & I & S & <-).
  apply (wf_eattrs g W b k a I).
Qed.

Lemma edge_data_simple g u v kd : WF g -> g_multi g = false -> edge_data g u v = Some kd ->
  exists a, kd = [(KInt 0, a)].
Proof.
  intros W M H. apply edge_data_Some in H; [|assumption]. destruct H as (b & I & S & <-).
  apply (wf_simple g W M b I).
Qed.

Lemma node_data_Some_In g n a : node_data g n = Some a -> In n (nodes g).
Proof. apply dget_Some_key. Qed.

Lemma node_data_In g n : In n (nodes g) -> exists a, node_data g n = Some a.
Proof. apply dkeys_dget. Qed.

Lemma node_data_attrs g n a : WF g -> node_data g n = Some a -> NoDup (dkeys a).
Proof. intros W H. apply dget_Some_In in H. eapply wf_nattrs; eassumption. Qed.

(** ** adjacency *)
Lemma other_end_iff dir n m b : other_end dir n b = Some m <-> same_ends dir n m b = true.
Proof.
  rewrite same_ends_iff. unfold other_end. keq (b_src b) n.
  - split; [intros H; inversion H; tauto|]. intros [[_ <-]|(_ & H1 & H2)]; congruence.
  - destruct dir; cbn.
    + split; [discriminate|]. intros [[]|[]]; congruence.
    + keq (b_dst b) n.
      * split; [intros H; inversion H; tauto|]. intros [[]|(_ & <- & _)]; congruence.
      * split; [discriminate|]. intros [[]|(_ & _ & ?)]; congruence.
Qed.

Lemma adj_items_In g n m kd : WF g -> (In (m, kd) (adj_items g n) <-> edge_data g n m = Some kd).
Proof.
  intros W. rewrite edge_data_Some by assumption. unfold adj_items. rewrite in_flat_map. split.
  - intros (b & I & H). destruct (other_end (g_dir g) n b) as [m'|] eqn:E; [|contradiction].
    destruct H as [H|[]]. inversion H; subst. exists b. apply other_end_iff in E. tauto.
  - intros (b & I & S & <-). exists b. split; [assumption|]. apply other_end_iff in S. rewrite S.
    left; reflexivity.
Qed.

Lemma adj_items_NoDup g n : WF g -> NoDup (map fst (adj_items g n)).
Proof.
  intros W. unfold adj_items.
  assert (H : forall b c m, In b (g_adj g) -> In c (g_adj g) ->
     other_end (g_dir g) n b = Some m -> other_end (g_dir g) n c = Some m -> b = c).
  { intros b c m Hb Hc Eb Ec. apply other_end_iff in Eb, Ec. eapply bundle_unique; eassumption. }
  assert (D : NoDup (g_adj g)).
  { generalize (wf_distinct g W). generalize (g_adj g). induction 1 as [|b l F O IH]; constructor; [|assumption].
    intros I. rewrite Forall_forall in F. apply F in I. unfold apart in I. rewrite same_ends_self in I. discriminate. }
  revert H D. generalize (g_adj g) as l. induction l as [|b l IH]; intros H D; cbn [flat_map]; [constructor|].
  inversion D; subst. specialize (IH (fun x y m Hx Hy => H x y m (or_intror Hx) (or_intror Hy)) H3).
  destruct (other_end (g_dir g) n b) as [m|] eqn:E; [|exact IH]. cbn [app map fst].
  constructor; [|exact IH]. intros C. apply in_map_iff in C as ([m' kd] & EE & C). cbn in EE. subst m'.
  apply in_flat_map in C as (c & Hc & C). destruct (other_end (g_dir g) n c) as [m'|] eqn:E'; [|contradiction].
  destruct C as [C|[]]. inversion C; subst.
  assert (b = c) by (eapply H; [left; reflexivity|right; assumption|eassumption|eassumption]). congruence.
Qed.

(** ** position in a list *)
Fixpoint idx (k : key) (l : list key) : nat :=
  match l with [] => 0 | x :: l' => if key_eqb k x then 0 else S (idx k l') end.

Lemma idx_lt k l : In k l -> idx k l < List.length l.
Proof.
  induction l as [|x l IH]; cbn; [tauto|]. intros [->|H]; [rewrite key_eqb_refl; lia|].
  keqs; [lia|]. specialize (IH H). lia.
Qed.

Lemma idx_inj k k' l : In k l -> idx k l = idx k' l -> k = k'.
Proof.
  induction l as [|x l IH]; cbn; [tauto|]. intros H E. keq k x; keq k' x; try discriminate; [congruence|].
  apply IH; [destruct H; [congruence|assumption]|congruence].
Qed.

Lemma idx_app_l k l1 l2 : In k l1 -> idx k (l1 ++ l2) = idx k l1.
Proof.
  induction l1 as [|x l1 IH]; cbn; [tauto|]. intros H. keq k x; [reflexivity|].
  f_equal. apply IH. destruct H; [congruence|assumption].
Qed.

Lemma idx_app_r k l1 l2 : ~ In k l1 -> idx k (l1 ++ l2) = List.length l1 + idx k l2.
Proof.
  induction l1 as [|x l1 IH]; cbn; [reflexivity|]. intros H. keq k x; [tauto|]. f_equal. apply IH. tauto.
Qed.

(** ** the pairs listed by G.edges *)
Lemma pairs_from_In g u v kd : WF g -> forall todo seen, NoDup (rev seen ++ todo) ->
  (In (u, v, kd) (pairs_from g seen todo) <->
   In u todo /\ edge_data g u v = Some kd /\
   (g_dir g = true \/ ~ In v (rev seen ++ todo) \/ idx u (rev seen ++ todo) <= idx v (rev seen ++ todo))).
Proof.
  intros W. induction todo as [|n todo IH]; intros seen N; cbn [pairs_from]; [simpl; tauto|].
  replace (rev seen ++ n :: todo) with (rev (n :: seen) ++ todo) in *
    by (cbn [rev]; rewrite <- app_assoc; reflexivity).
  rewrite in_app_iff, IH by assumption. rewrite in_map_iff.
  set (NN := rev (n :: seen) ++ todo) in *.
  assert (IN : idx n NN = List.length seen /\ ~ In n (rev seen)).
  { unfold NN in *. cbn [rev] in *. rewrite <- app_assoc in *. cbn [app] in *.
    apply NoDup_remove_2 in N. rewrite in_app_iff in N.
    split; [|tauto]. rewrite idx_app_r by tauto. cbn. rewrite key_eqb_refl, rev_length. lia. }
  destruct IN as (IN & NS).
  assert (MS : forall x, In x seen <-> In x NN /\ idx x NN < List.length seen).
  { intros x. unfold NN. cbn [rev]. rewrite <- app_assoc. split.
    - intros H. split; [rewrite in_app_iff, <- in_rev; tauto|].
      rewrite idx_app_l by (apply in_rev in H; assumption).
      rewrite <- rev_length. apply idx_lt. apply in_rev in H; assumption.
    - intros (H & L). apply in_rev. destruct (in_dec key_eq_dec x (rev seen)) as [I|I]; [assumption|].
      rewrite idx_app_r in L by assumption. rewrite rev_length in L. lia. }
  cbn [In]. split.
  - intros [([m kd'] & E & H)|H]; [|tauto].
    cbn in E. inversion E; subst. apply filter_In in H. destruct H as [H C].
    apply adj_items_In in H; [|assumption]. split; [left; reflexivity|]. split; [assumption|].
    cbn in C. apply orb_true_iff in C. destruct C as [C|C]; [tauto|]. right.
    apply negb_true_iff, mem_nIn in C. rewrite MS in C. destruct (in_dec key_eq_dec v NN) as [IV|IV]; [|tauto].
    right. destruct (Nat.lt_ge_cases (idx v NN) (List.length seen)); [exfalso; tauto|lia].
  - intros ([E|H] & D & C); [left|tauto]. subst u. exists (v, kd). split; [reflexivity|].
    apply filter_In. split; [apply adj_items_In; assumption|]. cbn. apply orb_true_iff.
    destruct C as [C|C]; [tauto|right]. apply negb_true_iff, mem_nIn. rewrite MS.
    intros [X Y]. destruct C as [C|C]; [tauto|lia].
Qed.

Lemma edge_pairs_In g u v kd : WF g ->
  (In (u, v, kd) (edge_pairs g) <->
   edge_data g u v = Some kd /\ (g_dir g = true \/ idx u (nodes g) <= idx v (nodes g))).
Proof.
  intros W. unfold edge_pairs. rewrite pairs_from_In by (assumption || apply (wf_nodes g W)).
  cbn [rev app]. split.
  - intros (_ & E & C). split; [assumption|]. destruct (edge_data_nodes g u v kd W E). tauto.
  - intros (E & C). destruct (edge_data_nodes g u v kd W E). tauto.
Qed.

Lemma edge_pairs_data g u v kd : WF g -> In (u, v, kd) (edge_pairs g) -> edge_data g u v = Some kd.
Proof. intros W H. apply edge_pairs_In in H; tauto. Qed.

Lemma edge_data_pairs g u v kd : WF g -> edge_data g u v = Some kd ->
  In (u, v, kd) (edge_pairs g) \/ (g_dir g = false /\ In (v, u, kd) (edge_pairs g)).
Proof.
  intros W H. rewrite !edge_pairs_In by assumption. destruct (g_dir g) eqn:D; [tauto|].
  destruct (Nat.le_ge_cases (idx u (nodes g)) (idx v (nodes g))); [tauto|right].
  rewrite edge_data_sym by assumption. tauto.
Qed.

Lemma pairs_from_src g seen todo p : In p (pairs_from g seen todo) -> In (fst (fst p)) todo.
Proof.
  revert seen. induction todo as [|n todo IH]; intros seen; cbn [pairs_from]; [tauto|].
  rewrite in_app_iff, in_map_iff. intros [(mk & <- & _)|H]; [left; reflexivity|right; eauto].
Qed.

Lemma pairs_from_NoDup g : WF g -> forall todo seen, NoDup todo ->
  NoDup (map fst (pairs_from g seen todo)).
Proof.
  intros W. induction todo as [|n todo IH]; intros seen N; cbn [pairs_from]; [constructor|].
  inversion N; subst. rewrite map_app. apply NoDup_app_iff. split; [|split; [auto|]].
  - rewrite map_map. cbn [fst]. 
    assert (M : map (fun x => (n, fst x)) (filter (fun mk => g_dir g || negb (mem (fst mk) seen)) (adj_items g n))
      = map (pair n) (filter (fun m => g_dir g || negb (mem m seen)) (map fst (adj_items g n)))).
    { rewrite filter_map, map_map. reflexivity. }
    rewrite M. apply NoDup_map_inj; [intros; congruence|]. apply NoDup_filter, adj_items_NoDup, W.
  - intros x Hx Hy. apply in_map_iff in Hx as (p & <- & Hp). apply in_map_iff in Hp as (mk & <- & _).
    apply in_map_iff in Hy as (q & E & Hq). apply pairs_from_src in Hq. cbn in E. rewrite E in Hq.
    cbn in Hq. contradiction.
Qed.

Lemma edges_NoDup g : WF g -> NoDup (edges g).
Proof. intros W. apply pairs_from_NoDup; [assumption|apply (wf_nodes g W)]. Qed.

Lemma edges_oriented g u v : WF g -> g_dir g = false -> In (u, v) (edges g) -> In (v, u) (edges g) -> u = v.
Proof.
  intros W D H1 H2. apply in_map_iff in H1 as ([[a b] kd] & E & H1). cbn in E. inversion E; subst.
  apply in_map_iff in H2 as ([[a b] kd'] & E' & H2). cbn in E'. inversion E'; subst.
  apply edge_pairs_In in H1, H2; try assumption. rewrite D in *.
  destruct H1 as (A1 & [|B1]); [discriminate|]. destruct H2 as (A2 & [|B2]); [discriminate|].
  apply edge_data_nodes in A1; [|assumption].
  apply (idx_inj u v (nodes g)); [tauto|lia].
Qed.

Lemma edges_In g u v : WF g ->
  (In (u, v) (edges g) <-> has_edge g u v = true /\ (g_dir g = true \/ idx u (nodes g) <= idx v (nodes g))).
Proof.
  intros W. unfold edges. rewrite in_map_iff. unfold has_edge. split.
  - intros ([[a b] kd] & E & H). cbn in E. inversion E; subst. apply edge_pairs_In in H; [|assumption].
    destruct H as [-> H]. tauto.
  - intros [H C]. destruct (edge_data g u v) as [kd|] eqn:E; [|discriminate].
    exists (u, v, kd). split; [reflexivity|]. apply edge_pairs_In; tauto.
Qed.

Lemma has_edge_edges g u v : WF g ->
  (has_edge g u v = true <-> In (u, v) (edges g) \/ (g_dir g = false /\ In (v, u) (edges g))).
Proof.
  intros W. rewrite !edges_In by assumption. split.
  - intros H. destruct (g_dir g) eqn:D; [tauto|].
    destruct (Nat.le_ge_cases (idx u (nodes g)) (idx v (nodes g))); [tauto|right].
    rewrite has_edge_sym by assumption. tauto.
  - intros [[H _]|(D & H & _)]; [assumption|]. rewrite has_edge_sym; assumption.
Qed.

Lemma edges_nodes g u v : WF g -> In (u, v) (edges g) -> In u (nodes g) /\ In v (nodes g).
Proof.
  intros W H. apply edges_In in H; [|assumption]. destruct H as [H _]. unfold has_edge in H.
  destruct (edge_data g u v) eqn:E; [|discriminate]. eapply edge_data_nodes; eassumption.
Qed.

(** *** all edges, with keys *)
Lemma edges_keys_In g u v k a : In (u, v, k, a) (edges_keys g) <->
  exists kd, In (u, v, kd) (edge_pairs g) /\ In (k, a) kd.
Proof.
  unfold edges_keys. rewrite in_flat_map. split.
  - intros ([[x y] kd] & H & I). cbn in I. apply in_map_iff in I as ([k' a'] & E & I). cbn in E.
    inversion E; subst. eauto.
  - intros (kd & H & I). exists (u, v, kd). split; [assumption|]. cbn.
    apply in_map_iff. exists (k, a). split; [reflexivity|assumption].
Qed.

Lemma edges_data_In g u v a : In (u, v, a) (edges_data g) <-> exists k, In (u, v, k, a) (edges_keys g).
Proof.
  unfold edges_data. rewrite in_map_iff. split.
  - intros ([[[x y] k] a'] & E & H). cbn in E. inversion E; subst. eauto.
  - intros (k & H). exists (u, v, k, a). split; [reflexivity|assumption].
Qed.

Lemma edges_keys_attrs g u v k a : WF g -> In (u, v, k, a) (edges_keys g) -> edge_attrs g u v k = Some a.
Proof.
  intros W H. apply edges_keys_In in H as (kd & P & I). apply edge_pairs_data in P; [|assumption].
  unfold edge_attrs. rewrite P. apply dget_In; [|assumption]. eapply edge_data_keys; eassumption.
Qed.

Lemma edge_attrs_keys g u v k a : WF g -> edge_attrs g u v k = Some a ->
  In (u, v, k, a) (edges_keys g) \/ (g_dir g = false /\ In (v, u, k, a) (edges_keys g)).
Proof.
  intros W H. unfold edge_attrs in H. destruct (edge_data g u v) as [kd|] eqn:E; [|discriminate].
  apply dget_Some_In in H. apply edge_data_pairs in E; [|assumption].
  rewrite !edges_keys_In. destruct E as [E|[D E]]; eauto 6.
Qed.

Definition data_of (p : key * key * dict attrs) : list (key * key * attrs) :=
  map (fun ka => (fst (fst p), snd (fst p), snd ka)) (snd p).

Lemma edges_data_pairs g : edges_data g = flat_map data_of (edge_pairs g).
Proof.
  unfold edges_data, edges_keys. induction (edge_pairs g) as [|p l IH]; [reflexivity|].
  cbn [flat_map]. rewrite map_app, IH. f_equal. unfold data_of. rewrite map_map. reflexivity.
Qed.

Lemma edges_data_simple g : WF g -> g_multi g = false ->
  edges_data g = map (fun p => (fst (fst p), snd (fst p),
     match snd p with (_, a) :: _ => a | [] => [] end)) (edge_pairs g).
Proof.
  intros W M. rewrite edges_data_pairs.
  assert (H : forall p, In p (edge_pairs g) -> exists a, snd p = [(KInt 0, a)]).
  { intros [[u v] kd] I. apply edge_pairs_data in I; [|assumption]. cbn. eapply edge_data_simple; eassumption. }
  revert H. generalize (edge_pairs g) as l. induction l as [|p l IH]; intros H; [reflexivity|].
  cbn [flat_map map]. rewrite IH by (intros; apply H; right; assumption).
  destruct (H p (or_introl eq_refl)) as (a & E). destruct p as [[u v] kd]. cbn in E. subst kd. reflexivity.
Qed.

Lemma size_pairs g : size g = sum_nat (map (fun p => List.length (snd p)) (edge_pairs g)).
Proof.
  unfold size, edges_keys. induction (edge_pairs g) as [|p l IH]; [reflexivity|].
  cbn [flat_map map]. rewrite app_length, map_length, IH. reflexivity.
Qed.

Lemma size_edges_data g : size g = List.length (edges_data g).
Proof. unfold size, edges_data. rewrite map_length. reflexivity. Qed.

Lemma size_simple g : WF g -> g_multi g = false -> size g = List.length (edges g).
Proof.
  intros W M. rewrite size_edges_data, edges_data_simple by assumption.
  unfold edges. rewrite !map_length. reflexivity.
Qed.

(** ** changing the adjacency bundle by bundle

    [F u v kd]: what becomes of the edges between u and v *)
Definition with_adj (g : graph) (l : list bundle) : graph :=
  mkG (g_dir g) (g_multi g) (g_attr g) (g_nodes g) l.

Definition rewrite_adj (F : key -> key -> dict attrs -> option (dict attrs)) (l : list bundle) : list bundle :=
  flat_map (fun b => match F (b_src b) (b_dst b) (b_data b) with
                     | Some kd => [mkB (b_src b) (b_dst b) kd] | None => [] end) l.

Definition rewrite_pairs (F : key -> key -> dict attrs -> option (dict attrs)) (l : list (key * key * dict attrs)) :=
  flat_map (fun p => match F (fst (fst p)) (snd (fst p)) (snd p) with
                     | Some kd => [(fst (fst p), snd (fst p), kd)] | None => [] end) l.

Lemma adj_items_rewrite g F n :
  (g_dir g = false -> forall u v kd, F u v kd = F v u kd) ->
  adj_items (with_adj g (rewrite_adj F (g_adj g))) n =
  flat_map (fun mk => match F n (fst mk) (snd mk) with
                      | Some kd => [(fst mk, kd)] | None => [] end) (adj_items g n).
Proof.
  intros Sy. unfold adj_items. cbn [with_adj g_dir g_adj]. unfold rewrite_adj.
  induction (g_adj g) as [|b l IH]; [reflexivity|]. cbn [flat_map].
  rewrite !flat_map_app, IH. clear IH. f_equal.
  destruct (other_end (g_dir g) n b) as [m|] eqn:E.
  - assert (FE : F n m (b_data b) = F (b_src b) (b_dst b) (b_data b)).
    { apply other_end_iff, same_ends_iff in E. destruct E as [[<- <-]|(D & <- & <-)]; [reflexivity|apply Sy; assumption]. }
    cbn [flat_map fst snd]. rewrite app_nil_r. rewrite FE. destruct (F (b_src b) (b_dst b) (b_data b)); [|reflexivity].
    cbn [flat_map b_data]. rewrite app_nil_r.
    replace (other_end (g_dir g) n (mkB (b_src b) (b_dst b) d)) with (other_end (g_dir g) n b) by reflexivity.
    rewrite E. reflexivity.
  - destruct (F (b_src b) (b_dst b) (b_data b)); [|reflexivity]. cbn [flat_map]. rewrite app_nil_r.
    replace (other_end (g_dir g) n (mkB (b_src b) (b_dst b) d)) with (other_end (g_dir g) n b) by reflexivity.
    rewrite E. reflexivity.
Qed.

Lemma pairs_from_rewrite g F : 
  (g_dir g = false -> forall u v kd, F u v kd = F v u kd) -> forall todo seen,
  pairs_from (with_adj g (rewrite_adj F (g_adj g))) seen todo = rewrite_pairs F (pairs_from g seen todo).
Proof.
  intros Sy. induction todo as [|n todo IH]; intros seen; [reflexivity|].
  cbn [pairs_from]. rewrite IH, adj_items_rewrite by assumption. cbn [with_adj g_dir].
  unfold rewrite_pairs. rewrite flat_map_app. f_equal.
  induction (adj_items g n) as [|[m kd] l IHl]; [reflexivity|].
  cbn [flat_map fst snd]. rewrite filter_app, map_app, IHl. clear IHl.
  cbn [filter fst snd]. destruct (g_dir g || negb (mem m seen)) eqn:C; cbn [map flat_map fst snd app].
  - f_equal. destruct (F n m kd); [|reflexivity]. cbn [filter fst snd]. rewrite C. reflexivity.
  - destruct (F n m kd); [|reflexivity]. cbn [filter fst snd]. rewrite C. reflexivity.
Qed.

Lemma edge_pairs_rewrite g F :
  (g_dir g = false -> forall u v kd, F u v kd = F v u kd) ->
  edge_pairs (with_adj g (rewrite_adj F (g_adj g))) = rewrite_pairs F (edge_pairs g).
Proof. intros Sy. apply pairs_from_rewrite. assumption. Qed.

(** dropping bundles *)
Lemma filter_as_rewrite (p : key -> key -> bool) l :
  filter (fun b => p (b_src b) (b_dst b)) l
  = rewrite_adj (fun u v kd => if p u v then Some kd else None) l.
Proof.
  induction l as [|b l IH]; [reflexivity|]. cbn [filter rewrite_adj flat_map].
  fold (rewrite_adj (fun u v kd => if p u v then Some kd else None) l). rewrite IH.
  destruct (p (b_src b) (b_dst b)); [destruct b|]; reflexivity.
Qed.

Lemma edge_pairs_filter g p :
  (g_dir g = false -> forall u v, p u v = p v u) ->
  edge_pairs (with_adj g (filter (fun b => p (b_src b) (b_dst b)) (g_adj g)))
  = filter (fun e => p (fst (fst e)) (snd (fst e))) (edge_pairs g).
Proof.
  intros Sy. rewrite filter_as_rewrite, edge_pairs_rewrite by (intros D u v kd; rewrite Sy by assumption; reflexivity).
  unfold rewrite_pairs. induction (edge_pairs g) as [|[[u v] kd] l IH]; [reflexivity|].
  cbn [flat_map filter fst snd]. rewrite IH. destruct (p u v); reflexivity.
Qed.

Lemma edge_data_rewrite g F u v : WF g ->
  (g_dir g = false -> forall u v kd, F u v kd = F v u kd) ->
  edge_data (with_adj g (rewrite_adj F (g_adj g))) u v =
  match edge_data g u v with Some kd => F u v kd | None => None end.
Proof.
  intros W Sy. pose proof (wf_distinct g W) as D. unfold edge_data. cbn [with_adj g_dir g_adj].
  revert D. induction (g_adj g) as [|b l IH]; intros D; [reflexivity|].
  inversion D; subst. specialize (IH H2). cbn [rewrite_adj flat_map find].
  fold (rewrite_adj F l). rewrite find_app.
  destruct (same_ends (g_dir g) u v b) eqn:E.
  - cbn [option_map]. 
    assert (FE : F u v (b_data b) = F (b_src b) (b_dst b) (b_data b)).
    { apply same_ends_iff in E. destruct E as [[<- <-]|(DD & <- & <-)]; [reflexivity|apply Sy; assumption]. }
    rewrite FE. destruct (F (b_src b) (b_dst b) (b_data b)) eqn:EF; cbn [find option_map].
    + replace (same_ends (g_dir g) u v (mkB (b_src b) (b_dst b) d)) with (same_ends (g_dir g) u v b) by reflexivity.
      rewrite E. reflexivity.
    + rewrite IH. assert (NF : find (same_ends (g_dir g) u v) l = None).
      { apply find_none_iff. intros c Hc. destruct (same_ends (g_dir g) u v c) eqn:E2; [|reflexivity].
        rewrite Forall_forall in H1. specialize (H1 c Hc). unfold apart in H1.
        rewrite (same_ends_trans _ _ _ _ _ E E2) in H1. discriminate. }
      rewrite NF. reflexivity.
  - replace (find (same_ends (g_dir g) u v) match F (b_src b) (b_dst b) (b_data b) with
         | Some kd => [mkB (b_src b) (b_dst b) kd] | None => [] end) with (@None bundle).
    + exact IH.
    + destruct (F (b_src b) (b_dst b) (b_data b)); [|reflexivity]. cbn [find].
      replace (same_ends (g_dir g) u v (mkB (b_src b) (b_dst b) d)) with (same_ends (g_dir g) u v b) by reflexivity.
      rewrite E. reflexivity.
Qed.

Lemma rewrite_adj_In F l b : In b (rewrite_adj F l) ->
  exists c, In c l /\ b_src b = b_src c /\ b_dst b = b_dst c /\ F (b_src c) (b_dst c) (b_data c) = Some (b_data b).
Proof.
  unfold rewrite_adj. rewrite in_flat_map. intros (c & Hc & H). exists c.
  destruct (F (b_src c) (b_dst c) (b_data c)); [|contradiction]. destruct H as [<-|[]].
  repeat split; try assumption; reflexivity.
Qed.

Lemma rewrite_adj_FOP dir F l : ForallOrdPairs (apart dir) l -> ForallOrdPairs (apart dir) (rewrite_adj F l).
Proof.
  induction 1 as [|b l H O IH]; [constructor|]. cbn [rewrite_adj flat_map]. fold (rewrite_adj F l).
  destruct (F (b_src b) (b_dst b) (b_data b)); [|exact IH]. cbn [app]. constructor; [|exact IH].
  rewrite Forall_forall in *. intros c Hc. apply rewrite_adj_In in Hc as (c' & Hc & E1 & E2 & _).
  specialize (H c' Hc). unfold apart, same_ends in *. cbn. rewrite E1, E2. exact H.
Qed.

Definition data_ok (multi : bool) (kd : dict attrs) : Prop :=
  kd <> [] /\ NoDup (dkeys kd) /\ (forall k a, In (k, a) kd -> NoDup (dkeys a))
  /\ (multi = false -> exists a, kd = [(KInt 0, a)]).

Lemma WF_data g b : WF g -> In b (g_adj g) -> data_ok (g_multi g) (b_data b).
Proof.
  intros W I. split; [apply (wf_ne g W b I)|]. split; [apply (wf_keys g W b I)|].
  split; [intros k a; apply (wf_eattrs g W b k a I)|]. intros M. apply (wf_simple g W M b I).
Qed.

Lemma WF_rewrite g F : WF g ->
  (forall u v kd kd', data_ok (g_multi g) kd -> F u v kd = Some kd' -> data_ok (g_multi g) kd') ->
  WF (with_adj g (rewrite_adj F (g_adj g))).
Proof.
  intros W H.
  assert (D : forall b, In b (rewrite_adj F (g_adj g)) -> data_ok (g_multi g) (b_data b)
              /\ In (b_src b) (nodes g) /\ In (b_dst b) (nodes g)).
  { intros b Hb. apply rewrite_adj_In in Hb as (c & Hc & E1 & E2 & E3). rewrite E1, E2.
    split; [|apply (wf_ends g W c Hc)]. eapply H; [apply (WF_data g c W Hc)|exact E3]. }
  constructor; cbn [with_adj nodes g_nodes g_attr g_adj g_multi g_dir].
  - apply (wf_nodes g W).
  - apply (wf_nattrs g W).
  - apply (wf_gattr g W).
  - intros b Hb. apply D in Hb. unfold nodes in *. cbn. tauto.
  - intros b Hb. apply D in Hb. destruct Hb as ((X & _) & _). exact X.
  - intros b Hb. apply D in Hb. destruct Hb as ((_ & X & _) & _). exact X.
  - intros b k a Hb. apply D in Hb. destruct Hb as ((_ & _ & X & _) & _). apply X.
  - intros M b Hb. apply D in Hb. destruct Hb as ((_ & _ & _ & X) & _). auto.
  - apply rewrite_adj_FOP. apply (wf_distinct g W).
Qed.

Lemma WF_filter_adj g p : WF g -> WF (with_adj g (filter (fun b => p (b_src b) (b_dst b)) (g_adj g))).
Proof.
  intros W. rewrite filter_as_rewrite. apply WF_rewrite; [assumption|].
  intros u v kd kd' H E. destruct (p u v); inversion E; subst; assumption.
Qed.

(** ** graphs whose adjacency is in the order of the nodes *)
Definition canonical (dir : bool) (N : list key) (l : list (key * key)) : Prop :=
  StronglySorted (fun p q => idx (fst p) N <= idx (fst q) N) l
  /\ Forall (fun p => In (fst p) N /\ In (snd p) N /\ (dir = true \/ idx (fst p) N <= idx (snd p) N)) l.

Definition ends (b : bundle) : key * key := (b_src b, b_dst b).
Definition pair_of (b : bundle) : key * key * dict attrs := (b_src b, b_dst b, b_data b).

Lemma StronglySorted_filter {A} (R : A -> A -> Prop) f l :
  StronglySorted R l -> StronglySorted R (filter f l).
Proof.
  induction 1 as [|a l S IH F]; cbn [filter]; [constructor|]. destruct (f a); [|assumption].
  constructor; [assumption|]. rewrite Forall_forall in *. intros x Hx. apply filter_In in Hx. apply F, Hx.
Qed.

Lemma StronglySorted_app_iff {A} (R : A -> A -> Prop) l1 l2 :
  StronglySorted R (l1 ++ l2) <->
  StronglySorted R l1 /\ StronglySorted R l2 /\ (forall a b, In a l1 -> In b l2 -> R a b).
Proof.
  induction l1 as [|x l1 IH]; cbn [app].
  - split; [intros H; split; [constructor|split; [assumption|contradiction]]|tauto].
  - split.
    + intros H. inversion H; subst. apply IH in H2. destruct H2 as (A1 & A2 & A3).
      apply Forall_app in H3. destruct H3 as (B1 & B2). rewrite Forall_forall in B2.
      split; [constructor; assumption|]. split; [assumption|].
      intros a b [<-|Ha] Hb; auto.
    + intros (A1 & A2 & A3). inversion A1; subst. constructor.
      * apply IH. split; [assumption|]. split; [assumption|]. intros; apply A3; [right|]; assumption.
      * apply Forall_app. split; [assumption|]. apply Forall_forall. intros b Hb. apply A3; [left; reflexivity|assumption].
Qed.

Lemma canonical_filter dir N f l : canonical dir N l -> canonical dir N (filter f l).
Proof.
  intros [S F]. split; [apply StronglySorted_filter; assumption|].
  rewrite Forall_forall in *. intros x Hx. apply filter_In in Hx. apply F, Hx.
Qed.

Lemma pairs_from_sorted g N : NoDup N -> forall todo seen, N = rev seen ++ todo ->
  StronglySorted (fun p q => idx (fst p) N <= idx (fst q) N) (map fst (pairs_from g seen todo)).
Proof.
  intros D. induction todo as [|n todo IH]; intros seen E; cbn [pairs_from]; [constructor|].
  assert (E' : N = rev (n :: seen) ++ todo) by (cbn [rev]; rewrite <- app_assoc; exact E).
  rewrite map_app. apply StronglySorted_app_iff. split; [|split; [apply (IH (n :: seen) E')|]].
  - rewrite map_map. cbn [fst]. induction (filter _ _) as [|x l IHl]; cbn [map]; constructor; [assumption|].
    apply Forall_forall. intros y Hy. apply in_map_iff in Hy as (z & <- & _). cbn. lia.
  - intros p q Hp Hq. apply in_map_iff in Hp as (p' & <- & Hp). apply in_map_iff in Hp as (mk & <- & _).
    apply in_map_iff in Hq as (q' & <- & Hq). apply pairs_from_src in Hq. cbn [fst].
    assert (NI : ~ In n (rev seen)) by (subst N; apply NoDup_app_iff in D; destruct D as (_ & _ & X);
       intros Y; apply (X n Y); left; reflexivity).
    assert (NJ : ~ In (fst (fst q')) (rev seen)) by (subst N; apply NoDup_app_iff in D; destruct D as (_ & _ & X);
       intros Y; apply (X _ Y); right; assumption).
    rewrite E, !idx_app_r by assumption. cbn. rewrite key_eqb_refl. lia.
Qed.

Lemma edges_canonical g : WF g -> canonical (g_dir g) (nodes g) (edges g).
Proof.
  intros W. split.
  - apply pairs_from_sorted; [apply (wf_nodes g W)|reflexivity].
  - apply Forall_forall. intros [u v] H. cbn. destruct (edges_nodes g u v W H).
    apply edges_In in H; tauto.
Qed.

Lemma filter_split_sorted {A} (f : A -> bool) (R : A -> A -> Prop) l :
  StronglySorted R l -> (forall x y, R x y -> f y = true -> f x = true) ->
  filter f l ++ filter (fun x => negb (f x)) l = l.
Proof.
  intros S H. induction S as [|x l S IH F]; [reflexivity|]. cbn [filter].
  destruct (f x) eqn:E; cbn [negb app]; [f_equal; exact IH|].
  rewrite Forall_forall in F.
  rewrite (filter_none f), filter_all; [reflexivity| |].
  - intros y Hy. destruct (f y) eqn:Ey; [|reflexivity]. rewrite (H x y (F y Hy) Ey) in E. discriminate.
  - intros y Hy. destruct (f y) eqn:Ey; [|reflexivity]. rewrite (H x y (F y Hy) Ey) in E. discriminate.
Qed.

Lemma flat_map_filter_src {A} (f : A -> key) : forall todo seen (l : list A),
  NoDup (seen ++ todo) ->
  StronglySorted (fun p q => idx (f p) (seen ++ todo) <= idx (f q) (seen ++ todo)) l ->
  (forall x, In x l -> In (f x) todo) ->
  flat_map (fun n => filter (fun x => key_eqb (f x) n) l) todo = l.
Proof.
  induction todo as [|n todo IH]; intros seen l N S I.
  - destruct l as [|x l]; [reflexivity|]. destruct (I x (or_introl eq_refl)).
  - assert (NT : ~ In n todo).
    { apply NoDup_app_iff in N. destruct N as (_ & X & _). inversion X; assumption. }
    assert (TS : forall k, In k (n :: todo) -> ~ In k seen).
    { apply NoDup_app_iff in N. destruct N as (_ & _ & X). intros k Hk Y. apply (X k Y Hk). }
    assert (SP : filter (fun x => key_eqb (f x) n) l ++ filter (fun x => negb (key_eqb (f x) n)) l = l).
    { assert (S2 : StronglySorted (fun x y => In x l /\ idx (f x) (seen ++ n :: todo) <= idx (f y) (seen ++ n :: todo)) l).
      { clear -S. assert (G : forall l', incl l' l -> StronglySorted (fun p q => idx (f p) (seen ++ n :: todo) <= idx (f q) (seen ++ n :: todo)) l' ->
          StronglySorted (fun x y => In x l /\ idx (f x) (seen ++ n :: todo) <= idx (f y) (seen ++ n :: todo)) l').
        { induction l' as [|x l' IH]; intros Q S'; constructor; inversion S'; subst.
          - apply IH; [intros y Hy; apply Q; right; assumption|assumption].
          - rewrite Forall_forall in *. intros y Hy. split; [apply Q; left; reflexivity|auto]. }
        apply G; [apply incl_refl|exact S]. }
      apply (filter_split_sorted _ _ _ S2). intros x y (Hx & L) E. apply key_eqb_eq in E.
      rewrite (idx_app_r (f x)) in L by (apply TS, I, Hx).
      rewrite (idx_app_r (f y)) in L by (rewrite E; apply TS; left; reflexivity).
      cbn in L. rewrite E, key_eqb_refl in L. destruct (key_eqb (f x) n); [reflexivity|lia]. }
    cbn [flat_map]. etransitivity; [|exact SP]. f_equal.
    etransitivity; [|apply (IH (seen ++ [n]) (filter (fun x => negb (key_eqb (f x) n)) l))].
    + apply flat_map_ext_in'. intros m Hm. rewrite filter_filter. apply filter_ext_in'.
      intros x Hx. keq (f x) m; [|rewrite ?andb_false_r, ?andb_false_l; reflexivity].
      keq (f x) n; [congruence|reflexivity].
    + rewrite <- app_assoc. exact N.
    + rewrite <- app_assoc. apply StronglySorted_filter. exact S.
    + intros x Hx. apply filter_In in Hx as (Hx & E). apply negb_true_iff, key_eqb_neq in E.
      destruct (I x Hx); [congruence|assumption].
Qed.

Lemma adj_items_canonical dir N l n : canonical dir N (map ends l) ->
  forall seen, (forall x, In x seen -> idx x N < idx n N) ->
  (forall x, In x N -> idx x N < idx n N -> In x seen) -> In n N ->
  ForallOrdPairs (apart dir) l ->
  filter (fun mk : key * dict attrs => dir || negb (mem (fst mk) seen))
    (flat_map (fun b => match other_end dir n b with Some m => [(m, b_data b)] | None => [] end) l)
  = map (fun b => (b_dst b, b_data b)) (filter (fun b => key_eqb (b_src b) n) l).
Proof.
  intros C seen S1 S2 I F. destruct C as [_ C]. induction l as [|b l IH]; [reflexivity|].
  inversion C; subst. inversion F; subst. cbn [flat_map]. rewrite filter_app, IH by assumption. clear IH.
  cbn [filter]. unfold other_end. cbn in H1. destruct H1 as (B1 & B2 & B3).
  keq (b_src b) n.
  - cbn [map]. f_equal. cbn [filter fst].
    replace (dir || negb (mem (b_dst b) seen)) with true; [reflexivity|].
    symmetry. apply orb_true_iff. destruct B3 as [->|B3]; [tauto|right].
    apply negb_true_iff, mem_nIn. intros X. apply S1 in X. lia.
  - destruct dir; cbn [negb andb]; [reflexivity|]. keq (b_dst b) n; [|reflexivity].
    cbn [filter fst orb]. destruct B3 as [B3|B3]; [discriminate|].
    replace (mem (b_src b) seen) with true; [reflexivity|]. symmetry. apply mem_In, S2; [assumption|].
    destruct (Nat.eq_dec (idx (b_src b) N) (idx (b_dst b) N)) as [Q|Q]; [|lia].
    apply idx_inj in Q; [congruence|assumption].
Qed.

Lemma edge_pairs_canonical g : NoDup (nodes g) -> canonical (g_dir g) (nodes g) (map ends (g_adj g)) ->
  ForallOrdPairs (apart (g_dir g)) (g_adj g) -> edge_pairs g = map pair_of (g_adj g).
Proof.
  intros N C F.
  assert (G : forall todo seen, nodes g = rev seen ++ todo ->
     pairs_from g seen todo = map pair_of (flat_map (fun n => filter (fun b => key_eqb (b_src b) n) (g_adj g)) todo)).
  { induction todo as [|n todo IH]; intros seen E; [reflexivity|]. cbn [pairs_from flat_map].
    rewrite map_app, IH by (cbn [rev]; rewrite <- app_assoc; exact E). f_equal.
    unfold adj_items.
    assert (IN : In n (nodes g)) by (rewrite E, in_app_iff; simpl; tauto).
    assert (NI : ~ In n (rev seen)) by (rewrite E in N; apply NoDup_app_iff in N; destruct N as (_ & _ & X);
       intros Y; apply (X n Y); left; reflexivity).
    assert (ID : idx n (nodes g) = List.length seen).
    { rewrite E, idx_app_r by assumption. cbn. rewrite key_eqb_refl, rev_length. lia. }
    rewrite (adj_items_canonical (g_dir g) (nodes g) (g_adj g) n C seen).
    - rewrite map_map. apply map_ext_in. intros b Hb. apply filter_In in Hb as (_ & Hb).
      apply key_eqb_eq in Hb. subst n. reflexivity.
    - intros x Hx. rewrite ID. apply in_rev in Hx. rewrite E, idx_app_l by assumption.
      rewrite <- rev_length. apply idx_lt. assumption.
    - intros x Hx L. rewrite ID in L. apply in_rev. destruct (in_dec key_eq_dec x (rev seen)) as [J|J]; [assumption|].
      rewrite E, idx_app_r, rev_length in L by assumption. lia.
    - assumption.
    - assumption. }
  unfold edge_pairs. rewrite (G (nodes g) []) by reflexivity. f_equal.
  apply (flat_map_filter_src b_src (nodes g) []); [assumption| |].
  - cbn [app]. destruct C as [S _]. clear -S. induction (g_adj g) as [|b l IH]; constructor; inversion S; subst.
    + auto.
    + rewrite Forall_forall in *. intros c Hc. apply (H2 (ends c)). apply in_map. assumption.
  - intros b Hb. destruct C as [_ C]. rewrite Forall_forall in C. apply (C (ends b)). apply in_map. assumption.
Qed.
