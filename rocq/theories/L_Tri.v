(** * Lemmas about chiba_nishizeki.py *)
From Coq Require Import Lia Permutation.
From Verif Require Import NxGraph L_Base L_Utils L_Nx L_Graph M_Utils M_Disparity S_Graph S_Partition S_Tri M_Tri.

(** ** the undirected view *)
Lemma merge_exists u v b l :
  existsb (same_ends false u v) (merge_bundle b l) = existsb (same_ends false u v) l || same_ends false u v b.
Proof.
  induction l as [|c l IH]; cbn [merge_bundle existsb]; [rewrite orb_false_r; reflexivity|].
  destruct (same_ends false (b_src b) (b_dst b) c) eqn:E; cbn [existsb].
  - assert (X : same_ends false u v (mkB (b_src c) (b_dst c) (dupdate (b_data b) (b_data c))) = same_ends false u v c) by reflexivity.
    rewrite X. assert (Y : same_ends false u v b = same_ends false u v c).
    { apply eq_true_iff_eq. rewrite !same_ends_iff. apply same_ends_iff in E. intuition congruence. }
    rewrite Y. destruct (same_ends false u v c), (existsb _ l); reflexivity.
  - rewrite IH. rewrite orb_assoc. reflexivity.
Qed.

Lemma merge_all_exists u v bs : forall l,
  existsb (same_ends false u v) (fold_left (fun acc b => merge_bundle b acc) bs l)
  = existsb (same_ends false u v) l || existsb (same_ends false u v) bs.
Proof.
  induction bs as [|b bs IH]; intros l; cbn [fold_left existsb]; [rewrite orb_false_r; reflexivity|].
  rewrite IH, merge_exists, orb_assoc. reflexivity.
Qed.

Lemma has_edge_exists g u v : has_edge g u v = existsb (same_ends (g_dir g) u v) (g_adj g).
Proof.
  unfold has_edge, edge_data. induction (g_adj g) as [|b l IH]; [reflexivity|]. cbn [List.find existsb].
  destruct (same_ends (g_dir g) u v b); [reflexivity|]. exact IH.
Qed.

Lemma same_ends_undirected u v b :
  same_ends false u v b = same_ends true u v b || same_ends true v u b.
Proof.
  unfold same_ends. cbn. rewrite !orb_false_r. reflexivity.
Qed.

Definition undirected (g : graph) : graph := if g_dir g then to_undirected g else g.

Lemma undirected_links g u v : has_edge (undirected g) u v = true <-> linked g u v.
Proof.
  unfold undirected, linked. destruct (g_dir g) eqn:D.
  - unfold to_undirected. rewrite D. rewrite has_edge_exists. cbn [g_dir g_adj]. rewrite merge_all_exists. cbn [existsb orb].
    rewrite !has_edge_exists, D. rewrite <- orb_true_iff.
    induction (g_adj g) as [|b l IH]; [reflexivity|]. cbn [existsb]. rewrite same_ends_undirected.
    rewrite !orb_true_iff in *. tauto.
  - rewrite (has_edge_sym g v u D). tauto.
Qed.

Lemma merge_In b l c : In c (merge_bundle b l) ->
  (b_src c = b_src b /\ b_dst c = b_dst b /\ b_data c = b_data b)
  \/ exists c0, In c0 l /\ b_src c = b_src c0 /\ b_dst c = b_dst c0
      /\ (b_data c = b_data c0 \/ b_data c = dupdate (b_data b) (b_data c0)).
Proof.
  induction l as [|d l IH]; cbn [merge_bundle]; [intros [<-|[]]; auto|].
  destruct (same_ends false (b_src b) (b_dst b) d).
  - intros [<-|I]; right; [exists d|exists c]; cbn; auto 6.
  - intros [<-|I]; [right; exists d; cbn; auto 6|]. destruct (IH I) as [H|(c0 & H & R)]; [auto|]. right. exists c0. cbn. auto.
Qed.

Lemma dupdate_In_or {A} (d e : dict A) k v : In (k, v) (dupdate d e) -> In (k, v) d \/ In (k, v) e.
Proof.
  unfold dupdate. revert d. induction e as [|[k' v'] e IH]; intros d; cbn [fold_left]; [auto|].
  intros I. apply IH in I as [I|I]; [|cbn; auto]. cbn [fst snd] in I. clear IH.
  induction d as [|[k2 v2] d IHd]; cbn in I.
  - destruct I as [E|[]]. cbn. auto.
  - destruct (key_eqb k' k2) eqn:E.
    + destruct I as [X|I]; [|cbn; auto]. apply key_eqb_eq in E. subst. inversion X; subst. cbn. auto.
    + destruct I as [X|I]; [cbn; auto|]. apply IHd in I. cbn in *. tauto.
Qed.

Lemma data_ok_merge multi d e : data_ok multi d -> data_ok multi e -> data_ok multi (dupdate d e).
Proof.
  intros (A & B & C & D) (A' & B' & C' & D'). repeat split.
  - intros E. destruct d as [|[k v] d]; [congruence|].
    assert (X : In k (dkeys (dupdate ((k, v) :: d) e))) by (apply In_dkeys_dupdate; cbn; auto). rewrite E in X. exact X.
  - apply NoDup_dupdate. exact B.
  - intros k a I. apply dupdate_In_or in I as [I|I]; [eapply C|eapply C']; exact I.
  - intros M. destruct (D M) as (a & ->), (D' M) as (a' & ->). cbn. exists a'. reflexivity.
Qed.

Lemma merge_FOP b l : ForallOrdPairs (apart false) l -> ForallOrdPairs (apart false) (merge_bundle b l).
Proof.
  induction 1 as [|c l H F IH]; cbn [merge_bundle].
  - constructor; constructor.
  - destruct (same_ends false (b_src b) (b_dst b) c) eqn:E.
    + constructor; [|exact F]. exact H.
    + constructor; [|exact IH]. rewrite Forall_forall in *. intros d Hd. apply merge_In in Hd as [(E1 & E2 & _)|(d0 & I & E1 & E2 & _)].
      * unfold apart. destruct (same_ends false (b_src c) (b_dst c) d) eqn:X; [|reflexivity].
        apply same_ends_iff in X. rewrite E1, E2 in X. assert (Y : same_ends false (b_src b) (b_dst b) c = true)
          by (apply same_ends_iff; intuition congruence). congruence.
      * specialize (H d0 I). unfold apart, same_ends in *. rewrite E1, E2. exact H.
Qed.

Lemma WF_undirected g : WF g -> WF (undirected g).
Proof.
  intros W. unfold undirected. destruct (g_dir g) eqn:D; [|exact W]. unfold to_undirected. rewrite D.
  set (P := fun b => data_ok (g_multi g) (b_data b) /\ In (b_src b) (nodes g) /\ In (b_dst b) (nodes g)).
  assert (X : forall bs l, (forall b, In b bs -> P b) -> (forall b, In b l -> P b) -> ForallOrdPairs (apart false) l ->
     (forall b, In b (fold_left (fun acc b => merge_bundle b acc) bs l) -> P b)
     /\ ForallOrdPairs (apart false) (fold_left (fun acc b => merge_bundle b acc) bs l)).
  { induction bs as [|b bs IH]; intros l Hb Hl F; [auto|]. cbn [fold_left]. apply IH; [intros c Hc; apply Hb; cbn; auto| |apply merge_FOP, F].
    intros c Hc. apply merge_In in Hc as [(E1 & E2 & E3)|(c0 & I & E1 & E2 & E3)].
    - unfold P. rewrite E1, E2, E3. apply (Hb b). cbn. auto.
    - specialize (Hl c0 I). unfold P in *. rewrite E1, E2. split; [|apply Hl]. destruct E3 as [->| ->]; [apply Hl|].
      apply data_ok_merge; [apply (Hb b); cbn; auto|apply Hl]. }
  destruct (X (g_adj g) []) as [X1 X2]; [|intros b []|constructor|].
  { intros b I. split; [apply (WF_data g b W I)|apply (wf_ends g W b I)]. }
  clear X. unfold P in X1. clear P.
  constructor; cbn [nodes g_nodes g_attr g_adj g_multi g_dir].
  - apply (wf_nodes g W).
  - apply (wf_nattrs g W).
  - apply (wf_gattr g W).
  - intros b Hb. apply X1 in Hb. apply Hb.
  - intros b Hb. apply X1 in Hb. destruct Hb as ((Y & _) & _). exact Y.
  - intros b Hb. apply X1 in Hb. destruct Hb as ((_ & Y & _) & _). exact Y.
  - intros b k a Hb. apply X1 in Hb. destruct Hb as ((_ & _ & Y & _) & _). apply Y.
  - intros M b Hb. apply X1 in Hb. destruct Hb as ((_ & _ & _ & Y) & _). auto.
  - exact X2.
Qed.

Lemma undirected_dir g : g_dir (undirected g) = false.
Proof. unfold undirected, to_undirected. destruct (g_dir g) eqn:D; [reflexivity|exact D]. Qed.
Lemma undirected_nodes g : nodes (undirected g) = nodes g.
Proof. unfold undirected, to_undirected. destruct (g_dir g); reflexivity. Qed.

(** ** small lists *)
Lemma remove_last_spec x l : NoDup l -> In x l -> remove_last x l = Some (filter (fun y => negb (key_eqb y x)) l).
Proof.
  assert (X : ~ In x l -> remove_last x l = None).
  { induction l as [|y l IH]; intros H; [reflexivity|]. cbn in *. rewrite IH by tauto.
    destruct (key_eqb_spec y x); [subst; tauto|reflexivity]. }
  clear X. induction l as [|y l IH]; intros N I; [destruct I|]. inversion N; subst. cbn [remove_last filter].
  assert (X : forall l', ~ In x l' -> remove_last x l' = None).
  { induction l' as [|z l' IH']; intros H; [reflexivity|]. cbn in *. rewrite IH' by tauto.
    destruct (key_eqb_spec z x); [subst; tauto|reflexivity]. }
  destruct (key_eqb_spec y x); cbn [negb].
  - subst. rewrite X by assumption. rewrite filter_all; [reflexivity|]. intros a Ha.
    destruct (key_eqb_spec a x); [subst; contradiction|reflexivity].
  - destruct I as [E|I]; [congruence|]. rewrite IH by assumption. reflexivity.
Qed.

Lemma mark_spec l : NoDup l -> mark l = rev l.
Proof.
  intros N. unfold mark. f_equal.
  assert (X : forall l d, NoDup (dkeys d ++ l) -> dkeys (fold_left (fun d n => dset n true d) l d) = dkeys d ++ l).
  { clear. induction l as [|x l IH]; intros d N; cbn [fold_left]; [rewrite app_nil_r; reflexivity|].
    assert (Hx : ~ In x (dkeys d)).
    { apply NoDup_app_iff in N as (_ & _ & H). intros I. apply (H x I). cbn. auto. }
    rewrite IH.
    - rewrite dset_notin by exact Hx. unfold dkeys at 1. rewrite map_app. cbn. rewrite <- app_assoc. reflexivity.
    - rewrite dset_notin by exact Hx. unfold dkeys at 1. rewrite map_app. cbn. rewrite <- app_assoc. exact N. }
  rewrite X; [reflexivity|exact N].
Qed.

(** ** enumeration, from symmetric adjacency lists [A] on the nodes [S] *)
Section Enumerate.
  Variable S : list key.
  Variable A : key -> list key.
  Hypothesis NA : forall x, NoDup (A x).
  Hypothesis irr : forall x, ~ In x (A x).
  Hypothesis sym : forall x y, In y (A x) -> In x S -> In x (A y).
  Hypothesis closed : forall x y, In x S -> In y (A x) -> In y S.

  (** what is found with [p] *)
  Fixpoint found_with (p : key) (L : key -> list key) (marked : list key) : list triangle :=
    match marked with
    | [] => []
    | x :: rest => map (fun y => (p, x, y)) (filter (fun y => mem y rest) (L x)) ++ found_with p L rest
    end.

  Lemma empty_marked_spec p L marked : NoDup marked -> ~ In p marked -> forall st,
    (forall x, In x marked -> dget x st = Some (L x) /\ In p (L x) /\ NoDup (L x)) ->
    exists st', empty_marked p marked st = (st', Ok (found_with p L marked))
      /\ forall x, dget x st' = if mem x marked then Some (filter (fun y => negb (key_eqb y p)) (L x)) else dget x st.
  Proof.
    induction marked as [|m marked IH]; intros N Hp st H; cbn [empty_marked found_with].
    - exists st. split; [reflexivity|]. reflexivity.
    - inversion N; subst. destruct (H m) as (E & I & NL); [cbn; auto|].
      destruct (IH ltac:(assumption) ltac:(cbn in Hp; tauto) (dset m (filter (fun y => negb (key_eqb y p)) (L m)) st)) as (st' & E' & S').
      { intros x Hx. rewrite dget_dset. destruct (key_eqb_spec x m); [subst; contradiction|]. apply H. cbn. auto. }
      exists st'. split.
      + unfold sbind. unfold visit_marked. rewrite E. rewrite (remove_last_spec p (L m) NL I).
        rewrite E'. unfold sret. do 4 f_equal.
        apply filter_ext_in'. intros y Hy. destruct (key_eqb_spec y p); [subst|reflexivity]. cbn.
        symmetry. apply mem_nIn. cbn in Hp. tauto.
      + intros x. rewrite S'. cbn [mem existsb]. fold (mem x marked). rewrite dget_dset. 
        destruct (mem x marked); [rewrite orb_true_r; reflexivity|]. rewrite orb_false_r.
        destruct (key_eqb_spec x m); [subst|]; reflexivity.
  Qed.

  Lemma found_with_In p L marked a b c : NoDup marked -> In (a, b, c) (found_with p L marked) ->
    a = p /\ In b marked /\ In c marked /\ In c (L b) /\ b <> c.
  Proof.
    induction marked as [|m marked IH]; intros N; cbn [found_with]; [intros []|]. inversion N; subst. rewrite in_app_iff.
    intros [I|I].
    - apply in_map_iff in I as (y & E & I). inversion E; subst. apply filter_In in I as [I M]. apply mem_In in M. cbn [In].
      repeat split; auto. congruence.
    - destruct (IH ltac:(assumption) I) as (E & X & Y & R). cbn [In]. tauto.
  Qed.

  Lemma found_with_complete p L marked b c : NoDup marked -> b <> c -> In b marked -> In c marked ->
    In c (L b) -> In b (L c) -> In (p, b, c) (found_with p L marked) \/ In (p, c, b) (found_with p L marked).
  Proof.
    induction marked as [|m marked IH]; intros N D; cbn [found_with In]; [tauto|]. inversion N; subst. rewrite !in_app_iff.
    intros [E|Ib] [E'|Ic] H H'; subst.
    - congruence.
    - left. left. apply in_map_iff. exists c. split; [reflexivity|]. apply filter_In. split; [exact H|apply mem_In; exact Ic].
    - right. left. apply in_map_iff. exists b. split; [reflexivity|]. apply filter_In. split; [exact H'|apply mem_In; exact Ib].
    - destruct (IH ltac:(assumption) D Ib Ic H H'); auto.
  Qed.

  Definition distinct_sets : list triangle -> Prop :=
    ForallOrdPairs (fun t t' => ~ Permutation (corners t) (corners t')).

  Lemma found_with_distinct p L marked : NoDup marked -> ~ In p marked -> (forall x, In x marked -> NoDup (L x)) ->
    distinct_sets (found_with p L marked).
  Proof.
    induction marked as [|m marked IH]; intros N Hp NL; cbn [found_with]; [constructor|]. inversion N; subst.
    apply FOP_app. repeat split.
    - apply (FOP_map _ (fun y y' => y <> y')).
      + intros y y' D P. unfold corners in P. cbn in P. apply Permutation_cons_inv in P. apply Permutation_cons_inv in P.
        apply Permutation_length_1 in P. congruence.
      + assert (X : NoDup (filter (fun y => mem y marked) (L m))) by (apply NoDup_filter, NL; cbn; auto).
        clear - X. induction X; constructor; [|assumption]. apply Forall_forall. intros y Hy. congruence.
    - apply IH; [assumption|cbn in Hp; tauto|]. intros x Hx. apply NL. cbn. auto.
    - intros t t' I I' P. apply in_map_iff in I as (y & <- & I). destruct t' as [[a b] c].
      apply found_with_In in I' as (-> & Ib & Ic & _); [|assumption].
      assert (X : In m (corners (p, b, c))) by (eapply Permutation_in; [exact P|cbn; auto]).
      cbn in X. destruct X as [X|[X|[X|[]]]]; subst; cbn in Hp; tauto.
  Qed.

  Definition left_in (P : list key) (x : key) : list key := filter (fun y => negb (mem y P)) (A x).
  Definition Inv (P : list key) (st : dict (list key)) : Prop :=
    forall x, In x S -> ~ In x P -> dget x st = Some (left_in P x).

  Lemma left_in_In P x y : In y (left_in P x) <-> In y (A x) /\ ~ In y P.
  Proof. unfold left_in. rewrite filter_In, negb_true_iff, mem_nIn. reflexivity. Qed.

  Lemma left_in_cons P p x : left_in (p :: P) x = filter (fun y => negb (key_eqb y p)) (left_in P x).
  Proof.
    unfold left_in. rewrite filter_filter. apply filter_ext_in'. intros y _. rewrite mem_cons, negb_orb. apply andb_comm.
  Qed.

  Lemma triangles_from_spec todo : forall P st, NoDup (P ++ todo) -> incl todo S -> Inv P st ->
    exists st' out, triangles_from todo st = (st', Ok out)
      /\ (forall a b c, In (a, b, c) out -> In a todo /\ ~ In a P /\ ~ In b P /\ ~ In c P /\ b <> c
            /\ In b (A a) /\ In c (A a) /\ In c (A b))
      /\ (forall pre a post b c, todo = pre ++ a :: post -> b <> c -> ~ In b (P ++ pre) -> ~ In c (P ++ pre) ->
            In b (A a) -> In c (A a) -> In c (A b) -> In b (A c) -> In (a, b, c) out \/ In (a, c, b) out)
      /\ distinct_sets out.
  Proof.
    induction todo as [|p todo IH]; intros P st N I V; cbn [triangles_from].
    - exists st, []. split; [reflexivity|]. split; [intros a b c []|]. split; [|constructor].
      intros pre a post b c E. destruct pre; discriminate.
    - assert (pS : In p S) by (apply I; cbn; auto).
      assert (pP : ~ In p P) by (apply NoDup_app_iff in N as (_ & _ & H); intros X; apply (H p X); cbn; auto).
      set (marked := rev (left_in P p)).
      assert (NM : NoDup marked) by (apply NoDup_rev, NoDup_filter, NA).
      assert (pM : ~ In p marked) by (unfold marked; rewrite <- in_rev, left_in_In; intros [X _]; apply (irr p X)).
      assert (MS : forall x, In x marked -> In x (A p) /\ In x S /\ ~ In x P).
      { intros x Hx. unfold marked in Hx. rewrite <- in_rev, left_in_In in Hx. destruct Hx. eauto. }
      destruct (empty_marked_spec p (left_in P) marked NM pM st) as (st1 & E1 & S1).
      { intros x Hx. destruct (MS x Hx) as (X & Y & Z). split; [apply V; assumption|]. split.
        - apply left_in_In. split; [apply sym; assumption|exact pP].
        - apply NoDup_filter, NA. }
      destruct (IH (p :: P) st1) as (st2 & out & E2 & Snd & Cmp & Dst).
      + cbn. apply (Permutation_NoDup (l := P ++ p :: todo)); [|exact N]. symmetry. apply Permutation_middle.
      + intros x Hx. apply I. cbn. auto.
      + intros x Hx Hn. rewrite S1. rewrite left_in_cons. destruct (mem_spec x marked) as [M|M]; [reflexivity|].
        rewrite V; [|exact Hx|cbn in Hn; tauto]. rewrite filter_all; [reflexivity|].
        intros y Hy. destruct (key_eqb_spec y p); [|reflexivity]. subst. exfalso. apply M.
        unfold marked. rewrite <- in_rev, left_in_In. apply left_in_In in Hy as [Hy _]. split; [|cbn in Hn; tauto].
        apply sym; assumption.
      + exists st2, (found_with p (left_in P) marked ++ out). split; [|split; [|split]].
        * unfold sbind, sread. rewrite (V p pS pP). cbv beta iota.
          assert (X : mark (left_in P p) = marked) by (apply mark_spec, NoDup_filter, NA). rewrite X, E1, E2. reflexivity.
        * intros a b c H. apply in_app_iff in H as [H|H].
          -- apply found_with_In in H as (-> & Ib & Ic & Icb & D); [|exact NM].
             destruct (MS b Ib) as (X & Y & Z), (MS c Ic) as (X' & Y' & Z'). apply left_in_In in Icb as [Icb _].
             cbn [In]. tauto.
          -- apply Snd in H. cbn [In] in *. tauto.
        * intros pre a post b c E D Hb Hc Iab Iac Ibc Icb. rewrite !in_app_iff. destruct pre as [|q pre]; cbn in E; inversion E; subst.
          -- rewrite app_nil_r in Hb, Hc.
             destruct (found_with_complete a (left_in P) marked b c NM D) as [X|X]; auto;
               try (unfold marked; rewrite <- in_rev); apply left_in_In; auto.
          -- destruct (Cmp pre a post b c eq_refl D) as [X|X]; auto; rewrite in_app_iff in *; cbn [In] in *; tauto.
        * apply FOP_app. split; [|split; [exact Dst|]].
          -- apply found_with_distinct; [exact NM|exact pM|]. intros x _. apply NoDup_filter, NA.
          -- intros t t' H H' Pm. destruct t as [[a b] c], t' as [[a' b'] c'].
             apply found_with_In in H as (-> & _); [|exact NM]. apply Snd in H'. destruct H' as (_ & X & Y & Z & _).
             assert (Q : In p (corners (a', b', c'))) by (eapply Permutation_in; [exact Pm|cbn; auto]).
             cbn in *. intuition congruence.
  Qed.
End Enumerate.

(** ** triangles *)
Lemma insert_degree_perm f n l : Permutation (n :: l) (insert_degree f n l).
Proof.
  induction l as [|m l IH]; cbn [insert_degree]; [reflexivity|].
  destruct (f m <=? f n); [reflexivity|]. rewrite perm_swap. constructor. exact IH.
Qed.
Lemma sorted_nodes_perm v : Permutation (filter (fun n => 1 <? v_degree v n) (v_nodes v)) (sorted_nodes v).
Proof.
  unfold sorted_nodes. induction (filter _ (v_nodes v)) as [|n l IH]; [reflexivity|]. cbn [fold_right].
  etransitivity; [|apply insert_degree_perm]. constructor. exact IH.
Qed.
Lemma sorted_nodes_In v n : In n (sorted_nodes v) <-> In n (v_nodes v) /\ 1 < v_degree v n.
Proof.
  split.
  - intros I. eapply Permutation_in in I; [|symmetry; apply sorted_nodes_perm]. apply filter_In in I as [I D].
    apply Nat.ltb_lt in D. auto.
  - intros [I D]. eapply Permutation_in; [apply sorted_nodes_perm|]. apply filter_In. split; [exact I|]. apply Nat.ltb_lt. exact D.
Qed.
Lemma sorted_nodes_NoDup v : NoDup (v_nodes v) -> NoDup (sorted_nodes v).
Proof. intros W. eapply Permutation_NoDup; [apply sorted_nodes_perm|]. apply NoDup_filter, W. Qed.

Lemma neighbors_In g u v : WF g -> (In v (neighbors g u) <-> has_edge g u v = true).
Proof.
  intros W. unfold neighbors, has_edge. rewrite in_map_iff. split.
  - intros ([m kd] & E & I). cbn in E. subst. apply adj_items_In in I; [|exact W]. rewrite I. reflexivity.
  - intros H. destruct (edge_data g u v) as [kd|] eqn:E; [|discriminate]. exists (v, kd). split; [reflexivity|].
    apply adj_items_In; assumption.
Qed.

Lemma sum_at_least {B} (f : B -> nat) l : (forall b, In b l -> 1 <= f b) -> List.length l <= sum_nat (map f l).
Proof.
  unfold sum_nat. induction l as [|b l IH]; intros H; cbn [map fold_right List.length]; [lia|].
  pose proof (H b (or_introl eq_refl)). specialize (IH (fun b I => H b (or_intror I))). lia.
Qed.

Lemma linked_sym g u v : linked g u v -> linked g v u.
Proof. unfold linked. tauto. Qed.
Lemma linked_nodes g u v : WF g -> linked g u v -> In u (nodes g) /\ In v (nodes g).
Proof.
  intros W [H|H]; unfold has_edge in H; match type of H with context [edge_data g ?a ?b] => destruct (edge_data g a b) eqn:E end;
    try discriminate; apply edge_data_nodes in E; tauto.
Qed.

(** the number of neighbours is at most the degree *)
Lemma neighbors_degree g n : WF g -> g_dir g = false -> List.length (neighbors g n) <= degree g n.
Proof.
  intros W D. unfold degree, neighbors. rewrite D, map_length.
  assert (L : List.length (adj_items g n) <= sum_nat (map (fun mk => List.length (snd mk)) (adj_items g n))).
  { apply (sum_at_least (fun mk => List.length (snd mk))). intros [m kd] I. apply adj_items_In in I; [|exact W].
    apply edge_data_ne in I; [|exact W]. destruct kd; [congruence|cbn; lia]. }
  eapply Nat.le_trans; [exact L|]. apply Nat.le_add_r.
Qed.

Lemma pred_items_edge g n m kd : g_dir g = true -> In (m, kd) (pred_items g n) -> exists b, In b (g_adj g) /\ b_src b = m /\ b_dst b = n /\ b_data b = kd.
Proof.
  intros D. unfold pred_items. rewrite in_flat_map. intros (b & I & H). exists b. destruct (key_eqb_spec (b_dst b) n); [|destruct H].
  destruct H as [H|[]]. inversion H; subst. auto.
Qed.
Lemma predecessors_In g u v : g_dir g = true -> has_edge g u v = true -> In u (predecessors g v).
Proof.
  intros D. rewrite has_edge_exists, D. intros H. apply existsb_exists in H as (b & I & H). unfold same_ends in H. cbn [negb andb] in H.
  rewrite orb_false_r in H. apply andb_true_iff in H as [H1 H2]. apply key_eqb_eq in H1, H2. subst.
  unfold predecessors. apply in_map_iff. exists (b_src b, b_data b). split; [reflexivity|]. unfold pred_items. apply in_flat_map.
  exists b. split; [exact I|]. rewrite key_eqb_refl. cbn. auto.
Qed.

Lemma undirected_neighbors_degree g n : WF g -> g_dir g = true -> List.length (neighbors (to_undirected g) n) <= degree g n.
Proof.
  intros W D.
  assert (E : to_undirected g = undirected g) by (unfold undirected; rewrite D; reflexivity). rewrite E.
  pose proof (WF_undirected g W) as WU.
  assert (X : List.length (neighbors (undirected g) n) <= List.length (neighbors g n ++ predecessors g n)).
  { apply NoDup_incl_length; [apply adj_items_NoDup, WU|]. intros m I. apply (neighbors_In _ n m WU) in I.
    apply undirected_links in I. apply in_app_iff. destruct I as [I|I]; [left; apply neighbors_In; assumption|right; apply predecessors_In; assumption]. }
  eapply Nat.le_trans; [exact X|]. unfold degree. rewrite D, app_length. unfold neighbors, predecessors. rewrite !map_length.
  apply Nat.add_le_mono.
  - apply (sum_at_least (fun mk => List.length (snd mk))). intros [m kd] I. apply adj_items_In in I; [|exact W].
    apply edge_data_ne in I; [|exact W]. destruct kd; [congruence|cbn; lia].
  - apply (sum_at_least (fun mk => List.length (snd mk))). intros [m kd] I. apply pred_items_edge in I as (b & I & _ & _ & <-); [|exact D].
    cbn [snd]. pose proof (wf_ne g W b I). destruct (b_data b); [congruence|cbn; lia].
Qed.

Lemma view_edges_In g nbrs todo : forall seen x y, In (x, y) (view_edges g nbrs seen todo) -> In y (nbrs x).
Proof.
  induction todo as [|n todo IH]; intros seen x y; cbn [view_edges]; [intros []|]. rewrite in_app_iff, in_flat_map. intros [(m & I & R)|I].
  - apply repeat_spec in R. inversion R; subst. apply filter_In in I. tauto.
  - eapply IH. exact I.
Qed.
Lemma view_edges_complete g nbrs todo : forall seen x y,
  In x todo -> In y (nbrs x) -> In x (nbrs y) ->
  edge_data g x y <> None -> edge_data g y x <> None ->
  (forall u v kd, edge_data g u v = Some kd -> kd <> []) ->
  ~ In x seen -> ~ In y seen ->
  In (x, y) (view_edges g nbrs seen todo) \/ In (y, x) (view_edges g nbrs seen todo).
Proof.
  intros seen x y Ix Nxy Nyx Exy Eyx NE. revert seen. induction todo as [|n todo IH]; intros seen Sx Sy; [destruct Ix|].
  assert (Z : forall a b, In b (nbrs a) -> edge_data g a b <> None -> ~ In b seen -> n = a -> In (a, b) (view_edges g nbrs seen (n :: todo))).
  { intros a b Nab Eab Sb ->. cbn [view_edges]. apply in_app_iff. left. apply in_flat_map. exists b. split.
    - apply filter_In. split; [exact Nab|]. apply negb_true_iff, mem_nIn. exact Sb.
    - destruct (edge_data g a b) as [kd|] eqn:E; [|congruence]. pose proof (NE _ _ _ E). destruct kd; [congruence|]. cbn. auto. }
  destruct (key_eq_dec n x) as [Ex|Nx]; [left; apply Z; assumption|].
  destruct (key_eq_dec n y) as [Ey|Ny]; [right; apply Z; assumption|].
  cbn [view_edges]. rewrite !in_app_iff. destruct Ix as [Ix|Ix]; [congruence|].
  destruct (IH Ix (n :: seen)) as [H|H]; cbn [In]; try tauto; intuition congruence.
Qed.

Lemma undirected_view_shows set_order g : WF g -> reorders set_order -> shows g (undirected_view set_order g).
Proof.
  intros W R. unfold undirected_view. destruct (g_dir g) eqn:D.
  - assert (E : to_undirected g = undirected g) by (unfold undirected; rewrite D; reflexivity).
    pose proof (WF_undirected g W) as WU. unfold shows. cbn [v_nodes v_neighbors v_degree v_edges].
    assert (NI : forall n m, In m (set_order (neighbors (to_undirected g) n)) <-> linked g n m).
    { intros n m. rewrite <- undirected_links, <- (neighbors_In _ n m WU), E. split; intros I; (eapply Permutation_in; [|exact I]); [symmetry|]; apply R. }
    split; [reflexivity|]. split; [|split; [|split; [|split]]].
    + intros n. eapply Permutation_NoDup; [apply R|]. rewrite E. apply adj_items_NoDup, WU.
    + exact NI.
    + intros n. rewrite <- (Permutation_length (R _)). pose proof (undirected_neighbors_degree g n W D). lia.
    + intros x y I. apply view_edges_In in I. apply NI, I.
    + intros x y L. pose proof (linked_nodes g x y W L) as [Hx Hy].
      assert (ED : forall a b, linked g a b -> edge_data (to_undirected g) a b <> None).
      { intros a b H. apply undirected_links in H. rewrite E. unfold has_edge in H. destruct (edge_data _ _ _); congruence. }
      apply view_edges_complete; [exact Hx|apply NI, L|apply NI, linked_sym, L|apply ED, L|apply ED, linked_sym, L| |intros []|intros []].
      intros u v kd. rewrite E. apply edge_data_ne, WU.
  - unfold shows. cbn [v_nodes v_neighbors v_degree v_edges].
    assert (LE : forall x y, linked g x y <-> has_edge g x y = true) by (intros; unfold linked; rewrite (has_edge_sym g y x D); tauto).
    split; [reflexivity|]. split; [|split; [|split; [|split]]].
    + intros n. apply adj_items_NoDup, W.
    + intros n m. rewrite LE. apply neighbors_In, W.
    + intros n. apply neighbors_degree; assumption.
    + intros x y I. unfold edge_list in I. apply in_map_iff in I as ([p a] & Q & I). cbn in Q. subst p. apply edges_data_edges in I.
      left. apply has_edge_edges; auto.
    + intros x y L. apply LE in L. apply has_edge_edges in L; [|exact W].
      assert (Z : forall a b, In (a, b) (edges g) -> In (a, b) (edge_list g)).
      { intros a b I. apply edges_edges_data in I as (c & I); [|exact W]. unfold edge_list. apply in_map_iff. exists (a, b, c). auto. }
      destruct L as [L|[_ L]]; [left|right]; apply Z, L.
Qed.

Lemma adjacency_In g v x y : shows g v -> (In y (adjacency v x) <-> linked g x y /\ x <> y /\ 1 < v_degree v y).
Proof.
  intros (_ & _ & NI & _). unfold adjacency. rewrite filter_In, NI, andb_true_iff, !negb_true_iff, key_eqb_neq, Nat.ltb_ge.
  split; intros (A & B & C); repeat split; try assumption; try congruence; lia.
Qed.

Lemma two_neighbors_degree g v u x y : shows g v -> x <> y -> linked g u x -> linked g u y -> 1 < v_degree v u.
Proof.
  intros (_ & _ & NI & Dg & _) N Hx Hy. apply NI in Hx, Hy. eapply Nat.lt_le_trans; [|apply Dg].
  change (List.length [x; y] <= List.length (v_neighbors v u)). apply NoDup_incl_length.
  - constructor; [intros [E|[]]; congruence|]. constructor; [intros []|constructor].
  - intros z [<-|[<-|[]]]; assumption.
Qed.

Lemma dset_fold_get (f : key -> list key) l : forall d x,
  dget x (fold_left (fun d n => dset n (f n) d) l d) = if mem x l then Some (f x) else dget x d.
Proof.
  induction l as [|n l IH]; intros d x; cbn [fold_left]; [reflexivity|]. rewrite IH, dget_dset, mem_cons.
  destruct (mem x l); [rewrite orb_true_r; reflexivity|]. rewrite orb_false_r.
  destruct (key_eqb_spec x n); [subst|]; reflexivity.
Qed.

Lemma in_firstn_two (l : list key) pre a post b c : l = pre ++ a :: post -> In b post -> In c post -> b <> c ->
  exists post', firstn (List.length l - 2) l = pre ++ a :: post'.
Proof.
  intros -> Ib Ic D.
  assert (X : 2 <= List.length post).
  { change 2 with (List.length [b; c]). apply NoDup_incl_length.
    - constructor; [intros [E|[]]; congruence|]. constructor; [intros []|constructor].
    - intros x [<-|[<-|[]]]; assumption. }
  rewrite app_length. cbn [List.length]. replace (List.length pre + S (List.length post) - 2) with (List.length pre + (List.length post - 1)) by lia.
  rewrite firstn_app_2. destruct (List.length post - 1) eqn:E; [lia|]. cbn [firstn]. eauto.
Qed.

(** one of three distinct elements comes first *)
Lemma first_of_three (l : list key) x y z : NoDup l -> In x l -> In y l -> In z l -> x <> y -> x <> z -> y <> z ->
  exists a b c pre post, Permutation [x; y; z] [a; b; c] /\ l = pre ++ a :: post /\ In b post /\ In c post
    /\ (forall w, In w [x; y; z] -> ~ In w pre).
Proof.
  intros N. induction l as [|n l IH]; intros Ix Iy Iz Dxy Dxz Dyz; [destruct Ix|]. inversion N; subst.
  destruct (key_eq_dec n x) as [->|Nx].
  { exists x, y, z, [], l. split; [reflexivity|]. split; [reflexivity|]. cbn [In] in *. intuition congruence. }
  destruct (key_eq_dec n y) as [->|Ny].
  { exists y, x, z, [], l. split; [apply perm_swap|]. split; [reflexivity|]. cbn [In] in *. intuition congruence. }
  destruct (key_eq_dec n z) as [->|Nz].
  { exists z, x, y, [], l. split; [symmetry; apply (Permutation_middle [x; y] [] z)|]. split; [reflexivity|]. cbn [In] in *. intuition congruence. }
  destruct IH as (a & b & c & pre & post & P & E & Ib & Ic & H); try assumption; try (cbn [In] in *; intuition congruence).
  exists a, b, c, (n :: pre), post. split; [exact P|]. split; [rewrite E; reflexivity|]. split; [exact Ib|]. split; [exact Ic|].
  intros w Hw. specialize (H w Hw). cbn [In] in *. intuition congruence.
Qed.

Lemma distinct_nth l : distinct_sets l -> forall i j t t', nth_error l i = Some t -> nth_error l j = Some t' ->
  Permutation (corners t) (corners t') -> i = j.
Proof.
  induction 1 as [|t0 l F O IH]; intros i j t t' Hi Hj P; [destruct i; discriminate|]. rewrite Forall_forall in F.
  destruct i as [|i], j as [|j]; cbn in Hi, Hj.
  - reflexivity.
  - inversion Hi; subst. apply nth_error_In in Hj. destruct (F t' Hj P).
  - inversion Hj; subst. apply nth_error_In in Hi. symmetry in P. destruct (F t Hi P).
  - f_equal. eapply IH; eassumption.
Qed.

Lemma triangles_of_spec g v : WF g -> shows g v -> exists l, triangles_of v = Ok l /\ lists_triangles g l /\ distinct_sets l.
Proof.
  intros W Sh. assert (VN : v_nodes v = nodes g) by apply Sh.
  assert (NN : NoDup (sorted_nodes v)) by (apply sorted_nodes_NoDup; rewrite VN; apply (wf_nodes g W)).
  assert (AI : forall x y, In y (adjacency v x) <-> linked g x y /\ x <> y /\ 1 < v_degree v y)
    by (intros; apply adjacency_In, Sh).
  destruct (triangles_from_spec (sorted_nodes v) (adjacency v)) with
    (todo := firstn (List.length (sorted_nodes v) - 2) (sorted_nodes v)) (P := @nil key) (st := adjacencies v)
    as (st & out & E & Snd & Cmp & Dst).
  - intros x. apply NoDup_filter. apply Sh.
  - intros x I. apply AI in I. tauto.
  - intros x y I Ix. apply AI in I as (H & N & _). apply sorted_nodes_In in Ix as (_ & Dx). apply AI.
    split; [apply linked_sym, H|]. auto.
  - intros x y Ix I. apply AI in I as (H & N & D). apply sorted_nodes_In. split; [|exact D].
    rewrite VN. apply (linked_nodes g x y W H).
  - cbn [app]. pose proof NN as X. rewrite <- (firstn_skipn (List.length (sorted_nodes v) - 2)) in X.
    apply NoDup_app_iff in X. tauto.
  - intros x I. rewrite <- (firstn_skipn (List.length (sorted_nodes v) - 2)). apply in_app_iff. auto.
  - intros x I _. unfold adjacencies. rewrite (dset_fold_get (adjacency v)). apply mem_In in I. rewrite I.
    unfold left_in. rewrite filter_all; [reflexivity|]. reflexivity.
  - exists out. split; [|split; [|exact Dst]].
    + unfold triangles_of. rewrite E. reflexivity.
    + split; [|split].
      * intros x y z I. apply Snd in I as (_ & _ & _ & _ & D & I1 & I2 & I3). apply AI in I1, I2, I3.
        destruct I1 as (I1 & N1 & _), I2 as (I2 & N2 & _), I3 as (I3 & N3 & _).
        unfold is_triangle. auto.
      * intros x y z ((N1 & N2 & N3) & L1 & L2 & L3).
        pose proof (linked_sym g _ _ L1) as L1'. pose proof (linked_sym g _ _ L2) as L2'. pose proof (linked_sym g _ _ L3) as L3'.
        assert (Q : forall a b, In a [x; y; z] -> In b [x; y; z] -> a <> b -> linked g a b).
        { intros a b Ha Hb Hab. cbn [In] in Ha, Hb. intuition (subst; congruence || assumption). }
        assert (Dg : forall a, In a [x; y; z] -> 1 < v_degree v a).
        { intros a [<-|[<-|[<-|[]]]]; [apply (two_neighbors_degree g v x y z)|apply (two_neighbors_degree g v y x z)|apply (two_neighbors_degree g v z x y)]; auto. }
        assert (SN : forall a, In a [x; y; z] -> In a (sorted_nodes v)).
        { intros a Ha. apply sorted_nodes_In. split; [|apply Dg, Ha].
          assert (X : exists b, linked g a b) by (cbn [In] in Ha; destruct Ha as [<-|[<-|[<-|[]]]]; eauto).
          destruct X as (b & X). rewrite VN. apply (linked_nodes g a b W X). }
        destruct (first_of_three (sorted_nodes v) x y z) as (a & b & c & pre & post & P & Eq & Ib & Ic & H); try assumption;
          try (apply SN; cbn; auto).
        assert (NP : NoDup [a; b; c]).
        { eapply Permutation_NoDup; [exact P|]. constructor; [cbn; intuition|]. constructor; [cbn; intuition|]. constructor; [intros []|constructor]. }
        inversion NP as [|? ? Na NP']; subst. inversion NP' as [|? ? Nb _]; subst. cbn [In] in Na, Nb.
        assert (IP : forall w, In w [a; b; c] -> In w [x; y; z]) by (intros w; apply Permutation_in; symmetry; exact P).
        destruct (in_firstn_two _ pre a post b c Eq Ib Ic) as (post' & F); [intuition congruence|].
        assert (AB : forall u u', In u [a; b; c] -> In u' [a; b; c] -> u <> u' -> In u' (adjacency v u)).
        { intros u u' Hu Hv Huv. apply AI. split; [apply Q; auto|]. split; [exact Huv|]. apply Dg; auto. }
        destruct (Cmp pre a post' b c F) as [I|I]; cbn [app]; try (apply AB; cbn [In]; intuition congruence); try (apply H, IP; cbn; auto); try (intuition congruence).
        -- exists (a, b, c). split; [exact I|exact P].
        -- exists (a, c, b). split; [exact I|]. etransitivity; [exact P|]. constructor. apply perm_swap.
      * apply distinct_nth, Dst.
Qed.

Lemma triangles_spec so g : WF g -> reorders so -> exists l, triangles so g = Ok l /\ lists_triangles g l /\ distinct_sets l.
Proof. intros W R. apply (triangles_of_spec g _ W), undirected_view_shows; assumption. Qed.
