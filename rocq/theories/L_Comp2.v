(** * Lemmas about the largest component *)
From Coq Require Import List Relations ZArith Lia Bool Permutation Sorted.
From Verif Require Import PyBase NxGraph L_Base L_Nx L_Nx2 M_UnionFind S_Partition L_Partition M_Traversal L_Traversal M_Graph S_Graph L_Graph L_Graph2 L_Comp.
Import ListNotations.

Lemma Forall2_weaken {A B} (P Q : A -> B -> Prop) l l' : (forall a b, P a b -> Q a b) -> Forall2 P l l' -> Forall2 Q l l'.
Proof. intros H. induction 1; constructor; auto. Qed.

(** ** connected_component_orders, undirected *)
Lemma orders_undirected g f p : WF g -> g_dir g = false -> filter_test g f p -> symmetric_test p ->
  exists sizes, connected_component_orders g f = Ok sizes /\ class_sizes (nodes g) (connected_by g p) sizes.
Proof.
  intros W D FT SP. apply orders_classes; try assumption. intros x y (k & a & H & P). apply rt_step. exists k, a.
  rewrite edge_attrs_sym by assumption. rewrite SP. tauto.
Qed.

(** directed graphs where each edge can be walked back *)
Lemma orders_reciprocal g : WF g ->
  (forall u v, has_edge g u v = true -> clos_refl_trans key (fun x y => has_edge g x y = true) v u) ->
  exists sizes, connected_component_orders g None = Ok sizes /\ class_sizes (nodes g) (connected g) sizes.
Proof.
  intros W RC. assert (FT : filter_test g None (fun _ _ _ => true)) by (intros u v a; reflexivity).
  destruct (orders_classes g None (fun _ _ _ => true) W FT) as (sizes & E & C).
  - intros x y (k & a & H & _). apply edge_attrs_has in H. apply RC in H.
    clear - W H. induction H as [x y H|x|x y z H1 IH1 H2 IH2]; [|apply rt_refl|eapply rt_trans; eassumption].
    apply rt_step. apply has_edge_some_attrs in H as (k & a & H); [|assumption]. exists k, a. tauto.
  - exists sizes. split; [assumption|]. destruct C as (first & F1 & F2). exists first. split.
    + intros pre r post Er. rewrite (F1 pre r post Er). setoid_rewrite (connected_by_all g _ _ _ W (fun _ _ _ => eq_refl)). tauto.
    + eapply Forall2_weaken; [|exact F2]. intros r n H. eapply has_size_ext; [|exact H]. intros y.
      cbn. rewrite (connected_by_all g _ r y W (fun _ _ _ => eq_refl)). tauto.
Qed.

(** ** per_class determines the sizes *)
Lemma per_class_firsts {A B} N R (Q : (key -> Prop) -> A -> Prop) (Q' : (key -> Prop) -> B -> Prop) xs ys (P : A -> B -> Prop) :
  (forall C x y, Q C x -> Q' C y -> P x y) -> per_class N R Q xs -> per_class N R Q' ys -> Forall2 P xs ys.
Proof.
  intros HP (f & F1 & F2) (f' & F1' & F2').
  assert (E : filter f N = filter f' N).
  { assert (G : forall b a, N = a ++ b -> filter f b = filter f' b).
    { induction b as [|r b IH]; intros a E; [reflexivity|]. cbn.
      assert (f r = f' r) as -> by (apply eq_true_iff_eq; rewrite (F1 a r b E), (F1' a r b E); tauto).
      rewrite (IH (a ++ [r])) by (rewrite <- app_assoc; exact E). reflexivity. }
    apply (G N []). reflexivity. }
  rewrite E in F2. clear - HP F2 F2'. revert ys F2'. induction F2 as [|r x rs xs H F IH]; intros ys F'; inversion F'; subst; constructor.
  - eapply HP; eassumption.
  - apply IH. assumption.
Qed.

Lemma enumerates_length {A} (l : list A) P n : enumerates l P -> has_size P n -> List.length l = n.
Proof. intros E H. apply (has_size_unique P); [exists l; tauto|assumption]. Qed.

Lemma component_sizes g sizes : WF g -> class_sizes (nodes g) (connected g) sizes ->
  map (@List.length key) (connected_components g) = sizes.
Proof.
  intros W C. pose proof (connected_components_spec g W) as S.
  assert (F : Forall2 (fun c n => List.length c = n) (connected_components g) sizes).
  { eapply per_class_firsts; [|exact S|exact C]. cbn. intros. eapply enumerates_length; eassumption. }
  clear C S. induction F as [|c n l l' Hc F IH]; [reflexivity|]. cbn [map]. f_equal; assumption.
Qed.

(** ** sums and greatest elements *)
Lemma components_is g c : WF g -> In c (connected_components g) -> is_component g c.
Proof.
  intros W H. destruct (connected_components_spec g W) as (f & _ & F2).
  assert (G : forall l cs, Forall2 (fun r x => enumerates x (fun y => In y (nodes g) /\ connected g r y)) l cs ->
            In c cs -> incl l (nodes g) -> is_component g c).
  { clear. intros l cs F. induction F as [|r x l xs Hx F IH]; [intros []|]. intros [<-|H] I.
    - exists r. split; [apply I; left; reflexivity|exact Hx].
    - apply IH; [assumption|]. intros y Hy. apply I. right. assumption. }
  apply (G _ _ F2 H). intros y Hy. apply filter_In in Hy. tauto.
Qed.

Lemma components_all g c : WF g -> is_component g c -> exists d, In d (connected_components g) /\ List.length d = List.length c /\ Permutation c d.
Proof.
  intros W (n & Hn & EC). destruct (connected_components_spec g W) as (f & F1 & F2).
  (* the first node related to n *)
  assert (G : exists r, In r (filter f (nodes g)) /\ connected g r n).
  { assert (X : forall b a, nodes g = a ++ b -> (forall x, In x a -> ~ connected g x n) -> In n b ->
       exists r, In r (filter f b) /\ connected g r n).
    { induction b as [|r b IH]; intros a E NA H; [destruct H|].
      destruct (closure_dec key_eq_dec (edges g) r n) as [C|C].
      - apply connected_closure in C; [|assumption]. exists r. split; [|assumption]. cbn.
        assert (f r = true) as ->; [|left; reflexivity]. apply (F1 a r b E). intros x Hx K. apply (NA x Hx). eapply rst_trans; eassumption.
      - rewrite <- connected_closure in C by assumption. destruct H as [<-|H]; [exfalso; apply C; apply rst_refl|].
        destruct (IH (a ++ [r])) as (s & Hs & K); [rewrite <- app_assoc; exact E| |assumption|].
        + intros x Hx. apply in_app_iff in Hx as [Hx|[<-|[]]]; auto.
        + exists s. split; [|assumption]. cbn. destruct (f r); [right|]; assumption. }
    apply (X (nodes g) []); [reflexivity|intros ? []|assumption]. }
  destruct G as (r & Hr & K). clear F1. induction F2 as [|r' d l xs Hd F IH]; [destruct Hr|].
  destruct Hr as [<-|Hr].
  - exists d. split; [left; reflexivity|]. assert (P : Permutation c d).
    { destruct EC as [N1 E1], Hd as [N2 E2]. apply NoDup_Permutation; try assumption. intros x. rewrite E1, E2.
      split; intros [Hx C]; (split; [assumption|]); [eapply rst_trans; eassumption|].
      eapply rst_trans; [apply rst_sym; exact K|exact C]. }
    split; [symmetry; apply Permutation_length; assumption|assumption].
  - destruct (IH Hr) as (d' & H' & L). exists d'. split; [right; assumption|exact L].
Qed.

Lemma fold_max_greatest l : forall x, greatest (fold_left Nat.max l x) (x :: l).
Proof.
  induction l as [|y l IH]; intros x; cbn [fold_left].
  - split; [left; reflexivity|]. intros z [<-|[]]. lia.
  - destruct (IH (Nat.max x y)) as [I M]. split.
    + destruct I as [I|I]; [|right; right; assumption]. rewrite <- I. destruct (Nat.max_spec x y) as [[_ ->]|[_ ->]]; cbn; tauto.
    + pose proof (M _ (or_introl eq_refl)). intros z [<-|[<-|Hz]]; [lia|lia|]. apply M. right. assumption.
Qed.

(** [nlargest] *)
Lemma insert_desc_perm x l : Permutation (x :: l) (insert_desc x l).
Proof.
  induction l as [|y l IH]; cbn [insert_desc]; [reflexivity|]. destruct (y <? x); [reflexivity|].
  rewrite perm_swap, IH. reflexivity.
Qed.

Lemma insert_desc_sorted x l : StronglySorted ge l -> StronglySorted ge (insert_desc x l).
Proof.
  induction 1 as [|y l S IH F]; cbn [insert_desc]; [repeat constructor|]. destruct (y <? x) eqn:E.
  - apply Nat.ltb_lt in E. constructor; [constructor; assumption|]. constructor; [lia|].
    eapply Forall_impl; [|exact F]. cbn. intros; lia.
  - apply Nat.ltb_ge in E. constructor; [assumption|]. rewrite Forall_forall in *. intros z Hz.
    apply (Permutation_in _ (Permutation_sym (insert_desc_perm x l))) in Hz as [<-|Hz]; [lia|auto].
Qed.

Lemma insert_all l : forall acc, StronglySorted ge acc ->
  let r := fold_left (fun acc x => insert_desc x acc) l acc in Permutation (l ++ acc) r /\ StronglySorted ge r.
Proof.
  induction l as [|x l IH]; intros acc S; cbn; [split; [reflexivity|assumption]|].
  destruct (IH (insert_desc x acc) (insert_desc_sorted x acc S)) as [P S']. split; [|assumption].
  rewrite <- P. rewrite <- insert_desc_perm. apply Permutation_middle.
Qed.

Lemma nlargest2_spec l :
  match nlargest2 l with
  | _ :: m :: _ => second_greatest m l
  | _ => List.length l < 2
  end.
Proof.
  unfold nlargest2. destruct (insert_all l [] (SSorted_nil _)) as [P S]. rewrite app_nil_r in P.
  remember (fold_left (fun acc x => insert_desc x acc) l []) as r eqn:Er. clear Er.
  destruct r as [|M [|m r]]; cbn [firstn]; try (apply Permutation_length in P; cbn in P; lia).
  assert (I : In M l) by (apply (Permutation_in _ (Permutation_sym P)); left; reflexivity).
  apply in_split in I as (a & b & ->). exists a, b, M. split; [reflexivity|].
  inversion S as [|? ? S' F]; subst. inversion S' as [|? ? S'' F']; subst. rewrite Forall_forall in *.
  assert (P' : Permutation (a ++ b) (m :: r)).
  { apply (Permutation_cons_inv (a := M)). rewrite <- P. apply Permutation_middle. }
  split; split.
  - apply in_or_app. cbn. tauto.
  - intros x Hx. apply (Permutation_in _ P) in Hx as [<-|Hx]; [lia|]. apply F in Hx. lia.
  - apply (Permutation_in _ (Permutation_sym P')). left. reflexivity.
  - intros x Hx. apply (Permutation_in _ P') in Hx as [<-|Hx]; [lia|]. apply F' in Hx. lia.
Qed.

Lemma second_largest_spec g f p : WF g -> g_dir g = false -> filter_test g f p -> symmetric_test p ->
  exists sizes, class_sizes (nodes g) (connected_by g p) sizes /\
    ((List.length sizes < 2 /\ second_largest_connected_component_order g f = Ok None)
     \/ exists m, second_greatest m sizes /\ second_largest_connected_component_order g f = Ok (Some m)).
Proof.
  intros W D FT SP. destruct (orders_undirected g f p W D FT SP) as (sizes & E & C). exists sizes. split; [assumption|].
  unfold second_largest_connected_component_order. rewrite E. cbn [bind]. pose proof (nlargest2_spec sizes) as N.
  destruct (nlargest2 sizes) as [|M [|m r]]; [left; tauto|left; tauto|]. right. exists m. tauto.
Qed.

Lemma order_nodes g : order g = List.length (nodes g).
Proof. unfold order, nodes, dkeys. rewrite map_length. reflexivity. Qed.

Lemma largest_order_spec g : WF g -> g_dir g = false ->
  (nodes g = [] /\ largest_connected_component_order g = Ok None)
  \/ exists sizes m, class_sizes (nodes g) (connected g) sizes /\ greatest m sizes
                     /\ largest_connected_component_order g = Ok (Some m).
Proof.
  intros W D. unfold largest_connected_component_order. destruct (Nat.eqb (order g) 0) eqn:O.
  - left. split; [|reflexivity]. apply Nat.eqb_eq in O. rewrite order_nodes in O. destruct (nodes g); [reflexivity|discriminate].
  - right. destruct (orders_reciprocal g W) as (sizes & E & C).
    { intros u v H. apply rt_step. rewrite has_edge_sym; assumption. }
    rewrite E. cbn [bind]. destruct (orders_partition g None (fun _ _ _ => true) W (fun _ _ _ => eq_refl)) as (sizes' & E' & P & S).
    rewrite E in E'. inversion E'; subst sizes'. destruct sizes as [|x l].
    + cbn in S. rewrite <- S in O. discriminate.
    + exists (x :: l), (fold_left Nat.max l x). split; [assumption|]. split; [apply fold_max_greatest|reflexivity].
Qed.

(** ** largest_connected_component *)
Lemma lcc_loop_In comps : forall o rem, (o <> None \/ comps <> []) ->
  exists c, lcc_loop o rem comps = Some c /\ (o = Some c \/ In c comps).
Proof.
  induction comps as [|d comps IH]; intros o rem H; cbn [lcc_loop].
  - destruct o as [c|]; [|tauto]. exists c. tauto.
  - set (l' := match o with None => d | Some l => if List.length l <? List.length d then d else l end).
    assert (L : o = Some l' \/ l' = d).
    { unfold l'. destruct o as [l|]; [|tauto]. destruct (_ <? _); tauto. }
    destruct (_ <? _)%Z.
    + exists l'. split; [reflexivity|]. destruct L as [L|L]; [tauto|right; left; symmetry; assumption].
    + destruct (IH (Some l') (rem - Z.of_nat (List.length l'))%Z) as (c & E & [X|X]); [left; discriminate| |].
      * exists c. split; [assumption|]. inversion X; subst c. destruct L as [L|L]; [tauto|right; left; symmetry; assumption].
      * exists c. cbn [In]. tauto.
Qed.

Lemma nodes_components g : WF g -> nodes g <> [] -> connected_components g <> [].
Proof.
  intros W H. unfold connected_components. destruct (nodes g); [congruence|]. cbn. discriminate.
Qed.

Lemma lcc_component g : WF g -> nodes g <> [] ->
  exists c, largest_connected_component g = Some c /\ is_component g c.
Proof.
  intros W H. unfold largest_connected_component.
  destruct (lcc_loop_In (connected_components g) None (Z.of_nat (order g)) (or_intror (nodes_components g W H))) as (c & E & [X|X]);
    [discriminate|]. exists c. split; [assumption|]. apply components_is; assumption.
Qed.

(** after the first greatest one nothing replaces it *)
Lemma lcc_loop_greatest comps : forall l rem, (forall d, In d comps -> List.length d <= List.length l) ->
  lcc_loop (Some l) rem comps = Some l.
Proof.
  induction comps as [|d comps IH]; intros l rem H; cbn [lcc_loop]; [reflexivity|].
  assert (List.length l <? List.length d = false) as -> by (apply Nat.ltb_ge, H; left; reflexivity).
  destruct (_ <? _)%Z; [reflexivity|]. apply IH. intros; apply H; right; assumption.
Qed.

Definition total (l : list (list key)) : nat := sum_nat (map (@List.length key) l).

Lemma total_In (l : list (list key)) d : In d l -> List.length d <= total l.
Proof. unfold total, sum_nat. induction l as [|x l IH]; [intros []|]. intros [<-|H]; cbn; [lia|]. apply IH in H. lia. Qed.

Lemma lcc_loop_sorted b : forall o m a,
  StronglySorted le (map (@List.length key) b) ->
  (forall l, o = Some l -> List.length l <= List.length m /\ forall d, In d b -> List.length l <= List.length d) ->
  (forall d, In d (b ++ m :: a) -> List.length d <= List.length m) ->
  exists c, lcc_loop o (Z.of_nat (total (b ++ m :: a))) (b ++ m :: a) = Some c /\ List.length c = List.length m.
Proof.
  induction b as [|d b IH]; intros o m a S HO HM.
  - cbn [app lcc_loop].
    set (l' := match o with None => m | Some l => if List.length l <? List.length m then m else l end).
    assert (L : List.length l' = List.length m).
    { unfold l'. destruct o as [l|]; [|reflexivity]. destruct (List.length l <? List.length m) eqn:E; [reflexivity|].
      apply Nat.ltb_ge in E. destruct (HO l eq_refl) as [H _]. lia. }
    destruct (_ <? _)%Z; [exists l'; tauto|]. exists l'. split; [|assumption]. apply lcc_loop_greatest.
    intros d Hd. rewrite L. apply HM. right. assumption.
  - cbn [app lcc_loop] in *. cbn [map] in S. inversion S as [|? ? S' F]; subst.
    set (l' := match o with None => d | Some l => if List.length l <? List.length d then d else l end).
    assert (L : List.length l' = List.length d).
    { unfold l'. destruct o as [l|]; [|reflexivity]. destruct (List.length l <? List.length d) eqn:E; [reflexivity|].
      apply Nat.ltb_ge in E. destruct (HO l eq_refl) as [_ H]. specialize (H d (or_introl eq_refl)). lia. }
    assert (T : (Z.of_nat (total (d :: b ++ m :: a)) - Z.of_nat (List.length l') = Z.of_nat (total (b ++ m :: a)))%Z).
    { unfold total, sum_nat. cbn. lia. }
    rewrite T. destruct (Z.ltb_spec (Z.of_nat (total (b ++ m :: a))) (Z.of_nat (List.length l'))) as [LT|GE].
    + exfalso. assert (List.length m <= total (b ++ m :: a)) by (apply total_In, in_or_app; cbn; tauto).
      assert (List.length d <= List.length m) by (apply HM; left; reflexivity). lia.
    + apply IH; try assumption.
      * intros l E. inversion E; subst l. split; [rewrite L; apply HM; left; reflexivity|]. intros x Hx. rewrite L.
        rewrite Forall_forall in F. apply F. apply in_map. assumption.
      * intros x Hx. apply HM. right. assumption.
Qed.

Lemma total_components g : WF g -> total (connected_components g) = order g.
Proof.
  intros W. rewrite order_nodes. pose proof (connected_components_spec g W) as S.
  (* compare with the sizes of the undirected traversal: direct count instead *)
  destruct S as (f & F1 & F2).
  assert (G : forall l cs, Forall2 (fun r x => enumerates x (fun y => In y (nodes g) /\ connected g r y)) l cs ->
     ForallOrdPairs (fun r s => ~ connected g r s) l ->
     total cs = List.length (List.concat cs) /\ NoDup (List.concat cs)
     /\ (forall x, In x (List.concat cs) <-> In x (nodes g) /\ exists r, In r l /\ connected g r x)).
  { intros l cs F. induction F as [|r c l cs [N E] F IH]; intros O.
    - split; [reflexivity|]. split; [constructor|]. intros x. cbn. split; [tauto|]. intros (_ & r & [] & _).
    - inversion O as [|? ? O1 O2]; subst. destruct (IH O2) as (T & ND & HI). unfold total, sum_nat in *. cbn. rewrite app_length, T.
      split; [reflexivity|]. split.
      + apply NoDup_app_iff. split; [assumption|]. split; [assumption|]. intros x Hx Hy. apply E in Hx as [_ Hx].
        apply HI in Hy as (_ & s & Hs & K). rewrite Forall_forall in O1. apply (O1 s Hs).
        eapply rst_trans; [exact Hx|]. apply rst_sym. assumption.
      + intros x. rewrite in_app_iff, E, HI. split.
        * intros [[H K]|(H & s & Hs & K)]; (split; [assumption|]); [exists r|exists s]; cbn [In]; tauto.
        * intros (H & s & [<-|Hs] & K); [left; tauto|right]. split; [assumption|]. exists s. tauto. }
  destruct (G _ _ F2) as (T & ND & HI).
  { assert (X : forall b a, nodes g = a ++ b -> ForallOrdPairs (fun r s => ~ connected g r s) (filter f b)
        /\ forall x s, In x a -> In s (filter f b) -> ~ connected g x s).
    { induction b as [|r b IH]; intros a E; [split; [constructor|intros ? ? _ []]|].
      destruct (IH (a ++ [r])) as [O Y]; [rewrite <- app_assoc; exact E|]. cbn. destruct (f r) eqn:Fr.
      - split.
        + constructor; [|assumption]. rewrite Forall_forall. intros s Hs. apply Y; [apply in_or_app; cbn; tauto|assumption].
        + intros x s Hx [<-|Hs]; [apply (F1 a r b E); assumption|]. apply Y; [apply in_or_app; tauto|assumption].
      - split; [assumption|]. intros x s Hx Hs. apply Y; [apply in_or_app; tauto|assumption]. }
    apply (X (nodes g) []). reflexivity. }
  rewrite T. apply Permutation_length, NoDup_Permutation; [assumption|apply W|]. intros x. rewrite HI. split; [tauto|].
  intros Hx. split; [assumption|].
  assert (Y : exists d, In d (connected_components g) /\ In x d).
  { destruct (components_all g (plain_bfs (bfs_fuel g) (weak_neighbors g) [] [x]) W) as (d & Hd & _ & P).
    - exists x. split; [assumption|]. apply component_of; assumption.
    - exists d. split; [assumption|]. apply (Permutation_in _ P). apply component_of; try assumption. split; [assumption|apply rst_refl]. }
  destruct Y as (d & Hd & Hxd). assert (I : In x (List.concat (connected_components g))) by (apply in_concat; exists d; tauto).
  apply HI in I. tauto.
Qed.

Lemma map_split_app {A B} (f : A -> B) l b x a : map f l = b ++ x :: a ->
  exists lb y la, l = lb ++ y :: la /\ map f lb = b /\ f y = x /\ map f la = a.
Proof.
  revert l. induction b as [|z b IH]; intros [|y l] E; cbn in E; try discriminate; inversion E; subst.
  - exists [], y, l. tauto.
  - destruct (IH l H1) as (lb & y' & la & -> & <- & <- & <-). exists (y :: lb), y', la. tauto.
Qed.

Lemma lcc_greatest g b m a : WF g -> class_sizes (nodes g) (connected g) (b ++ m :: a) ->
  (forall x, In x (b ++ m :: a) -> x <= m) -> StronglySorted le b ->
  exists c, largest_connected_component g = Some c /\ is_component g c /\ List.length c = m
            /\ forall d, is_component g d -> List.length d <= List.length c.
Proof.
  intros W C M S. pose proof (component_sizes g _ W C) as E. apply map_split_app in E as (lb & y & la & E & <- & <- & <-).
  assert (NE : nodes g <> []).
  { intros Z. unfold connected_components in E. rewrite Z in E. cbn in E. destruct lb; discriminate. }
  assert (M' : forall d, In d (lb ++ y :: la) -> List.length d <= List.length y).
  { intros d Hd. apply M. change (List.length y :: map (@List.length key) la) with (map (@List.length key) (y :: la)). rewrite <- map_app. apply in_map. assumption. }
  destruct (lcc_loop_sorted lb None y la S ltac:(discriminate) M') as (c & Ec & Lc).
  destruct (lcc_component g W NE) as (c' & Ec' & IC). exists c'. split; [assumption|]. split; [assumption|].
  assert (c' = c).
  { unfold largest_connected_component in Ec'. rewrite <- (total_components g W), E, Ec in Ec'. congruence. }
  subst c'. split; [assumption|]. intros d Hd. rewrite Lc. apply components_all in Hd as (d' & Hd' & <- & _); [|assumption].
  apply M'. rewrite <- E. assumption.
Qed.

(** where the loop stops *)
Lemma greatest_snoc l x : greatest_of (l ++ [x]) = Nat.max (greatest_of l) x.
Proof. unfold greatest_of. induction l as [|y l IH]; cbn; [lia|]. rewrite IH. lia. Qed.

Lemma greatest_le l x : In x l -> x <= greatest_of l.
Proof. unfold greatest_of. induction l as [|y l IH]; [intros []|]. intros [<-|H]; cbn; [lia|]. apply IH in H. lia. Qed.

Lemma greatest_In l : l <> [] -> In (greatest_of l) l.
Proof.
  unfold greatest_of. induction l as [|y l IH]; [congruence|]. intros _. cbn [fold_right In].
  destruct l as [|z l]; [left; cbn; lia|]. destruct (Nat.max_spec y (fold_right Nat.max 0 (z :: l))) as [[_ ->]|[_ ->]]; [right|left; reflexivity].
  apply IH. discriminate.
Qed.

Lemma maximum_at sizes dn x rest : sizes = dn ++ x :: rest -> maximum_to sizes (List.length dn) = Nat.max (greatest_of dn) x.
Proof.
  intros ->. unfold maximum_to. rewrite <- greatest_snoc. f_equal.
  replace (dn ++ x :: rest) with ((dn ++ [x]) ++ rest) by (rewrite <- app_assoc; reflexivity).
  replace (S (List.length dn)) with (List.length (dn ++ [x]) + 0) by (rewrite app_length; cbn; lia).
  rewrite firstn_app_2, firstn_O, app_nil_r. reflexivity.
Qed.

Lemma maxima_cover sizes : forall rest dn, sizes = dn ++ rest ->
  list_sum dn <= list_sum (map (maximum_to sizes) (seq 0 (List.length dn))).
Proof.
  intros rest dn. revert rest. induction dn as [|x dn IH] using rev_ind; intros rest E; [cbn; lia|].
  rewrite <- app_assoc in E. cbn [app] in E. specialize (IH _ E). rewrite app_length. cbn [List.length].
  rewrite Nat.add_1_r, seq_S, map_app, !list_sum_app. cbn [map list_sum fold_right Nat.add].
  rewrite (maximum_at sizes dn x rest E). unfold list_sum in *. cbn [fold_right] in *. lia.
Qed.

Lemma lcc_loop_stops sizes : (forall x, In x sizes -> 0 < x) -> forall todo dn o rem,
  sizes = dn ++ map (@List.length key) todo -> todo <> [] ->
  (match o with None => dn = [] | Some l => List.length l = greatest_of dn end) ->
  rem = (Z.of_nat (list_sum sizes) - Z.of_nat (list_sum (map (maximum_to sizes) (seq 0 (List.length dn)))))%Z ->
  (forall i, i < List.length dn -> ~ seems_enough sizes i) ->
  exists k c, k < List.length sizes /\ seems_enough sizes k /\ (forall i, i < k -> ~ seems_enough sizes i)
    /\ lcc_loop o rem todo = Some c /\ List.length c = maximum_to sizes k.
Proof.
  intros Pos. induction todo as [|d todo IH]; intros dn o rem E NE Ho Hr Hs; [congruence|]. clear NE.
  cbn [lcc_loop map] in *.
  set (l' := match o with None => d | Some l => if List.length l <? List.length d then d else l end).
  pose proof (maximum_at sizes dn _ _ E) as MA.
  assert (L : List.length l' = maximum_to sizes (List.length dn)).
  { rewrite MA. unfold l'. destruct o as [l|]; [|subst dn; cbn; lia]. destruct (Nat.ltb_spec (List.length l) (List.length d)); lia. }
  assert (S1 : list_sum (map (maximum_to sizes) (seq 0 (S (List.length dn))))
    = list_sum (map (maximum_to sizes) (seq 0 (List.length dn))) + maximum_to sizes (List.length dn)).
  { rewrite seq_S, map_app, list_sum_app. cbn. lia. }
  assert (B : (rem - Z.of_nat (List.length l') <? Z.of_nat (List.length l'))%Z = true <-> seems_enough sizes (List.length dn)).
  { rewrite Z.ltb_lt. unfold seems_enough, maxima_to. lia. }
  destruct (_ <? _)%Z.
  - exists (List.length dn), l'. split; [rewrite E, app_length; cbn; lia|]. split; [apply B; reflexivity|]. auto.
  - assert (NS : ~ seems_enough sizes (List.length dn)) by (intros H; apply B in H; discriminate).
    assert (E' : sizes = (dn ++ [List.length d]) ++ map (@List.length key) todo) by (rewrite <- app_assoc; exact E).
    assert (LD : List.length (dn ++ [List.length d]) = S (List.length dn)) by (rewrite app_length; cbn; lia).
    apply (IH (dn ++ [List.length d])).
    + exact E'.
    + intros ->. cbn [map] in *. rewrite app_nil_r in E'. pose proof (maxima_cover sizes [] sizes ltac:(rewrite app_nil_r; reflexivity)) as C.
      rewrite E' in C at 3. rewrite LD in C. apply NS. unfold seems_enough, maxima_to.
      assert (0 < maximum_to sizes (List.length dn)); [|lia].
      rewrite MA. assert (0 < List.length d) by (apply Pos; rewrite E; apply in_or_app; cbn; tauto). lia.
    + rewrite greatest_snoc. lia.
    + rewrite LD, S1. lia.
    + rewrite LD. intros i Hi. destruct (Nat.eq_dec i (List.length dn)) as [->|]; [exact NS|apply Hs; lia].
Qed.

Lemma lcc_exact g sizes : WF g -> nodes g <> [] -> class_sizes (nodes g) (connected g) sizes ->
  exists k c, k < List.length sizes /\ seems_enough sizes k /\ (forall i, i < k -> ~ seems_enough sizes i)
    /\ largest_connected_component g = Some c /\ is_component g c /\ List.length c = maximum_to sizes k
    /\ ((forall d, is_component g d -> List.length d <= List.length c)
        <-> exists i, i <= k /\ forall x, In x sizes -> x <= nth i sizes 0).
Proof.
  intros W NE C. pose proof (component_sizes g _ W C) as E.
  assert (SZ : forall x, In x sizes <-> exists d, In d (connected_components g) /\ List.length d = x).
  { intros x. rewrite <- E, in_map_iff. firstorder. }
  assert (T : Z.of_nat (order g) = Z.of_nat (list_sum sizes)).
  { rewrite <- (total_components g W). unfold total. rewrite E. unfold sum_nat, list_sum. reflexivity. }
  destruct (lcc_loop_stops sizes) with (todo := connected_components g) (dn := @nil nat) (o := @None (list key))
    (rem := Z.of_nat (order g)) as (k & c & Lk & En & Mi & Ec & Lc).
  - intros x Hx. apply SZ in Hx as (d & Hd & <-). apply components_is in Hd as (n & Hn & EC); [|exact W].
    destruct d; [|cbn; lia]. exfalso. apply (proj2 (proj2 EC n)). split; [exact Hn|apply rst_refl].
  - cbn [app]. congruence.
  - apply nodes_components; assumption.
  - reflexivity.
  - rewrite T. cbn. lia.
  - intros i Hi. cbn in Hi. lia.
  - destruct (lcc_component g W NE) as (c' & Ec' & IC). unfold largest_connected_component in *.
    assert (c' = c) by congruence. subst c'.
    exists k, c. do 6 (split; [assumption|]).
    assert (G : forall d, is_component g d -> In (List.length d) sizes).
    { intros d Hd. apply components_all in Hd as (d' & Hd' & <- & _); [|exact W]. apply SZ. eauto. }
    rewrite Lc. split.
    + intros H.
      assert (I : In (maximum_to sizes k) (firstn (S k) sizes)) by (apply greatest_In; destruct sizes; [cbn in Lk; lia|discriminate]).
      apply (In_nth _ _ 0) in I as (i & Hi & Ei). rewrite firstn_length in Hi. exists i. split; [lia|].
      intros x Hx. rewrite <- (firstn_skipn (S k) sizes), app_nth1 by (rewrite firstn_length; lia).
      rewrite Ei. apply SZ in Hx as (d & Hd & <-). apply H, components_is; assumption.
    + intros (i & Hi & Mx) d Hd. eapply Nat.le_trans; [apply Mx, G, Hd|]. apply greatest_le.
      rewrite <- (firstn_skipn (S k) sizes) at 1. rewrite app_nth1 by (rewrite firstn_length; lia).
      apply nth_In. rewrite firstn_length. lia.
Qed.

(** ** crop and subgraph *)
Lemma lcc_null g : nodes g = [] -> largest_connected_component g = None.
Proof. intros H. unfold largest_connected_component, connected_components. rewrite H. reflexivity. Qed.

Lemma crop_spec g c : WF g -> largest_connected_component g = Some c ->
  exists h, crop_to_largest_connected_component g = (h, Ok tt) /\ WF h /\ induced_by (fun n => mem n c) g h.
Proof.
  intros W E. unfold crop_to_largest_connected_component. rewrite E. eexists. split; [reflexivity|].
  rewrite remove_nodes_induced.
  set (P := fun n => negb (mem n (filter (fun node => negb (mem node c)) (nodes g)))).
  assert (X : forall n, In n (nodes g) -> P n = mem n c).
  { intros n Hn. unfold P. apply eq_true_iff_eq. rewrite negb_true_iff, <- not_true_iff_false, !mem_In, filter_In.
    rewrite negb_true_iff, <- not_true_iff_false, mem_In. destruct (in_dec key_eq_dec n c); tauto. }
  split; [apply WF_induced; assumption|].
  rewrite (induced_ext P (fun n => mem n c) g W X). apply induced_induced_by.
Qed.

Lemma subgraph_view_spec g c : WF g -> largest_connected_component g = Some c ->
  exists h, largest_connected_component_subgraph g true = Ok h /\ WF h /\ induced_by (fun n => mem n c) g h.
Proof.
  intros W E. unfold largest_connected_component_subgraph. rewrite E. eexists. split; [reflexivity|].
  rewrite subgraph_induced. split; [apply WF_induced; assumption|apply induced_induced_by].
Qed.

Lemma add_node_self g n a : WF g -> node_data g n = Some a -> add_node g n a = g.
Proof.
  intros W H. unfold add_node. rewrite H.
  rewrite dupdate_self by (eapply node_data_attrs; [exact W|exact H]).
  rewrite dset_same by exact H. destruct g; reflexivity.
Qed.

Lemma readd_nodes h l : WF h -> (forall n a, In (n, a) l -> node_data h n = Some a /\ kwargs_ok node_reserved a = true) ->
  foldM (fun sub na => add_node_kw sub (fst na) (snd na)) l h = Ok h.
Proof.
  intros W. induction l as [|[n a] l IH]; intros H; [reflexivity|]. cbn [foldM fst snd].
  destruct (H n a (or_introl eq_refl)) as [H1 H2]. unfold add_node_kw at 1. rewrite H2. cbn [bind].
  rewrite add_node_self by assumption. apply IH. intros; apply H; right; assumption.
Qed.

Lemma filter_none {A} (l : list A) : filter (fun _ => false) l = [].
Proof. induction l; [reflexivity|assumption]. Qed.

Lemma WF_create_empty_copy g : WF g -> WF (create_empty_copy g).
Proof. intros W. destruct (rebuild_filter g (fun _ => false) W) as (H & _). rewrite filter_none in H. exact H. Qed.

(** the copy keeps every node, and the edges starting in the component *)
Lemma subgraph_copy_spec g c : WF g -> node_names g -> edge_names g -> largest_connected_component g = Some c ->
  exists h, largest_connected_component_subgraph g false = Ok h /\ WF h /\ same_but_edges g h
    /\ edges_data h = filter (fun e => mem (fst (fst e)) c && mem (snd (fst e)) c) (edges_data g).
Proof.
  intros W NN EN E. unfold largest_connected_component_subgraph. rewrite E.
  assert (NE : nodes g <> []) by (intros Z; rewrite lcc_null in E by assumption; discriminate).
  destruct (lcc_component g W NE) as (c' & E' & n & Hn & EC). rewrite E in E'. inversion E'; subst c'. clear E'.
  rewrite readd_nodes; [|apply WF_create_empty_copy; assumption|].
  - cbn [bind]. destruct c as [|c0 c1] eqn:Ec.
    { exfalso. destruct EC as [_ EC]. apply (EC n). split; [assumption|apply rst_refl]. }
    rewrite <- Ec in *. clear c0 c1 Ec.
    rewrite (foldM_ext _ (fun copy e => let* b := (fun e => Ok (mem (fst (fst e)) c)) e in
             if (b : bool) then add_edge_kw copy (fst (fst e)) (snd (fst e)) (snd e) else Ok copy))
      by (intros s [[u v] a]; reflexivity).
    rewrite (foldM_add_edges (fun e => Ok (mem (fst (fst e)) c)) (fun e => mem (fst (fst e)) c)).
    + destruct (rebuild_filter g (fun e => mem (fst (fst e)) c) W) as (H1 & H2 & H3 & H4 & H5 & H6 & H7).
      eexists. split; [reflexivity|]. split; [exact H1|]. split; [repeat split; congruence|].
      etransitivity; [exact H2|]. apply filter_ext_in. intros [[u v] a] H. cbn [fst snd].
      destruct (mem u c) eqn:M; [|reflexivity]. symmetry. cbn. apply mem_In. apply mem_In in M.
      destruct EC as [_ EC]. apply EC in M as [Hu K]. apply EC.
      apply edges_data_edges in H. apply edges_In in H; [|assumption]. destruct H as [H _].
      split; [apply has_edge_nodes in H; tauto|]. eapply rst_trans; [exact K|apply rst_step; exact H].
    + intros [[u v] a] H. reflexivity.
    + intros u v a H _. exact (edge_names_data g u v a EN H).
  - intros m a H. split.
    + apply dget_In; [|assumption]. apply W.
    + apply kwargs_ok_iff. intros k Hk. exact (NN m a k H Hk).
Qed.
