(** * Lemmas about connected components *)
From Coq Require Import List Relations ZArith Lia Bool Permutation.
From Verif Require Import PyBase NxGraph L_Base L_Nx L_Nx2 M_UnionFind S_Partition L_Partition M_Traversal L_Traversal M_Graph S_Graph L_Graph L_Graph2.
Import ListNotations.

(** ** splitting a list at its first occurrences *)
Fixpoint before (r : key) (l : list key) : list key :=
  match l with [] => [] | x :: l' => if key_eqb x r then [] else x :: before r l' end.

Lemma before_split pre r post : ~ In r pre -> before r (pre ++ r :: post) = pre.
Proof.
  induction pre as [|x pre IH]; cbn; intros H.
  - rewrite key_eqb_refl. reflexivity.
  - destruct (key_eqb x r) eqn:E; [apply key_eqb_eq in E; subst; tauto|]. rewrite IH by tauto. reflexivity.
Qed.

Lemma NoDup_mid {A} (pre : list A) r post : NoDup (pre ++ r :: post) -> ~ In r pre /\ ~ In r post.
Proof. intros H. apply NoDup_remove_2 in H. rewrite in_app_iff in H. tauto. Qed.

(** ** one value per class *)
Section Classes.
  Context (R : key -> key -> Prop) (Rb : key -> key -> bool) (HR : forall x y, R x y <-> Rb x y = true).

  Definition is_first (N : list key) (r : key) : bool := forallb (fun x => negb (Rb x r)) (before r N).

  Lemma is_first_iff N pre r post : NoDup N -> N = pre ++ r :: post ->
    (is_first N r = true <-> forall x, In x pre -> ~ R x r).
  Proof.
    intros ND ->. unfold is_first. rewrite before_split by apply (NoDup_mid _ _ _ ND). rewrite forallb_forall.
    split; intros H x Hx.
    - rewrite HR. apply H in Hx. destruct (Rb x r); [discriminate|]. discriminate.
    - destruct (Rb x r) eqn:E; [|reflexivity]. exfalso. apply (H x Hx). apply HR. assumption.
  Qed.

  Lemma per_class_intro {A} N (Q : (key -> Prop) -> A -> Prop) xs : NoDup N ->
    Forall2 (fun r x => Q (fun y => In y N /\ R r y) x) (filter (is_first N) N) xs -> per_class N R Q xs.
  Proof.
    intros ND F. exists (is_first N). split; [|assumption]. intros pre r post E. apply (is_first_iff N pre r post ND E).
  Qed.
End Classes.

(** ** breadth-first search *)
Section Bfs.
  Context (nb : key -> list key) (D : list key).
  Hypothesis (HD : forall v, In v D -> incl (nb v) D) (ND : NoDup D).

  Definition bstep (a b : key) : Prop := In b (nb a).
  Definition todo_size (seen : list key) : nat :=
    sum_nat (map (fun v => if mem v seen then 0 else List.length (nb v)) D).

  Lemma todo_size_drop seen v : In v D -> mem v seen = false ->
    todo_size (seen ++ [v]) + List.length (nb v) = todo_size seen.
  Proof.
    intros Hv Hs. unfold todo_size. clear HD. revert Hv ND. unfold sum_nat.
    induction D as [|d l IH]; [contradiction|]. intros [->|Hv] N'; inversion N' as [|? ? N1 N2]; subst; cbn [map fold_right].
    - rewrite Hs. assert (mem v (seen ++ [v]) = true) as -> by (apply mem_In, in_or_app; right; left; reflexivity).
      assert (E : map (fun x => if mem x (seen ++ [v]) then 0 else List.length (nb x)) l
                  = map (fun x => if mem x seen then 0 else List.length (nb x)) l).
      { apply map_ext_in. intros x Hx. assert (x <> v) by congruence.
        assert (E : mem x (seen ++ [v]) = mem x seen); [|rewrite E; reflexivity].
        apply eq_true_iff_eq. rewrite !mem_In, in_app_iff. cbn [In]. intuition congruence. }
      rewrite E. lia.
    - specialize (IH Hv N2). assert (d <> v) by congruence.
      assert (E : mem d (seen ++ [v]) = mem d seen).
      { apply eq_true_iff_eq. rewrite !mem_In, in_app_iff. cbn [In]. intuition congruence. }
      rewrite E. lia.
  Qed.

  Lemma plain_bfs_spec s : forall fuel seen queue,
    NoDup seen -> incl seen D -> incl queue D ->
    (forall x, In x seen \/ In x queue -> clos_refl_trans key bstep s x) ->
    (forall x y, In x seen -> bstep x y -> In y seen \/ In y queue) ->
    (In s seen \/ In s queue) ->
    List.length queue + todo_size seen <= fuel ->
    let c := plain_bfs fuel nb seen queue in
    NoDup c /\ incl c D /\ forall x, In x c <-> clos_refl_trans key bstep s x.
  Proof.
    assert (END : forall seen, NoDup seen -> incl seen D ->
      (forall x, In x seen \/ In x [] -> clos_refl_trans key bstep s x) ->
      (forall x y, In x seen -> bstep x y -> In y seen \/ In y []) ->
      (In s seen \/ In s []) ->
      NoDup seen /\ incl seen D /\ forall x, In x seen <-> clos_refl_trans key bstep s x).
    { intros seen N I C1 C2 C3. repeat split; try assumption; [intros; apply C1; tauto|].
      intros H. apply clos_rt_rtn1_iff in H. induction H as [|y z H1 H2 IH]; [destruct C3 as [?|[]]; assumption|].
      destruct (C2 y z IH H1) as [?|[]]. assumption. }
    induction fuel as [|fuel IH]; intros seen queue N I1 I2 C1 C2 C3 F; cbn.
    - destruct queue; [|cbn in F; lia]. apply END; assumption.
    - destruct queue as [|v queue]; [apply END; assumption|].
      destruct (mem v seen) eqn:M.
      + apply mem_In in M. apply IH; try assumption.
        * intros x Hx. apply I2. right. assumption.
        * intros x Hx. apply C1. cbn [In]. tauto.
        * intros x y Hx Hy. destruct (C2 x y Hx Hy) as [?|[<-|?]]; tauto.
        * destruct C3 as [?|[<-|?]]; tauto.
        * cbn in F. lia.
      + assert (Hv : In v D) by (apply I2; left; reflexivity).
        assert (Nv : ~ In v seen) by (rewrite <- mem_In; congruence).
        assert (Cv : clos_refl_trans key bstep s v) by (apply C1; right; left; reflexivity).
        apply IH.
        * apply NoDup_snoc; assumption.
        * intros x Hx. apply in_app_iff in Hx as [Hx|[<-|[]]]; auto.
        * intros x Hx. apply in_app_iff in Hx as [Hx|Hx]; [apply I2; right; assumption|apply (HD v Hv x Hx)].
        * intros x Hx. rewrite !in_app_iff in Hx. cbn [In] in Hx.
          destruct Hx as [[Hx|[<-|[]]]|[Hx|Hx]]; [apply C1; tauto|assumption|apply C1; cbn [In]; tauto|].
          eapply rt_trans; [exact Cv|]. apply rt_step. exact Hx.
        * intros x y Hx Hy. rewrite !in_app_iff in *. cbn [In] in *. destruct Hx as [Hx|[<-|[]]].
          -- destruct (C2 x y Hx Hy) as [?|[<-|?]]; tauto.
          -- unfold bstep in Hy. tauto.
        * rewrite !in_app_iff. cbn [In] in *. tauto.
        * pose proof (todo_size_drop seen v Hv M). cbn in F. rewrite app_length. lia.
  Qed.
End Bfs.

(** ** components as closures of listed pairs *)
Lemma rst_iff {A} (R R' : A -> A -> Prop) x y :
  (forall a b, R a b -> clos_refl_sym_trans A R' a b) -> clos_refl_sym_trans A R x y -> clos_refl_sym_trans A R' x y.
Proof.
  intros H. induction 1; [auto|apply rst_refl|apply rst_sym; assumption|eapply rst_trans; eassumption].
Qed.

Lemma rt_rst {A} (R : A -> A -> Prop) x y : (forall a b, R a b -> R b a) ->
  (clos_refl_trans A R x y <-> clos_refl_sym_trans A R x y).
Proof.
  intros Sy. split.
  - induction 1; [apply rst_step; assumption|apply rst_refl|eapply rst_trans; eassumption].
  - induction 1 as [| |x y H IH|x y z H1 IH1 H2 IH2]; [apply rt_step; assumption|apply rt_refl| |eapply rt_trans; eassumption].
    clear H. induction IH; [apply rt_step; auto|apply rt_refl|eapply rt_trans; eassumption].
Qed.

Definition closureb (P : list (key * key)) (x y : key) : bool := if closure_dec key_eq_dec P x y then true else false.
Lemma closureb_iff P x y : closure P x y <-> closureb P x y = true.
Proof. unfold closureb. destruct (closure_dec key_eq_dec P x y); intuition congruence. Qed.

Lemma connected_closure g x y : WF g -> (connected g x y <-> closure (edges g) x y).
Proof.
  intros W. unfold connected, closure. split; apply rst_iff; intros a b H.
  - apply has_edge_edges in H; [|assumption]. destruct H as [H|[_ H]]; [|apply rst_sym]; apply rst_step; assumption.
  - apply rst_step. apply edges_In in H; [|assumption]. apply H.
Qed.

Definition accepted_pairs (g : graph) (p : key -> key -> attrs -> bool) : list (key * key) :=
  flat_map (fun e => let '(u, v, k, a) := e in (if p u v a then [(u, v)] else []) ++
                     (if negb (g_dir g) && p v u a then [(v, u)] else [])) (edges_keys g).

Lemma accepted_pairs_In g p x y : WF g ->
  (In (x, y) (accepted_pairs g p) <-> exists k a, edge_attrs g x y k = Some a /\ p x y a = true).
Proof.
  intros W. unfold accepted_pairs. rewrite in_flat_map. split.
  - intros ([[[u v] k] a] & H & I). apply edges_keys_attrs in H; [|assumption]. apply in_app_iff in I as [I|I].
    + destruct (p u v a) eqn:E; [|contradiction]. destruct I as [I|[]]. inversion I; subst. eauto.
    + destruct (g_dir g) eqn:D; [contradiction|]. cbn in I. destruct (p v u a) eqn:E; [|contradiction].
      destruct I as [I|[]]. inversion I; subst. rewrite edge_attrs_sym in H by assumption. eauto.
  - intros (k & a & H & E). apply edge_attrs_keys in H; [|assumption]. destruct H as [H|[D H]].
    + exists (x, y, k, a). split; [assumption|]. rewrite E. left. reflexivity.
    + exists (y, x, k, a). split; [assumption|]. rewrite D, E. apply in_app_iff. right. left. reflexivity.
Qed.

Lemma connected_by_closure g p x y : WF g -> (connected_by g p x y <-> closure (accepted_pairs g p) x y).
Proof.
  intros W. unfold connected_by, closure. split; apply rst_iff; intros a b H; apply rst_step; apply accepted_pairs_In; assumption.
Qed.

Lemma has_edge_some_attrs g u v : WF g -> has_edge g u v = true -> exists k a, edge_attrs g u v k = Some a.
Proof.
  intros W H. unfold has_edge in H. unfold edge_attrs. destruct (edge_data g u v) as [kd|] eqn:E; [|discriminate].
  pose proof (edge_data_ne _ _ _ _ W E) as N. destruct kd as [|[k a] kd]; [congruence|]. exists k, a. cbn.
  rewrite key_eqb_refl. reflexivity.
Qed.

Lemma connected_by_all g p x y : WF g -> (forall u v a, p u v a = true) -> (connected_by g p x y <-> connected g x y).
Proof.
  intros W H. split; apply rst_iff; intros a b I; apply rst_step.
  - destruct I as (k & q & I & _). eapply edge_attrs_has; eassumption.
  - apply has_edge_some_attrs in I as (k & q & I); [|assumption]. eauto.
Qed.

Lemma has_edge_nodes g u v : WF g -> has_edge g u v = true -> In u (nodes g) /\ In v (nodes g).
Proof.
  intros W H. unfold has_edge in H. destruct (edge_data g u v) eqn:E; [|discriminate]. eapply edge_data_nodes; eassumption.
Qed.

Lemma connected_nodes g x y : WF g -> connected g x y -> x = y \/ (In x (nodes g) /\ In y (nodes g)).
Proof.
  intros W. induction 1 as [x y H| |x y H IH|x y z H1 IH1 H2 IH2]; auto.
  - right. apply has_edge_nodes; assumption.
  - destruct IH as [->|IH]; tauto.
  - destruct IH1 as [->|IH1], IH2 as [->|IH2]; tauto.
Qed.

(** ** nx.connected_components *)
Lemma pred_items_In g n m kd : WF g -> g_dir g = true -> (In (m, kd) (pred_items g n) <-> edge_data g m n = Some kd).
Proof.
  intros W D. rewrite edge_data_Some by assumption. unfold pred_items. rewrite in_flat_map. split.
  - intros (b & Hb & I). destruct (key_eqb (b_dst b) n) eqn:E; [|contradiction]. apply key_eqb_eq in E.
    destruct I as [I|[]]. inversion I; subst. exists b. rewrite same_ends_iff. tauto.
  - intros (b & Hb & S & E). exists b. split; [assumption|]. apply same_ends_iff in S.
    destruct S as [[<- <-]|[S _]]; [|congruence]. rewrite key_eqb_refl. left. subst. reflexivity.
Qed.

Lemma neighbors_In g n m : WF g -> (In m (neighbors g n) <-> has_edge g n m = true).
Proof.
  intros W. unfold neighbors, has_edge. rewrite in_map_iff. split.
  - intros ([x kd] & <- & H). apply adj_items_In in H; [|assumption]. cbn. rewrite H. reflexivity.
  - destruct (edge_data g n m) as [kd|] eqn:E; [|discriminate]. intros _. exists (m, kd). split; [reflexivity|].
    apply adj_items_In; assumption.
Qed.

Lemma predecessors_In g n m : WF g -> g_dir g = true -> (In m (predecessors g n) <-> has_edge g m n = true).
Proof.
  intros W D. unfold predecessors, has_edge. rewrite in_map_iff. split.
  - intros ([x kd] & <- & H). apply pred_items_In in H; try assumption. cbn. rewrite H. reflexivity.
  - destruct (edge_data g m n) as [kd|] eqn:E; [|discriminate]. intros _. exists (m, kd). split; [reflexivity|].
    apply pred_items_In; assumption.
Qed.

Lemma weak_neighbors_In g n m : WF g ->
  (In m (weak_neighbors g n) <-> has_edge g n m = true \/ has_edge g m n = true).
Proof.
  intros W. unfold weak_neighbors. destruct (g_dir g) eqn:D.
  - rewrite in_app_iff, neighbors_In, predecessors_In by assumption. tauto.
  - rewrite neighbors_In by assumption. rewrite (has_edge_sym g m n) by assumption. tauto.
Qed.

Lemma weak_reach g x y : WF g -> (clos_refl_trans key (bstep (weak_neighbors g)) x y <-> connected g x y).
Proof.
  intros W. rewrite rt_rst.
  - unfold connected, bstep. split; apply rst_iff; intros a b H.
    + apply weak_neighbors_In in H; [|assumption]. destruct H; [|apply rst_sym]; apply rst_step; assumption.
    + apply rst_step. apply weak_neighbors_In; tauto.
  - unfold bstep. intros a b H. apply weak_neighbors_In in H; [|assumption]. apply weak_neighbors_In; tauto.
Qed.

Lemma component_of g v : WF g -> In v (nodes g) ->
  enumerates (plain_bfs (bfs_fuel g) (weak_neighbors g) [] [v]) (fun x => In x (nodes g) /\ connected g v x).
Proof.
  intros W Hv. destruct (plain_bfs_spec (weak_neighbors g) (nodes g)) with (s := v) (fuel := bfs_fuel g)
    (seen := @nil key) (queue := [v]) as (N & I & E).
  - intros n Hn m Hm. apply weak_neighbors_In in Hm; [|assumption]. destruct Hm as [Hm|Hm]; apply has_edge_nodes in Hm; tauto.
  - apply W.
  - constructor.
  - intros ? [].
  - intros ? [<-|[]]. assumption.
  - intros x [[]|[<-|[]]]. apply rt_refl.
  - intros x y [].
  - right. left. reflexivity.
  - unfold bfs_fuel, todo_size. cbn [List.length mem existsb Nat.add]. lia.
  - split; [assumption|]. intros x. rewrite E, weak_reach by assumption. split; [|tauto].
    intros H. split; [|assumption]. apply I, E, weak_reach; assumption.
Qed.

Lemma components_from_spec g : WF g -> forall todo pre seen, nodes g = pre ++ todo ->
  (forall x, In x seen <-> In x (nodes g) /\ exists d, In d pre /\ connected g d x) ->
  Forall2 (fun r c => enumerates c (fun y => In y (nodes g) /\ connected g r y))
    (filter (is_first (closureb (edges g)) (nodes g)) todo) (components_from g seen todo).
Proof.
  intros W. induction todo as [|v todo IH]; intros pre seen E HS; cbn; [constructor|].
  assert (Hv : In v (nodes g)) by (rewrite E; apply in_or_app; right; left; reflexivity).
  assert (E' : nodes g = (pre ++ [v]) ++ todo) by (rewrite <- app_assoc; exact E).
  assert (FI : is_first (closureb (edges g)) (nodes g) v = true <-> mem v seen = false).
  { rewrite (is_first_iff (connected g) (closureb (edges g))
      (fun x y => iff_trans (connected_closure g x y W) (closureb_iff _ _ _)) (nodes g) pre v todo (wf_nodes g W) E).
    rewrite <- not_true_iff_false, mem_In, HS. split.
    - intros H (_ & d & Hd & C). exact (H d Hd C).
    - intros H x Hx C. apply H. split; [assumption|]. exists x. tauto. }
  destruct (mem v seen) eqn:M.
  - assert (is_first (closureb (edges g)) (nodes g) v = false) as -> by (apply not_true_iff_false; rewrite FI; congruence).
    apply (IH (pre ++ [v]) seen E'). intros x. rewrite HS. apply mem_In, HS in M as (_ & d & Hd & C).
    split; intros (H & d' & Hd' & C'); split; try assumption.
    + exists d'. split; [apply in_or_app; tauto|assumption].
    + apply in_app_iff in Hd' as [Hd'|[<-|[]]]; [exists d'; tauto|]. exists d. split; [assumption|]. eapply rst_trans; eassumption.
  - assert (is_first (closureb (edges g)) (nodes g) v = true) as -> by (apply FI; reflexivity).
    pose proof (component_of g v W Hv) as C. constructor; [exact C|].
    apply (IH (pre ++ [v]) _ E'). intros x. rewrite in_app_iff, HS. destruct C as [_ C]. rewrite C. split.
    + intros [(H & d & Hd & K)|(H & K)]; split; try assumption.
      * exists d. split; [apply in_or_app; tauto|assumption].
      * exists v. split; [apply in_or_app; cbn; tauto|assumption].
    + intros (H & d & Hd & K). apply in_app_iff in Hd as [Hd|[<-|[]]]; [left|right; tauto]. split; [assumption|]. exists d. tauto.
Qed.

Theorem connected_components_spec g : WF g -> class_lists (nodes g) (connected g) (connected_components g).
Proof.
  intros W. apply (per_class_intro (connected g) (closureb (edges g))
      (fun x y => iff_trans (connected_closure g x y W) (closureb_iff _ _ _))); [apply W|].
  apply (components_from_spec g W (nodes g) [] []); [reflexivity|]. intros x. cbn. split; [tauto|]. intros (_ & d & [] & _).
Qed.

Lemma filter_split_length {A} (f : A -> bool) l :
  List.length (filter f l) + List.length (filter (fun x => negb (f x)) l) = List.length l.
Proof. induction l as [|x l IH]; [reflexivity|]. cbn. destruct (f x); cbn; lia. Qed.

(** ** connected_component_orders *)
Section Orders.
  Context (g : graph) (f : option edge_predicate) (p : key -> key -> attrs -> bool).
  Hypothesis (W : WF g) (FT : filter_test g f p).

  Definition fstep (x y : key) : Prop := exists k a, edge_attrs g x y k = Some a /\ p x y a = true.

  Lemma follows_ok u v k a : edge_attrs g u v k = Some a -> follows f u v a = Ok (p u v a).
  Proof. unfold follows, filter_test in *. destruct f; intros H; [eapply FT; eassumption|rewrite FT; reflexivity]. Qed.

  Lemma fstep_node u v : fstep u v -> In v (nodes g).
  Proof. intros (k & a & H & _). apply edge_attrs_has in H. apply has_edge_nodes in H; tauto. Qed.

  Lemma cc_visit_gen n l : (forall u v k a, In (u, v, k, a) l -> u = n /\ edge_attrs g n v k = Some a) ->
    forall items s, NoDup s ->
    exists new, foldM (fun stack e => let '(_, n2, _, edge_attr) := e in
           let* b := follows f n n2 edge_attr in
           if b then Ok (fst (t_append n2 None stack)) else Ok stack) l (mkT (nodes g) (map inl items) s)
       = Ok (mkT (I := unit) (nodes g) (map inl (items ++ new)) (s ++ new))
      /\ NoDup (s ++ new)
      /\ forall x, In x (s ++ new) <-> In x s \/ exists u k a, In (u, x, k, a) l /\ p n x a = true.
  Proof.
    induction l as [|[[[u v] k] a] l IH]; intros Hl items s ND.
    - exists []. rewrite !app_nil_r. split; [reflexivity|]. split; [assumption|]. intros x. split; [tauto|].
      intros [H|(u & k & a & [] & _)]. assumption.
    - cbn [foldM]. destruct (Hl u v k a (or_introl eq_refl)) as [-> Hv]. rewrite (follows_ok _ _ _ _ Hv). cbn [bind].
      assert (Hl' : forall u v k a, In (u, v, k, a) l -> u = n /\ edge_attrs g n v k = Some a) by (intros; apply Hl; right; assumption).
      destruct (p n v a) eqn:P.
      + rewrite append_eq. cbn [t_seen t_graph t_items]. destruct (mem v s) eqn:M; cbn [fst].
        * destruct (IH Hl' items s ND) as (new & E & N' & HI). exists new. split; [exact E|]. split; [assumption|].
          intros x. rewrite HI. apply mem_In in M. split.
          -- intros [H|(u & k' & a' & H & Pa)]; [tauto|]. right. exists u, k', a'. cbn [In]. tauto.
          -- intros [H|(u & k' & a' & [H|H] & Pa)]; [tauto| |right; eauto]. inversion H; subst. tauto.
        * assert (ND' : NoDup (s ++ [v])). { apply NoDup_snoc; [assumption|]. rewrite <- mem_In. congruence. }
          destruct (IH Hl' (items ++ [v]) (s ++ [v]) ND') as (new & E & N' & HI). exists (v :: new).
          rewrite map_app in E. cbn [map] in E. rewrite <- (app_assoc items), <- (app_assoc s) in E. rewrite <- (app_assoc s) in N'. setoid_rewrite <- (app_assoc s [v]) in HI. cbn [app] in E, N', HI.
          split; [exact E|]. split; [assumption|]. intros x. rewrite HI, in_app_iff. cbn [In]. split.
          -- intros [[H|[<-|[]]]|(u & k' & a' & H & Pa)]; [tauto| |right; exists u, k', a'; tauto]. right. exists n, k, a. tauto.
          -- intros [H|(u & k' & a' & [H|H] & Pa)]; [tauto| |right; eauto]. inversion H; subst. tauto.
      + destruct (IH Hl' items s ND) as (new & E & N' & HI). exists new. split; [exact E|]. split; [assumption|].
        intros x. rewrite HI. split.
        * intros [H|(u & k' & a' & H & Pa)]; [tauto|]. right. exists u, k', a'. cbn [In]. tauto.
        * intros [H|(u & k' & a' & [H|H] & Pa)]; [tauto| |right; eauto]. inversion H; subst. congruence.
  Qed.

  Lemma cc_visit_spec n items s : NoDup s ->
    exists new, cc_visit g f n (mkT (nodes g) (map inl items) s) = Ok (mkT (nodes g) (map inl (items ++ new)) (s ++ new))
      /\ NoDup (s ++ new) /\ forall x, In x (s ++ new) <-> In x s \/ fstep n x.
  Proof.
    intros ND. destruct (cc_visit_gen n (edges_of g n)) with (items := items) (s := s) as (new & E & N' & HI); [|assumption|].
    - intros u v k a H. apply edges_of_In in H; [|assumption]. assumption.
    - exists new. split; [exact E|]. split; [assumption|]. intros x. rewrite HI. split.
      + intros [H|(u & k & a & H & P)]; [tauto|]. right. apply edges_of_In in H as [-> H]; [|assumption]. exists k, a. tauto.
      + intros [H|(k & a & H & P)]; [tauto|]. right. exists n, k, a. split; [|assumption]. apply edges_of_In; tauto.
  Qed.

  Lemma cc_loop_spec s : forall fuel items seen0 seen sz,
    NoDup seen -> incl seen (nodes g) -> incl items seen -> incl seen0 seen ->
    (forall x y, In x seen0 -> fstep x y -> In y seen0) ->
    (forall x y, In x seen -> ~ In x items -> fstep x y -> In y seen) ->
    (forall x, In x seen -> In x seen0 \/ clos_refl_trans key fstep s x) ->
    In s seen ->
    sz + List.length items + List.length seen0 = List.length seen ->
    List.length items + order g <= fuel + List.length seen ->
    exists seen' size', cc_loop fuel g f sz (mkT (nodes g) (map inl items) seen) = Ok (size', mkT (nodes g) [] seen')
      /\ NoDup seen' /\ incl seen' (nodes g)
      /\ (forall x, In x seen' <-> In x seen0 \/ clos_refl_trans key fstep s x)
      /\ size' + List.length seen0 = List.length seen'.
  Proof.
    induction fuel as [|fuel IH]; intros items seen0 seen sz ND I1 I2 I3 C0 C1 C2 Hs SZ FU.
    - assert (LE : List.length seen <= order g) by (unfold order; apply NoDup_incl_length in I1; [|assumption]; unfold nodes, dkeys in I1; rewrite map_length in I1; exact I1).
      assert (items = []) as -> by (destruct items; [reflexivity|cbn in FU; lia]).
      exists seen, sz. split; [reflexivity|]. split; [assumption|]. split; [assumption|]. split; [|cbn in SZ; lia].
      intros x. split; [apply C2|]. intros [H|H]; [apply I3; assumption|].
      apply clos_rt_rtn1_iff in H. induction H as [|y z H1 H2 IH2]; [assumption|]. apply (C1 y z IH2); [intros []|assumption].
    - cbn [cc_loop]. unfold t_len. cbn [t_items]. rewrite map_length.
      destruct (Nat.eqb (List.length items) 0) eqn:E0.
      + apply Nat.eqb_eq in E0. destruct items; [|discriminate].
        exists seen, sz. split; [reflexivity|]. split; [assumption|]. split; [assumption|]. split; [|cbn in SZ; lia].
        intros x. split; [apply C2|]. intros [H|H]; [apply I3; assumption|].
        apply clos_rt_rtn1_iff in H. induction H as [|y z H1 H2 IH2]; [assumption|]. apply (C1 y z IH2); [intros []|assumption].
      + destruct (rev items) as [|n r] eqn:ER.
        { assert (items = []) by (rewrite <- (rev_involutive items), ER; reflexivity). subst. discriminate. }
        assert (EI : items = rev r ++ [n]) by (rewrite <- (rev_involutive items), ER; reflexivity).
        unfold t_pop. cbn [t_items t_graph t_seen]. rewrite <- map_rev, ER. cbn [map]. rewrite <- map_rev.
        destruct (cc_visit_spec n (rev r) seen ND) as (new & E & N' & HI). rewrite E. cbn [bind].
        assert (Hn : In n seen) by (apply I2; rewrite EI; apply in_or_app; right; left; reflexivity).
        assert (NN : forall x, In x new -> fstep n x /\ ~ In x seen).
        { intros x Hx. assert (~ In x seen). { apply NoDup_app_iff in N' as (_ & _ & N'). intros Hy. exact (N' x Hy Hx). }
          split; [|assumption]. assert (In x (seen ++ new)) by (apply in_or_app; tauto). apply HI in H0. tauto. }
        apply IH; try assumption.
        * intros x Hx. apply in_app_iff in Hx as [Hx|Hx]; [apply I1; assumption|]. apply NN in Hx as [Hx _]. eapply fstep_node; eassumption.
        * intros x Hx. apply in_app_iff in Hx as [Hx|Hx]; apply in_or_app; [left|right; assumption].
          apply I2. rewrite EI. apply in_or_app. tauto.
        * intros x Hx. apply in_or_app. left. apply I3. assumption.
        * intros x y Hx Nx Fx. apply in_app_iff in Hx as [Hx|Hx]; [|exfalso; apply Nx; apply in_or_app; tauto].
          apply HI. destruct (key_eq_dec x n) as [->|NE]; [right; assumption|]. left. apply (C1 x y Hx); [|assumption].
          rewrite EI, in_app_iff. cbn [In]. rewrite in_app_iff in Nx. intuition congruence.
        * intros x Hx. apply in_app_iff in Hx as [Hx|Hx]; [apply C2; assumption|]. apply NN in Hx as [Hx NX].
          destruct (C2 n Hn) as [H|H]; [left; apply (C0 n x H Hx)|]. right. eapply rt_trans; [exact H|]. apply rt_step. assumption.
        * apply in_or_app. tauto.
        * rewrite !app_length. rewrite EI, app_length in SZ. cbn in SZ. lia.
        * rewrite !app_length. rewrite EI, app_length in FU. cbn in FU. lia.
  Qed.

  (** sizes in general: each start adds the nodes newly reached *)
  Lemma cc_start v seen0 : NoDup seen0 -> incl seen0 (nodes g) -> In v (nodes g) -> ~ In v seen0 ->
    (forall x y, In x seen0 -> fstep x y -> In y seen0) ->
    exists seen' size', cc_loop (S (order g)) g f 0 (fst (t_append v None (mkT (nodes g) [] seen0))) = Ok (size', mkT (nodes g) [] seen')
      /\ NoDup seen' /\ incl seen' (nodes g)
      /\ (forall x, In x seen' <-> In x seen0 \/ clos_refl_trans key fstep v x)
      /\ size' + List.length seen0 = List.length seen'.
  Proof.
    intros ND I Hv NV C. unfold t_append. cbn [t_seen t_graph t_items]. rewrite set_add_length. unfold set_add.
    assert (mem v seen0 = false) as -> by (apply not_true_iff_false; rewrite mem_In; assumption). cbn [fst].
    apply (cc_loop_spec v (S (order g)) [v] seen0 (seen0 ++ [v]) 0).
    - apply NoDup_snoc; assumption.
    - intros x Hx. apply in_app_iff in Hx as [Hx|[<-|[]]]; auto.
    - intros x [<-|[]]. apply in_or_app. cbn. tauto.
    - intros x Hx. apply in_or_app. tauto.
    - assumption.
    - intros x y Hx Nx Fx. apply in_app_iff in Hx as [Hx|[<-|[]]]; [|exfalso; apply Nx; cbn; tauto].
      apply in_or_app. left. eapply C; eassumption.
    - intros x Hx. apply in_app_iff in Hx as [Hx|[<-|[]]]; [tauto|]. right. apply rt_refl.
    - apply in_or_app. cbn. tauto.
    - rewrite app_length. cbn. lia.
    - rewrite app_length. cbn. lia.
  Qed.

  Lemma closed_next v seen0 seen' : (forall x y, In x seen0 -> fstep x y -> In y seen0) ->
    (forall x, In x seen' <-> In x seen0 \/ clos_refl_trans key fstep v x) ->
    (forall x y, In x seen' -> fstep x y -> In y seen').
  Proof.
    intros C E x y Hx Fx. apply E. apply E in Hx as [Hx|Hx]; [left; eapply C; eassumption|]. right.
    eapply rt_trans; [exact Hx|apply rt_step; assumption].
  Qed.

  Lemma seen_everything_all seen0 : NoDup seen0 -> incl seen0 (nodes g) ->
    seen_everything (I := unit) (mkT (nodes g) [] seen0) = true -> incl (nodes g) seen0.
  Proof.
    intros ND I E. unfold seen_everything in E. cbn in E. apply Nat.eqb_eq in E.
    apply NoDup_length_incl; [assumption| |assumption]. rewrite E. apply Nat.le_refl.
  Qed.

  Lemma cc_from_partition : forall todo pre seen0, nodes g = pre ++ todo -> incl pre seen0 ->
    NoDup seen0 -> incl seen0 (nodes g) -> (forall x y, In x seen0 -> fstep x y -> In y seen0) ->
    exists sizes, cc_from g f todo (mkT (nodes g) [] seen0) = Ok sizes
      /\ (forall n, In n sizes -> 0 < n) /\ sum_nat sizes + List.length seen0 = order g.
  Proof.
    assert (DONE : forall seen0, NoDup seen0 -> incl seen0 (nodes g) -> incl (nodes g) seen0 -> List.length seen0 = order g).
    { intros seen0 ND I I'. unfold order. transitivity (List.length (nodes g)); [|unfold nodes, dkeys; apply map_length].
      apply Nat.le_antisymm; apply NoDup_incl_length; try assumption. apply W. }
    induction todo as [|v todo IH]; intros pre seen0 E IP ND I C; cbn [cc_from].
    - exists []. split; [reflexivity|]. split; [intros ? []|]. cbn. apply DONE; try assumption.
      rewrite E, app_nil_r. assumption.
    - destruct (seen_everything (mkT (nodes g) [] seen0)) eqn:SE.
      { exists []. split; [reflexivity|]. split; [intros ? []|]. cbn. apply DONE; try assumption. apply seen_everything_all; assumption. }
      assert (E' : nodes g = (pre ++ [v]) ++ todo) by (rewrite <- app_assoc; exact E).
      unfold t_contains. cbn [t_seen]. destruct (mem v seen0) eqn:M.
      + apply (IH (pre ++ [v])); try assumption. apply mem_In in M. intros x Hx. apply in_app_iff in Hx as [Hx|[<-|[]]]; auto.
      + assert (Hv : In v (nodes g)) by (rewrite E; apply in_or_app; right; left; reflexivity).
        assert (NV : ~ In v seen0) by (rewrite <- mem_In; congruence).
        destruct (cc_start v seen0 ND I Hv NV C) as (seen' & sz & -> & ND' & I' & HI & SZ). cbn [bind].
        destruct (IH (pre ++ [v]) seen' E') as (sizes & -> & P & SU); try assumption.
        * intros x Hx. apply HI. apply in_app_iff in Hx as [Hx|[<-|[]]]; [left; auto|right; apply rt_refl].
        * apply (closed_next v seen0); assumption.
        * cbn [bind]. exists (sz :: sizes). split; [reflexivity|]. split.
          -- intros n [<-|Hn]; [|auto]. assert (List.length (v :: seen0) <= List.length seen'); [|cbn in *; lia].
             apply NoDup_incl_length; [constructor; assumption|]. intros x [<-|Hx]; apply HI; [right; apply rt_refl|tauto].
          -- unfold sum_nat in *. cbn. lia.
  Qed.

  Theorem orders_partition : exists sizes, connected_component_orders g f = Ok sizes
    /\ (forall n, In n sizes -> 0 < n) /\ sum_nat sizes = order g.
  Proof.
    destruct (cc_from_partition (nodes g) [] []) as (sizes & E & P & SU); [reflexivity|intros ? []|constructor|intros ? []|intros ? ? []|].
    - exists sizes. split; [exact E|]. split; [assumption|]. cbn in SU. lia.
  Qed.

  (** which nodes are counted in general *)
  Lemma cc_from_new : forall todo pre seen0, nodes g = pre ++ todo -> NoDup seen0 ->
    (forall x, In x seen0 <-> exists d, In d pre /\ clos_refl_trans key fstep d x) ->
    exists sizes, cc_from g f todo (mkT (nodes g) [] seen0) = Ok sizes
      /\ newly_reached (clos_refl_trans key fstep) pre todo sizes.
  Proof.
    assert (RN : forall x y, clos_refl_trans key fstep x y -> In x (nodes g) -> In y (nodes g)).
    { intros x y H. induction H as [x y H|x|x y z H1 IH1 H2 IH2]; [intros _; eapply fstep_node; eassumption|auto|auto]. }
    induction todo as [|v todo IH]; intros pre seen0 E ND HS; cbn [cc_from].
    - exists []. split; [reflexivity|constructor].
    - assert (I : incl seen0 (nodes g)).
      { intros x Hx. apply HS in Hx as (d & Hd & Rd). apply (RN d x Rd). rewrite E. apply in_or_app. tauto. }
      assert (C : forall x y, In x seen0 -> fstep x y -> In y seen0).
      { intros x y Hx Fx. apply HS. apply HS in Hx as (d & Hd & Cd).
        exists d. split; [assumption|]. eapply rt_trans; [exact Cd|apply rt_step; exact Fx]. }
      assert (E' : nodes g = (pre ++ [v]) ++ todo) by (rewrite <- app_assoc; exact E).
      destruct (seen_everything (mkT (nodes g) [] seen0)) eqn:SE.
      { exists []. split; [reflexivity|]. pose proof (seen_everything_all seen0 ND I SE) as ALL.
        assert (G : forall b a, nodes g = a ++ b -> incl pre a -> newly_reached (clos_refl_trans key fstep) a b []).
        { induction b as [|w b IHb]; intros a Ea Ia; constructor.
          - assert (Hw : In w (nodes g)) by (rewrite Ea; apply in_or_app; right; left; reflexivity).
            apply ALL, HS in Hw as (d & Hd & Rd). exists d. auto.
          - apply IHb; [rewrite <- app_assoc; exact Ea|]. intros x Hx. apply in_or_app. auto. }
        apply G; [exact E|intros x Hx; exact Hx]. }
      unfold t_contains. cbn [t_seen]. destruct (mem v seen0) eqn:M.
      + apply mem_In in M. pose proof (proj1 (HS v) M) as (d & Hd & Rd).
        destruct (IH (pre ++ [v]) seen0 E' ND) as (sizes & Es & NR).
        * intros x. rewrite HS. split.
          -- intros (d' & Hd' & R'). exists d'. split; [apply in_or_app; tauto|assumption].
          -- intros (d' & Hd' & R'). apply in_app_iff in Hd' as [Hd'|[<-|[]]]; [exists d'; tauto|].
             exists d. split; [assumption|]. eapply rt_trans; eassumption.
        * exists sizes. split; [exact Es|]. apply nr_known; [exists d; tauto|assumption].
      + assert (Hv : In v (nodes g)) by (rewrite E; apply in_or_app; right; left; reflexivity).
        assert (NV : ~ In v seen0) by (rewrite <- mem_In; congruence).
        destruct (cc_start v seen0 ND I Hv NV C) as (seen' & sz & -> & ND' & I' & HI & SZ). cbn [bind].
        destruct (IH (pre ++ [v]) seen' E' ND') as (sizes & Es & NR).
        * intros x. rewrite HI, HS. split.
          -- intros [(d & Hd & Rd)|H]; [exists d|exists v]; (split; [apply in_or_app; cbn; tauto|assumption]).
          -- intros (d & Hd & Rd). apply in_app_iff in Hd as [Hd|[<-|[]]]; [left; exists d; tauto|right; assumption].
        * rewrite Es. cbn [bind]. exists (sz :: sizes). split; [reflexivity|]. apply nr_new; [| |assumption].
          -- intros x Hx Rx. apply NV, HS. exists x. tauto.
          -- exists (filter (fun x => negb (mem x seen0)) seen'). split; [split; [apply NoDup_filter; assumption|]|].
             ++ intros y. rewrite filter_In, HI, negb_true_iff, mem_nIn, HS. split.
                ** intros [[H|H] N]; [contradiction|]. split; [assumption|]. intros x Hx Rx. apply N. exists x. tauto.
                ** intros [H N]. split; [tauto|]. intros (d & Hd & Rd). exact (N d Hd Rd).
             ++ assert (P : Permutation (filter (fun x => mem x seen0) seen') seen0).
                { apply NoDup_Permutation; [apply NoDup_filter; assumption|assumption|]. intros x. rewrite filter_In, mem_In, HI. tauto. }
                apply Permutation_length in P. pose proof (filter_split_length (fun x => mem x seen0) seen'). cbn in *. lia.
  Qed.

  Theorem orders_new : exists sizes, connected_component_orders g f = Ok sizes
    /\ newly_reached (clos_refl_trans key fstep) [] (nodes g) sizes.
  Proof. apply cc_from_new; [reflexivity|constructor|]. intros x. split; [intros []|intros (d & [] & _)]. Qed.

  (** when the followed edges go both ways *)
  Hypothesis SY : forall x y, fstep x y -> clos_refl_trans key fstep y x.

  Lemma fstep_conn x y : clos_refl_trans key fstep x y <-> connected_by g p x y.
  Proof.
    split.
    - induction 1; [apply rst_step; assumption|apply rst_refl|eapply rst_trans; eassumption].
    - induction 1 as [| |x y H IH|x y z H1 IH1 H2 IH2]; [apply rt_step; assumption|apply rt_refl| |eapply rt_trans; eassumption].
      clear H. induction IH; [apply SY; assumption|apply rt_refl|eapply rt_trans; eassumption].
  Qed.

  Let Rb := closureb (accepted_pairs g p).
  Let HR x y : connected_by g p x y <-> Rb x y = true := iff_trans (connected_by_closure g p x y W) (closureb_iff _ _ _).

  Lemma cc_from_spec : forall todo pre seen0, nodes g = pre ++ todo -> NoDup seen0 ->
    (forall x, In x seen0 <-> In x (nodes g) /\ exists d, In d pre /\ connected_by g p d x) ->
    exists sizes, cc_from g f todo (mkT (nodes g) [] seen0) = Ok sizes
      /\ Forall2 (fun r n => has_size (fun y => In y (nodes g) /\ connected_by g p r y) n)
           (filter (is_first Rb (nodes g)) todo) sizes.
  Proof.
    induction todo as [|v todo IH]; intros pre seen0 E ND HS; cbn [cc_from filter].
    - exists []. split; [reflexivity|constructor].
    - assert (I : incl seen0 (nodes g)) by (intros x Hx; apply HS in Hx; tauto).
      assert (C : forall x y, In x seen0 -> fstep x y -> In y seen0).
      { intros x y Hx Fx. apply HS. apply HS in Hx as (_ & d & Hd & Cd). split; [eapply fstep_node; eassumption|].
        exists d. split; [assumption|]. eapply rst_trans; [exact Cd|apply rst_step; exact Fx]. }
      assert (E' : nodes g = (pre ++ [v]) ++ todo) by (rewrite <- app_assoc; exact E).
      assert (FI : forall a w b, nodes g = a ++ w :: b -> incl pre a -> incl a (pre ++ v :: todo) -> In w seen0 -> is_first Rb (nodes g) w = false).
      { intros a w b Ew Ia _ Hw. apply not_true_iff_false. intros F.
        apply HS in Hw as (_ & d & Hd & Cd).
        exact (proj1 (is_first_iff _ _ HR (nodes g) a w b (wf_nodes g W) Ew) F d (Ia d Hd) Cd). }
      destruct (seen_everything (mkT (nodes g) [] seen0)) eqn:SE.
      { exists []. split; [reflexivity|]. pose proof (seen_everything_all seen0 ND I SE) as ALL.
        assert (FE : filter (is_first Rb (nodes g)) (v :: todo) = []).
        { assert (G : forall a b, nodes g = pre ++ a ++ b -> a ++ b = v :: todo -> filter (is_first Rb (nodes g)) b = []).
          { intros a b. revert a. induction b as [|w b IHb]; intros a E1 E2; [reflexivity|]. cbn.
            rewrite (FI (pre ++ a) w b).
            - apply (IHb (a ++ [w])); rewrite <- !app_assoc; assumption.
            - rewrite <- app_assoc. assumption.
            - intros x Hx. apply in_or_app. tauto.
            - rewrite <- E2. intros x Hx. rewrite in_app_iff in *. rewrite in_app_iff. tauto.
            - apply ALL. rewrite E1. rewrite !in_app_iff. cbn. tauto. }
          apply (G [] (v :: todo)); [exact E|reflexivity]. }
        cbn [filter] in FE. rewrite FE. constructor. }
      unfold t_contains. cbn [t_seen]. destruct (mem v seen0) eqn:M.
      + rewrite (FI pre v todo E) by (try apply mem_In; try assumption; intros x Hx; try assumption; apply in_or_app; tauto).
        apply (IH (pre ++ [v]) seen0 E' ND). intros x. rewrite HS. apply mem_In, HS in M as (_ & d & Hd & Cd).
        split; intros (H & d' & Hd' & C'); split; try assumption.
        * exists d'. split; [apply in_or_app; tauto|assumption].
        * apply in_app_iff in Hd' as [Hd'|[<-|[]]]; [exists d'; tauto|]. exists d. split; [assumption|]. eapply rst_trans; eassumption.
      + assert (Hv : In v (nodes g)) by (rewrite E; apply in_or_app; right; left; reflexivity).
        assert (NV : ~ In v seen0) by (rewrite <- mem_In; congruence).
        assert (is_first Rb (nodes g) v = true) as ->.
        { apply (is_first_iff _ _ HR (nodes g) pre v todo (wf_nodes g W) E). intros x Hx Cx. apply NV, HS.
          split; [assumption|]. exists x. tauto. }
        destruct (cc_start v seen0 ND I Hv NV C) as (seen' & sz & -> & ND' & I' & HI & SZ). cbn [bind].
        destruct (IH (pre ++ [v]) seen' E' ND') as (sizes & -> & F2).
        * intros x. rewrite HI, HS, fstep_conn. split.
          -- intros [(H & d & Hd & K)|K]; (split; [try assumption|]).
             ++ exists d. split; [apply in_or_app; tauto|assumption].
             ++ apply I', HI. right. apply fstep_conn. assumption.
             ++ exists v. split; [apply in_or_app; cbn; tauto|assumption].
          -- intros (H & d & Hd & K). apply in_app_iff in Hd as [Hd|[<-|[]]]; [left|right; assumption]. split; [assumption|]. exists d. tauto.
        * cbn [bind]. exists (sz :: sizes). split; [reflexivity|]. constructor; [|assumption].
          exists (filter (fun x => negb (mem x seen0)) seen'). split.
          -- split; [apply NoDup_filter; assumption|]. intros x. rewrite filter_In, HI, negb_true_iff, <- not_true_iff_false, mem_In, fstep_conn.
             split; [intros [[H|H] NH]; [contradiction|]; split; [apply I', HI; right; apply fstep_conn; assumption|assumption]|].
             intros [H K]. split; [tauto|]. intros Hx. apply NV. apply HS in Hx as (_ & d & Hd & Cd). apply HS. split; [assumption|].
             exists d. split; [assumption|]. eapply rst_trans; [exact Cd|]. apply rst_sym. assumption.
          -- assert (PM : Permutation seen' (seen0 ++ filter (fun x => negb (mem x seen0)) seen')).
             { apply NoDup_Permutation; [assumption| |].
               - apply NoDup_app_iff. split; [assumption|]. split; [apply NoDup_filter; assumption|].
                 intros x Hx Hy. apply filter_In in Hy as [_ Hy]. apply mem_In in Hx. rewrite Hx in Hy. discriminate.
               - intros x. rewrite in_app_iff, filter_In, negb_true_iff, <- not_true_iff_false, mem_In. split.
                 + intros Hx. destruct (in_dec key_eq_dec x seen0); tauto.
                 + intros [Hx|[Hx _]]; [apply HI; tauto|assumption]. }
             apply Permutation_length in PM. rewrite app_length in PM. lia.
  Qed.

  Theorem orders_classes : exists sizes, connected_component_orders g f = Ok sizes
    /\ class_sizes (nodes g) (connected_by g p) sizes.
  Proof.
    destruct (cc_from_spec (nodes g) [] []) as (sizes & E & F); [reflexivity|constructor| |].
    - intros x. cbn. split; [tauto|]. intros (_ & d & [] & _).
    - exists sizes. split; [exact E|]. apply (per_class_intro _ _ HR); [apply W|assumption].
  Qed.
End Orders.
