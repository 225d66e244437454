(** * Lemmas about the components and the total weight of projections *)
From Coq Require Import List ZArith Lia Bool QArith Permutation Relation_Operators Operators_Properties.
From Verif Require Import PyBase PyNum NxGraph L_Base L_Nx L_Nx2 L_Graph S_Partition L_Partition S_Graph M_Proj S_Num S_Proj.
Import ListNotations.
Close Scope Q_scope.

(** ** Components *)
Section Components.
  Variables (g h : graph) (p : part) (attr : key).
  Hypothesis D : g_dir g = false.
  Hypothesis B : bipartite g p attr.
  Hypothesis Hdec : forall x, kept g p attr x \/ ~ kept g p attr x.
  Hypothesis Hlink : forall u v, has_edge h u v = true <-> kept g p attr u /\ kept g p attr v /\ u <> v /\ exists t, shared g u v t.

  Let near (u x : key) : Prop := kept g p attr u /\ (u = x \/ (has_edge g u x = true /\ ~ kept g p attr x)).

  Lemma shared_connected u v t : kept g p attr u -> kept g p attr v -> shared g u v t -> connected h u v.
  Proof.
    intros Ku Kv S. destruct (key_eq_dec u v) as [->|N]; [apply rst_refl|].
    apply rst_step. apply Hlink. eauto 6.
  Qed.

  Lemma near_near u v x : near u x -> near v x -> connected h u v.
  Proof.
    intros [Ku [->|[Hu Nx]]] [Kv [->|[Hv Nx']]]; try contradiction.
    - apply rst_refl.
    - apply (shared_connected u v x); try assumption. split; assumption.
  Qed.

  Lemma near_path x y : connected g x y -> forall u v, near u x -> near v y -> connected h u v.
  Proof.
    intros C. apply clos_rst_rst1n in C. induction C as [x|x y z S C IH]; intros u v Nu Nv; [eapply near_near; eassumption|].
    assert (E : has_edge g x y = true) by (destruct S as [S|S]; [exact S|rewrite has_edge_sym by exact D; exact S]). clear S C.
    destruct (Hdec x) as [Kx|Nx].
    - assert (Ny : ~ kept g p attr y) by (apply (B x y E); exact Kx).
      destruct Nu as [Ku [->|[_ Nx]]]; [|contradiction]. apply IH; [|exact Nv]. split; [exact Kx|]. right. split; assumption.
    - assert (Ky : kept g p attr y).
      { destruct (Hdec y) as [Ky|Ny]; [exact Ky|]. exfalso. apply Nx. apply (B x y E). exact Ny. }
      destruct Nu as [Ku [->|[Eu _]]]; [contradiction|].
      apply rst_trans with y; [|apply IH; [split; [exact Ky|left; reflexivity]|exact Nv]].
      apply (shared_connected u y x); try assumption. split; [exact Eu|]. rewrite has_edge_sym by exact D. exact E.
  Qed.

  Lemma projection_connected u v : kept g p attr u -> kept g p attr v -> (connected h u v <-> connected g u v).
  Proof.
    intros Ku Kv. split.
    - intros C. clear Ku Kv. induction C as [x y E|x|x y C IH|x y z C IH C' IH'].
      + apply Hlink in E as (_ & _ & _ & t & E1 & E2). apply rst_trans with t; [apply rst_step; exact E1|apply rst_sym, rst_step; exact E2].
      + apply rst_refl.
      + apply rst_sym, IH.
      + eapply rst_trans; eassumption.
    - intros C. apply (near_path u v C); split; auto.
  Qed.
End Components.

(** ** Sums *)
Fixpoint sum_over {A} (l : list A) (f : A -> Z) : Z := match l with [] => 0%Z | x :: l => (f x + sum_over l f)%Z end.
Definition ind (b : bool) : Z := if b then 1%Z else 0%Z.

Lemma sum_over_ext {A} (l : list A) f f' : (forall x, In x l -> f x = f' x) -> sum_over l f = sum_over l f'.
Proof. induction l as [|x l IH]; intros H; [reflexivity|]. cbn. rewrite (H x) by (left; reflexivity). rewrite IH; [reflexivity|]. intros; apply H; right; assumption. Qed.
Lemma sum_over_app {A} (l l' : list A) f : sum_over (l ++ l') f = (sum_over l f + sum_over l' f)%Z.
Proof. induction l as [|x l IH]; cbn; [reflexivity|]. rewrite IH. lia. Qed.
Lemma sum_over_perm {A} (l l' : list A) f : Permutation l l' -> sum_over l f = sum_over l' f.
Proof. induction 1; cbn; lia. Qed.
Lemma sum_over_map {A B} (k : A -> B) l f : sum_over (map k l) f = sum_over l (fun x => f (k x)).
Proof. induction l as [|x l IH]; cbn; [reflexivity|]. rewrite IH. reflexivity. Qed.
Lemma sum_over_plus {A} (l : list A) f f' : sum_over l (fun x => f x + f' x)%Z = (sum_over l f + sum_over l f')%Z.
Proof. induction l as [|x l IH]; cbn; [reflexivity|]. rewrite IH. lia. Qed.
Lemma sum_over_scale {A} (l : list A) c f : sum_over l (fun x => c * f x)%Z = (c * sum_over l f)%Z.
Proof. induction l as [|x l IH]; cbn; [lia|]. rewrite IH. lia. Qed.
Lemma sum_over_zero {A} (l : list A) : sum_over l (fun _ => 0%Z) = 0%Z.
Proof. induction l as [|x l IH]; cbn; [reflexivity|]. exact IH. Qed.
Lemma sum_over_swap {A B} (l : list A) (l' : list B) f :
  sum_over l (fun x => sum_over l' (f x)) = sum_over l' (fun y => sum_over l (fun x => f x y)).
Proof.
  induction l as [|x l IH]; cbn.
  - symmetry. apply sum_over_zero.
  - rewrite IH. symmetry. apply (sum_over_plus l' (f x)).
Qed.
Lemma sum_over_filter {A} (c : A -> bool) l f : sum_over (filter c l) f = sum_over l (fun x => ind (c x) * f x)%Z.
Proof. induction l as [|x l IH]; cbn; [reflexivity|]. destruct (c x); cbn [sum_over ind]; rewrite <- IH; unfold ind; lia. Qed.
Lemma sum_over_prod {A B} (l : list A) (l' : list B) f : sum_over (list_prod l l') f = sum_over l (fun x => sum_over l' (fun y => f (x, y))).
Proof.
  induction l as [|x l IH]; [reflexivity|]. cbn [list_prod]. rewrite sum_over_app, IH, sum_over_map. reflexivity.
Qed.
Lemma sum_over_count {A} (l : list A) c : sum_over l (fun x => ind (c x)) = Z.of_nat (List.length (filter c l)).
Proof. induction l as [|x l IH]; [reflexivity|]. cbn [sum_over filter]. rewrite IH. unfold ind. destruct (c x); cbn [List.length]; lia. Qed.
Lemma sum_over_one (l : list key) n f : NoDup l -> In n l -> sum_over l (fun x => ind (key_eqb x n) * f x)%Z = f n.
Proof.
  induction l as [|x l IH]; intros N I; [destruct I|]. cbn [sum_over]. inversion N; subst.
  destruct I as [->|I].
  - rewrite key_eqb_refl. replace (sum_over l _) with 0%Z; [unfold ind; lia|]. symmetry. rewrite <- (sum_over_zero l). apply sum_over_ext.
    intros y Iy. destruct (key_eqb y n) eqn:E; [apply key_eqb_eq in E; subst; contradiction|]. unfold ind. lia.
  - rewrite IH by assumption. destruct (key_eqb x n) eqn:E; [apply key_eqb_eq in E; subst; contradiction|]. unfold ind. lia.
Qed.

Lemma list_prod_NoDup {A B} (l : list A) (l' : list B) : NoDup l -> NoDup l' -> NoDup (list_prod l l').
Proof.
  intros N N'. induction N as [|x l I N IH]; cbn [list_prod]; [constructor|]. apply NoDup_app_iff. split; [|split; [exact IH|]].
  - apply NoDup_map_inj; [|exact N']. intros; congruence.
  - intros [a b] I1 I2. apply in_map_iff in I1 as (y & E & _). inversion E; subst. apply in_prod_iff in I2. tauto.
Qed.

(** the edges of an undirected graph without loops, in both directions *)
Lemma edges_twice h f : WF h -> g_dir h = false -> (forall u, has_edge h u u = false) -> (forall u v, f (u, v) = f (v, u)) ->
  (2 * sum_over (edges h) f)%Z = sum_over (nodes h) (fun u => sum_over (nodes h) (fun v => ind (has_edge h u v) * f (u, v))%Z).
Proof.
  intros W D L S.
  transitivity (sum_over (list_prod (nodes h) (nodes h)) (fun x => ind (has_edge h (fst x) (snd x)) * f x)%Z); [|rewrite sum_over_prod; reflexivity].
  rewrite <- (sum_over_filter (fun x => has_edge h (fst x) (snd x))).
  rewrite (sum_over_perm (filter _ _) (edges h ++ map (fun x => (snd x, fst x)) (edges h))).
  - rewrite sum_over_app. assert (E : sum_over (map (fun x => (snd x, fst x)) (edges h)) f = sum_over (edges h) f); [|rewrite E; lia].
    rewrite sum_over_map. apply sum_over_ext. intros [u v] _. cbn. apply S.
  - assert (NE : NoDup (edges h)) by (apply edges_NoDup; exact W).
    apply NoDup_Permutation.
    + apply NoDup_filter, list_prod_NoDup; apply (wf_nodes h W).
    + apply NoDup_app_iff. split; [exact NE|]. split.
      * apply NoDup_map_inj; [|exact NE]. intros [a b] [c d] _ _ E. cbn in E. inversion E; reflexivity.
      * intros [u v] I1 I2. apply in_map_iff in I2 as ([a b] & E & I2). cbn in E. inversion E; subst.
        assert (u = v) by (eapply edges_oriented; eassumption). subst v.
        assert (X : has_edge h u u = true) by (apply has_edge_edges; auto). rewrite L in X. discriminate.
    + intros [u v]. rewrite filter_In, in_prod_iff, in_app_iff, in_map_iff. cbn [fst snd]. split.
      * intros [_ E]. apply has_edge_edges in E; [|exact W]. destruct E as [E|[_ E]]; [left; exact E|right]. exists (v, u). auto.
      * intros H. assert (E : has_edge h u v = true).
        { apply has_edge_edges; [exact W|]. destruct H as [H|([a b] & E & H)]; [left; exact H|]. cbn in E. inversion E; subst. right. auto. }
        split; [|exact E]. unfold has_edge in E. destruct (edge_data h u v) eqn:Ed; [|discriminate]. eapply edge_data_nodes; eassumption.
Qed.

(** pairs of distinct elements among those which satisfy [c] *)
Lemma sum_pairs (l : list key) (c : key -> bool) : NoDup l ->
  sum_over l (fun u => sum_over l (fun v => ind (negb (key_eqb v u)) * (ind (c u) * ind (c v)))%Z)
  = (sum_over l (fun u => ind (c u)) * (sum_over l (fun u => ind (c u)) - 1))%Z.
Proof.
  intros N.
  transitivity (sum_over l (fun u => ind (c u) * sum_over l (fun v => ind (c v)) + (-1) * ind (c u))%Z).
  - apply sum_over_ext. intros u Iu.
    transitivity (sum_over l (fun v => ind (c u) * ind (c v) + (-1) * (ind (key_eqb v u) * (ind (c u) * ind (c v))))%Z).
    + apply sum_over_ext. intros v _. destruct (key_eqb v u); unfold ind, negb; lia.
    + rewrite (sum_over_plus l (fun v => ind (c u) * ind (c v))%Z), !sum_over_scale, (sum_over_one l u (fun v => ind (c u) * ind (c v))%Z N Iu).
      unfold ind. destruct (c u); lia.
  - rewrite (sum_over_plus l (fun u => ind (c u) * sum_over l (fun v => ind (c v)))%Z), sum_over_scale.
    rewrite (sum_over_ext l (fun u => ind (c u) * sum_over l (fun v => ind (c v)))%Z (fun u => sum_over l (fun v => ind (c v)) * ind (c u))%Z) by (intros; lia).
    rewrite sum_over_scale. lia.
Qed.

(** ** Total weight *)
Section Total.
  Variables (g h : graph) (p : part) (attr : key).
  Hypothesis W : WF g.
  Hypothesis D : g_dir g = false.
  Hypothesis B : bipartite g p attr.
  Hypothesis Wh : WF h.
  Hypothesis Dh : g_dir h = false.
  Hypothesis Nh : forall n, In n (nodes h) <-> kept g p attr n.
  Hypothesis Hlink : forall u v, has_edge h u v = true <-> kept g p attr u /\ kept g p attr v /\ u <> v /\ exists t, shared g u v t.

  Definition common (u v : key) : Z := sum_over (nodes g) (fun t => ind (has_edge g u t) * ind (has_edge g v t))%Z.

  Lemma has_edge_nodes u v : has_edge g u v = true -> In u (nodes g) /\ In v (nodes g).
  Proof. unfold has_edge. destruct (edge_data g u v) eqn:E; [|discriminate]. intros _. eapply edge_data_nodes; eassumption. Qed.

  Lemma common_size u v i : has_size (shared g u v) i -> common u v = Z.of_nat i.
  Proof.
    intros (l & [N E] & <-). unfold common.
    rewrite (sum_over_ext _ _ (fun t => ind (has_edge g u t && has_edge g v t))) by (intros; unfold ind; destruct (has_edge g u x), (has_edge g v x); reflexivity).
    rewrite sum_over_count. f_equal. apply Permutation_length. apply NoDup_Permutation; [apply NoDup_filter, (wf_nodes g W)|exact N|].
    intros t. rewrite filter_In, andb_true_iff, E. unfold shared. split; [tauto|]. intros H. split; [|exact H]. apply (has_edge_nodes u t), H.
  Qed.

  Lemma common_none u v : (forall t, ~ shared g u v t) -> common u v = 0%Z.
  Proof.
    intros H. unfold common. rewrite <- (sum_over_zero (nodes g)). apply sum_over_ext. intros t _.
    destruct (has_edge g u t) eqn:E1, (has_edge g v t) eqn:E2; try reflexivity. exfalso. apply (H t). split; assumption.
  Qed.

  (** number of kept neighbours *)
  Definition kept_degree (t : key) : Z := sum_over (nodes h) (fun u => ind (has_edge g u t)).

  Lemma total_common : (2 * sum_over (edges h) (fun e => common (fst e) (snd e)))%Z
    = sum_over (nodes g) (fun t => kept_degree t * (kept_degree t - 1))%Z.
  Proof.
    rewrite edges_twice; [|assumption|assumption| |].
    - transitivity (sum_over (nodes h) (fun u => sum_over (nodes h) (fun v => sum_over (nodes g) (fun t =>
        ind (negb (key_eqb v u)) * (ind (has_edge g u t) * ind (has_edge g v t)))))%Z).
      + apply sum_over_ext. intros u Iu. apply sum_over_ext. intros v Iv. cbn [fst snd].
        rewrite sum_over_scale. fold (common u v).
        destruct (key_eqb v u) eqn:E.
        * apply key_eqb_eq in E. subst v. assert (X : has_edge h u u <> true) by (rewrite Hlink; tauto).
          destruct (has_edge h u u); [congruence|]. unfold ind, negb. lia.
        * assert (N : u <> v) by (intros ->; rewrite key_eqb_refl in E; discriminate).
          destruct (has_edge h u v) eqn:Eh; [unfold ind, negb; lia|].
          rewrite (common_none u v); [unfold ind, negb; lia|]. intros t S.
          assert (X : has_edge h u v = true); [|congruence]. apply Hlink. apply Nh in Iu. apply Nh in Iv. eauto 6.
      + transitivity (sum_over (nodes g) (fun t => sum_over (nodes h) (fun u => sum_over (nodes h) (fun v =>
          ind (negb (key_eqb v u)) * (ind (has_edge g u t) * ind (has_edge g v t))%Z)))%Z).
        * rewrite (sum_over_swap (nodes g) (nodes h)). apply sum_over_ext. intros u _. apply sum_over_swap.
        * apply sum_over_ext. intros t _. apply (sum_pairs (nodes h) (fun u => has_edge g u t)). apply (wf_nodes h Wh).
    - intros u. destruct (has_edge h u u) eqn:E; [|reflexivity]. apply Hlink in E. destruct E as (_ & _ & N & _). contradiction.
    - intros u v. unfold common. cbn [fst snd]. apply sum_over_ext. intros; lia.
  Qed.

  Lemma kept_degree_size t d : ~ kept g p attr t -> has_size (fun u => has_edge g u t = true) d -> kept_degree t = Z.of_nat d.
  Proof.
    intros Nt (l & [N E] & <-). unfold kept_degree. rewrite sum_over_count. f_equal. apply Permutation_length.
    apply NoDup_Permutation; [apply NoDup_filter, (wf_nodes h Wh)|exact N|]. intros u. rewrite filter_In, E, Nh. split; [tauto|].
    intros H. split; [|exact H]. rewrite has_edge_sym in H by exact D. 
    destruct (has_edge_nodes t u H) as [_ Iu]. 
    destruct (in_dec key_eq_dec u (nodes h)) as [I|I]; [apply Nh, I|]. exfalso. apply Nt. apply (B t u H). rewrite <- Nh. exact I.
  Qed.

  Lemma kept_degree_kept t : kept g p attr t -> kept_degree t = 0%Z.
  Proof.
    intros Kt. unfold kept_degree. rewrite <- (sum_over_zero (nodes h)). apply sum_over_ext. intros u Iu. apply Nh in Iu.
    destruct (has_edge g u t) eqn:E; [|reflexivity]. exfalso. apply (B u t E); assumption.
  Qed.
End Total.
