(** * Predicates which raise *)
From Coq Require Import List Bool.
From Verif Require Import PyBase NxGraph L_Base L_Nx L_Nx2 M_Graph S_Graph L_Graph M_Sparse S_Sparse L_Sparse.
Import ListNotations.

Lemma fails_cons {A B} (f : A -> res B) a l e :
  fails_first f (a :: l) e <-> f a = Err e \/ (exists b, f a = Ok b) /\ fails_first f l e.
Proof.
  split.
  - intros (l1 & x & l2 & E & O & F). destruct l1 as [|y l1]; inversion E; subst; [left; exact F|].
    right. split; [apply O; left; reflexivity|]. exists l1, x, l2. split; [reflexivity|]. split; [intros; apply O; right; assumption|exact F].
  - intros [F|[(b & Ea) (l1 & x & l2 & E & O & F)]].
    + exists [], a, l. split; [reflexivity|]. split; [intros y []|exact F].
    + exists (a :: l1), x, l2. split; [subst; reflexivity|]. split; [|exact F]. intros y [<-|I]; [eauto|auto].
Qed.

Lemma fails_nil {A B} (f : A -> res B) e : ~ fails_first f [] e.
Proof. intros (l1 & x & l2 & E & _). destruct l1; discriminate. Qed.

Lemma fails_iff {A B C} (f : A -> res B) (f' : A -> res C) l e : (forall a e, f a = Err e <-> f' a = Err e) -> fails_first f l e <-> fails_first f' l e.
Proof.
  intros H. assert (K : forall a, (exists b, f a = Ok b) <-> exists b, f' a = Ok b).
  { intros a. destruct (f a) as [b|x] eqn:E, (f' a) as [c|y] eqn:E'; split; intros (z & Z); try discriminate; eauto.
    - apply H in E'. congruence.
    - apply H in E. congruence. }
  induction l as [|a l IH]; [split; intros F; apply fails_nil in F; contradiction|]. rewrite !fails_cons, IH, H, K. reflexivity.
Qed.

Lemma fails_map {A B C} (h : A -> B) (f : B -> res C) l e : fails_first f (map h l) e <-> fails_first (fun a => f (h a)) l e.
Proof.
  induction l as [|a l IH]; [split; intros F; apply fails_nil in F; contradiction|]. cbn [map]. rewrite !fails_cons, IH. reflexivity.
Qed.

Lemma filterM_fails {A} (f : A -> res bool) l e : filterM f l = Err e <-> fails_first f l e.
Proof.
  induction l as [|a l IH]; [split; [discriminate|intros F; apply fails_nil in F; contradiction]|]. cbn [filterM]. rewrite fails_cons.
  destruct (f a) as [b|x] eqn:E; cbn [bind].
  - destruct (filterM f l) as [l'|y]; cbn [bind].
    + split; [discriminate|]. intros [F|[_ F]]; [discriminate|]. apply IH in F. discriminate.
    + split; [intros F; inversion F; subst; right; split; [eauto|apply IH; reflexivity]|]. intros [F|[_ F]]; [discriminate|]. apply IH in F. congruence.
  - split; [intros F; inversion F; left; reflexivity|]. intros [F|[(b & F) _]]; [congruence|discriminate].
Qed.

Lemma notM_Err r e : notM r = Err e <-> r = Err e.
Proof. unfold notM. destruct r; cbn; split; intros H; congruence. Qed.

Lemma flag_with_fails sp p attr flag g l1 u v k a l2 e : WF g -> sp_predicate sp g = Ok p ->
  edges_keys g = l1 ++ (u, v, k, a) :: l2 -> (forall x y j b, In (x, y, j, b) l1 -> exists r, p x y b = Ok r) -> p u v a = Err e ->
  exists g', flag_with sp attr flag g = (g', Err e) /\ WF g'
    /\ flagged_among attr (fun u v a => match p u v a with Ok b => flag b | Err _ => None end) g g' l1.
Proof.
  intros W P E T F. set (t := fun u v a => match p u v a with Ok b => b | Err _ => false end).
  unfold flag_with, sbind, sread. rewrite P. rewrite E.
  destruct (flag_loop_app p t attr flag g ((u, v, k, a) :: l2) W l1) with (l1 := @nil (key * key * key * attrs)) (h := g) as (g' & EL & W' & S & K);
    [| exact E | exact W | apply same_but_edges_refl | exact E |].
  - intros x y j b I. unfold t. destruct (T x y j b I) as (r & ->). reflexivity.
  - rewrite EL. cbn [flag_loop]. unfold sbind at 1, sread at 1. rewrite F. exists g'. split; [reflexivity|]. split; [exact W'|].
    cbn [app] in K. split; [exact S|]. split; [|split].
    + rewrite K, E, !map_app, map_map. f_equal. apply map_ext. intros; apply flag_edge_fst.
    + intros x y j b I. exists (snd (flag_edge attr (fun u v a => flag (t u v a)) (x, y, j, b))). split.
      * apply edges_keys_attrs; [exact W'|]. rewrite K. apply in_or_app. left. apply in_map_iff. exists (x, y, j, b). split; [|exact I].
        unfold flag_edge. cbn. destruct (flag (t x y b)); reflexivity.
      * intros name. unfold flag_edge. cbn. unfold t. destruct (T x y j b I) as (r & ->). destruct (flag r); cbn [snd].
        -- rewrite dget_dset. destruct (key_eqb name attr); reflexivity.
        -- destruct (key_eqb name attr); reflexivity.
    + intros x Ix Nx. rewrite K. apply in_or_app. right. rewrite E in Ix. apply in_app_iff in Ix. tauto.
Qed.

Lemma filter_fold_fails g (f : edge_predicate) e l : edge_names g -> incl l (edges_data g) -> forall h, g_multi h = g_multi g ->
  foldM (fun copy x => let '(u, v, a) := x in let* b := f u v a in if b then add_edge_kw copy u v a else Ok copy) l h = Err e
  <-> fails_first (fun x : key * key * attrs => f (fst (fst x)) (snd (fst x)) (snd x)) l e.
Proof.
  intros EN. induction l as [|[[u v] a] l IH]; intros I h M; [split; [discriminate|intros F; apply fails_nil in F; contradiction]|].
  cbn [foldM]. rewrite fails_cons. cbn [fst snd]. destruct (f u v a) as [b|x] eqn:E; cbn [bind].
  - assert (S : exists h', (if b then add_edge_kw h u v a else Ok h) = Ok h' /\ g_multi h' = g_multi g).
    { destruct b; [|eauto]. rewrite add_edge_kw_Ok; [|rewrite M; eapply edge_names_data; [exact EN|apply I; left; reflexivity]].
      eexists. split; [reflexivity|]. rewrite multi_add_edge. exact M. }
    destruct S as (h' & -> & M'). cbn [bind]. rewrite (IH (fun x J => I x (or_intror J)) h' M').
    split; [intros F; right; split; eauto|]. intros [F|[_ F]]; [discriminate|exact F].
  - split; [intros F; inversion F; left; reflexivity|]. intros [F|[(b & F) _]]; [congruence|discriminate].
Qed.
