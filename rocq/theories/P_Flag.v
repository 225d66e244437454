(** * C34 for sparsifiers built from generators *)
From Coq Require Import List ZArith Bool QArith.
From Verif Require Import PyBase PyNum S_Num NxGraph L_Base L_Nx L_Nx2 M_UnionFind M_Graph M_Umst S_Graph L_Graph L_Graph2 L_Graph3 M_Sparse S_Sparse L_Sparse L_Tab P_Graph P_Sparse P_Proj.
Import ListNotations.
Close Scope Q_scope.

Definition flag_step (attr : key) (g : graph) (e : edge3) : graph := map_edge g (fst (fst e)) (snd (fst e)) (KInt 0) (dset attr (VBool true)).

Lemma edges_keys_simple g e : WF g -> g_multi g = false -> In e (edges_keys g) -> snd (fst e) = KInt 0.
Proof.
  destruct e as [[[u v] k] a]. intros W M I. cbn. apply edges_keys_attrs in I; [|exact W]. eapply edge_attrs_simple_key; eassumption.
Qed.

Lemma flag_steps attr l : forall g, WF g -> g_multi g = false ->
  WF (fold_left (flag_step attr) l g) /\ same_but_edges g (fold_left (flag_step attr) l g)
  /\ edges_keys (fold_left (flag_step attr) l g) = map (flag_edge attr (fun u v _ => if mentionedb g l u v then Some true else None)) (edges_keys g).
Proof.
  induction l as [|[[x y] b] l IH]; intros g W M; cbn [fold_left].
  - split; [exact W|]. split; [apply same_but_edges_refl|]. symmetry. rewrite <- (map_id (edges_keys g)) at 2. apply map_ext. intros e. reflexivity.
  - assert (W' : WF (flag_step attr g (x, y, b))) by (apply WF_map_edge; [exact W|]; intros a; apply NoDup_dset).
    destruct (IH (flag_step attr g (x, y, b)) W' M) as (Wl & Sl & Kl).
    split; [exact Wl|]. split; [exact Sl|]. rewrite Kl. unfold flag_step at 2. cbn [fst snd]. rewrite edges_keys_map_edge, map_map.
    apply map_ext_in. intros e I. pose proof (edges_keys_simple g e W M I) as K0. destruct e as [[[u v] k] a]. cbn in K0. subst k.
    unfold flag_edge, same_edge. cbn [fst snd]. rewrite key_eqb_refl, andb_true_r.
    change (mentionedb g ((x, y, b) :: l) u v) with (jn (g_dir g) x y u v || mentionedb g l u v).
    destruct (jn (g_dir g) x y u v) eqn:J; cbn [orb fst snd]; change (mentionedb (flag_step attr g (x, y, b)) l u v) with (mentionedb g l u v).
    + destruct (mentionedb g l u v); [rewrite dset_dset|]; reflexivity.
    + reflexivity.
Qed.

Lemma flag_given_spec attr l g : WF g -> g_multi g = false ->
  exists g', flag_given attr l g = (g', Ok tt) /\ flagged attr (fun u v _ => if mentionedb g l u v then Some true else None) g g'.
Proof.
  intros W M. destruct (flag_steps attr l g W M) as (W' & S & K). eexists. split; [reflexivity|]. split; [exact S|]. split.
  - change (map fst (edges_keys (fold_left (flag_step attr) l g)) = map fst (edges_keys g)). rewrite K, map_map. apply map_ext. intros; apply flag_edge_fst.
  - intros u v k a I. set (want := fun u v (_ : attrs) => if mentionedb g l u v then Some true else None) in *.
    exists (snd (flag_edge attr want (u, v, k, a))). split.
    + apply edges_keys_attrs; [exact W'|]. change (In (u, v, k, snd (flag_edge attr want (u, v, k, a))) (edges_keys (fold_left (flag_step attr) l g))).
      rewrite K. apply in_map_iff. exists (u, v, k, a). split; [|exact I]. unfold flag_edge. cbn [fst snd]. destruct (want u v a); reflexivity.
    + intros name. unfold flag_edge, want. cbn [fst snd]. destruct (mentionedb g l u v); cbn [snd].
      * rewrite dget_dset. destruct (key_eqb name attr); reflexivity.
      * destruct (key_eqb name attr); reflexivity.
Qed.

(** what is wanted, stated with [mentioned] *)
Lemma flagged_ext attr w w' g g' : (forall u v a, w u v a = w' u v a) -> flagged attr w g g' -> flagged attr w' g g'.
Proof.
  intros E (S & F & H). split; [exact S|]. split; [exact F|]. intros u v k a I. destruct (H u v k a I) as (a' & A & N). exists a'. split; [exact A|].
  intros name. rewrite N, E. reflexivity.
Qed.

(** The flags set by a sparsifier made from a generator of relevant edges: [r] tells which edges are generated, in either direction
    when the graph is not directed. *)
Theorem C34_relevant_generator lib pf gen sp g l attr (r : key -> key -> bool) :
  make_sparsifier lib pf None (Some gen) None false = Ok sp ->
  WF g -> g_multi g = false -> comparable (nodes g) ->
  gen g = Ok l -> (forall u v a, In (u, v, a) l -> has_edge g u v = true) -> (forall u v, r u v = true <-> mentioned g l u v) ->
  (exists h, flag_relevant_edges sp attr false g = (h, Ok tt) /\ flagged attr (fun u v _ => if r u v then Some true else None) g h)
  /\ (exists h, flag_relevant_edges sp attr true g = (h, Ok tt) /\ flagged attr (fun u v _ => Some (r u v)) g h)
  /\ (exists h, flag_redundant_edges sp attr false g = (h, Ok tt) /\ flagged attr (fun u v _ => if r u v then None else Some true) g h)
  /\ (exists h, flag_redundant_edges sp attr true g = (h, Ok tt) /\ flagged attr (fun u v _ => Some (negb (r u v))) g h).
Proof.
  intros E W M C G L R. unfold make_sparsifier in E. inversion E; subst sp. clear E.
  destruct (from_relevant_test g W C l L gen G) as (p & P & T).
  assert (Q : forall u v, mentionedb g l u v = r u v) by (intros u v; apply eq_true_iff_eq; rewrite mentionedb_iff, R; reflexivity).
  unfold flag_relevant_edges, flag_redundant_edges. cbn [sp_relevant sp_redundant].
  split; [|split; [|split]].
  - unfold sbind, sread. rewrite G. destruct (flag_given_spec attr l g W M) as (h & F & H). exists h. split; [exact F|].
    revert H. apply flagged_ext. intros u v _. rewrite Q. reflexivity.
  - destruct (flag_with_spec (mkSP (Some (from_relevant gen)) (Some gen) None) p _ attr (fun b => Some b) g W P T) as (h & F & _ & H). exists h. split; [exact F|].
    revert H. apply flagged_ext. intros u v _. rewrite Q. reflexivity.
  - destruct (flag_with_spec (mkSP (Some (from_relevant gen)) (Some gen) None) p _ attr (fun b => if b then None else Some true) g W P T) as (h & F & _ & H). exists h. split; [exact F|].
    revert H. apply flagged_ext. intros u v _. rewrite Q. reflexivity.
  - destruct (flag_with_spec (mkSP (Some (from_relevant gen)) (Some gen) None) p _ attr (fun b => Some (negb b)) g W P T) as (h & F & _ & H). exists h. split; [exact F|].
    revert H. apply flagged_ext. intros u v _. rewrite Q. reflexivity.
Qed.
Print Assumptions C34_relevant_generator.

(** the same with a generator of redundant edges *)
Theorem C34_redundant_generator lib pf gen sp g l attr (r : key -> key -> bool) :
  make_sparsifier lib pf None None (Some gen) false = Ok sp ->
  WF g -> g_multi g = false -> comparable (nodes g) ->
  gen g = Ok l -> (forall u v a, In (u, v, a) l -> has_edge g u v = true) -> (forall u v, r u v = true <-> mentioned g l u v) ->
  (exists h, flag_relevant_edges sp attr false g = (h, Ok tt) /\ flagged attr (fun u v _ => if r u v then None else Some true) g h)
  /\ (exists h, flag_relevant_edges sp attr true g = (h, Ok tt) /\ flagged attr (fun u v _ => Some (negb (r u v))) g h)
  /\ (exists h, flag_redundant_edges sp attr false g = (h, Ok tt) /\ flagged attr (fun u v _ => if r u v then Some true else None) g h)
  /\ (exists h, flag_redundant_edges sp attr true g = (h, Ok tt) /\ flagged attr (fun u v _ => Some (r u v)) g h).
Proof.
  intros E W M C G L R. unfold make_sparsifier in E. inversion E; subst sp. clear E.
  destruct (from_redundant_test g W C l L gen G) as (p & P & T).
  assert (Q : forall u v, mentionedb g l u v = r u v) by (intros u v; apply eq_true_iff_eq; rewrite mentionedb_iff, R; reflexivity).
  unfold flag_relevant_edges, flag_redundant_edges. cbn [sp_relevant sp_redundant].
  split; [|split; [|split]].
  - destruct (flag_with_spec (mkSP (Some (from_redundant gen)) None (Some gen)) p _ attr (fun b => if b then Some true else None) g W P T) as (h & F & _ & H). exists h. split; [exact F|].
    revert H. apply flagged_ext. intros u v _. rewrite Q. destruct (r u v); reflexivity.
  - destruct (flag_with_spec (mkSP (Some (from_redundant gen)) None (Some gen)) p _ attr (fun b => Some b) g W P T) as (h & F & _ & H). exists h. split; [exact F|].
    revert H. apply flagged_ext. intros u v _. rewrite Q. reflexivity.
  - unfold sbind, sread. rewrite G. destruct (flag_given_spec attr l g W M) as (h & F & H). exists h. split; [exact F|].
    revert H. apply flagged_ext. intros u v _. rewrite Q. reflexivity.
  - destruct (flag_with_spec (mkSP (Some (from_redundant gen)) None (Some gen)) p _ attr (fun b => Some (negb b)) g W P T) as (h & F & _ & H). exists h. split; [exact F|].
    revert H. apply flagged_ext. intros u v _. rewrite Q, negb_involutive. reflexivity.
Qed.
Print Assumptions C34_redundant_generator.

(** With both generators and no predicate, edges are those of the generators, whatever [keep_connected], and flagging all edges raises. *)
Theorem C35_both_generators lib pf rel red keep sp g :
  make_sparsifier lib pf None (Some rel) (Some red) keep = Ok sp ->
  relevant_edges sp g = rel g /\ redundant_edges sp g = red g
  /\ forall attr, flag_relevant_edges sp attr true g = (g, Err TypeError) /\ flag_redundant_edges sp attr true g = (g, Err TypeError).
Proof.
  intros E. unfold make_sparsifier in E. inversion E; subst sp. split; [reflexivity|]. split; [reflexivity|]. intros attr. destruct keep; split; reflexivity.
Qed.
Print Assumptions C35_both_generators.

(** and the flags of the edges of each are set otherwise *)
Theorem C34_both_generators lib pf rel red keep sp g l m attr (r s : key -> key -> bool) :
  make_sparsifier lib pf None (Some rel) (Some red) keep = Ok sp -> WF g -> g_multi g = false -> rel g = Ok l -> red g = Ok m ->
  (forall u v, r u v = true <-> mentioned g l u v) -> (forall u v, s u v = true <-> mentioned g m u v) ->
  (exists h, flag_relevant_edges sp attr false g = (h, Ok tt) /\ flagged attr (fun u v _ => if r u v then Some true else None) g h)
  /\ (exists h, flag_redundant_edges sp attr false g = (h, Ok tt) /\ flagged attr (fun u v _ => if s u v then Some true else None) g h).
Proof.
  intros E W M G H R S. unfold make_sparsifier in E. inversion E; subst sp. clear E.
  assert (Q : forall u v, mentionedb g l u v = r u v) by (intros u v; apply eq_true_iff_eq; rewrite mentionedb_iff, R; reflexivity).
  assert (Q' : forall u v, mentionedb g m u v = s u v) by (intros u v; apply eq_true_iff_eq; rewrite mentionedb_iff, S; reflexivity).
  unfold flag_relevant_edges, flag_redundant_edges. cbn [sp_relevant sp_redundant]. unfold sbind, sread. rewrite G, H. split.
  - destruct (flag_given_spec attr l g W M) as (h & F & X). exists h. split; [exact F|]. revert X. apply flagged_ext. intros u v _. rewrite Q. reflexivity.
  - destruct (flag_given_spec attr m g W M) as (h & F & X). exists h. split; [exact F|]. revert X. apply flagged_ext. intros u v _. rewrite Q'. reflexivity.
Qed.
Print Assumptions C34_both_generators.

(** a sparsifier needs something *)
Theorem C35_nothing lib pf f rel red keep : make_sparsifier lib pf f rel red keep = Err TypeError <-> f = None /\ rel = None /\ red = None.
Proof. unfold make_sparsifier. destruct f, rel, red; split; intros H; try discriminate H; try (destruct H as (A & B & C); discriminate); auto. Qed.
Print Assumptions C35_nothing.

(** edges 0-1 (given as 1-0) and 2-3 of the path with chords of P_Sparse *)
Example C34_ex_generators :
  let gen : generator := fun g => Ok [(KInt 1, KInt 0, []); (KInt 2, KInt 3, [])] in
  match make_sparsifier lib64 Long64 None (Some gen) None false, make_sparsifier lib64 Long64 None None (Some gen) false with
  | Ok sp, Ok sp' =>
      let shows h := map (fun e => (fst e, dget (K "x") (snd e))) (edges_data (fst h)) in
      (shows (flag_relevant_edges sp (K "x") false simple_pairs), shows (flag_relevant_edges sp' (K "x") true simple_pairs))
  | _, _ => ([], []) end
  = ([(KInt 0, KInt 1, Some (VBool true)); (KInt 0, KInt 2, None); (KInt 1, KInt 2, None); (KInt 2, KInt 2, None); (KInt 2, KInt 3, Some (VBool true))],
     [(KInt 0, KInt 1, Some (VBool false)); (KInt 0, KInt 2, Some (VBool true)); (KInt 1, KInt 2, Some (VBool true)); (KInt 2, KInt 2, Some (VBool true)); (KInt 2, KInt 3, Some (VBool false))]).
Proof. vm_compute. reflexivity. Qed.
