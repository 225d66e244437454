(** * C91: predicates which raise *)
From Coq Require Import List ZArith QArith Bool.
From Verif Require Import PyBase PyNum NxGraph L_Base L_Nx L_Nx2 M_UnionFind M_Umst M_Graph S_Graph L_Graph M_Sparse S_Sparse L_Sparse L_Fail P_Graph P_Sparse.
Import ListNotations.
Close Scope Q_scope.

(** ** what is removed in place: all or nothing *)
Theorem C91_remove_edges g (f : edge_predicate) g' e : remove_edges f g = (g', Err e)
  <-> g' = g /\ fails_first (fun x => f (fst (fst x)) (snd (fst x)) (snd x)) (edges_data g) e.
Proof.
  rewrite (fails_iff _ (fun x : key * key * attrs => let '(u, v, a) := x in notM (f u v a))).
  2: { intros [[u v] a] e'. cbn [fst snd]. rewrite notM_Err. reflexivity. }
  rewrite <- filterM_fails. unfold remove_edges, sbind, sread, smodify.
  destruct (filterM _ (edges_data g)) as [l|x]; cbn [bind]; (split; [intros E; inversion E; subst; auto|]); intros [-> E]; [discriminate|]; inversion E; reflexivity.
Qed.
Print Assumptions C91_remove_edges.

Theorem C91_remove_nodes g (f : node_predicate) g' e : remove_nodes f g = (g', Err e)
  <-> g' = g /\ fails_first (fun x => f (fst x) (snd x)) (g_nodes g) e.
Proof.
  rewrite (fails_iff _ (fun x : key * attrs => notM (f (fst x) (snd x)))).
  2: { intros [u a] e'. cbn [fst snd]. rewrite notM_Err. reflexivity. }
  rewrite <- filterM_fails. unfold remove_nodes, sbind, sread, smodify.
  destruct (filterM _ (g_nodes g)) as [l|x]; cbn [bind]; (split; [intros E; inversion E; subst; auto|]); intros [-> E]; [discriminate|]; inversion E; reflexivity.
Qed.
Print Assumptions C91_remove_nodes.

(** any sparsifier, made from a predicate or from generators *)
Theorem C91_sparsifier_remove sp g g' e : sparsifier_remove sp g = (g', Err e) -> g' = g.
Proof.
  unfold sparsifier_remove, sbind, sread. destruct (redundant_edges sp g); [|intros E; inversion E; reflexivity].
  destruct (g_multi g); [destruct (existsb _ _)|]; intros E; inversion E; reflexivity.
Qed.
Print Assumptions C91_sparsifier_remove.

(** from a predicate: the exception of the factory, or the first one of the predicate *)
Theorem C91_sparsifier_raises lib pf f keep_connected sp g g' e : make_sparsifier lib pf (Some f) None None keep_connected = Ok sp -> g_multi g = false ->
  sparsifier_remove sp g = (g', Err e)
  <-> g' = g /\ (sp_predicate sp g = Err e
                 \/ exists p, sp_predicate sp g = Ok p /\ fails_first (fun x => p (fst (fst x)) (snd (fst x)) (snd x)) (edges_data g) e).
Proof.
  intros E M. apply make_predicate in E. subst sp. set (sp := mkSP _ None None). unfold sparsifier_remove, sbind, sread.
  assert (R : redundant_edges sp g = let* p := sp_predicate sp g in filterM (fun e => let '(u, v, a) := e in notM (p u v a)) (edges_data g)) by reflexivity.
  rewrite R, M. destruct (sp_predicate sp g) as [p|x]; cbn [bind].
  - assert (F : forall x, filterM (fun e => let '(u, v, a) := e in notM (p u v a)) (edges_data g) = Err x
       <-> fails_first (fun x => p (fst (fst x)) (snd (fst x)) (snd x)) (edges_data g) x).
    { intros x. rewrite filterM_fails. apply fails_iff. intros [[u v] a] e'. cbn [fst snd]. apply notM_Err. }
    destruct (filterM _ _) as [l|x].
    + split; [intros E; discriminate|]. intros [_ [E|(q & Eq & E)]]; [discriminate|]. inversion Eq; subst q. apply F in E. discriminate.
    + split.
      * intros E. inversion E; subst. split; [reflexivity|]. right. exists p. split; [reflexivity|]. apply F. reflexivity.
      * intros [-> [E|(q & Eq & E)]]; [discriminate|]. inversion Eq; subst q. apply F in E. congruence.
  - split; [intros E; inversion E; subst; auto|]. intros [-> [E|(q & Eq & _)]]; [congruence|discriminate].
Qed.
Print Assumptions C91_sparsifier_raises.

(** ** copies *)
Theorem C91_filter_edges g (f : edge_predicate) e : edge_names g ->
  filter_edges g f = Err e <-> fails_first (fun x => f (fst (fst x)) (snd (fst x)) (snd x)) (edges_data g) e.
Proof. intros EN. unfold filter_edges. apply (filter_fold_fails g f e (edges_data g) EN (incl_refl _)). reflexivity. Qed.
Print Assumptions C91_filter_edges.

(** ** flags: the edges before the one on which the predicate raises are flagged, the others are not *)
Theorem C91_flags lib pf f keep_connected sp g p attr l1 u v k a l2 e : make_sparsifier lib pf (Some f) None None keep_connected = Ok sp -> WF g ->
  sp_predicate sp g = Ok p -> edges_keys g = l1 ++ (u, v, k, a) :: l2 ->
  (forall x y j b, In (x, y, j, b) l1 -> exists r, p x y b = Ok r) -> p u v a = Err e ->
  (exists g', flag_relevant_edges sp attr false g = (g', Err e) /\ WF g'
     /\ flagged_among attr (fun u v a => match p u v a with Ok true => Some true | _ => None end) g g' l1)
  /\ (exists g', flag_relevant_edges sp attr true g = (g', Err e) /\ WF g'
     /\ flagged_among attr (fun u v a => match p u v a with Ok b => Some b | _ => None end) g g' l1)
  /\ (exists g', flag_redundant_edges sp attr false g = (g', Err e) /\ WF g'
     /\ flagged_among attr (fun u v a => match p u v a with Ok false => Some true | _ => None end) g g' l1)
  /\ (exists g', flag_redundant_edges sp attr true g = (g', Err e) /\ WF g'
     /\ flagged_among attr (fun u v a => match p u v a with Ok b => Some (negb b) | _ => None end) g g' l1).
Proof.
  intros E W P EK T F. apply make_predicate in E. subst sp. set (sp := mkSP _ None None) in *.
  assert (G : forall flag want, (forall u v a, match p u v a with Ok b => flag b | Err _ => None end = want u v a) ->
    exists g', flag_with sp attr flag g = (g', Err e) /\ WF g' /\ flagged_among attr want g g' l1).
  { intros flag want H. destruct (flag_with_fails sp p attr flag g l1 u v k a l2 e W P EK T F) as (g' & E' & W' & A1 & A2 & A3 & A4).
    exists g'. split; [exact E'|]. split; [exact W'|]. split; [exact A1|]. split; [exact A2|]. split; [|exact A4].
    intros x y j b I. destruct (A3 x y j b I) as (a' & Ea & Ha). exists a'. split; [exact Ea|]. intros name. rewrite Ha, H. reflexivity. }
  split; [|split; [|split]].
  - apply (G (fun b => if b then Some true else None)). intros x y b. destruct (p x y b) as [[|]|]; reflexivity.
  - apply (G (fun b => Some b)). intros x y b. destruct (p x y b) as [[|]|]; reflexivity.
  - apply (G (fun b => if b then None else Some true)). intros x y b. destruct (p x y b) as [[|]|]; reflexivity.
  - apply (G (fun b => Some (negb b))). intros x y b. destruct (p x y b) as [[|]|]; reflexivity.
Qed.
Print Assumptions C91_flags.

(** the second edge has no weight *)
Definition gap : graph := ex_graph false false [] [(0, 1, weight 5); (1, 2, []); (2, 3, weight 1)]%Z.
Example C91_ex :
  let f := threshold_predicate 2 (K "weight") false in
  wf gap = true /\ edge_names gap /\ fails_first (fun x => f (fst (fst x)) (snd (fst x)) (snd x)) (edges_data gap) KeyError
  /\ remove_edges f gap = (gap, Err KeyError) /\ filter_edges gap f = Err KeyError
  /\ remove_nodes (fun n _ => if key_eqb n (KInt 2) then Err KeyError else Ok false) gap = (gap, Err KeyError)
  /\ match global_threshold_sparsifier lib64 Long64 2 (K "weight") false false with
     | Ok sp => sparsifier_remove sp gap = (gap, Err KeyError)
                /\ map snd (edges_data (fst (flag_redundant_edges sp (K "x") true gap))) = [weight 5 ++ [(K "x", VBool false)]; []; weight 1]
     | Err _ => False end.
Proof.
  cbv zeta. split; [vm_compute; reflexivity|]. split; [|split; [|vm_compute; auto 10]].
  - intros u v a k I Ik. vm_compute in I. destruct I as [I|[I|[I|[]]]]; inversion I; subst; cbn in Ik; try contradiction; destruct Ik as [<-|[]];
      (split; [eexists; reflexivity|]); (split; [|discriminate]); vm_compute; intuition discriminate.
  - exists [(KInt 0, KInt 1, weight 5)], (KInt 1, KInt 2, []), [(KInt 2, KInt 3, weight 1)]. split; [vm_compute; reflexivity|].
    split; [|reflexivity]. intros y [<-|[]]. eexists. vm_compute. reflexivity.
Qed.
