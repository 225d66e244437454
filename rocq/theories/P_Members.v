(** * C113: a part is a set of nodes, however it is given *)
From Coq Require Import List ZArith Bool QArith.
From Verif Require Import PyBase PyNum L_Base NxGraph L_Nx S_Graph L_Graph M_Proj S_Proj L_Proj L_Proj2 P_Graph P_Proj.
Import ListNotations.
Close Scope Q_scope.

Lemma foldM_ext_In {A T} (f f' : T -> A -> res T) l : (forall s a, In a l -> f s a = f' s a) -> forall s, foldM f l s = foldM f' l s.
Proof.
  induction l as [|a l IH]; intros H s; [reflexivity|]. cbn [foldM]. rewrite H by (left; reflexivity). destruct (f' s a); cbn [bind]; [|reflexivity].
  apply IH. intros; apply H; right; assumption.
Qed.

Lemma foldM_implied {A T} (f f' : T -> A -> res T) l : (forall s a t, In a l -> f s a = Ok t -> f' s a = Ok t) ->
  forall s t, foldM f l s = Ok t -> foldM f' l s = Ok t.
Proof.
  induction l as [|a l IH]; intros H s t E; [exact E|]. cbn [foldM] in *. destruct (f s a) as [u|] eqn:F; cbn [bind] in E; [|discriminate].
  rewrite (H s a u (or_introl eq_refl) F). cbn [bind]. apply IH; [|exact E]. intros; eapply H; [right|]; eassumption.
Qed.

(** the same nodes are in two parts *)
Lemma in_part_same g p q attr n a : WF g -> usable p = true -> usable q = true -> (forall n, kept g p attr n <-> kept g q attr n) ->
  In (n, a) (g_nodes g) -> in_part p attr n a = in_part q attr n a.
Proof.
  intros W U V K I.
  assert (H : forall r, usable r = true -> (kept g r attr n <-> in_part r attr n a = true)).
  { intros r R. rewrite (kept_In g r attr n W R). split; [|intros H; exists a; split; assumption].
    intros (b & J & H). apply (dget_In _ _ _ (wf_nodes g W)) in I. apply (dget_In _ _ _ (wf_nodes g W)) in J. rewrite J in I. inversion I; subst. exact H. }
  apply eq_true_iff_eq. rewrite <- (H p U), <- (H q V). apply K.
Qed.

(** Without the check of the bipartition, parts with the same nodes give the same projection, or the same exception. *)
Theorem C113_same_nodes lib g p q attr wattr name thr : WF g -> usable p = true -> usable q = true ->
  (forall n, kept g p attr n <-> kept g q attr n) ->
  monopartite_projection lib g p attr wattr name false thr = monopartite_projection lib g q attr wattr name false thr.
Proof.
  intros W U V K. unfold monopartite_projection. destruct (instantiate_online_metric name) as [m|]; cbn [bind]; [|reflexivity].
  destruct (check_threshold thr) as [t|]; cbn [bind]; [|reflexivity]. destruct (Nat.eqb (order g) 0); [reflexivity|].
  rewrite (foldM_ext_In (norms_step lib m g p attr wattr false) (norms_step lib m g q attr wattr false)); [reflexivity|].
  intros [[norms h] ex] [n a] I. unfold norms_step. cbn [fst snd]. rewrite (in_part_same g p q attr n a W U V K I). reflexivity.
Qed.
Print Assumptions C113_same_nodes.

(** The check of the bipartition only raises: a projection which passes it is the one made without it. *)
Theorem C113_check lib g p attr wattr name thr h : monopartite_projection lib g p attr wattr name true thr = Ok h ->
  monopartite_projection lib g p attr wattr name false thr = Ok h.
Proof.
  unfold monopartite_projection. destruct (instantiate_online_metric name) as [m|]; cbn [bind]; [|discriminate].
  destruct (check_threshold thr) as [t|]; cbn [bind]; [|discriminate]. destruct (Nat.eqb (order g) 0); [exact (fun E => E)|].
  intros E. destruct (foldM (norms_step lib m g p attr wattr true) _ _) as [s|] eqn:F; cbn [bind] in E; [|discriminate].
  rewrite (foldM_implied (norms_step lib m g p attr wattr true) (norms_step lib m g p attr wattr false) (g_nodes g)) with (t := s); [exact E| |exact F].
  intros [[norms h'] ex] [n a] u I. unfold norms_step. cbn [fst snd]. destruct (in_part p attr n a); [|exact (fun H => H)].
  intros H. destruct (accumulated lib m g p attr wattr true n) as [acc|] eqn:A; cbn [bind] in H; [|discriminate].
  replace (accumulated lib m g p attr wattr false n) with (Ok acc); [exact H|]. symmetry. unfold accumulated in *.
  eapply foldM_implied; [|exact A]. intros x [k b] y _ G. cbn [fst snd andb] in *. destruct (same_part p attr k b); [discriminate|exact G].
Qed.
Print Assumptions C113_check.

(** Hence two calls which return, with or without the check, and whose parts have the same nodes return the same graph. *)
Theorem C113_same_projection lib g p q attr wattr name thr (c d : bool) h k : WF g -> usable p = true -> usable q = true ->
  (forall n, kept g p attr n <-> kept g q attr n) ->
  monopartite_projection lib g p attr wattr name c thr = Ok h -> monopartite_projection lib g q attr wattr name d thr = Ok k -> h = k.
Proof.
  intros W U V K E F.
  assert (E' : monopartite_projection lib g p attr wattr name false thr = Ok h) by (destruct c; [apply C113_check|]; exact E).
  assert (F' : monopartite_projection lib g q attr wattr name false thr = Ok k) by (destruct d; [apply C113_check|]; exact F).
  rewrite (C113_same_nodes lib g p q attr wattr name thr W U V K), F' in E'. inversion E'. reflexivity.
Qed.
Print Assumptions C113_same_projection.

(** A collection only counts through its members: order and repetitions, hence making a set of it, change nothing, even with the check. *)
Theorem C113_members lib g l l' attr wattr name (chk : bool) thr : (forall n, In n l <-> In n l') ->
  monopartite_projection lib g (ByCollection false l) attr wattr name chk thr = monopartite_projection lib g (ByCollection false l') attr wattr name chk thr.
Proof.
  intros H. assert (M : forall n, mem n l = mem n l') by (intros n; apply eq_true_iff_eq; rewrite !mem_In; apply H).
  unfold monopartite_projection. destruct (instantiate_online_metric name) as [m|]; cbn [bind]; [|reflexivity].
  destruct (check_threshold thr) as [t|]; cbn [bind]; [|reflexivity]. destruct (Nat.eqb (order g) 0); [reflexivity|].
  rewrite (foldM_ext_In (norms_step lib m g (ByCollection false l) attr wattr chk) (norms_step lib m g (ByCollection false l') attr wattr chk)); [reflexivity|].
  intros [[norms h] ex] [n a] _. unfold norms_step. cbn [fst snd in_part]. rewrite M.
  replace (accumulated lib m g (ByCollection false l) attr wattr chk n) with (accumulated lib m g (ByCollection false l') attr wattr chk n); [reflexivity|].
  unfold accumulated. apply foldM_ext_In. intros s [k b] _. cbn [fst snd same_part]. rewrite M. reflexivity.
Qed.
Print Assumptions C113_members.

(** The accounts by the value of their attribute, and by their list, in another order and with a repetition. *)
Example C113_ex :
  let listed := ByCollection false (map KInt [7; 3; 2; 2; 1; 0]%Z) in
  let project p chk := monopartite_projection rounded colors p (K "part") (K "weight") VNone chk VNone in
  project accounts true = project listed true
  /\ project accounts false = project listed false
  /\ option_map snd (shown (project listed true))
     = Some [(KInt 0, KInt 2, wz 2); (KInt 0, KInt 1, wz 1); (KInt 1, KInt 2, wz 1); (KInt 1, KInt 3, wz 1)]%Z.
Proof. vm_compute. repeat split; reflexivity. Qed.

(** With the check, an edge between two accounts is refused when they are listed, and not when they are given by the value of their attribute (see C47). *)
Example C113_check_ex :
  let g := add_edge colors (KInt 0) (KInt 3) [] in
  let project p chk := monopartite_projection rounded g p (K "part") (K "weight") VNone chk VNone in
  let listed := ByCollection false (map KInt [0; 1; 2; 3; 7]%Z) in
  project listed true = Err TypeError /\ project listed false = project accounts true.
Proof. vm_compute. repeat split; reflexivity. Qed.
