(** * What a projection which returns says of its graph *)
From Coq Require Import List ZArith QArith Lia Bool.
From Verif Require Import PyBase PyNum S_Num NxGraph L_Base L_Nx L_Nx2 L_Graph L_Graph2 M_Proj S_Partition L_Partition S_Proj L_Proj L_Proj2 L_Proj3 L_Proj4 L_Proj5 L_Proj9.
Import ListNotations.
Close Scope Q_scope.

Section Ran.
Variables (lib : libm) (g : graph) (p : part) (attr wattr : key) (chk : bool) (m : metric).
Hypothesis W : WF g.
Hypothesis M : g_multi g = false.
Hypothesis U : usable p = true.

Lemma returned name h : In (name, m) metric_names -> order g <> 0 ->
  monopartite_projection lib g p attr wattr name chk VNone = Ok h ->
  part_names g p attr
  /\ (chk = true -> unmarked g p attr)
  /\ forall u v t, kept g p attr u -> keep lib g wattr m u = true -> between g u v t -> u <> v -> exists b, key_lt u v = Ok b.
Proof.
  intros Hn O E. split; [|split].
  - intros n a k En Kn Ik Nk. unfold monopartite_projection in E. apply bind_Ok in E as (m' & Em & E). apply bind_Ok in E as (th & _ & E).
    apply Nat.eqb_neq in O. rewrite O in E. apply bind_Ok in E as ([[norms h0] ex] & E1 & E).
    destruct (foldM_ran _ _ (n, a) _ _ E1) as ([[s1 s2] s3] & s' & Es); [apply dget_Some_In; exact En|].
    unfold norms_step in Es. cbn [fst snd] in Es. apply in_part_keeps in Kn; [|exact U]. rewrite Kn in Es.
    apply bind_Ok in Es as (acc & _ & Es). apply bind_Ok in Es as (h1 & Es & _). unfold add_node_kw in Es.
    destruct (kwargs_ok node_reserved (dremove [attr] a)) eqn:KW; [|discriminate]. apply kwargs_ok_iff with (k := k) in KW; [exact KW|].
    apply In_dkeys in Ik as (v & Ik). apply In_dkeys. exists v. apply filter_In. split; [exact Ik|]. cbn.
    destruct (key_eqb k attr) eqn:Ek; [apply key_eqb_eq in Ek; contradiction|reflexivity].
  - intros Hc v -> u t a Ku Ea Ke. rewrite Hc in E. rewrite (marked_edge_raises lib g v attr wattr name VNone u t a W M Ku Ea Ke) in E. discriminate.
  - intros u v t Ku Kp [B1 B2] NE. apply names_metric in Hn. unfold monopartite_projection in E. rewrite Hn in E. cbn [bind check_threshold] in E.
    apply Nat.eqb_neq in O. rewrite O in E. apply bind_Ok in E as ([[norms h0] ex] & E1 & E).
    pose proof (phase1_inv _ _ _ _ _ _ _ _ W E1) as (Hh & Hex & N & V & Kd).
    destruct ex; [|discriminate]. rewrite project_all in E. apply bind_Ok in E as (ls & EL & _).
    assert (Iu : In u (dkeys norms)).
    { apply kept_In in Ku as (a & I & Pn); [|assumption..]. destruct (V u a I Pn) as (acc & EA & _ & Hd). apply accumulated_inv in EA as (EA & _).
      fold (acc_of lib g wattr m u) in EA. subst acc. unfold keep in Kp. rewrite Kp in Hd. eapply dget_Some_key; eassumption. }
    destruct (mapM_ran _ _ u _ EL Iu) as (b & Eb). unfold links_of in Eb. destruct (dget u norms); [|discriminate].
    apply bind_Ok in Eb as (inter & EI & _). rewrite intersections_flat in EI.
    apply items_edge, In_dkeys in B1 as (a1 & B1); [|assumption..]. apply items_edge, In_dkeys in B2 as (a2 & B2); [|assumption..].
    destruct (foldM_ran _ _ (t, a1, (v, a2)) _ _ EI) as (s1 & s2 & Es).
    { unfold entries. apply in_flat_map. exists (t, a1). split; [exact B1|]. apply in_map. exact B2. }
    unfold inter_step in Es. cbn [fst snd] in Es. destruct (key_eqb v u) eqn:Ek; [apply key_eqb_eq in Ek; congruence|].
    apply bind_Ok in Es as (sk & Es & _). unfold key_gt in Es. apply key_gt_lt_ok. eauto.
Qed.
End Ran.
