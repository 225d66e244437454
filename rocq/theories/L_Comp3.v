(** * Lemmas about connected_component_orders when the filter raises *)
From Coq Require Import List Relations ZArith Lia Bool.
From Verif Require Import PyBase NxGraph L_Base L_Nx L_Nx2 M_UnionFind S_Partition L_Partition M_Traversal L_Traversal M_Graph S_Graph L_Graph L_Graph2 L_Comp.
Import ListNotations.

Section Raising.
  Context (g : graph) (f : edge_predicate) (W : WF g).

  Definition quiet : edge_predicate := fun u v a => match f u v a with Ok b => Ok b | Err _ => Ok false end.
  Definition quiet_test (u v : key) (a : attrs) : bool := match f u v a with Ok b => b | Err _ => false end.
  Lemma quiet_ok : filter_test g (Some quiet) quiet_test.
  Proof. intros u v k a _. unfold quiet, quiet_test. destruct (f u v a); reflexivity. Qed.

  Definition raised (e : exc) : Prop := exists u v k a, edge_attrs g u v k = Some a /\ f u v a = Err e.
  Definition calm (n : key) : Prop := forall v k a, edge_attrs g n v k = Some a -> exists b, f n v a = Ok b.

  Lemma visit_calm n st :
    (cc_visit g (Some f) n st = cc_visit g (Some quiet) n st /\ calm n)
    \/ exists e, raised e /\ cc_visit g (Some f) n st = Err e.
  Proof.
    unfold cc_visit.
    assert (G : forall (l : list (key * key * key * attrs)) (st : trav unit), (forall u v k a, In (u, v, k, a) l -> edge_attrs g n v k = Some a) ->
      let run f0 := foldM (fun stack e => let '(_, n2, _, edge_attr) := e in
           let* b := follows (Some f0) n n2 edge_attr in
           if b then Ok (fst (t_append n2 None stack)) else Ok stack) l st in
      (run f = run quiet /\ forall u v k a, In (u, v, k, a) l -> exists b, f n v a = Ok b)
      \/ exists e, raised e /\ run f = Err e).
    { induction l as [|[[[u v] k] a] l IH]; intros st0 Hl; cbn zeta.
      - left. split; [reflexivity|]. intros ? ? ? ? [].
      - cbn [foldM]. unfold follows at 1 3 5, quiet at 1. destruct (f n v a) as [b|e] eqn:F; cbn [bind].
        + assert (Hl' : forall u v k a, In (u, v, k, a) l -> edge_attrs g n v k = Some a) by (intros; eapply Hl; right; eassumption).
          assert (A : forall u' v' k' a', In (u', v', k', a') ((u, v, k, a) :: l) ->
            (forall u v k a, In (u, v, k, a) l -> exists b, f n v a = Ok b) -> exists b, f n v' a' = Ok b).
          { intros u' v' k' a' [Q|Q] H; [injection Q as <- <- <- <-; eauto|eapply H, Q]. }
          destruct b; [destruct (IH (fst (t_append v None st0)) Hl') as [[E C]|(e & R & E)]
                      |destruct (IH st0 Hl') as [[E C]|(e & R & E)]];
            cbn zeta in E; cbn [bind]; solve [left; split; [exact E|intros; eapply A; eassumption]|right; exists e; split; [exact R|exact E]].
        + right. exists e. split; [|reflexivity]. exists n, v, k, a. split; [eapply Hl; left; reflexivity|exact F]. }
    destruct (G (edges_of g n) st) as [[E C]|H]; [| |right; exact H].
    - intros u v k a H. apply edges_of_In in H; [|exact W]. tauto.
    - left. split; [exact E|]. intros v k a H. apply (C n v k a). apply edges_of_In; auto.
  Qed.

  (** what was seen is still to be visited or raised nothing *)
  Definition watched (st : trav unit) : Prop := forall x, In x (t_seen st) -> In (inl x) (t_items st) \/ calm x.

  Lemma visit_watched n st st' : cc_visit g (Some f) n st = Ok st' ->
    (forall x, In x (t_seen st) -> In (inl x) (t_items st) \/ calm x \/ x = n) ->
    (forall x, In x (t_seen st') -> In (inl x) (t_items st') \/ calm x \/ x = n).
  Proof.
    unfold cc_visit. generalize (edges_of g n). intros l. revert st. induction l as [|[[[u v] k] a] l IH]; intros st E H.
    - injection E as <-. exact H.
    - cbn [foldM] in E. destruct (follows (Some f) n v a) as [b|]; [|discriminate]. cbn [bind] in E. destruct b; cbn [bind] in E.
      + apply (IH _ E). intros x. rewrite append_eq. destruct (mem v (t_seen st)); cbn [fst t_seen t_items]; [apply H|].
        rewrite !in_app_iff. cbn [In]. intros [Hx|[<-|[]]]; [|tauto]. destruct (H x Hx) as [?|[?|?]]; auto.
      + apply (IH _ E H).
  Qed.

  Lemma loop_calm : forall fuel sz st,
    (cc_loop fuel g (Some f) sz st = cc_loop fuel g (Some quiet) sz st
     /\ forall sz' st', cc_loop fuel g (Some f) sz st = Ok (sz', st') -> watched st -> watched st' /\ t_items st' = [])
    \/ exists e, raised e /\ cc_loop fuel g (Some f) sz st = Err e.
  Proof.
    assert (Z : forall st : trav unit, Nat.eqb (t_len st) 0 = true -> t_items st = []).
    { intros st E. apply Nat.eqb_eq in E. unfold t_len in E. destruct (t_items st); [reflexivity|intros; discriminate]. }
    induction fuel as [|fuel IH]; intros sz st; cbn [cc_loop]; destruct (Nat.eqb (t_len st) 0) eqn:E0;
      try solve [left; split; [reflexivity|]; intros sz' st' E Wt;
                 first [discriminate|injection E as <- <-; split; [exact Wt|apply Z, E0]]].
    destruct (t_pop st) as [st1 [[n|u]|e]] eqn:P; try solve [left; split; [reflexivity|intros; discriminate]].
    destruct (visit_calm n st1) as [[E C]|(e & R & E)]; [|right; exists e; split; [exact R|rewrite E; reflexivity]].
    rewrite <- E. destruct (cc_visit g (Some f) n st1) as [st2|e] eqn:V; cbn [bind]; [|left; split; [reflexivity|intros; discriminate]].
    destruct (IH (S sz) st2) as [[E' K]|H]; [left; split; [exact E'|]|right; exact H].
    intros sz' st' Er Wt. apply (K sz' st' Er). intros x Hx.
    destruct (visit_watched n st1 st2 V) with (x := x) as [?|[?| ->]]; auto.
    unfold t_pop in P. destruct (rev (t_items st)) as [|y r] eqn:ER; [discriminate|]. injection P as <- ->.
    cbn [t_seen t_items]. intros z Hz. destruct (Wt z Hz) as [I|I]; [|auto].
    apply in_rev in I. rewrite ER in I. destruct I as [I|I]; [injection I as ->; auto|]. left. rewrite <- in_rev. exact I.
  Qed.

  Lemma from_calm : forall todo pre seen0, nodes g = pre ++ todo -> incl pre seen0 ->
    NoDup seen0 -> incl seen0 (nodes g) -> (forall x y, In x seen0 -> fstep g quiet_test x y -> In y seen0) ->
    (forall x, In x seen0 -> calm x) ->
    (cc_from g (Some f) todo (mkT (nodes g) [] seen0) = cc_from g (Some quiet) todo (mkT (nodes g) [] seen0)
     /\ forall x, In x (nodes g) -> calm x)
    \/ exists e, raised e /\ cc_from g (Some f) todo (mkT (nodes g) [] seen0) = Err e.
  Proof.
    induction todo as [|v todo IH]; intros pre seen0 E IP ND I C K; cbn [cc_from].
    - left. split; [reflexivity|]. intros x Hx. apply K, IP. rewrite E, app_nil_r in Hx. exact Hx.
    - destruct (seen_everything (mkT (nodes g) [] seen0)) eqn:SE.
      { left. split; [reflexivity|]. intros x Hx. apply K. revert x Hx. apply seen_everything_all; assumption. }
      assert (E' : nodes g = (pre ++ [v]) ++ todo) by (rewrite <- app_assoc; exact E).
      unfold t_contains. cbn [t_seen]. destruct (mem v seen0) eqn:M.
      + apply (IH (pre ++ [v])); try assumption. apply mem_In in M. intros x Hx. apply in_app_iff in Hx as [Hx|[<-|[]]]; auto.
      + assert (Hv : In v (nodes g)) by (rewrite E; apply in_or_app; right; left; reflexivity).
        assert (NV : ~ In v seen0) by (rewrite <- mem_In; congruence).
        destruct (loop_calm (S (order g)) 0 (fst (t_append v None (mkT (nodes g) [] seen0)))) as [[El Kl]|(e & R & El)];
          [|right; exists e; split; [exact R|]; rewrite El; reflexivity].
        destruct (cc_start g (Some quiet) quiet_test W quiet_ok v seen0 ND I Hv NV C) as (seen' & sz & Es & ND' & I' & HI & SZ).
        rewrite El in *. rewrite Es in *. cbn [bind].
        destruct (Kl sz (mkT (nodes g) [] seen') eq_refl) as [Wt _].
        { unfold watched. intros x. rewrite append_eq. cbn [t_seen]. rewrite M. cbn [fst t_seen t_items app]. rewrite in_app_iff.
          cbn [In]. intros [Hx|[<-|[]]]; [right; apply K, Hx|left; left; reflexivity]. }
        destruct (IH (pre ++ [v]) seen' E') as [[Ef Kf]|(e & R & Ef)]; try assumption.
        * intros x Hx. apply HI. apply in_app_iff in Hx as [Hx|[<-|[]]]; [left; auto|right; apply rt_refl].
        * apply (closed_next g quiet_test v seen0); assumption.
        * intros x Hx. destruct (Wt x Hx) as [[]|Hc]. exact Hc.
        * left. rewrite Ef. auto.
        * right. exists e. split; [exact R|]. rewrite Ef. reflexivity.
  Qed.

  Lemma orders_raise :
    (forall e, connected_component_orders g (Some f) = Err e -> raised e)
    /\ ((exists e, raised e) -> exists e, connected_component_orders g (Some f) = Err e).
  Proof.
    unfold connected_component_orders, t_make.
    destruct (from_calm (nodes g) [] [] eq_refl) as [[E K]|(e & R & E)]; try solve [intros ? []|constructor|intros ? ? []].
    - destruct (orders_partition g (Some quiet) quiet_test W quiet_ok) as (sizes & Eo & _).
      unfold connected_component_orders, t_make in Eo. rewrite E, Eo. split; [discriminate|].
      intros (e & u & v & k & a & H & F). destruct (K u) with (v := v) (k := k) (a := a) as [b Eb]; try assumption; [|congruence].
      apply edge_attrs_has in H. apply has_edge_nodes in H; tauto.
    - rewrite E. split; [intros e' [= <-]; exact R|eauto].
  Qed.
End Raising.
