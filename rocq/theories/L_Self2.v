(** * Proofs about self_similarity_projection: the whole function *)
From Coq Require Import Lia QArith Sorted.
From Verif Require Import PyBase PyNum L_Base NxGraph L_Nx L_Nx2 L_Graph S_Partition L_Partition L_Comp2 S_Sparse S_Graph M_Proj S_Proj L_Proj L_Proj2 L_Proj3 L_Bfs L_Self.
Close Scope Q_scope.

Section Self.
Variables (lib : libm) (g : graph).
Hypothesis W : WF g.
Hypothesis D : g_dir g = true.

(** a node with the radii used for it *)
Definition visit : Type := key * (Z * Z).
Definition seen_from (p : visit) : list ikey := triples g (fst p) (fst (snd p)) (snd (snd p)).
Definition views (P : list visit) : list (key * list ikey) := map (fun p => (fst p, seen_from p)) P.

Fixpoint chain (d : Z) (P : list visit) (d' : Z) : Prop :=
  match P with
  | [] => d = d'
  | p :: P => fst (snd p) = d /\ deepest g false (fst p) d (snd (snd p)) /\ exists d1, deepest g true (fst p) (snd (snd p)) d1 /\ chain d1 P d'
  end.

Lemma chain_snoc P : forall d d1 n i d2, chain d P d1 -> deepest g false n d1 i -> deepest g true n i d2 -> chain d (P ++ [(n, (d1, i))]) d2.
Proof.
  induction P as [|p P IH]; intros d d1 n i d2 C H1 H2; cbn [app chain] in *.
  - subst d1. cbn. split; [reflexivity|]. split; [assumption|]. exists d2. auto.
  - destruct C as (E1 & E2 & d3 & E3 & C). split; [assumption|]. split; [assumption|]. exists d3. split; [assumption|]. eapply IH; eassumption.
Qed.

Lemma chain_radii P : forall d d' out inn, chain d P d' -> (forall n o i, In (n, (o, i)) P -> out n = o /\ inn n = i) -> radii g d (map fst P) out inn.
Proof.
  induction P as [|[n [o i]] P IH]; intros d d' out inn C H; cbn [map radii fst]; [exact I|]. cbn [chain fst snd] in C.
  destruct C as (-> & H1 & d1 & H2 & C). destruct (H n d i (or_introl eq_refl)) as [E1 E2]. rewrite E2. split; [assumption|]. split; [assumption|].
  exists d1. split; [assumption|]. eapply IH; [exact C|]. intros; apply H. right; assumption.
Qed.

Lemma deepest_pos rev n r r' : deepest g rev n r r' -> (1 <= r <-> 1 <= r')%Z.
Proof. intros [[-> _]|[H _]]; lia. Qed.

Lemma chain_pos P : forall d d', chain d P d' -> (1 <= d <-> 1 <= d')%Z /\ forall n o i, In (n, (o, i)) P -> (1 <= d <-> 1 <= o)%Z /\ (1 <= d <-> 1 <= i)%Z.
Proof.
  induction P as [|[m [o' i']] P IH]; intros d d' C; cbn [chain fst snd] in C.
  - subst. split; [tauto|]. intros n o i [].
  - destruct C as (-> & H1 & d1 & H2 & C). apply deepest_pos in H1, H2. destruct (IH d1 d' C) as [E F]. split; [tauto|].
    intros n o i [I|I]; [inversion I; subst; tauto|]. destruct (F n o i I). tauto.
Qed.

(** the attributes of a link *)
Definition good (u v : key) (ku kv : list ikey) (a : attrs) : Prop :=
  exists x n, a = wlink (NFloat x) /\ has_size (fun t => (In t ku \/ In t kv) /\ ~ In t (mutuals g u v)) n /\ inter ku kv <= n
    /\ (x == m_round lib (nq (inter ku kv) / nq n))%Q.

Lemma good_sym u v ku kv a : NoDup ku -> NoDup kv -> good u v ku kv a -> good v u kv ku a.
Proof.
  intros Nu Nv (x & n & E & S & L & X). exists x, n. rewrite (inter_sym kv ku) by assumption. split; [assumption|]. split; [|auto].
  eapply has_size_ext; [|exact S]. intros t. cbv beta. unfold mutuals. rewrite !in_app_iff. tauto.
Qed.

Definition linked (T : list (key * list ikey)) (h : graph) : Prop :=
  (forall u v a, edge_attrs h u v (KInt 0) = Some a -> exists ku kv, In (u, ku) T /\ In (v, kv) T /\ u <> v /\ 0 < inter ku kv /\ good u v ku kv a)
  /\ (forall u v ku kv, In (u, ku) T -> In (v, kv) T -> u <> v -> 0 < inter ku kv -> exists a, edge_attrs h u v (KInt 0) = Some a).

Definition inv (d : Z) (done : list (key * attrs)) (s : dict nat * list (ikey * list key) * graph * Z) : Prop :=
  let '(norms, index, h, depth) := s in
  exists P, map fst P = map fst done /\ chain d P depth
  /\ (forall x ks, In (x, ks) (views P) -> dget x norms = Some (List.length ks))
  /\ indexed (views P) index
  /\ WF h /\ g_dir h = false /\ g_multi h = false /\ g_nodes h = done /\ g_attr h = [] /\ linked (views P) h.

Lemma views_fst P : map fst (views P) = map fst P.
Proof. unfold views. rewrite map_map. reflexivity. Qed.

Lemma views_In P u ku : In (u, ku) (views P) <-> exists o i, In (u, (o, i)) P /\ ku = triples g u o i.
Proof.
  unfold views. rewrite in_map_iff. split.
  - intros ([n [o i]] & E & I). inversion E; subst. eauto.
  - intros (o & i & I & ->). exists (u, (o, i)). auto.
Qed.

(** the denominator *)
Lemma denominator d d' P n o i u ku : In n (nodes g) -> In u (nodes g) -> n <> u -> chain d P d' -> In (n, (o, i)) P -> In (u, ku) (views P) ->
  0 < inter (triples g n o i) ku ->
  exists s, has_size (fun t => (In t (triples g n o i) \/ In t ku) /\ ~ In t (mutuals g n u)) s /\ inter (triples g n o i) ku <= s
  /\ (Z.of_nat (List.length (triples g n o i)) + (Z.of_nat (List.length ku) - (if has_edge g n u then 2 else 0) - (if has_edge g u n then 2 else 0))
      - Z.of_nat (inter (triples g n o i) ku))%Z = Z.of_nat s.
Proof.
  intros In_ Iu N C Hn Hu Hp. apply views_In in Hu as (o' & i' & Hu & ->).
  destruct (chain_pos P d d' C) as [_ CP]. destruct (CP _ _ _ Hn) as [O1 I1]. destruct (CP _ _ _ Hu) as [O2 I2].
  assert (1 <= d)%Z.
  { apply inter_pos in Hp as ([[b z] x] & T & _). apply triples_In in T as (k & -> & K1 & K2 & _); [|assumption|assumption|assumption]. destruct b; [apply O1|apply I1]; lia. }
  assert (MS : forall t, In t (mutuals g n u) <-> (In t (triples g n o i) \/ In t (triples g u o' i')) /\ mutual n u t).
  { intros t. rewrite !triples_In by assumption. apply mutuals_spec; try assumption; tauto. }
  destruct (union_minus (triples g n o i) (triples g u o' i') (mutuals g n u)) as (s & S1 & S2 & S3).
  - apply triples_NoDup; assumption.
  - apply triples_NoDup; assumption.
  - apply mutuals_NoDup; assumption.
  - intros t I. apply MS. assumption.
  - exists s. split; [assumption|]. split.
    + apply S3. intros t I. apply MS in I as [_ I]. rewrite !triples_In by assumption. destruct t as [[b z] x]. unfold mutual in I. cbn [fst snd] in I. cbn [view].
      intros [(k1 & -> & K1 & _ & D1) (k2 & E2 & K2 & _ & D2)]. destruct I as [_ [->| ->]]; [apply distance_self in D1|apply distance_self in D2]; lia.
    + rewrite mutuals_length in S2. destruct (has_edge g n u), (has_edge g u n); lia.
Qed.

Lemma step d done na todo s : g_nodes g = done ++ na :: todo -> node_names g -> inv d done s ->
  exists s', similarity_step lib g s na = Ok s' /\ inv d (done ++ [na]) s'.
Proof.
  destruct s as [[[norms index] h] depth]. destruct na as [n a]. intros G NN (P & Pn & C & Hn & IX & Wh & Dh & Mh & Gh & Ah & L1 & L2).
  assert (NI : ~ In n (map fst done)).
  { pose proof (wf_nodes g W) as N. unfold nodes, dkeys in N. rewrite G, map_app in N. cbn in N. apply NoDup_remove_2 in N. intros X. apply N, in_or_app. left; exact X. }
  assert (NDn : NoDup (map fst done)).
  { pose proof (wf_nodes g W) as N. unfold nodes, dkeys in N. rewrite G, map_app in N. apply NoDup_app_iff in N. tauto. }
  assert (Ing : In n (nodes g)) by (unfold nodes, dkeys; rewrite G, map_app; apply in_or_app; right; left; reflexivity).
  assert (Ig : In (n, a) (g_nodes g)) by (rewrite G; apply in_or_app; right; left; reflexivity).
  assert (Sub : forall x, In x (map fst done) -> In x (nodes g)) by (intros x X; unfold nodes, dkeys; rewrite G, map_app; apply in_or_app; left; exact X).
  assert (NA : NoDup (dkeys a)) by (apply (wf_nattrs g W n); assumption).
  unfold similarity_step.
  replace (add_node_kw h n a) with (Ok (add_node h n a)).
  2: { symmetry. apply add_node_kw_Ok. split; [|reflexivity]. apply kwargs_ok_iff. intros k Hk. exact (NN n a k Ig Hk). }
  cbn [bind]. rewrite (proj1 (bl_spec g W D n false depth Ing)). cbn [bind]. rewrite scan_neighbors_eq.
  set (i := last_depth (bl g n false depth) depth). rewrite (proj1 (bl_spec g W D n true i Ing)). cbn [bind]. rewrite scan_neighbors_eq.
  set (d2 := last_depth (bl g n true i) i).
  match goal with |- context [scan_keys n (map (tag false) ?l) ?p] => replace (scan_keys n (map (tag false) l) p) with (scan_keys n (triples g n depth i) ([], index)) end.
  2: { rewrite <- surjective_pairing. unfold triples, scan_keys. rewrite fold_left_app. reflexivity. }
  cbn [Nat.add]. rewrite <- triples_length.
  set (ks := triples g n depth i).
  assert (NP : NoDup (map fst (views P))) by (rewrite views_fst, Pn; assumption).
  assert (Nks : NoDup ks) by (apply triples_NoDup; assumption).
  destruct (scan_node n (views P) ks index Nks NP IX) as (PC & IX' & CI & CK).
  destruct (scan_keys n ks ([], index)) as [cand index'] eqn:ES. cbn [fst snd] in *.
  set (h1 := add_node h n a). set (P' := P ++ [(n, (depth, i))]).
  assert (C' : chain d P' d2) by (apply chain_snoc; [assumption|apply deepest_last; assumption|apply deepest_last; assumption]).
  assert (VP : views P' = views P ++ [(n, ks)]) by (unfold views, P'; rewrite map_app; reflexivity).
  assert (XD : forall x kx, In (x, kx) (views P) -> In x (map fst done)).
  { intros x kx I. rewrite <- Pn, <- views_fst. change x with (fst (x, kx)). apply in_map. assumption. }
  assert (Hh1 : h1 = mkG false false [] (done ++ [(n, a)]) (g_adj h)).
  { unfold h1. rewrite add_fresh; [rewrite Dh, Mh, Ah, Gh; reflexivity| |assumption]. unfold nodes. rewrite Gh. exact NI. }
  assert (ED : forall u v, edge_attrs h1 u v (KInt 0) = edge_attrs h u v (KInt 0)) by (intros; unfold edge_attrs, h1; rewrite edge_data_add_node; reflexivity).
  assert (Cpos : forall x c, In (x, c) cand -> exists kx, In (x, kx) (views P) /\ c = inter ks kx /\ 0 < c).
  { intros x c I. destruct (CK x) as (kx & Ik). { change x with (fst (x, c)). apply in_map. assumption. }
    exists kx. split; [assumption|]. pose proof (dget_In x c cand (proj1 PC) I) as E. pose proof (CI x kx Ik) as H. unfold cnt in H. rewrite E in H. subst c.
    split; [reflexivity|]. apply (proj2 PC x _ E). }
  assert (FL : exists L, Forall2 (fun ci l => exists m, dget (fst ci) (dset n (List.length ks) norms) = Some m /\
     let den := (Z.of_nat (List.length ks) + (Z.of_nat m - (if has_edge g n (fst ci) then 2 else 0) - (if has_edge g (fst ci) n then 2 else 0)) - Z.of_nat (snd ci))%Z in
     den <> 0%Z /\ l = (n, fst ci, NFloat (m_round lib (inject_Z (Z.of_nat (snd ci)) / inject_Z den)%Q))) cand L
     /\ map (fun l => snd (fst l)) L = dkeys cand
     /\ forall l, In l L -> exists kx, fst (fst l) = n /\ In (snd (fst l), kx) (views P) /\ 0 < inter ks kx /\ good n (snd (fst l)) ks kx (wlink (snd l))).
  { clear ES CI CK PC IX'. revert Cpos. induction cand as [|[x c] cand IH]; intros Cpos.
    - exists []. split; [constructor|]. split; [reflexivity|]. intros l [].
    - destruct IH as (L & F & M & H); [intros; apply Cpos; right; assumption|].
      destruct (Cpos x c (or_introl eq_refl)) as (kx & Ik & -> & Hc).
      assert (Nx : n <> x) by (intros ->; apply NI; eapply XD; eassumption).
      destruct (denominator d d2 P' n depth i x kx Ing (Sub x (XD x kx Ik)) Nx C') as (s & S1 & S2 & S3).
      { unfold P'. apply in_or_app. right; left; reflexivity. }
      { rewrite VP. apply in_or_app. left; assumption. }
      { exact Hc. }
      fold ks in S1, S2, S3.
      exists ((n, x, NFloat (m_round lib (inject_Z (Z.of_nat (inter ks kx)) / inject_Z (Z.of_nat s))%Q)) :: L). split; [|split].
      + constructor; [|assumption]. exists (List.length kx). cbn [fst snd]. split.
        * rewrite dget_dset. keq x n; [congruence|]. apply Hn. assumption.
        * cbn zeta. rewrite S3. split; [lia|reflexivity].
      + cbn [map dkeys fst snd]. f_equal. exact M.
      + intros l [<-|I]; [|apply H; assumption]. exists kx. cbn [fst snd]. split; [reflexivity|]. split; [assumption|]. split; [assumption|].
        exists (m_round lib (inject_Z (Z.of_nat (inter ks kx)) / inject_Z (Z.of_nat s))%Q), s. split; [reflexivity|]. split; [assumption|]. split; [assumption|reflexivity]. }
  destruct FL as (L & F & M & HL). rewrite (links_fold lib g _ n _ cand h1 L F). cbn [bind].
  eexists. split; [reflexivity|]. exists P'.
  assert (Nh1 : nodes h1 = map fst done ++ [n]) by (rewrite Hh1; unfold nodes, dkeys; cbn [g_nodes]; rewrite map_app; reflexivity).
  assert (EF : forall l, In l L -> n <> snd (fst l)).
  { intros l I E. destruct (HL l I) as (kx & _ & Ik & _). rewrite <- E in Ik. apply NI. eapply XD; eassumption. }
  assert (NoEdge : forall x, has_edge h1 n x = false).
  { intros x. unfold has_edge, h1. rewrite edge_data_add_node. destruct (edge_data h n x) eqn:E; [|reflexivity]. exfalso. apply NI.
    apply edge_data_nodes in E as [E _]; [|assumption]. unfold nodes in E. rewrite Gh in E. exact E. }
  assert (FOP : ForallOrdPairs other_pair L).
  { assert (NL : NoDup (map (fun l : link => snd (fst l)) L)) by exact (eq_ind_r (@NoDup key) (proj1 PC) M).
    clear -NL HL EF. induction L as [|l L IH]; constructor.
    - apply Forall_forall. intros l' I. unfold other_pair. apply not_true_iff_false. intros J. apply jn_iff in J.
      destruct (HL l (or_introl eq_refl)) as (_ & E1 & _). destruct (HL l' (or_intror I)) as (_ & E2 & _). rewrite E1, E2 in J.
      inversion NL as [|? ? X _]; subst. destruct J as [[_ J]|(_ & J & _)].
      + apply X. rewrite <- J. apply (in_map (fun l : link => snd (fst l))). assumption.
      + apply (EF l (or_introl eq_refl)). congruence.
    - apply IH; [intros; apply HL; right; assumption|intros; apply EF; right; assumption|]. inversion NL; assumption. }
  destruct (put_links_spec L h1) as (W2 & D2 & M2 & G2 & A2 & E2).
  { apply WF_add_node; assumption. }
  { rewrite Hh1; reflexivity. }
  { rewrite Hh1; reflexivity. }
  { intros l I. destruct (HL l I) as (kx & -> & Ik & _). rewrite Nh1. split; apply in_or_app; [right; left; reflexivity|left; eapply XD; eassumption]. }
  { assumption. }
  { intros l I. destruct (HL l I) as (kx & -> & _). apply NoEdge. }
  split; [unfold P'; rewrite !map_app, Pn; reflexivity|]. split; [assumption|]. split; [|split; [|split; [assumption|split; [assumption|split; [assumption|split; [|split]]]]]].
  - intros x kx. rewrite VP. intros I. rewrite dget_dset. apply in_app_iff in I as [I|[I|[]]].
    + keq x n; [exfalso; apply NI; eapply XD; eassumption|]. apply Hn. assumption.
    + inversion I; subst. rewrite key_eqb_refl. reflexivity.
  - rewrite VP. assumption.
  - rewrite G2, Hh1. reflexivity.
  - rewrite A2, Hh1. reflexivity.
  - split.
    + intros u v b E. rewrite E2 in E. rewrite VP. destruct (List.find (joins u v) L) as [l|] eqn:Fl.
      * apply find_some in Fl as [I J]. inversion E; subst b. clear E. destruct (HL l I) as (kx & E1 & Ik & Hp & Gd). pose proof (EF l I) as Nl.
        unfold joins in J. apply jn_iff in J. rewrite E1 in J. destruct l as [[l1 l2] x]. cbn [fst snd] in *. subst l1.
        destruct J as [[-> ->]|(_ & -> & ->)].
        -- exists ks, kx. split; [apply in_or_app; right; left; reflexivity|]. split; [apply in_or_app; left; assumption|]. auto.
        -- assert (Nkx : NoDup kx).
           { apply views_In in Ik as (o' & i' & Ik & ->). apply triples_NoDup; try assumption. apply Sub. rewrite <- Pn.
             change l2 with (fst (l2, (o', i'))). apply in_map. assumption. }
           exists kx, ks. split; [apply in_or_app; left; assumption|]. split; [apply in_or_app; right; left; reflexivity|]. split; [congruence|].
           split; [rewrite (inter_sym kx ks) by assumption; assumption|]. apply good_sym; assumption.
      * rewrite ED in E. destruct (L1 u v b E) as (ku & kv & I1 & I2 & R). exists ku, kv. split; [apply in_or_app; left; assumption|].
        split; [apply in_or_app; left; assumption|]. assumption.
    + assert (New : forall x kx, In (x, kx) (views P) -> 0 < inter ks kx -> exists l, In l L /\ fst (fst l) = n /\ snd (fst l) = x).
      { intros x kx I Hp. pose proof (CI x kx I) as E. unfold cnt in E. assert (Ix : In x (dkeys cand)).
        { apply dget_Some_key with (v := inter ks kx). destruct (dget x cand); [subst; reflexivity|lia]. }
        rewrite <- M in Ix. apply in_map_iff in Ix as (l & El & Il). exists l. destruct (HL l Il) as (_ & E1 & _). auto. }
      intros u v ku kv. rewrite VP. intros I1 I2 N Hp. apply in_app_iff in I1 as [I1|[I1|[]]]; apply in_app_iff in I2 as [I2|[I2|[]]].
      * destruct (L2 u v ku kv I1 I2 N Hp) as (b & E). exists b. rewrite E2, ED. destruct (List.find (joins u v) L) as [l|] eqn:Fl; [|assumption].
        exfalso. apply find_some in Fl as [I J]. destruct (HL l I) as (kx & E1 & _). unfold joins in J. apply jn_iff in J. rewrite E1 in J.
        destruct J as [[J _]|(_ & _ & J)]; apply NI; rewrite <- J; eapply XD; eassumption.
      * inversion I2; subst v kv. clear I2.
        assert (Nku : NoDup ku).
        { apply views_In in I1 as (o' & i' & Ik & ->). apply triples_NoDup; try assumption. apply Sub. rewrite <- Pn.
          change u with (fst (u, (o', i'))). apply in_map. assumption. }
        rewrite (inter_sym ku ks) in Hp by assumption. destruct (New u ku I1 Hp) as (l & Il & El1 & El2). exists (wlink (snd l)). rewrite E2.
        rewrite (find_joins_In u n l L FOP Il); [reflexivity|]. unfold joins. apply jn_iff. right. rewrite El1, El2. auto.
      * inversion I1; subst u ku. clear I1. destruct (New v kv I2 Hp) as (l & Il & El1 & El2). exists (wlink (snd l)). rewrite E2.
        rewrite (find_joins_In n v l L FOP Il); [reflexivity|]. unfold joins. apply jn_iff. left. rewrite El1, El2. auto.
      * congruence.
Qed.

Definition both (u v : key) (out inn : key -> Z) (t : ikey) : Prop := view g u (out u) (inn u) t /\ view g v (out v) (inn v) t.
Definition either (u v : key) (out inn : key -> Z) (t : ikey) : Prop :=
  (view g u (out u) (inn u) t \/ view g v (out v) (inn v) t) /\ ~ mutual u v t.

Lemma whole d : node_names g -> exists h out inn, self_similarity_projection lib g d = Ok h /\ radii g d (nodes g) out inn
  /\ WF h /\ g_dir h = false /\ g_multi h = false /\ g_nodes h = g_nodes g /\ g_attr h = []
  /\ (forall u v, has_edge h u v = true <-> In u (nodes g) /\ In v (nodes g) /\ u <> v /\ exists t, both u v out inn t)
  /\ (forall u v a, edge_attrs h u v (KInt 0) = Some a -> exists x i n, a = wlink (NFloat x) /\ has_size (both u v out inn) i
        /\ has_size (either u v out inn) n /\ 1 <= i <= n /\ (x == m_round lib (nq i / nq n))%Q).
Proof.
  intros NN. unfold self_similarity_projection. rewrite D. cbn [negb].
  destruct (foldM_total (inv d) (similarity_step lib g) (g_nodes g) ([], [], empty_graph false false, d)) as ([[[norms index] h] depth] & E & I).
  { exists []. split; [reflexivity|]. split; [reflexivity|]. split; [intros x ks []|]. split; [intros k; reflexivity|].
    split; [constructor; cbn; try constructor; intros; contradiction|]. split; [reflexivity|]. split; [reflexivity|]. split; [reflexivity|]. split; [reflexivity|].
    split; [intros u v a X; discriminate|intros u v ku kv []]. }
  { intros done a todo s G I. eapply step; eassumption. }
  destruct I as (P & Pn & C & Hn & IX & Wh & Dh & Mh & Gh & Ah & L1 & L2).
  set (out := fun n => match dget n P with Some (o, i) => o | None => 0%Z end).
  set (inn := fun n => match dget n P with Some (o, i) => i | None => 0%Z end).
  assert (ND : NoDup (map fst P)) by (rewrite Pn; apply (wf_nodes g W)).
  assert (OI : forall n o i, In (n, (o, i)) P -> out n = o /\ inn n = i).
  { intros n o i I. unfold out, inn. rewrite (dget_In n (o, i) P); [auto|exact ND|assumption]. }
  assert (VI : forall u ku, In (u, ku) (views P) -> In u (nodes g) /\ ku = triples g u (out u) (inn u)).
  { intros u ku I. apply views_In in I as (o & i & I & ->). destruct (OI u o i I) as [-> ->]. split; [|reflexivity].
    unfold nodes, dkeys. rewrite <- Pn. change u with (fst (u, (o, i))). apply in_map. assumption. }
  assert (IV : forall u, In u (nodes g) -> In (u, triples g u (out u) (inn u)) (views P)).
  { intros u I. unfold nodes, dkeys in I. rewrite <- Pn in I. apply in_map_iff in I as ([u' [o i]] & Eu & I). cbn in Eu. subst u'.
    apply views_In. exists o, i. split; [assumption|]. destruct (OI u o i I) as [-> ->]. reflexivity. }
  assert (BI : forall u v, In u (nodes g) -> In v (nodes g) -> forall t, both u v out inn t <-> In t (triples g u (out u) (inn u)) /\ In t (triples g v (out v) (inn v))).
  { intros u v Iu Iv t. unfold both. rewrite !triples_In by assumption. reflexivity. }
  exists h, out, inn. split.
  { destruct (Nat.eqb (order g) 0) eqn:O; [|rewrite E; reflexivity]. apply Nat.eqb_eq in O. unfold order in O.
    destruct (g_nodes g); [|discriminate]. cbn in E. inversion E; subst. reflexivity. }
  split.
  { unfold nodes, dkeys. rewrite <- Pn. eapply chain_radii; eassumption. }
  split; [assumption|]. split; [assumption|]. split; [assumption|]. split; [assumption|]. split; [assumption|]. split.
  - intros u v. split.
    + intros He. unfold has_edge in He. destruct (edge_data h u v) as [kd|] eqn:Ed; [|discriminate].
      destruct (edge_data_simple h u v kd Wh Mh Ed) as (a & ->). assert (Ea : edge_attrs h u v (KInt 0) = Some a) by (unfold edge_attrs; rewrite Ed; reflexivity).
      destruct (L1 u v a Ea) as (ku & kv & I1 & I2 & N & Hp & _). apply VI in I1 as [I1 ->]. apply VI in I2 as [I2 ->].
      split; [assumption|]. split; [assumption|]. split; [assumption|]. apply inter_pos in Hp as (t & T1 & T2). exists t. apply BI; auto.
    + intros (Iu & Iv & N & t & T). apply BI in T; [|assumption|assumption].
      destruct (L2 u v _ _ (IV u Iu) (IV v Iv) N) as (a & Ea); [apply inter_pos; eauto|].
      destruct (has_edge h u v) eqn:He; [reflexivity|]. rewrite edge_attrs_no_edge in Ea by assumption. discriminate.
  - intros u v a Ea. destruct (L1 u v a Ea) as (ku & kv & I1 & I2 & N & Hp & x & n & -> & Sn & Ln & X). apply VI in I1 as [Iu ->]. apply VI in I2 as [Iv ->].
    set (ku := triples g u (out u) (inn u)) in *. set (kv := triples g v (out v) (inn v)) in *.
    exists x, (inter ku kv), n. split; [reflexivity|]. split; [|split; [|split; [lia|assumption]]].
    + eapply has_size_ext; [|apply inter_size; apply triples_NoDup; assumption]. intros t. cbv beta. rewrite BI by assumption. reflexivity.
    + eapply has_size_ext; [|exact Sn]. intros t. unfold either. cbv beta.
      destruct (chain_pos P d depth C) as [_ CP].
      assert (Pos : forall w, In w (nodes g) -> (1 <= d <-> 1 <= out w)%Z /\ (1 <= d <-> 1 <= inn w)%Z).
      { intros w Iw. specialize (IV w Iw). apply views_In in IV as (o & i & I & _). destruct (OI w o i I) as [-> ->]. eapply CP; eassumption. }
      destruct (Pos u Iu) as [Ou Nu], (Pos v Iv) as [Ov Nv].
      assert (1 <= d)%Z.
      { apply inter_pos in Hp as ([[b z] y] & T & _). apply triples_In in T as (k & -> & K1 & K2 & _); [|assumption|assumption|assumption]. destruct b; [apply Ou|apply Nu]; lia. }
      unfold ku, kv. rewrite !triples_In by assumption. pose proof (mutuals_spec g u v (out u) (inn u) (out v) (inn v) t Iu Iv N) as MS.
      rewrite MS by tauto. tauto.
Qed.
End Self.

(** ** radii *)
Lemma distance_down g rev u : forall n x, distance g rev u x n -> forall m, m <= n -> exists y, distance g rev u y m.
Proof.
  induction n as [|n IH]; intros x Dx m Hm.
  - replace m with 0 by lia. eauto.
  - assert (m <= n \/ m = S n) as [H| ->] by lia; [|eauto]. destruct Dx as [(w & Rw & A) M].
    apply (IH w); [|assumption]. split; [assumption|]. intros k Hk R. apply (M (S k)); [lia|]. cbn. eauto.
Qed.

Lemma full_one g : full g 1.
Proof. intros rev u x n Dx Hn. destruct (distance_down g rev u n x Dx 1 Hn) as (y & Dy). exists y, 1. auto. Qed.

Lemma full_deepest g d rev u r : full g d -> deepest g rev u d r -> r = d.
Proof.
  intros F [[-> _]|(H & (x & n & -> & Dx) & M)]; [reflexivity|]. destruct (F rev u x n Dx) as (y & k & -> & Dy); [lia|].
  pose proof (M k y Dy). lia.
Qed.

Lemma full_radii g d ns out inn : full g d -> radii g d ns out inn -> forall n, In n ns -> out n = d /\ inn n = d.
Proof.
  intros F. induction ns as [|m ns IH]; intros R n Hn; destruct Hn; cbn [radii] in R; destruct R as (E1 & E2 & d' & E3 & R); apply (full_deepest g d) in E2; try assumption;
    rewrite E2 in E3; apply (full_deepest g d) in E3; try assumption; subst d'.
  - subst n. auto.
  - apply IH; assumption.
Qed.
