(** * Lemmas about the model of graph.py: comparison and filtering *)
From Coq Require Import Lia Sorted Permutation QArith.
From Verif Require Import PyBase NxGraph M_UnionFind M_Traversal M_Graph S_Partition S_Graph L_Base L_Utils L_Nx L_Nx2.
Close Scope Q_scope.

(** ** attribute equality *)
Lemma attrs_eqb_iff a b : NoDup (dkeys a) -> NoDup (dkeys b) -> (attrs_eqb a b = true <-> same_attrs a b).
Proof.
  intros Na Nb. unfold attrs_eqb. rewrite andb_true_iff, Nat.eqb_eq, forallb_forall. split.
  - intros [L F] k.
    assert (I : incl (dkeys a) (dkeys b)).
    { intros x Hx. apply In_dkeys in Hx as (v & Hx). specialize (F (x, v) Hx). cbn in F.
      destruct (dget x b) eqn:E; [|discriminate]. eapply dget_Some_key; eassumption. }
    assert (J : incl (dkeys b) (dkeys a)).
    { apply NoDup_length_incl; [assumption|unfold dkeys; rewrite !map_length; lia|assumption]. }
    destruct (dget k a) as [x|] eqn:Ea, (dget k b) as [y|] eqn:Eb; trivial.
    + apply dget_Some_In in Ea. specialize (F (k, x) Ea). cbn in F. rewrite Eb in F. exact F.
    + apply dget_Some_key in Ea. apply I, dkeys_dget in Ea as (v & Ea). congruence.
    + apply dget_Some_key in Eb. apply J, dkeys_dget in Eb as (v & Eb). congruence.
  - intros S. split.
    + assert (I : incl (dkeys a) (dkeys b)).
      { intros x Hx. apply dkeys_dget in Hx as (v & Hx). specialize (S x). rewrite Hx in S.
        destruct (dget x b) eqn:E; [|contradiction]. eapply dget_Some_key; eassumption. }
      assert (J : incl (dkeys b) (dkeys a)).
      { intros x Hx. apply dkeys_dget in Hx as (v & Hx). specialize (S x). rewrite Hx in S.
        destruct (dget x a) eqn:E; [|contradiction]. eapply dget_Some_key; eassumption. }
      apply NoDup_incl_length in I, J; try assumption. unfold dkeys in I, J. rewrite !map_length in I, J. lia.
    + intros [k v] H. cbn. specialize (S k). rewrite (dget_In _ _ _ Na H) in S.
      destruct (dget k b); [exact S|contradiction].
Qed.

Lemma val_eqb_refl v : val_eqb v v = true.
Proof.
  unfold val_eqb. destruct (num_of v) eqn:E; [apply Qeq_bool_iff; reflexivity|].
  destruct v as [|[]|q|k]; try reflexivity; try discriminate. apply key_eqb_refl.
Qed.

Lemma val_eqb_sym v w : val_eqb v w = val_eqb w v.
Proof.
  unfold val_eqb. destruct (num_of v) eqn:E, (num_of w) eqn:F; try reflexivity.
  - unfold q_eqb. apply Bool.eq_iff_eq_true. rewrite !Qeq_bool_iff. split; intros; symmetry; assumption.
  - destruct v, w; try reflexivity. apply key_eqb_sym.
Qed.

Lemma val_eqb_trans u v w : val_eqb u v = true -> val_eqb v w = true -> val_eqb u w = true.
Proof.
  unfold val_eqb. destruct (num_of u) eqn:E, (num_of v) eqn:F, (num_of w) eqn:G; try discriminate.
  - unfold q_eqb. rewrite !Qeq_bool_iff. intros H1 H2. rewrite H1. assumption.
  - destruct u, v, w; try discriminate; try reflexivity. rewrite !key_eqb_eq. congruence.
Qed.

Lemma same_attrs_refl a : same_attrs a a.
Proof. intros k. destruct (dget k a); [apply val_eqb_refl|trivial]. Qed.
Lemma same_attrs_sym a b : same_attrs a b -> same_attrs b a.
Proof. intros H k. specialize (H k). destruct (dget k a), (dget k b); try assumption. rewrite val_eqb_sym. assumption. Qed.
Lemma same_attrs_trans a b c : same_attrs a b -> same_attrs b c -> same_attrs a c.
Proof.
  intros H1 H2 k. specialize (H1 k). specialize (H2 k). destruct (dget k a), (dget k b), (dget k c); try contradiction; try exact I.
  eapply val_eqb_trans; eassumption.
Qed.

Lemma same_opt_refl a : same_opt a a.
Proof. destruct a; [apply same_attrs_refl|exact I]. Qed.
Lemma same_opt_sym a b : same_opt a b -> same_opt b a.
Proof. destruct a, b; try exact (fun H => H). apply same_attrs_sym. Qed.
Lemma same_opt_trans a b c : same_opt a b -> same_opt b c -> same_opt a c.
Proof. destruct a, b, c; cbn; try tauto. apply same_attrs_trans. Qed.

(** ** have_same_nodes *)
Lemma order_nodes g : order g = List.length (nodes g).
Proof. unfold order, nodes, dkeys. rewrite map_length. reflexivity. Qed.

Lemma has_node_data g n : has_node g n = match node_data g n with Some _ => true | None => false end.
Proof. apply dmem_dget. Qed.

Lemma have_same_nodes_iff A B c : WF A -> WF B ->
  (have_same_nodes A B c = true <->
   same_node_set A B /\ (c = true -> forall n, same_opt (node_data A n) (node_data B n))).
Proof.
  intros WA WB. unfold have_same_nodes. rewrite andb_true_iff, Nat.eqb_eq, forallb_forall, !order_nodes. split.
  - intros [L F].
    assert (I : incl (nodes A) (nodes B)).
    { intros x Hx. apply In_dkeys in Hx as (v & Hx). specialize (F (x, v) Hx). cbn in F.
      destruct (node_data B x) eqn:E; [|discriminate]. eapply node_data_Some_In; eassumption. }
    assert (J : incl (nodes B) (nodes A)).
    { apply NoDup_length_incl; [apply (wf_nodes A WA)|lia|assumption]. }
    split; [intros n; split; [apply I|apply J]|]. intros -> n.
    destruct (node_data A n) as [x|] eqn:Ea, (node_data B n) as [y|] eqn:Eb; cbn; trivial.
    + pose proof (dget_Some_In _ _ _ Ea) as H. specialize (F (n, x) H). cbn in F. rewrite Eb in F.
      apply attrs_eqb_iff; [eauto using node_data_attrs|eauto using node_data_attrs|assumption].
    + apply node_data_Some_In, I, node_data_In in Ea as (v & Ea). congruence.
    + apply node_data_Some_In, J, node_data_In in Eb as (v & Eb). congruence.
  - intros [S C]. split.
    + apply Nat.le_antisymm; apply NoDup_incl_length; [apply (wf_nodes A WA)|intros x Hx; apply S, Hx|apply (wf_nodes B WB)|intros x Hx; apply S, Hx].
    + intros [n a] H. cbn. assert (HB : In n (nodes B)) by (apply S, In_dkeys; eauto).
      apply node_data_In in HB as (b & HB). rewrite HB. destruct c; [|reflexivity]. cbn.
      specialize (C eq_refl n). rewrite HB in C. unfold node_data in C at 1.
      rewrite (dget_In _ _ _ (wf_nodes A WA) H) in C. cbn in C.
      apply attrs_eqb_iff; [eapply (wf_nattrs A WA); eassumption|eauto using node_data_attrs|assumption].
Qed.

(** ** have_same_edges *)
Lemma pair_eq_dec (p q : key * key) : {p = q} + {p <> q}.
Proof. decide equality; apply key_eq_dec. Qed.

Definition orient (es : list (key * key)) (p : key * key) : key * key :=
  if in_dec pair_eq_dec p es then p else (snd p, fst p).

Lemma orient_jn dir es p : dir = false \/ In p es ->
  jn dir (fst p) (snd p) (fst (orient es p)) (snd (orient es p)) = true.
Proof.
  intros H. unfold orient. destruct (in_dec pair_eq_dec p es); [apply jn_refl|].
  destruct H as [H|H]; [|contradiction]. apply jn_iff. cbn. tauto.
Qed.

Lemma orient_edges A B : WF A -> WF B -> g_dir A = g_dir B ->
  (forall u v, In (u, v) (edges A) -> has_edge B u v = true) ->
  NoDup (map (orient (edges B)) (edges A)) /\ incl (map (orient (edges B)) (edges A)) (edges B).
Proof.
  intros WA WB D H.
  assert (OR : forall p, In p (edges A) -> g_dir A = false \/ In p (edges B)).
  { intros [u v] I. specialize (H u v I). apply has_edge_edges in H; [|assumption]. rewrite D. tauto. }
  split.
  - apply NoDup_map_inj; [|apply edges_NoDup; assumption]. intros p q Hp Hq E.
    pose proof (orient_jn (g_dir A) (edges B) p (OR p Hp)) as J1.
    pose proof (orient_jn (g_dir A) (edges B) q (OR q Hq)) as J2. rewrite E in J1.
    destruct p as [u v], q as [x y]. cbn in J1, J2. apply jn_iff in J1, J2.
    destruct J1 as [[J1 J1']|(D1 & J1 & J1')], J2 as [[J2 J2']|(D2 & J2 & J2')]; try congruence.
    + assert (EQ : u = v). 
      { apply (edges_oriented A u v WA); [assumption|assumption|]. replace v with x by congruence. replace u with y by congruence. assumption. }
      congruence.
    + assert (EQ : u = v). 
      { apply (edges_oriented A u v WA); [assumption|assumption|]. replace v with x by congruence. replace u with y by congruence. assumption. }
      congruence.
  - intros q Hq. apply in_map_iff in Hq as ([u v] & <- & Hp). unfold orient.
    destruct (in_dec pair_eq_dec (u, v) (edges B)) as [i|i]; [assumption|]. cbn.
    apply H, has_edge_edges in Hp; [|assumption]. tauto.
Qed.

Lemma edges_le A B : WF A -> WF B -> g_dir A = g_dir B ->
  (forall u v, In (u, v) (edges A) -> has_edge B u v = true) ->
  List.length (edges A) <= List.length (edges B).
Proof.
  intros WA WB D H. destruct (orient_edges A B WA WB D H) as [N I].
  apply NoDup_incl_length in I; [|assumption]. rewrite map_length in I. exact I.
Qed.

Lemma edges_same A B : WF A -> WF B -> g_dir A = g_dir B ->
  (forall u v, In (u, v) (edges A) -> has_edge B u v = true) ->
  List.length (edges A) = List.length (edges B) -> same_links A B.
Proof.
  intros WA WB D H L. destruct (orient_edges A B WA WB D H) as [N I].
  assert (J : incl (edges B) (map (orient (edges B)) (edges A))).
  { apply NoDup_length_incl; [assumption|rewrite map_length; lia|assumption]. }
  assert (HA : forall u v, has_edge A u v = true -> has_edge B u v = true).
  { intros u v E. apply has_edge_edges in E; [|assumption]. destruct E as [E|[DD E]]; [auto|].
    rewrite has_edge_sym by congruence. auto. }
  assert (HB : forall u v, In (u, v) (edges B) -> has_edge A u v = true).
  { intros u v E. apply J, in_map_iff in E as ([x y] & E & Hp).
    pose proof (has_edge_edges A x y WA) as X. assert (XY : has_edge A x y = true) by tauto.
    unfold orient in E. destruct (in_dec pair_eq_dec (x, y) (edges B)) as [i|i]; [congruence|].
    cbn in E. inversion E; subst.
    apply H, has_edge_edges in Hp; [|assumption].
    rewrite has_edge_sym; [assumption|]. destruct Hp as [Hp|[Hp _]]; [contradiction|congruence]. }
  intros u v. apply Bool.eq_iff_eq_true. split; [apply HA|]. intros E. apply has_edge_edges in E; [|assumption].
  destruct E as [E|[DD E]]; [auto|]. rewrite has_edge_sym by congruence. auto.
Qed.

Lemma edges_data_edges g u v a : In (u, v, a) (edges_data g) -> In (u, v) (edges g).
Proof.
  intros H. apply edges_data_In in H as (k & H). apply edges_keys_In in H as (kd & H & _).
  unfold edges. apply in_map_iff. exists (u, v, kd). split; [reflexivity|assumption].
Qed.

Lemma edges_edges_data g u v : WF g -> In (u, v) (edges g) -> exists a, In (u, v, a) (edges_data g).
Proof.
  intros W H. unfold edges in H. apply in_map_iff in H as ([[x y] kd] & E & H). cbn in E; inversion E; subst.
  pose proof (edge_pairs_data g u v kd W H) as D. pose proof (edge_data_ne g u v kd W D) as NE.
  destruct kd as [|[k a] kd]; [congruence|]. exists a. apply edges_data_In. exists k. apply edges_keys_In.
  exists ((k, a) :: kd). split; [assumption|left; reflexivity].
Qed.

Lemma edges_data_attrs g u v a : WF g -> g_multi g = false -> In (u, v, a) (edges_data g) -> edge_attrs g u v (KInt 0) = Some a.
Proof.
  intros W M H. apply edges_data_In in H as (k & H). pose proof H as H'. apply edges_keys_attrs in H; [|assumption].
  apply edges_keys_In in H' as (kd & H' & I). apply edge_pairs_data in H'; [|assumption].
  destruct (edge_data_simple g u v kd W M H') as (b & ->). destruct I as [I|[]]. inversion I; subst. assumption.
Qed.

Lemma edge_attrs_edges_data g u v k a : WF g -> edge_attrs g u v k = Some a ->
  In (u, v, a) (edges_data g) \/ (g_dir g = false /\ In (v, u, a) (edges_data g)).
Proof.
  intros W H. apply edge_attrs_keys in H; [|assumption].
  rewrite !edges_data_In. destruct H as [H|[D H]]; eauto.
Qed.

Lemma edge_attrs_nodup g u v k a : WF g -> edge_attrs g u v k = Some a -> NoDup (dkeys a).
Proof.
  intros W H. unfold edge_attrs in H. destruct (edge_data g u v) eqn:E; [|discriminate].
  apply dget_Some_In in H. eapply edge_data_attrs; eassumption.
Qed.

Lemma edge_attrs_has g u v k a : edge_attrs g u v k = Some a -> has_edge g u v = true.
Proof. unfold edge_attrs, has_edge. destruct (edge_data g u v); [reflexivity|discriminate]. Qed.

Lemma has_edge_attrs g u v : WF g -> g_multi g = false -> has_edge g u v = true -> exists a, edge_attrs g u v (KInt 0) = Some a.
Proof.
  intros W M H. unfold has_edge in H. destruct (edge_data g u v) as [kd|] eqn:E; [|discriminate].
  destruct (edge_data_simple g u v kd W M E) as (b & ->). exists b. unfold edge_attrs. rewrite E. reflexivity.
Qed.

Lemma have_same_edges_iff A B c : WF A -> WF B -> same_kind A B -> g_multi A = false ->
  (have_same_edges A B c = true <->
   same_links A B /\ (c = true -> forall u v, same_opt (edge_attrs A u v (KInt 0)) (edge_attrs B u v (KInt 0)))).
Proof.
  intros WA WB [D M'] M. assert (MB : g_multi B = false) by congruence.
  unfold have_same_edges. rewrite andb_true_iff, Nat.eqb_eq, forallb_forall.
  rewrite !size_simple by assumption. split.
  - intros [L F].
    assert (S : same_links A B).
    { apply edges_same; try assumption. intros u v H. apply edges_edges_data in H as (a & H); [|assumption].
      apply F in H. apply andb_true_iff in H. tauto. }
    split; [assumption|]. intros -> u v.
    assert (X : forall u v a, In (u, v, a) (edges_data A) -> same_opt (edge_attrs A u v (KInt 0)) (edge_attrs B u v (KInt 0))).
    { intros x y a H. pose proof (F _ H) as E. cbn in E. apply andb_true_iff in E as [_ E].
      unfold edge_attr_eqb in E. rewrite MB in E. cbn in E. rewrite (edges_data_attrs A x y a WA M H).
      destruct (edge_attrs B x y (KInt 0)) eqn:EB; [|discriminate]. cbn.
      apply attrs_eqb_iff; [eapply edge_attrs_nodup; [exact WA|eapply edges_data_attrs; eassumption]
        |eauto using edge_attrs_nodup|assumption]. }
    destruct (edge_attrs A u v (KInt 0)) as [a|] eqn:E.
    + destruct (edge_attrs_edges_data A u v _ a WA E) as [H|[DD H]].
      * rewrite <- E. eapply X; eassumption.
      * rewrite <- E. rewrite (edge_attrs_sym A u v), (edge_attrs_sym B u v) by congruence. eapply X; eassumption.
    + destruct (edge_attrs B u v (KInt 0)) as [b|] eqn:EB; [|exact I].
      apply edge_attrs_has in EB. rewrite <- S in EB. apply has_edge_attrs in EB as (x & EB); [congruence|assumption|assumption].
  - intros [S C]. split.
    + apply Nat.le_antisymm; apply edges_le; try assumption; try congruence; intros u v H.
      * rewrite <- S. apply has_edge_edges; tauto.
      * rewrite S. apply has_edge_edges; tauto.
    + intros [[u v] a] H. apply andb_true_iff. split.
      * rewrite <- S. apply edges_data_edges in H. apply has_edge_edges; tauto.
      * destruct c; [|reflexivity]. cbn. specialize (C eq_refl u v). rewrite (edges_data_attrs A u v a WA M H) in C.
        unfold edge_attr_eqb. rewrite MB. cbn. destruct (edge_attrs B u v (KInt 0)) eqn:EB; [|contradiction].
        cbn in C. apply attrs_eqb_iff; [eapply edge_attrs_nodup; [exact WA|eapply edges_data_attrs; eassumption]
        |eauto using edge_attrs_nodup|assumption].
Qed.

Lemma are_same_graphs_iff A B : WF A -> WF B -> same_kind A B -> g_multi A = false ->
  (are_same_graphs A B false = true <-> same_node_set A B /\ same_links A B).
Proof.
  intros WA WB K M. unfold are_same_graphs. rewrite andb_true_iff, have_same_nodes_iff, have_same_edges_iff by assumption.
  intuition discriminate.
Qed.

Lemma are_same_graphs_attrs_iff A B : WF A -> WF B -> same_kind A B -> g_multi A = false ->
  (are_same_graphs A B true = true <->
   (forall n, same_opt (node_data A n) (node_data B n))
   /\ (forall u v, same_opt (edge_attrs A u v (KInt 0)) (edge_attrs B u v (KInt 0)))).
Proof.
  intros WA WB K M. unfold are_same_graphs. rewrite andb_true_iff, have_same_nodes_iff, have_same_edges_iff by assumption.
  split; [intuition|]. intros [H1 H2]. split; split; try tauto.
  - intros n. specialize (H1 n). split; intros H; apply node_data_In in H as (a & H); rewrite H in H1; cbn in H1.
    + destruct (node_data B n) eqn:E; [eapply node_data_Some_In; eassumption|contradiction].
    + destruct (node_data A n) eqn:E; [eapply node_data_Some_In; eassumption|contradiction].
  - assert (MB : g_multi B = false) by (destruct K; congruence).
    intros u v. specialize (H2 u v). apply Bool.eq_iff_eq_true. split; intros H; apply has_edge_attrs in H as (a & H);
      try assumption; rewrite H in H2; cbn in H2.
    + destruct (edge_attrs B u v (KInt 0)) eqn:E; [eapply edge_attrs_has; eassumption|contradiction].
    + destruct (edge_attrs A u v (KInt 0)) eqn:E; [eapply edge_attrs_has; eassumption|contradiction].
Qed.

(** ** remove_edges *)
Lemma notM_Ok r b : r = Ok b -> notM r = Ok (negb b).
Proof. intros ->. reflexivity. Qed.

Lemma remove_edges_ok g f p : edge_test g f p ->
  remove_edges f g = (remove_edges_from g (map fst (filter (fun e => negb (on_edge p e)) (edges_data g))), Ok tt).
Proof.
  intros T. unfold remove_edges, sbind, sread, smodify.
  rewrite (filterM_Ok _ (fun e => negb (on_edge p e))); [reflexivity|].
  intros [[u v] a] H. apply notM_Ok, T, H.
Qed.

Lemma edges_data_filter_pairs (q : key -> key -> bool) g h :
  edge_pairs h = filter (fun e => q (fst (fst e)) (snd (fst e))) (edge_pairs g) ->
  edges_data h = filter (fun e => q (fst (fst e)) (snd (fst e))) (edges_data g).
Proof.
  intros E. rewrite !edges_data_pairs, E. clear E. induction (edge_pairs g) as [|[[u v] kd] l IH]; [reflexivity|].
  cbn [flat_map filter fst snd]. rewrite filter_app, <- IH. destruct (q u v) eqn:Q.
  - cbn [flat_map]. f_equal. symmetry. apply filter_all. intros x Hx. unfold data_of in Hx.
    apply in_map_iff in Hx as (y & <- & _). exact Q.
  - rewrite (filter_none _ (data_of (u, v, kd))); [reflexivity|]. intros x Hx. unfold data_of in Hx.
    apply in_map_iff in Hx as (y & <- & _). exact Q.
Qed.

Lemma edges_data_simple_fst g : WF g -> g_multi g = false -> map fst (edges_data g) = edges g.
Proof.
  intros W M. rewrite edges_data_simple by assumption. rewrite map_map. unfold edges. apply map_ext.
  intros [[u v] kd]. reflexivity.
Qed.

Lemma edges_data_simple_NoDup g : WF g -> g_multi g = false -> NoDup (map fst (edges_data g)).
Proof. intros W M. rewrite edges_data_simple_fst by assumption. apply edges_NoDup. assumption. Qed.

Lemma NoDup_fst_unique {A B} (l : list (A * B)) a b b' : NoDup (map fst l) -> In (a, b) l -> In (a, b') l -> b = b'.
Proof.
  induction l as [|[x y] l IH]; cbn; [tauto|]. intros N. inversion N as [|? ? NI ND]; subst.
  intros [E|H] [E'|H'].
  - congruence.
  - inversion E; subst. exfalso. apply NI. apply (in_map fst) in H'. exact H'.
  - inversion E'; subst. exfalso. apply NI. apply (in_map fst) in H. exact H.
  - auto.
Qed.

Lemma remove_edges_spec g f p : WF g -> g_multi g = false -> edge_test g f p ->
  exists g', remove_edges f g = (g', Ok tt) /\ WF g' /\ same_but_edges g g' /\ edges_data g' = filter (on_edge p) (edges_data g).
Proof.
  intros W M T. rewrite (remove_edges_ok g f p T).
  set (es := map fst (filter (fun e => negb (on_edge p e)) (edges_data g))).
  exists (remove_edges_from g es). split; [reflexivity|]. split; [apply WF_remove_edges; assumption|].
  split; [repeat split|].
  pose proof (edge_pairs_remove_edges g es W M) as E.
  apply (edges_data_filter_pairs (fun u v => negb (listed (g_dir g) es u v))) in E. rewrite E.
  apply filter_ext_in'. intros [[u v] a] H. cbn [fst snd]. unfold on_edge. cbn [fst snd].
  pose proof (edges_data_simple_NoDup g W M) as ND.
  destruct (p u v a) eqn:P.
  - apply negb_true_iff. destruct (listed (g_dir g) es u v) eqn:L; [|reflexivity]. exfalso.
    apply listed_iff in L. assert (I : forall x y, In (x, y) es -> exists b, In (x, y, b) (edges_data g) /\ p x y b = false).
    { intros x y Hx. apply in_map_iff in Hx as ([[x' y'] b] & Ex & Hx). cbn in Ex. inversion Ex; subst.
      apply filter_In in Hx as (Hx & Px). unfold on_edge in Px. cbn in Px. apply negb_true_iff in Px. eauto. }
    destruct L as [L|[D L]].
    + apply I in L as (b & Hb & Pb). assert (a = b) by (eapply NoDup_fst_unique; eassumption). congruence.
    + apply I in L as (b & Hb & Pb). assert (u = v).
      { apply (edges_oriented g u v W D); eapply edges_data_edges; eassumption. }
      subst v. assert (a = b) by (eapply NoDup_fst_unique; eassumption). congruence.
  - apply negb_false_iff, listed_iff. left. apply in_map_iff. exists (u, v, a). split; [reflexivity|].
    apply filter_In. split; [assumption|]. unfold on_edge. cbn. rewrite P. reflexivity.
Qed.

Lemma filterM_Err {A} (f : A -> res bool) l1 x l2 e :
  (forall y, In y l1 -> exists b, f y = Ok b) -> f x = Err e -> filterM f (l1 ++ x :: l2) = Err e.
Proof.
  intros H E. induction l1 as [|y l1 IH]; cbn [app filterM].
  - rewrite E. reflexivity.
  - destruct (H y (or_introl eq_refl)) as (b & ->). cbn. rewrite IH; [reflexivity|].
    intros; apply H; right; assumption.
Qed.

Lemma remove_edges_raises g f l1 u v a l2 e :
  edges_data g = l1 ++ (u, v, a) :: l2 ->
  (forall x y b, In (x, y, b) l1 -> exists r, f x y b = Ok r) -> f u v a = Err e ->
  remove_edges f g = (g, Err e).
Proof.
  intros E H F. unfold remove_edges, sbind, sread. rewrite E.
  rewrite (filterM_Err _ l1 (u, v, a) l2 e); [reflexivity| |rewrite F; reflexivity].
  intros [[x y] b] I. destruct (H x y b I) as (r & R). exists (negb r). rewrite R. reflexivity.
Qed.

(** ** filter_edges *)
Lemma kwargs_ok_iff r a : kwargs_ok r a = true <-> forall k, In k (dkeys a) -> (exists s, k = KStr s) /\ ~ In k r.
Proof.
  unfold kwargs_ok. rewrite forallb_forall. split; intros H k I.
  - specialize (H k I). apply andb_true_iff in H as [S M]. apply negb_true_iff, mem_nIn in M.
    split; [|assumption]. destruct k; try discriminate. eauto.
  - destruct (H k I) as [(s & ->) M]. apply andb_true_iff. split; [reflexivity|].
    apply negb_true_iff, mem_nIn. assumption.
Qed.

Lemma dremove_none {A} k (d : dict A) : ~ In k (dkeys d) -> dremove [k] d = d.
Proof.
  unfold dremove. induction d as [|[k0 v0] d IH]; intros N; [reflexivity|]. cbn [filter fst]. rewrite IH.
  - destruct (mem k0 [k]) eqn:E; [|reflexivity]. apply mem_In in E as [->|[]]. destruct N. left. reflexivity.
  - intros H. apply N. right. assumption.
Qed.

Lemma new_graph_plain dir multi a : (forall k, In k (dkeys a) -> (exists s, k = KStr s) /\ k <> K "self" /\ k <> K "incoming_graph_data") ->
  new_graph_kw dir multi a = Ok (mkG dir multi (dupdate [] a) [] []).
Proof.
  intros H. assert (N : ~ In (K "incoming_graph_data") (dkeys a)) by (intros I; apply H in I as (_ & _ & I); congruence).
  unfold new_graph_kw. replace (kwargs_ok [K "self"] a) with true.
  2: { symmetry. apply kwargs_ok_iff. intros k Hk. destruct (H k Hk) as (A & B & _). split; [assumption|]. intros [E|[]]. congruence. }
  rewrite dremove_none by assumption. apply dget_None in N. rewrite N. reflexivity.
Qed.

Lemma new_graph_inv dir multi a g : new_graph_kw dir multi a = Ok g ->
  kwargs_ok [K "self"] a = true /\ (dget (K "incoming_graph_data") a = None \/ dget (K "incoming_graph_data") a = Some VNone)
  /\ g = mkG dir multi (dupdate [] (dremove [K "incoming_graph_data"] a)) [] [].
Proof.
  unfold new_graph_kw. destruct (kwargs_ok _ a); [|discriminate].
  destruct (dget (K "incoming_graph_data") a) as [[]|]; intros E; try discriminate E; inversion E; auto.
Qed.

Lemma edge_names_ok_iff m a : edge_names_ok m a = true <->
  forall k, In k (dkeys a) -> (exists s, k = KStr s) /\ ~ In k (edge_reserved m) /\ (m = true -> k <> K "key").
Proof.
  unfold edge_names_ok. rewrite andb_true_iff, orb_true_iff, !negb_true_iff, kwargs_ok_iff, mem_nIn. split.
  - intros [H M] k I. destruct (H k I). repeat split; try assumption. intros E X. subst.
    destruct M as [M|M]; [discriminate|contradiction].
  - intros H. split; [intros k I; destruct (H k I) as (? & ? & _); tauto|].
    destruct m; [right|tauto]. intros I. apply (H _ I); reflexivity.
Qed.

Lemma edge_names_data g u v a : edge_names g -> In (u, v, a) (edges_data g) -> edge_names_ok (g_multi g) a = true.
Proof. intros H I. apply edge_names_ok_iff. intros k K. eapply H; eassumption. Qed.

Lemma multi_add_edge g u v a : g_multi (add_edge g u v a) = g_multi g.
Proof. apply multi_add_edge_at. Qed.
Lemma dir_add_edge g u v a : g_dir (add_edge g u v a) = g_dir g.
Proof. apply dir_add_edge_at. Qed.

Lemma foldM_add_edges (q : key * key * attrs -> res bool) (p : key * key * attrs -> bool) l : forall h,
  (forall e, In e l -> q e = Ok (p e)) ->
  (forall u v a, In (u, v, a) l -> p (u, v, a) = true -> edge_names_ok (g_multi h) a = true) ->
  foldM (fun copy e => let* b := q e in
           if b then add_edge_kw copy (fst (fst e)) (snd (fst e)) (snd e) else Ok copy) l h
  = Ok (add_all (filter p l) h).
Proof.
  induction l as [|[[u v] a] l IH]; intros h Q N; [reflexivity|]. cbn [foldM filter].
  rewrite (Q _ (or_introl eq_refl)). cbn [bind]. destruct (p (u, v, a)) eqn:P.
  - cbn [fst snd]. rewrite add_edge_kw_Ok by (eapply N; [left; reflexivity|assumption]). cbn [bind].
    rewrite IH; [reflexivity| |].
    + intros; apply Q; right; assumption.
    + intros x y b I E. rewrite multi_add_edge. eapply N; [right; eassumption|assumption].
  - cbn [bind]. apply IH; [intros; apply Q; right; assumption|intros x y b I E; eapply N; [right; eassumption|assumption]].
Qed.

Lemma foldM_ext {A S} (f f' : S -> A -> res S) l s : (forall s a, f s a = f' s a) -> foldM f l s = foldM f' l s.
Proof.
  intros H. revert s. induction l as [|a l IH]; intros s; [reflexivity|]. cbn. rewrite H.
  destruct (f' s a); [apply IH|reflexivity].
Qed.

Lemma filter_edges_ok g f p : edge_test g f p ->
  (forall u v a, In (u, v, a) (edges_data g) -> p u v a = true -> edge_names_ok (g_multi g) a = true) ->
  filter_edges g f = Ok (add_all (filter (on_edge p) (edges_data g)) (create_empty_copy g)).
Proof.
  intros T N. unfold filter_edges.
  rewrite (foldM_ext _ (fun copy e => let* b := f (fst (fst e)) (snd (fst e)) (snd e) in
             if b then add_edge_kw copy (fst (fst e)) (snd (fst e)) (snd e) else Ok copy))
    by (intros s [[u v] a]; reflexivity).
  apply (foldM_add_edges (fun e => f (fst (fst e)) (snd (fst e)) (snd e)) (on_edge p)).
  - intros [[u v] a] H. apply T. assumption.
  - intros u v a H P. apply (N u v a H P).
Qed.

Lemma filter_edges_spec g f p : WF g -> edge_names g -> edge_test g f p ->
  exists h, filter_edges g f = Ok h /\ WF h /\ same_but_edges g h /\ edges_data h = filter (on_edge p) (edges_data g)
            /\ incl (edges h) (edges g).
Proof.
  intros W N T. eexists. split.
  - apply filter_edges_ok; [exact T|]. intros u v a H _. eapply edge_names_data; eassumption.
  - destruct (rebuild_filter g (on_edge p) W) as (H1 & H2 & H3 & H4 & H5 & H6 & H7).
    split; [assumption|]. split; [repeat split; congruence|]. split; assumption.
Qed.

(** ** remove_nodes *)
Lemma mem_map_filter (l : dict attrs) (q : key * attrs -> bool) n a :
  NoDup (dkeys l) -> In (n, a) l -> mem n (map fst (filter q l)) = q (n, a).
Proof.
  intros N I. destruct (q (n, a)) eqn:E.
  - apply mem_In, in_map_iff. exists (n, a). split; [reflexivity|]. apply filter_In. tauto.
  - apply mem_nIn. intros H. apply in_map_iff in H as ([n' a'] & En & H). cbn in En. subst n'.
    apply filter_In in H as (H & Q). assert (a = a').
    { apply dget_In in I; [|assumption]. apply dget_In in H; [|assumption]. congruence. }
    congruence.
Qed.

(** the nodes accepted by [p] with the attributes they have in [g] *)
Lemma induced_ext P Q g : WF g -> (forall n, In n (nodes g) -> P n = Q n) -> induced P g = induced Q g.
Proof.
  intros W H. unfold induced. f_equal.
  - apply filter_ext_in'. intros [n a] I. apply H. apply In_dkeys. eauto.
  - apply filter_ext_in'. intros b I. apply (wf_ends g W) in I as [I1 I2]. rewrite !H by assumption. reflexivity.
Qed.

Lemma remove_nodes_ok g f p : WF g -> node_test g f p ->
  remove_nodes f g = (induced (accepted g p) g, Ok tt).
Proof.
  intros W T. unfold remove_nodes, sbind, sread, smodify.
  rewrite (filterM_Ok _ (fun na => negb (p (fst na) (snd na)))).
  2: { intros [n a] H. apply notM_Ok, T, H. }
  cbn [bind]. rewrite remove_nodes_induced. f_equal. apply induced_ext; [assumption|].
  intros n H. apply In_dkeys in H as (a & H).
  rewrite (mem_map_filter (g_nodes g) _ n a (wf_nodes g W) H). cbn. rewrite negb_involutive.
  unfold accepted, node_data. rewrite (dget_In _ _ _ (wf_nodes g W) H). reflexivity.
Qed.

Lemma edge_attrs_induced P g u v k : edge_attrs (induced P g) u v k = if P u && P v then edge_attrs g u v k else None.
Proof. unfold edge_attrs. rewrite edge_data_induced. destruct (P u && P v); reflexivity. Qed.

Lemma induced_induced_by P g : induced_by P g (induced P g).
Proof.
  repeat split.
  - apply node_data_induced.
  - apply edge_attrs_induced.
Qed.
