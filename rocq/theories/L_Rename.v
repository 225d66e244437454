(** * Renaming the nodes of a graph, rebuilding a graph from its listed edges *)
From Coq Require Import List ZArith Lia Bool.
From Verif Require Import PyBase NxGraph L_Base L_Nx L_Nx2 S_Graph S_Json L_Graph L_Graph2.
Import ListNotations.

Definition rename (f : key -> key) (g : graph) : graph :=
  mkG (g_dir g) (g_multi g) (g_attr g) (map (fun na => (f (fst na), snd na)) (g_nodes g))
    (map (fun b => mkB (f (b_src b)) (f (b_dst b)) (b_data b)) (g_adj g)).

Section Rename.
  Variables (f : key -> key) (g : graph).
  Hypotheses (W : WF g) (I : injective_on (nodes g) f).

  Lemma nodes_rename : nodes (rename f g) = map f (nodes g).
  Proof. unfold nodes, dkeys. cbn. rewrite !map_map. reflexivity. Qed.

  Lemma key_eqb_rename x y : In x (nodes g) -> In y (nodes g) -> key_eqb (f x) (f y) = key_eqb x y.
  Proof.
    intros Hx Hy. apply eq_true_iff_eq. rewrite !key_eqb_eq. split; [apply I; assumption|congruence].
  Qed.

  Lemma mem_rename x l : In x (nodes g) -> incl l (nodes g) -> mem (f x) (map f l) = mem x l.
  Proof.
    intros Hx Hl. induction l as [|y l IH]; [reflexivity|]. cbn. rewrite key_eqb_rename; [|assumption|apply Hl; cbn; tauto].
    unfold mem in IH. rewrite IH; [reflexivity|]. intros z Hz. apply Hl. cbn. tauto.
  Qed.

  Lemma same_ends_rename dir u v b : In u (nodes g) -> In v (nodes g) -> In (b_src b) (nodes g) -> In (b_dst b) (nodes g) ->
    same_ends dir (f u) (f v) (mkB (f (b_src b)) (f (b_dst b)) (b_data b)) = same_ends dir u v b.
  Proof. intros. unfold same_ends. cbn. rewrite !key_eqb_rename by assumption. reflexivity. Qed.

  Lemma edge_data_rename u v : In u (nodes g) -> In v (nodes g) -> edge_data (rename f g) (f u) (f v) = edge_data g u v.
  Proof.
    intros Hu Hv. unfold edge_data. cbn [rename g_dir g_adj]. pose proof (wf_ends g W) as E.
    induction (g_adj g) as [|b l IH]; [reflexivity|]. cbn [map List.find].
    destruct (E b (or_introl eq_refl)) as [Es Ed]. rewrite same_ends_rename by assumption.
    destruct (same_ends (g_dir g) u v b); [reflexivity|]. apply IH. intros c Hc. apply E. cbn. tauto.
  Qed.

  Lemma adj_items_rename n : In n (nodes g) -> adj_items (rename f g) (f n) = map (fun mk => (f (fst mk), snd mk)) (adj_items g n).
  Proof.
    intros Hn. unfold adj_items. cbn [rename g_dir g_adj]. pose proof (wf_ends g W) as E.
    induction (g_adj g) as [|b l IH]; [reflexivity|]. cbn [map flat_map]. rewrite map_app, IH by (intros c Hc; apply E; cbn; tauto).
    f_equal. destruct (E b (or_introl eq_refl)) as [Es Ed]. unfold other_end. cbn [b_src b_dst b_data].
    rewrite !key_eqb_rename by assumption. destruct (key_eqb (b_src b) n); [reflexivity|].
    destruct (negb (g_dir g) && key_eqb (b_dst b) n); reflexivity.
  Qed.

  Lemma adj_items_nodes n m kd : In (m, kd) (adj_items g n) -> In m (nodes g).
  Proof. intros H. apply adj_items_In in H; [|assumption]. apply edge_data_nodes in H; tauto. Qed.

  Lemma pairs_from_rename todo : forall seen, incl seen (nodes g) -> incl todo (nodes g) ->
    pairs_from (rename f g) (map f seen) (map f todo) = map (fun e => (f (fst (fst e)), f (snd (fst e)), snd e)) (pairs_from g seen todo).
  Proof.
    induction todo as [|n todo IH]; intros seen Hs Ht; [reflexivity|]. cbn [map pairs_from]. rewrite map_app. f_equal.
    - rewrite adj_items_rename by (apply Ht; cbn; tauto). rewrite map_map. cbn [fst snd g_dir rename].
      assert (A : incl (adj_items g n) (adj_items g n)) by apply incl_refl. revert A. generalize (adj_items g n) at 1 3 4.
      induction l as [|[m kd] l IHl]; intros A; [reflexivity|]. cbn [map filter fst snd].
      rewrite mem_rename; [|apply (adj_items_nodes n m kd), A; cbn; tauto|assumption].
      destruct (g_dir g || negb (mem m seen)); cbn [map]; rewrite IHl; try reflexivity; intros z Hz; apply A; cbn; tauto.
    - change (f n :: map f seen) with (map f (n :: seen)). apply IH; intros z Hz; [destruct Hz as [<- |Hz]; [apply Ht; cbn; tauto|auto]|].
      apply Ht. cbn. tauto.
  Qed.

  Lemma edge_pairs_rename : edge_pairs (rename f g) = map (fun e => (f (fst (fst e)), f (snd (fst e)), snd e)) (edge_pairs g).
  Proof. unfold edge_pairs. rewrite nodes_rename. apply (pairs_from_rename (nodes g) []); [intros z []|apply incl_refl]. Qed.

  Lemma edges_data_rename : edges_data (rename f g) = map (fun e => (f (fst (fst e)), f (snd (fst e)), snd e)) (edges_data g).
  Proof.
    rewrite !edges_data_pairs, edge_pairs_rename. induction (edge_pairs g) as [|[[u v] kd] l IH]; [reflexivity|].
    cbn [map flat_map]. rewrite map_app, IH. f_equal. unfold data_of. cbn. rewrite map_map. reflexivity.
  Qed.

  Lemma NoDup_rename l : incl l (nodes g) -> NoDup l -> NoDup (map f l).
  Proof.
    intros Hl N. induction N as [|x l Hx N IH]; [constructor|]. cbn. constructor.
    - intros H. apply in_map_iff in H as (y & E & Hy). apply I in E; [subst; contradiction|apply Hl; cbn; tauto|apply Hl; cbn; tauto].
    - apply IH. intros z Hz. apply Hl. cbn. tauto.
  Qed.

  Lemma WF_rename : WF (rename f g).
  Proof.
    constructor.
    - rewrite nodes_rename. apply NoDup_rename; [apply incl_refl|apply W].
    - cbn. intros n a H. apply in_map_iff in H as ([m b] & E & H). inversion E; subst. apply (wf_nattrs g W m). exact H.
    - apply W.
    - intros b H. cbn in H. apply in_map_iff in H as (c & <- & H). rewrite nodes_rename. cbn.
      destruct (wf_ends g W c H). split; apply in_map; assumption.
    - intros b H. cbn in H. apply in_map_iff in H as (c & <- & H). apply (wf_ne g W c H).
    - intros b H. cbn in H. apply in_map_iff in H as (c & <- & H). apply (wf_keys g W c H).
    - intros b k a H. cbn in H. apply in_map_iff in H as (c & <- & H). apply (wf_eattrs g W c k a H).
    - intros M b H. cbn in H. apply in_map_iff in H as (c & <- & H). apply (wf_simple g W M c H).
    - cbn. pose proof (wf_distinct g W) as D. pose proof (wf_ends g W) as E.
      induction (g_adj g) as [|b l IH]; [constructor|]. cbn. inversion D as [|? ? F D']; subst. constructor.
      + apply Forall_forall. intros x Hx. apply in_map_iff in Hx as (c & <- & Hc). rewrite Forall_forall in F. apply F in Hc as Ha.
        unfold apart in *. cbn [b_src b_dst]. destruct (E b (or_introl eq_refl)), (E c (or_intror Hc)).
        rewrite same_ends_rename by assumption. assumption.
      + apply IH; [assumption|]. intros c Hc. apply E. cbn. tauto.
  Qed.

  Lemma node_data_rename n : In n (nodes g) -> node_data (rename f g) (f n) = node_data g n.
  Proof.
    intros Hn. unfold node_data. cbn [rename g_nodes]. revert Hn. assert (A : incl (dkeys (g_nodes g)) (nodes g)) by apply incl_refl.
    revert A. generalize (g_nodes g). induction d as [|[m a] d IH]; intros A Hn; [reflexivity|]. cbn [map dget fst snd].
    rewrite key_eqb_rename; [|assumption|apply A; cbn; tauto]. destruct (key_eqb n m); [reflexivity|]. apply IH; [|assumption].
    intros z Hz. apply A. cbn. tauto.
  Qed.
End Rename.

(** ** Adding the listed edges again *)
Definition renumber (kd : dict attrs) : dict attrs := number 0 (map snd kd).

Lemma renumber_simple a : renumber [(KInt 0, a)] = [(KInt 0, a)].
Proof. reflexivity. Qed.

Lemma number_keys l : forall z, dkeys (number z l) = map (fun i => KInt (z + Z.of_nat i)) (seq 0 (List.length l)).
Proof.
  induction l as [|a l IH]; intros z; [reflexivity|]. cbn [number dkeys map List.length seq fst]. f_equal; [f_equal; lia|].
  rewrite <- seq_shift, map_map. fold (dkeys (number (z + 1) l)). rewrite IH. apply map_ext. intros i. f_equal. lia.
Qed.

Lemma renumber_numbered kd : numbered (renumber kd).
Proof.
  unfold numbered, renumber. rewrite number_keys, length_number. apply map_ext. intros i. f_equal.
Qed.

Lemma rebuild g : WF g -> let h := add_all (edges_data g) (create_empty_copy g) in
  WF h /\ edge_pairs h = map (fun e => (fst e, renumber (snd e))) (edge_pairs g) /\ edges_data h = edges_data g
  /\ g_nodes h = g_nodes g /\ g_attr h = g_attr g /\ g_dir h = g_dir g /\ g_multi h = g_multi g.
Proof.
  intros W. cbn zeta.
  set (P := map (fun e : key * key * dict attrs => (fst e, map snd (snd e))) (edge_pairs g)).
  assert (EQ : edges_data g = flat_map group_edges P).
  { rewrite edges_data_pairs. unfold P. induction (edge_pairs g) as [|[[u v] kd] l IH]; [reflexivity|]. cbn [map flat_map].
    rewrite IH. f_equal. unfold data_of, group_edges. cbn. rewrite map_map. reflexivity. }
  destruct (edges_data_groups g P) as (H1 & H2 & H3 & H4 & H5 & H6 & H7).
  - assumption.
  - apply Forall_forall. intros x Hx. unfold P in Hx. apply in_map_iff in Hx as ([[u v] kd] & <- & He).
    apply edge_pairs_data in He; [|assumption]. destruct (edge_data_nodes g u v kd W He).
    unfold group_ok. cbn [fst snd]. split; [|split; [assumption|split; [assumption|split]]].
    + apply edge_data_ne in He; [|assumption]. destruct kd; [contradiction|discriminate].
    + intros M. destruct (edge_data_simple g u v kd W M He) as (a & ->). reflexivity.
    + apply Forall_forall. intros a Ha. apply in_map_iff in Ha as ([k a'] & E & Ha). cbn in E; subst a'.
      eapply edge_data_attrs; eassumption.
  - pose proof (edges_apart g W) as A. unfold edges in A. unfold P. clear -A.
    induction (edge_pairs g) as [|x l IH]; [constructor|]. cbn in *. inversion A; subst. constructor; [|auto].
    rewrite Forall_forall in *. intros y Hy. rewrite map_map in Hy. apply in_map_iff in Hy as (z & <- & Hz).
    apply (in_map fst), H1 in Hz. exact Hz.
  - eapply canonical_map_eq; [|apply edges_canonical; exact W]. unfold P, edges. rewrite map_map. reflexivity.
  - rewrite EQ. split; [assumption|]. split.
    + rewrite H2. unfold P. rewrite map_map. reflexivity.
    + repeat split; assumption.
Qed.

Lemma rebuild_data g u v : WF g ->
  edge_data (add_all (edges_data g) (create_empty_copy g)) u v = option_map renumber (edge_data g u v).
Proof.
  intros W. destruct (rebuild g W) as (WH & EP & _ & EN & _ & ED & _). cbn zeta in *. set (h := add_all _ _) in *.
  assert (A : forall x y kd, In (x, y, kd) (edge_pairs h) <-> exists kd', kd = renumber kd' /\ In (x, y, kd') (edge_pairs g)).
  { intros x y kd. rewrite EP, in_map_iff. split.
    - intros ([[x' y'] kd'] & E & H). inversion E; subst. eauto.
    - intros (kd' & -> & H). exists (x, y, kd'). split; [reflexivity|assumption]. }
  destruct (edge_data g u v) as [kd|] eqn:E.
  - apply edge_data_pairs in E; [|assumption]. cbn. destruct E as [E|[D E]].
    + apply edge_pairs_data; [assumption|]. apply A. eauto.
    + rewrite edge_data_sym by congruence. apply edge_pairs_data; [assumption|]. apply A. eauto.
  - cbn. destruct (edge_data h u v) as [kd|] eqn:F; [|reflexivity]. exfalso.
    apply edge_data_pairs in F; [|assumption]. destruct F as [F|[D F]]; apply A in F as (kd' & -> & F); apply edge_pairs_data in F; try assumption.
    + congruence.
    + rewrite edge_data_sym in F by congruence. congruence.
Qed.
