(** * Lemmas about reading and writing JSON *)
From Coq Require Import List ZArith Lia Bool String DecimalString Decimal DecimalZ DecimalFacts.
From Verif Require Import PyBase NxGraph L_Base L_Nx L_Nx2 M_Utils S_Graph S_Json L_Graph L_Graph2 L_Rename M_Json.
Import ListNotations.
Open Scope list_scope.

(** ** Decimal printing *)
Lemma string_of_int_inj z z' : NilZero.string_of_int (Z.to_int z) = NilZero.string_of_int (Z.to_int z') -> z = z'.
Proof.
  intros H. apply (f_equal NilZero.int_of_string) in H.
  assert (A : forall z, NilZero.int_of_string (NilZero.string_of_int (Z.to_int z)) = Some (Z.to_int z)).
  { intros x. apply NilZero.isi.
    - destruct x as [|p|p]; cbn; try discriminate; intros E; inversion E as [E']; pose proof (DecimalPos.Unsigned.to_uint_nonnil p); contradiction.
    - destruct x as [|p|p]; cbn; try discriminate; intros E; inversion E as [E']; pose proof (DecimalPos.Unsigned.to_uint_nonnil p); contradiction. }
  rewrite !A in H. inversion H as [E]. apply (f_equal Z.of_int) in E. rewrite !DecimalZ.of_to in E. assumption.
Qed.

Definition str_of (repr : nat -> string) (k : key) : key := KStr (py_str repr k).

Lemma str_of_str repr k : (exists s, k = KStr s) -> str_of repr k = k.
Proof. intros (s & ->). reflexivity. Qed.

Lemma str_of_int repr k k' : (exists z, k = KInt z) -> (exists z, k' = KInt z) -> str_of repr k = str_of repr k' -> k = k'.
Proof. intros (z & ->) (z' & ->) H. inversion H as [E]. apply string_of_int_inj in E. congruence. Qed.

(** ** Attributes *)
Definition coerce_step (repr : nat -> string) (allow : bool) (copy : attrs) (kv : key * val) : res attrs :=
  if is_str (fst kv) then Ok (dset (fst kv) (snd kv) copy)
  else if allow then Ok (dset (str_of repr (fst kv)) (snd kv) copy) else Err TypeError.

Lemma coerce_steps repr allow a : coerce_attributes repr allow a = foldM (coerce_step repr allow) a [].
Proof. apply foldM_ext. intros c [k v]. reflexivity. Qed.

Lemma coerce_str repr (allow : bool) (a : attrs) : (forall k, In k (dkeys a) -> exists s, k = KStr s) -> forall c : attrs,
  foldM (coerce_step repr allow) a c = Ok (dupdate c a).
Proof.
  intros H. induction a as [|[k v] a IH]; intros c; [reflexivity|]. cbn [foldM].
  destruct (H k (or_introl eq_refl)) as (s & ->). cbn [coerce_step fst snd is_str bind]. rewrite IH; [reflexivity|].
  intros k Hk. apply H. cbn. tauto.
Qed.

Lemma coerced_str repr allow (a : attrs) : NoDup (dkeys a) -> (forall k, In k (dkeys a) -> exists s, k = KStr s) ->
  exists o, coerced repr allow a = Ok o /\ get_default [] o = a.
Proof.
  intros N H. unfold coerced. destruct a as [|kv a]; [exists None; split; reflexivity|].
  rewrite coerce_steps. rewrite coerce_str by assumption. cbn [bind]. eexists. split; [reflexivity|]. cbn [get_default].
  apply dupdate_nil. assumption.
Qed.

Lemma coerce_raises repr (a c : attrs) : (exists k, In k (dkeys a) /\ ~ exists s, k = KStr s) ->
  foldM (coerce_step repr false) a c = Err TypeError.
Proof.
  revert c. induction a as [|[k v] a IH]; intros c (k' & Hk & N); [contradiction|]. cbn [foldM]. destruct Hk as [E|Hk].
  - cbn in E. subst k'. destruct k as [z|s|n]; [reflexivity|destruct N; eauto|reflexivity].
  - unfold coerce_step at 1. cbn [fst snd]. destruct (is_str k); [|reflexivity]. cbn [bind]. apply IH. eauto.
Qed.

Lemma coerce_allowed repr (a c : attrs) : exists r,
  foldM (coerce_step repr true) a c = Ok r.
Proof.
  revert c. induction a as [|[k v] a IH]; intros c; cbn [foldM]; [eauto|]. unfold coerce_step at 1. cbn [fst snd]. destruct (is_str k); cbn [bind]; apply IH.
Qed.

Definition names_ok (allow : bool) (a : attrs) : bool := allow || forallb is_str (dkeys a).

Lemma names_ok_iff (a : attrs) : forallb is_str (dkeys a) = true <-> forall k, In k (dkeys a) -> exists s, k = KStr s.
Proof.
  rewrite forallb_forall. split; intros H k Hk; apply H in Hk.
  - destruct k; try discriminate. eauto.
  - destruct Hk as (s & ->). reflexivity.
Qed.

Lemma coerced_res repr allow a : if names_ok allow a then exists o, coerced repr allow a = Ok o else coerced repr allow a = Err TypeError.
Proof.
  unfold names_ok, coerced. destruct a as [|kv a]; [rewrite orb_true_r; eauto|]. rewrite coerce_steps. destruct allow; cbn [orb].
  - destruct (coerce_allowed repr (kv :: a) []) as (r & ->). cbn. eauto.
  - destruct (forallb is_str (dkeys (kv :: a))) eqn:E.
    + rewrite coerce_str by (apply names_ok_iff; assumption). cbn. eauto.
    + rewrite coerce_raises; [reflexivity|]. clear - E. induction (dkeys (kv :: a)) as [|k l IH]; [discriminate|]. cbn in E.
      apply andb_false_iff in E as [E|E].
      * exists k. split; [cbn; tauto|]. intros (s & ->). discriminate.
      * destruct (IH E) as (k' & H & N). exists k'. split; [cbn; tauto|assumption].
Qed.

(** ** write_graphology_json *)
Definition type_ok (mixed : bool) (t : option pytype) (k : key) : bool :=
  valid_key k && (mixed || match t with None => true | Some t => pytype_eqb (key_type k) t end).
Definition type_next (mixed : bool) (t : option pytype) (k : key) : option pytype :=
  if mixed then t else match t with None => Some (key_type k) | Some t => Some t end.

Lemma pytype_eqb_eq a b : pytype_eqb a b = true <-> a = b.
Proof.
  destruct a, b; cbn; try (split; [discriminate|discriminate]); try tauto.
  rewrite Nat.eqb_eq. split; [intros ->; reflexivity|congruence].
Qed.

Lemma write_node_res repr mixed allow t ns n a :
  write_node repr mixed allow (t, ns) (n, a)
  = if type_ok mixed t n
    then match coerced repr allow a with
         | Ok o => Ok (type_next mixed t n, ns ++ [mkSNode (Some (str_of repr n)) o])
         | Err e => Err e
         end
    else Err TypeError.
Proof.
  unfold write_node, type_ok, type_next, str_of. destruct (valid_key n); [|reflexivity]. cbn [negb andb].
  destruct mixed; cbn [orb bind]; [destruct (coerced repr allow a); reflexivity|]. destruct t as [t|]; cbn [bind].
  - destruct (pytype_eqb (key_type n) t); cbn [negb bind]; [destruct (coerced repr allow a); reflexivity|reflexivity].
  - destruct (coerced repr allow a); reflexivity.
Qed.

(** the keys can be written one after the other *)
Fixpoint types_ok (mixed : bool) (t : option pytype) (l : list key) : bool :=
  match l with [] => true | k :: l' => type_ok mixed t k && types_ok mixed (type_next mixed t k) l' end.

Definition serialized_as (repr : nat -> string) (na : key * attrs) (s : s_node) : Prop :=
  sn_key s = Some (str_of repr (fst na)) /\ exists allow, coerced repr allow (snd na) = Ok (sn_attributes s).

Lemma write_nodes_res repr mixed allow l : forall t ns,
  if types_ok mixed t (dkeys l) && forallb (names_ok allow) (map snd l)
  then exists t' ss, foldM (write_node repr mixed allow) l (t, ns) = Ok (t', ns ++ ss)
       /\ Forall2 (fun na s => sn_key s = Some (str_of repr (fst na)) /\ coerced repr allow (snd na) = Ok (sn_attributes s)) l ss
  else foldM (write_node repr mixed allow) l (t, ns) = Err TypeError.
Proof.
  induction l as [|[n a] l IH]; intros t ns; cbn [dkeys map types_ok forallb foldM fst snd].
  - exists t, []. rewrite app_nil_r. split; [reflexivity|constructor].
  - rewrite write_node_res. destruct (type_ok mixed t n); cbn [andb]; [|reflexivity].
    pose proof (coerced_res repr allow a) as C. destruct (names_ok allow a); cbn [andb].
    + destruct C as (o & Ho). rewrite Ho. cbn [bind]. specialize (IH (type_next mixed t n) (ns ++ [mkSNode (Some (str_of repr n)) o])).
      fold (dkeys l) in *. destruct (types_ok mixed (type_next mixed t n) (dkeys l) && forallb (names_ok allow) (map snd l)).
      * destruct IH as (t' & ss & E & F). exists t', (mkSNode (Some (str_of repr n)) o :: ss). rewrite E, <- app_assoc. split; [reflexivity|].
        constructor; [|assumption]. cbn. tauto.
      * assumption.
    + rewrite C. cbn [bind]. rewrite andb_false_r. reflexivity.
Qed.

Definition edge_as (repr : nat -> string) (allow : bool) (e : key * key * attrs) (s : s_edge) : Prop :=
  exists o, coerced repr allow (snd e) = Ok o
            /\ s = mkSEdge None (Some (str_of repr (fst (fst e)))) (Some (str_of repr (snd (fst e)))) o None.

Lemma write_edges_res repr allow l : forall es,
  if forallb (names_ok allow) (map snd l)
  then exists ss, foldM (write_edge repr allow) l es = Ok (es ++ ss) /\ Forall2 (edge_as repr allow) l ss
  else foldM (write_edge repr allow) l es = Err TypeError.
Proof.
  induction l as [|[[u v] a] l IH]; intros es; cbn [map forallb foldM snd].
  - exists []. rewrite app_nil_r. split; [reflexivity|constructor].
  - unfold write_edge at 1 3. pose proof (coerced_res repr allow a) as C. destruct (names_ok allow a); cbn [andb].
    + destruct C as (o & Ho). rewrite Ho. cbn [bind].
      specialize (IH (es ++ [mkSEdge None (Some (KStr (py_str repr u))) (Some (KStr (py_str repr v))) o None])).
      destruct (forallb (names_ok allow) (map snd l)); [|assumption]. destruct IH as (ss & E & F).
      eexists. rewrite E, <- app_assoc. split; [reflexivity|]. constructor; [|assumption]. exists o. split; [assumption|reflexivity].
    + rewrite C. reflexivity.
Qed.

Definition writable (mixed allow : bool) (g : graph) : bool :=
  types_ok mixed None (nodes g) && forallb (names_ok allow) (map snd (g_nodes g)) && forallb (names_ok allow) (map snd (edges_data g)).

Lemma write_res repr g mixed allow :
  if writable mixed allow g
  then exists ns es, write_graphology_json repr g mixed allow
         = Ok (mkDoc (Some (mkOptions (Some (if g_dir g then "directed" else "undirected")%string) (Some (g_multi g))))
                 (match g_attr g with [] => None | a => Some a end) (Some ns) (Some es))
       /\ Forall2 (fun na s => sn_key s = Some (str_of repr (fst na)) /\ coerced repr allow (snd na) = Ok (sn_attributes s)) (g_nodes g) ns
       /\ Forall2 (edge_as repr allow) (edges_data g) es
  else write_graphology_json repr g mixed allow = Err TypeError.
Proof.
  unfold writable, write_graphology_json. pose proof (write_nodes_res repr mixed allow (g_nodes g) None []) as N.
  unfold nodes. destruct (types_ok mixed None (dkeys (g_nodes g)) && forallb (names_ok allow) (map snd (g_nodes g))); cbn [andb].
  - destruct N as (t & ns & E & F). rewrite E. cbn [bind app snd].
    pose proof (write_edges_res repr allow (edges_data g) []) as M. destruct (forallb (names_ok allow) (map snd (edges_data g))).
    + destruct M as (es & E' & F'). rewrite E'. cbn [bind app]. exists ns, es. tauto.
    + rewrite M. reflexivity.
  - rewrite N. reflexivity.
Qed.

(** ** parse_graphology_json *)
Lemma add_node_new g n a : ~ In n (nodes g) -> NoDup (dkeys a) ->
  add_node g n a = mkG (g_dir g) (g_multi g) (g_attr g) (g_nodes g ++ [(n, a)]) (g_adj g).
Proof.
  intros H N. unfold add_node, node_data. rewrite (proj2 (dget_None _ _)) by exact H. rewrite dupdate_nil by assumption.
  rewrite dset_notin by exact H. reflexivity.
Qed.

Lemma parse_nodes_new ss : forall l g,
  Forall2 (fun (na : key * attrs) s => sn_key s = Some (fst na) /\ get_default [] (sn_attributes s) = snd na) l ss ->
  NoDup (nodes g ++ dkeys l) -> (forall n a, In (n, a) l -> NoDup (dkeys a) /\ kwargs_ok node_reserved a = true) ->
  foldM parse_node ss g = Ok (mkG (g_dir g) (g_multi g) (g_attr g) (g_nodes g ++ l) (g_adj g)).
Proof.
  induction ss as [|s ss IH]; intros l g F N K; inversion F as [|[n a] s' l' ss' [E1 E2] F' X Y]; subst; cbn [foldM].
  - rewrite app_nil_r. destruct g; reflexivity.
  - unfold parse_node at 1. cbn [fst snd] in *. rewrite E1, E2. cbn [get_item bind]. destruct (K n a (or_introl eq_refl)) as (K1 & K2).
    unfold add_node_kw. rewrite K2. cbn [bind dkeys map fst] in *. fold (dkeys l') in N.
    assert (Hn : ~ In n (nodes g)) by (apply NoDup_remove_2 in N; rewrite in_app_iff in N; tauto).
    rewrite add_node_new by assumption.
    rewrite (IH l').
    + cbn. rewrite <- app_assoc. reflexivity.
    + assumption.
    + unfold nodes, dkeys in *. cbn [g_nodes]. rewrite map_app. cbn. rewrite <- app_assoc. assumption.
    + intros n' a' H. apply (K n'). cbn. tauto.
Qed.

Lemma parse_edges_all must und multi es : forall l g, g_multi g = multi -> must = false ->
  Forall2 (fun (e : key * key * attrs) s => se_key s = None /\ se_source s = Some (fst (fst e)) /\ se_target s = Some (snd (fst e))
             /\ get_default [] (se_attributes s) = snd e) l es ->
  Forall (fun e => edge_names_ok multi (snd e) = true) l ->
  foldM (parse_edge must und multi) es g = Ok (add_all l g).
Proof.
  induction es as [|s es IH]; intros l g M U F K; inversion F as [|[[u v] a] s' l' es' (E1 & E2 & E3 & E4) F' X Y]; subst; cbn [foldM]; [reflexivity|].
  unfold parse_edge at 1. cbn [fst snd] in *. rewrite E1, E2, E3, E4. cbn [get_item bind andb]. inversion K; subst. cbn [snd] in *.
  rewrite add_edge_kw_Ok by assumption.
  cbn [bind]. rewrite (IH l'); auto using multi_add_edge.
Qed.

Lemma Forall2_map_l {A B C} (f : A -> B) (R : B -> C -> Prop) l l' : Forall2 R (map f l) l' <-> Forall2 (fun a c => R (f a) c) l l'.
Proof.
  split.
  - revert l'. induction l as [|a l IH]; intros l' H; inversion H; subst; constructor; auto.
  - induction 1; constructor; auto.
Qed.

Lemma Forall2_imp {A B} (R R' : A -> B -> Prop) l l' : (forall a b, In a l -> R a b -> R' a b) -> Forall2 R l l' -> Forall2 R' l l'.
Proof. intros H F. induction F; constructor; [apply H; cbn; auto|]. apply IHF. intros; apply H; cbn; auto. Qed.

Lemma passable_str_names g : passable g -> str_names g.
Proof. intros (_ & N & E). split; intros; [eapply N|eapply E]; eassumption. Qed.

Lemma str_names_ok g allow : str_names g ->
  forallb (names_ok allow) (map snd (g_nodes g)) = true /\ forallb (names_ok allow) (map snd (edges_data g)) = true.
Proof.
  intros [N E]. split; apply forallb_forall; intros a Ha; unfold names_ok; apply orb_true_intro; right; apply names_ok_iff; intros k Hk;
    apply in_map_iff in Ha as (x & <- & Hx).
  - destruct x as [n a]. eapply N; eassumption.
  - destruct x as [[u v] a]. eapply E; eassumption.
Qed.

Lemma edges_data_NoDup g u v a : WF g -> In (u, v, a) (edges_data g) -> NoDup (dkeys a).
Proof.
  intros W H. rewrite edges_data_pairs in H. apply in_flat_map in H as ([[x y] kd] & Hp & H). unfold data_of in H. cbn in H.
  apply in_map_iff in H as ([k a'] & E & Hk). inversion E; subst. apply edge_pairs_data in Hp; [|assumption]. eapply edge_data_attrs; eassumption.
Qed.

Definition node_as (f : key -> key) (na : key * attrs) : key * attrs := (f (fst na), snd na).
Definition edge_at (f : key -> key) (e : key * key * attrs) : key * key * attrs := (f (fst (fst e)), f (snd (fst e)), snd e).

Lemma round_trip repr g mixed allow : WF g -> injective_on (nodes g) (str_of repr) -> passable g -> types_ok mixed None (nodes g) = true ->
  exists d h, write_graphology_json repr g mixed allow = Ok d /\ parse_graphology_json d = Ok h
              /\ h = add_all (edges_data (rename (str_of repr) g)) (create_empty_copy (rename (str_of repr) g)).
Proof.
  intros W I P T. pose proof (write_res repr g mixed allow) as R. destruct (str_names_ok g allow (passable_str_names g P)) as (A1 & A2).
  unfold writable in R. rewrite T, A1, A2 in R. cbn [andb] in R. destruct R as (ns & es & E & FN & FE).
  pose proof (passable_str_names g P) as [SN SE]. destruct P as (PG & PN & PE). set (f := str_of repr) in *.
  eexists. eexists. split; [exact E|]. split; [|reflexivity]. unfold parse_graphology_json. cbn [d_options o_type o_multi get_item bind d_attributes d_nodes d_edges get_default].
  match goal with |- context [get_default [] ?m] => replace (get_default [] m) with (g_attr g) by (destruct (g_attr g); reflexivity) end.
  set (t := if g_dir g then "directed"%string else "undirected"%string).
  assert (Ht : actual_type t (Some es) = t /\ String.eqb t "mixed" = false /\ String.eqb t "directed" = g_dir g) by (unfold t; destruct (g_dir g); repeat split).
  destruct Ht as (-> & -> & ->). rewrite new_graph_plain by exact PG.
  cbn [bind]. rewrite dupdate_nil by apply W.
  rewrite (parse_nodes_new ns (map (node_as f) (g_nodes g))).
  - cbn [bind g_dir g_multi g_attr g_nodes g_adj app].
    rewrite (parse_edges_all _ _ _ es (map (edge_at f) (edges_data g))).
    + rewrite edges_data_rename by assumption. reflexivity.
    + reflexivity.
    + reflexivity.
    + apply Forall2_map_l. revert FE. apply Forall2_imp. intros [[u v] a] s Ha (o & Ho & ->). cbn in *.
      repeat split. destruct (coerced_str repr allow a) as (o' & E1 & E2).
      * eapply edges_data_NoDup; eassumption.
      * intros k Hk. eapply SE; eassumption.
      * congruence.
    + apply Forall_forall. intros x Hx. apply in_map_iff in Hx as ([[u v] a] & <- & Hx). cbn. eapply edge_names_data; eassumption.
  - apply Forall2_map_l. revert FN. apply Forall2_imp. intros [n a] s Ha (E1 & E2). cbn in *. split; [assumption|].
    destruct (coerced_str repr allow a) as (o' & E3 & E4).
    + eapply wf_nattrs; eassumption.
    + intros k Hk. eapply SN; eassumption.
    + congruence.
  - cbn [nodes g_nodes dkeys map app]. unfold dkeys. rewrite map_map. cbn [node_as fst].
    rewrite <- (map_map fst f). apply (NoDup_rename f g I); [apply incl_refl|apply W].
  - intros n a H. apply in_map_iff in H as ([n' a'] & E' & H). inversion E'; subst. split; [eapply wf_nattrs; eassumption|].
    apply kwargs_ok_iff. intros k Hk. eapply PN; eassumption.
Qed.

Lemma rename_id f g : (forall n, In n (nodes g) -> f n = n) -> WF g -> rename f g = g.
Proof.
  intros H W. destruct g as [dir multi at' ns adj]. unfold rename. cbn. f_equal.
  - rewrite <- (map_id ns) at 2. apply map_ext_in. intros [n a] Hn. cbn. rewrite H; [reflexivity|]. unfold nodes. cbn. apply (in_map fst) in Hn. exact Hn.
  - rewrite <- (map_id adj) at 2. apply map_ext_in. intros b Hb. destruct (wf_ends _ W b Hb). rewrite !H by assumption. destruct b; reflexivity.
Qed.

Lemma renamed_rebuild f g : WF g -> injective_on (nodes g) f ->
  renamed_copy f g (add_all (edges_data (rename f g)) (create_empty_copy (rename f g))).
Proof.
  intros W I. pose proof (WF_rename f g W I) as WR. destruct (rebuild _ WR) as (WH & EP & ED & EN & EA & E1 & E2). cbn zeta in *.
  split; [split; [symmetry; exact E1|symmetry; exact E2]|]. split; [exact EA|]. split; [exact EN|]. split; [|split].
  - intros u v Hu Hv. unfold parallel. rewrite rebuild_data by assumption. rewrite edge_data_rename by assumption.
    destruct (edge_data g u v) as [kd|]; [|reflexivity]. cbn. unfold renumber. apply map_snd_number.
  - intros u v kd H. rewrite rebuild_data in H by assumption. destruct (edge_data (rename f g) u v); [|discriminate].
    cbn in H. inversion H; subst. apply renumber_numbered.
  - rewrite ED. apply edges_data_rename; assumption.
Qed.

Lemma same_rebuild g : WF g -> (forall u v kd, edge_data g u v = Some kd -> numbered kd) ->
  same_graph g (add_all (edges_data g) (create_empty_copy g)).
Proof.
  intros W N. destruct (rebuild _ W) as (WH & EP & ED & EN & EA & E1 & E2). cbn zeta in *.
  split; [split; [symmetry; exact E1|symmetry; exact E2]|]. split; [exact EA|]. split; [exact EN|]. split; [|exact ED].
  intros u v k. unfold edge_attrs. rewrite rebuild_data by assumption. destruct (edge_data g u v) as [kd|] eqn:E; [|reflexivity].
  cbn. apply N in E. f_equal. clear - E. unfold renumber, numbered in *.
  assert (A : forall (kd : dict attrs) z, dkeys kd = map (fun i => KInt (z + Z.of_nat i)) (seq 0 (List.length kd)) -> number z (map snd kd) = kd).
  { clear. induction kd as [|[k a] kd IH]; intros z E; [reflexivity|]. cbn in *. inversion E as [[E1 E2]]. f_equal; [f_equal; f_equal; lia|].
    apply IH. fold (dkeys kd) in E2. rewrite E2, <- seq_shift, map_map. apply map_ext. intros i. f_equal. lia. }
  apply A. rewrite E. reflexivity.
Qed.

Lemma simple_numbered g u v kd : WF g -> g_multi g = false -> edge_data g u v = Some kd -> numbered kd.
Proof. intros W M H. destruct (edge_data_simple g u v kd W M H) as (a & ->). reflexivity. Qed.

(** ** Names which cannot be read back *)
Lemma parse_nodes_bad ss : forall (l : dict attrs) g,
  Forall2 (fun (na : key * attrs) s => sn_key s = Some (fst na) /\ get_default [] (sn_attributes s) = snd na) l ss ->
  (exists n a, In (n, a) l /\ kwargs_ok node_reserved a = false) -> foldM parse_node ss g = Err TypeError.
Proof.
  induction ss as [|s ss IH]; intros l g F (n & a & H & K); inversion F as [|[n' a'] s' l' ss' [E1 E2] F' X Y]; subst; [contradiction|].
  cbn [foldM]. unfold parse_node at 1. cbn [fst snd] in *. rewrite E1, E2. cbn [get_item bind]. unfold add_node_kw.
  destruct (kwargs_ok node_reserved a') eqn:Q; [|reflexivity]. cbn [bind]. apply (IH l'); [assumption|].
  destruct H as [H|H]; [inversion H; subst; congruence|]. eauto.
Qed.

Lemma parse_edges_bad must und es : forall l g, g_multi g = false ->
  Forall2 (fun (e : key * key * attrs) s => se_key s = None /\ se_source s = Some (fst (fst e)) /\ se_target s = Some (snd (fst e))
             /\ get_default [] (se_attributes s) = snd e) l es ->
  (exists e, In e l /\ kwargs_ok (edge_reserved false) (snd e) = false) ->
  foldM (parse_edge must und false) es g = Err TypeError.
Proof.
  induction es as [|s es IH]; intros l g M F (e & H & K); inversion F as [|[[u v] a] s' l' es' (E1 & E2 & E3 & E4) F' X Y]; subst; [contradiction|].
  cbn [foldM]. unfold parse_edge at 1. cbn [fst snd] in *. rewrite E1, E2, E3, E4. cbn [get_item bind].
  destruct (must && _); [reflexivity|]. unfold add_edge_kw. rewrite M.
  destruct (kwargs_ok (edge_reserved false) a) eqn:Q; [|reflexivity]. cbn [bind]. apply (IH l').
  - rewrite multi_add_edge. assumption.
  - assumption.
  - destruct H as [H|H]; [subst e; cbn [snd] in K; congruence|]. eauto.
Qed.

Lemma kwargs_bad r a : kwargs_ok r a = false -> (forall k, In k (dkeys a) -> exists s, k = KStr s) -> exists k, In k (dkeys a) /\ In k r.
Proof.
  unfold kwargs_ok. induction (dkeys a) as [|k l IH]; [discriminate|]. cbn [forallb]. intros H S.
  apply andb_false_iff in H as [H|H].
  - exists k. split; [cbn; tauto|]. apply andb_false_iff in H as [H|H]; [destruct (S k (or_introl eq_refl)) as (s & ->); discriminate|].
    apply negb_false_iff in H. apply mem_In. assumption.
  - destruct IH as (k' & H1 & H2); [assumption|intros; apply S; cbn; tauto|]. exists k'. cbn. tauto.
Qed.

Lemma read_back_bad repr g mixed allow d : WF g -> g_multi g = false -> str_names g -> write_graphology_json repr g mixed allow = Ok d ->
  dget (K "incoming_graph_data") (g_attr g) = None -> ~ passable g -> parse_graphology_json d = Err TypeError.
Proof.
  intros W M SN E KI NP. pose proof SN as [SN1 SN2]. pose proof (write_res repr g mixed allow) as R. destruct (writable mixed allow g); [|congruence].
  destruct R as (ns & es & E' & FN & FE). assert (D : d = mkDoc (Some (mkOptions (Some (if g_dir g then "directed" else "undirected")%string) (Some (g_multi g))))
                 (match g_attr g with [] => None | a => Some a end) (Some ns) (Some es)) by congruence. subst d. clear E E'.
  unfold parse_graphology_json. cbn [d_options o_type o_multi get_item bind d_attributes d_nodes d_edges get_default].
  match goal with |- context [get_default [] ?m] => replace (get_default [] m) with (g_attr g) by (destruct (g_attr g); reflexivity) end.
  set (t := if g_dir g then "directed"%string else "undirected"%string).
  assert (Ht : actual_type t (Some es) = t /\ String.eqb t "mixed" = false /\ String.eqb t "directed" = g_dir g) by (unfold t; destruct (g_dir g); repeat split).
  destruct Ht as (-> & -> & ->). unfold new_graph_kw. destruct (kwargs_ok [K "self"] (g_attr g)) eqn:KG; [|reflexivity].
  rewrite KI.
  cbn [bind]. set (g0 := mkG _ _ _ _ _).
  assert (F1 : Forall2 (fun (na : key * attrs) s => sn_key s = Some (fst na) /\ get_default [] (sn_attributes s) = snd na) (map (node_as (str_of repr)) (g_nodes g)) ns).
  { apply Forall2_map_l. revert FN. apply Forall2_imp. intros [n a] s Ha (E1 & E2). cbn in *. split; [assumption|].
    destruct (coerced_str repr allow a) as (o' & E3 & E4).
    + eapply wf_nattrs; eassumption.
    + intros k Hk. eapply SN1; eassumption.
    + congruence. }
  destruct (forallb (fun na => kwargs_ok node_reserved (snd na)) (g_nodes g)) eqn:KN.
  - assert (Q : exists g1, foldM parse_node ns g0 = Ok g1 /\ g_multi g1 = false).
    { assert (M0 : g_multi g0 = false) by exact M. clearbody g0.
      assert (KN' : forall n a, In (n, a) (map (node_as (str_of repr)) (g_nodes g)) -> kwargs_ok node_reserved a = true).
      { intros n a H. apply in_map_iff in H as ([n' a'] & H1 & H2). inversion H1; subst. rewrite forallb_forall in KN. exact (KN _ H2). }
      clear - F1 M0 KN'. revert g0 M0 KN'. induction F1 as [|[n a] s l ss [E1 E2] F IH]; intros g0 M0 KN'; cbn [foldM]; [eauto|].
      unfold parse_node at 1. rewrite E1. cbn [get_item bind fst snd] in *. rewrite E2. unfold add_node_kw. rewrite (KN' n a) by (cbn; tauto). cbn [bind].
      apply IH; [exact M0|]. intros n' a' H. apply (KN' n'). cbn. tauto. }
    destruct Q as (g1 & -> & M1). cbn [bind]. rewrite M. apply (parse_edges_bad _ _ es (map (edge_at (str_of repr)) (edges_data g))); [assumption| |].
    + apply Forall2_map_l. revert FE. apply Forall2_imp. intros [[u v] a] s Ha (o & Ho & ->). cbn in *.
      repeat split. destruct (coerced_str repr allow a) as (o' & E1 & E2).
      * eapply edges_data_NoDup; eassumption.
      * intros k Hk. eapply SN2; eassumption.
      * congruence.
    + destruct (forallb (fun e => kwargs_ok (edge_reserved false) (snd e)) (edges_data g)) eqn:KE.
      * exfalso. apply NP. rewrite forallb_forall in KN, KE. split; [|split].
        -- intros k Hk. apply dget_None in KI. pose proof (proj1 (kwargs_ok_iff _ _) KG k Hk) as [A B]. split; [assumption|]. cbn in B.
           split; intros ->; tauto.
        -- intros n a k Hn Hk. apply (proj1 (kwargs_ok_iff _ _) (KN _ Hn)) in Hk. assumption.
        -- intros u v a k Hn Hk. rewrite M. apply (proj1 (kwargs_ok_iff _ _) (KE _ Hn)) in Hk as [A B]. split; [assumption|]. split; [assumption|discriminate].
      * apply not_true_iff_false in KE. rewrite forallb_forall in KE.
        assert (X : exists e, In e (edges_data g) /\ kwargs_ok (edge_reserved false) (snd e) = false).
        { clear - KE. induction (edges_data g) as [|e l IH]; [destruct KE; intros x []|].
          destruct (kwargs_ok (edge_reserved false) (snd e)) eqn:Q; [|exists e; split; [left; reflexivity|assumption]].
          destruct IH as (e' & A & B). { intros H. apply KE. intros x [<-|Hx]; auto. } exists e'. cbn. tauto. }
        destruct X as (e & A & B). exists (edge_at (str_of repr) e). split; [apply in_map; assumption|exact B].
  - rewrite (parse_nodes_bad ns (map (node_as (str_of repr)) (g_nodes g))); [reflexivity|assumption|].
    clear - KN. induction (g_nodes g) as [|[n a] l IH]; [discriminate|]. cbn [forallb snd] in KN. apply andb_false_iff in KN as [KN|KN].
    + exists (str_of repr n), a. cbn. tauto.
    + destruct (IH KN) as (n' & a' & A & B). exists n', a'. cbn. tauto.
Qed.

(** ** Reading any document *)
Definition keeps_kind (g h : graph) : Prop := g_dir h = g_dir g /\ g_multi h = g_multi g /\ g_attr h = g_attr g.

Lemma keeps_kind_trans a b c : keeps_kind a b -> keeps_kind b c -> keeps_kind a c.
Proof. intros (A1 & A2 & A3) (B1 & B2 & B3). repeat split; congruence. Qed.

Lemma add_edge_at_kind g u v k a : keeps_kind g (add_edge_at g u v k a).
Proof.
  repeat split; [apply dir_add_edge_at|apply multi_add_edge_at|]. cbn [add_edge_at g_attr].
  assert (A : forall g n, g_attr (ensure_node g n) = g_attr g) by (intros x n; unfold ensure_node; destruct (has_node x n); reflexivity).
  rewrite !A. reflexivity.
Qed.

(** what reading an edge does when it succeeds *)
Lemma add_edge_kw_at g u v a h : add_edge_kw g u v a = Ok h -> exists k b, h = add_edge_at g u v k b /\ (g_multi g = false -> k = KInt 0).
Proof.
  unfold add_edge_kw, add_edge. destruct (kwargs_ok _ a); [|discriminate]. destruct (g_multi g); [|intros E; inversion E; eauto].
  destruct (dget (K "key") a) as [[]|]; intros E; inversion E; do 2 eexists; split; try reflexivity; discriminate.
Qed.

Lemma parse_edge_at must und multi g s h : parse_edge must und multi g s = Ok h ->
  exists u v k a, se_source s = Some u /\ se_target s = Some v /\ h = add_edge_at g u v k a
                  /\ (g_multi g = false -> multi = false -> k = KInt 0)
                  /\ (must = true -> get_default false (se_undirected s) = und).
Proof.
  unfold parse_edge. destruct (se_source s) as [u|], (se_target s) as [v|]; cbn [get_item bind]; try discriminate. intros H.
  assert (M : must = true -> get_default false (se_undirected s) = und).
  { intros ->. destruct (Bool.eqb _ und) eqn:E; [apply Bool.eqb_prop; assumption|discriminate]. }
  destruct (must && _); [discriminate|]. exists u, v.
  assert (A : exists k a, h = add_edge_at g u v k a /\ (g_multi g = false -> multi = false -> k = KInt 0)).
  { destruct (se_key s) as [k|]; [destruct multi|]; try (apply add_edge_kw_at in H as (k' & a & -> & H); exists k', a; split; [reflexivity|intros; auto]).
    unfold add_edge_key_kw in H. destruct (kwargs_ok _ _); inversion H. do 2 eexists. split; [reflexivity|discriminate]. }
  destruct A as (k & a & -> & Z). exists k, a. repeat split; auto.
Qed.

Lemma parse_node_at g s h : parse_node g s = Ok h ->
  exists n, sn_key s = Some n /\ h = add_node g n (get_default [] (sn_attributes s)).
Proof.
  unfold parse_node. destruct (sn_key s) as [n|]; cbn [get_item bind]; [|discriminate]. intros H. apply add_node_kw_Ok in H as [_ ->]. eauto.
Qed.

Lemma parse_nodes_spec ss : forall g h, foldM parse_node ss g = Ok h ->
  keeps_kind g h /\ (WF g -> WF h) /\ g_adj h = g_adj g
  /\ forall n, In n (nodes h) <-> In n (nodes g) \/ exists s, In s ss /\ sn_key s = Some n.
Proof.
  induction ss as [|s ss IH]; intros g h E; cbn [foldM] in E.
  - inversion E; subst. split; [repeat split|]. split; [auto|]. split; [reflexivity|]. intros n. split; [tauto|].
    intros [H|(s & [] & _)]. assumption.
  - destruct (parse_node g s) as [g1|] eqn:P; [|discriminate]. cbn [bind] in E. apply parse_node_at in P as (n & Hs & ->).
    apply IH in E as (A & B & C & D). split; [|split; [|split]].
    + exact A.
    + intros W. apply B, WF_add_node, W.
    + rewrite C. reflexivity.
    + intros m. rewrite D, In_nodes_add_node. split.
      * intros [[->|H]|(s' & H & Q)]; [right; exists s; cbn; tauto|tauto|right; exists s'; cbn; tauto].
      * intros [H|(s' & [<-|H] & E)]; [tauto| |right; eauto]. left. left. congruence.
Qed.

Lemma parse_edges_spec must und multi es : forall g h, foldM (parse_edge must und multi) es g = Ok h ->
  keeps_kind g h /\ (WF g -> (g_multi g = false -> multi = false) -> WF h)
  /\ (forall n, In n (nodes h) <-> In n (nodes g) \/ exists e, In e es /\ (se_source e = Some n \/ se_target e = Some n))
  /\ (forall u v, has_edge h u v = true <-> has_edge g u v = true \/ exists e, In e es /\
        ((se_source e = Some u /\ se_target e = Some v) \/ (g_dir g = false /\ se_source e = Some v /\ se_target e = Some u)))
  /\ (must = true -> Forall (fun e => get_default false (se_undirected e) = und) es).
Proof.
  induction es as [|s es IH]; intros g h E; cbn [foldM] in E.
  - inversion E; subst. split; [repeat split|]. split; [auto|]. split; [|split; [|constructor]].
    + intros n. split; [tauto|]. intros [H|(e & [] & _)]. assumption.
    + intros u v. split; [tauto|]. intros [H|(e & [] & _)]. assumption.
  - destruct (parse_edge must und multi g s) as [g1|] eqn:P; [|discriminate]. cbn [bind] in E.
    pose proof P as P0. apply parse_edge_at in P as (u & v & k & a & E1 & E2 & -> & Z & M). apply IH in E as (A & B & C & D & F).
    pose proof (add_edge_at_kind g u v k a) as KK. split; [|split; [|split; [|split]]].
    + eapply keeps_kind_trans; eassumption.
    + intros W MM. apply B; [apply WF_add_edge_at; auto|]. rewrite (proj1 (proj2 KK)). assumption.
    + intros n. rewrite C, In_nodes_add_edge_at. split.
      * intros [[->|[->|H]]|(e & H & Q)]; [right; exists s; cbn; tauto|right; exists s; cbn; tauto|tauto|right; exists e; cbn; tauto].
      * intros [H|(e & [<-|H] & Q)]; [tauto| |right; eauto]. left. destruct Q as [Q|Q]; [left|right; left]; congruence.
    + intros x y. rewrite D. unfold has_edge at 1. rewrite edge_data_add_edge_at. destruct KK as (KD & _). rewrite KD.
      destruct (jn (g_dir g) u v x y) eqn:J.
      * split; [|tauto]. intros _. right. exists s. split; [cbn; tauto|]. apply jn_iff in J as [[-> ->]|(J1 & -> & ->)]; tauto.
      * fold (has_edge g x y). split.
        -- intros [H|(e & H & Q)]; [left; exact H|]. right. exists e. cbn. tauto.
        -- intros [H|(e & [<-|H] & Q)]; [left; exact H| |right; eauto]. exfalso.
           assert (X : jn (g_dir g) u v x y = true); [|congruence]. apply jn_iff.
           destruct Q as [[Q1 Q2]|(Q0 & Q1 & Q2)]; [left|right]; repeat split; congruence.
    + intros T. constructor; auto.
Qed.

Lemma WF_empty dir multi a : WF (mkG dir multi (dupdate [] a) [] []).
Proof.
  constructor; cbn; try (intros; contradiction); try constructor.
  apply NoDup_dupdate. constructor.
Qed.

Lemma parse_spec d h : parse_graphology_json d = Ok h ->
  exists o t m, d_options d = Some o /\ o_type o = Some t /\ o_multi o = Some m /\ g_multi h = m
    /\ g_dir h = String.eqb (actual_type t (d_edges d)) "directed"
    /\ g_attr h = dupdate [] (dremove [K "incoming_graph_data"] (get_default [] (d_attributes d))) /\ WF h
    /\ (forall n, In n (nodes h) <-> (exists s, In s (doc_nodes d) /\ sn_key s = Some n)
                                     \/ exists e, In e (doc_edges d) /\ (se_source e = Some n \/ se_target e = Some n))
    /\ (forall u v, has_edge h u v = true <-> exists e, In e (doc_edges d) /\
          ((se_source e = Some u /\ se_target e = Some v) \/ (g_dir h = false /\ se_source e = Some v /\ se_target e = Some u)))
    /\ (t = "mixed"%string -> Forall (fun e => get_default false (se_undirected e) = String.eqb (actual_type t (d_edges d)) "undirected") (doc_edges d)).
Proof.
  unfold parse_graphology_json. destruct (d_options d) as [o|]; [|discriminate]. destruct (o_type o) as [t|] eqn:Et; [|discriminate]. cbn [get_item bind].
  destruct (o_multi o) as [m|] eqn:Em; [|discriminate]. cbn [get_item bind].
  destruct (new_graph_kw _ m (get_default [] (d_attributes d))) as [g0|] eqn:G; [|discriminate]. apply new_graph_inv in G as (_ & _ & ->).
  cbn [bind]. set (g0 := mkG _ _ _ _ _). intros H.
  destruct (foldM parse_node (get_default [] (d_nodes d)) g0) as [g1|] eqn:N; [|discriminate]. cbn [bind] in H.
  assert (W0 : WF g0) by apply WF_empty.
  apply parse_nodes_spec in N as ((A1 & A2 & A3) & AW & AA & AN). apply parse_edges_spec in H as ((B1 & B2 & B3) & BW & BN & BE & BM).
  exists o, t, m. split; [reflexivity|]. split; [assumption|]. split; [assumption|]. split; [rewrite B2, A2; reflexivity|].
  assert (Dh : g_dir h = String.eqb (actual_type t (d_edges d)) "directed") by (rewrite B1, A1; reflexivity).
  split; [assumption|]. split; [rewrite B3, A3; reflexivity|]. split; [|split; [|split]].
  - apply BW; [apply AW; assumption|]. intros E. rewrite A2 in E. exact E.
  - intros n. rewrite BN, AN. fold (doc_nodes d). fold (doc_edges d). cbn. tauto.
  - intros u v. rewrite BE. fold (doc_edges d). rewrite <- B1. split.
    + intros [H|H]; [|assumption]. unfold has_edge, edge_data in H. rewrite AA in H. discriminate.
    + intros H. right. assumption.
  - intros ->. apply BM. reflexivity.
Qed.

Lemma parse_nodes_err ss : forall g e, (forall s, In s ss -> sn_key s <> None) -> foldM parse_node ss g = Err e -> e = TypeError.
Proof.
  induction ss as [|s ss IH]; intros g e C E; cbn [foldM] in E; [discriminate|]. destruct (parse_node g s) as [g1|e1] eqn:P; cbn [bind] in E.
  - eapply IH; [|exact E]. intros; apply C; cbn; tauto.
  - unfold parse_node in P. specialize (C s (or_introl eq_refl)). destruct (sn_key s); [|congruence]. cbn [get_item bind] in P.
    unfold add_node_kw in P. destruct (kwargs_ok _ _); congruence.
Qed.

Lemma add_edge_kw_err g u v a e : add_edge_kw g u v a = Err e -> e = TypeError.
Proof.
  unfold add_edge_kw. destruct (kwargs_ok _ a); [|congruence]. destruct (g_multi g); [|discriminate]. destruct (dget _ a) as [[]|]; congruence.
Qed.

Lemma parse_edges_err must und multi es : forall g e, (forall s, In s es -> se_source s <> None /\ se_target s <> None) ->
  foldM (parse_edge must und multi) es g = Err e -> e = TypeError.
Proof.
  induction es as [|s es IH]; intros g e C E; cbn [foldM] in E; [discriminate|]. destruct (parse_edge must und multi g s) as [g1|e1] eqn:P; cbn [bind] in E.
  - eapply IH; [|exact E]. intros; apply C; cbn; tauto.
  - assert (e1 = e) by congruence. subst e1. clear E. unfold parse_edge in P. destruct (C s (or_introl eq_refl)) as [C1 C2].
    destruct (se_source s), (se_target s); try congruence. cbn [get_item bind] in P. destruct (must && _); [congruence|].
    destruct (se_key s); [destruct multi|]; try (eapply add_edge_kw_err; eassumption).
    unfold add_edge_key_kw in P. destruct (kwargs_ok _ _); congruence.
Qed.

Lemma parse_err d e : complete d -> ~ In (K "incoming_graph_data") (dkeys (doc_attributes d)) -> parse_graphology_json d = Err e -> e = TypeError.
Proof.
  intros ((o & t & m & E1 & E2 & E3) & CN & CE) NI. unfold parse_graphology_json. rewrite E1, E2, E3. cbn [get_item bind].
  apply dget_None in NI. change (get_default [] (d_attributes d)) with (doc_attributes d). unfold new_graph_kw. rewrite NI. destruct (kwargs_ok _ _); cbn [bind]; [|congruence].
  change (get_default [] (d_nodes d)) with (doc_nodes d). change (get_default [] (d_edges d)) with (doc_edges d).
  match goal with |- context [foldM parse_node (doc_nodes d) ?g] => destruct (foldM parse_node (doc_nodes d) g) eqn:N end; cbn [bind].
  - apply parse_edges_err. assumption.
  - intros E. inversion E; subst. eapply parse_nodes_err; eassumption.
Qed.

Lemma parse_nodes_ok ss : forall g, (forall s, In s ss -> sn_key s <> None) ->
  (forall s, In s ss -> kwargs_ok node_reserved (get_default [] (sn_attributes s)) = true) -> exists h, foldM parse_node ss g = Ok h.
Proof.
  induction ss as [|s ss IH]; intros g C N; cbn [foldM]; [eauto|]. unfold parse_node at 1. pose proof (C s (or_introl eq_refl)) as C1.
  destruct (sn_key s); [|congruence]. cbn [get_item bind]. unfold add_node_kw. rewrite (N s (or_introl eq_refl)). cbn [bind].
  apply IH; intros; [apply C|apply N]; cbn; tauto.
Qed.

Lemma parse_edges_ok must und multi es : forall g, g_multi g = multi -> (forall s, In s es -> se_source s <> None /\ se_target s <> None) ->
  (must = true -> forall s, In s es -> get_default false (se_undirected s) = und) ->
  (forall s, In s es -> edge_names_ok multi (get_default [] (se_attributes s)) = true) ->
  exists h, foldM (parse_edge must und multi) es g = Ok h.
Proof.
  induction es as [|s es IH]; intros g MU C M N; cbn [foldM]; [eauto|]. destruct (C s (or_introl eq_refl)) as [C1 C2].
  assert (P : exists g1, parse_edge must und multi g s = Ok g1).
  { unfold parse_edge. destruct (se_source s), (se_target s); try congruence. cbn [get_item bind].
    replace (must && negb (Bool.eqb (get_default false (se_undirected s)) und)) with false.
    2: { destruct must; [|reflexivity]. rewrite (M eq_refl s (or_introl eq_refl)), Bool.eqb_reflx. reflexivity. }
    pose proof (N s (or_introl eq_refl)) as Ns.
    destruct (se_key s) as [k'|]; [destruct multi eqn:MM|]; try (rewrite add_edge_kw_Ok by (rewrite MU; exact Ns); eauto).
    unfold add_edge_key_kw. replace (kwargs_ok _ _) with true; [eauto|]. symmetry. apply kwargs_ok_iff. intros k1 Hk.
    destruct (proj1 (edge_names_ok_iff _ _) Ns k1 Hk) as (X & Y & Z). split; [assumption|]. intros [Q|Q]; [symmetry in Q; revert Q; apply Z; reflexivity|contradiction]. }
  destruct P as (g1 & P). rewrite P. cbn [bind]. apply parse_edge_at in P as (u & v & k & a & _ & _ & -> & _).
  apply IH; [rewrite (proj1 (proj2 (add_edge_at_kind g u v k a))); assumption| | |]; intros; try apply C; try apply M; try apply N; cbn; tauto.
Qed.

Lemma parse_ok d : complete d -> doc_passable d ->
  (declared "mixed" d -> (forall e, In e (doc_edges d) -> undirected_edge e) \/ (forall e, In e (doc_edges d) -> ~ undirected_edge e)) ->
  exists h, parse_graphology_json d = Ok h.
Proof.
  intros ((o & t & m & E1 & E2 & E3) & CN & CE) (PG & PN & PE) Hm. unfold parse_graphology_json. rewrite E1, E2, E3. cbn [get_item bind].
  rewrite new_graph_plain by exact PG.
  cbn [bind]. change (get_default [] (d_nodes d)) with (doc_nodes d). change (get_default [] (d_edges d)) with (doc_edges d).
  set (g0 := mkG _ _ _ _ _). destruct (parse_nodes_ok (doc_nodes d) g0) as (g1 & H1).
  - assumption.
  - intros s Hs. apply kwargs_ok_iff. intros k Hk. destruct (sn_attributes s) as [a|] eqn:Ea; [|contradiction]. eapply PN; eassumption.
  - rewrite H1. cbn [bind]. apply parse_nodes_spec in H1 as ((_ & M1 & _) & _). apply parse_edges_ok.
    + rewrite M1. reflexivity.
    + assumption.
    + intros T s Hs. apply String.eqb_eq in T. subst t.
      assert (D : declared "mixed" d) by (exists o; tauto). unfold actual_type. rewrite String.eqb_refl. unfold doc_edges in *.
      destruct (d_edges d) as [[|e es]|]; try contradiction. unfold undirected_edge in Hm.
      destruct (Hm D) as [A|A]; pose proof (A s Hs) as As; pose proof (A e (or_introl eq_refl)) as Ae; clear - As Ae.
      * rewrite As, Ae. reflexivity.
      * destruct (se_undirected s) as [[]|], (se_undirected e) as [[]|]; try congruence; reflexivity.
    + intros s Hs. apply edge_names_ok_iff. intros k Hk. destruct (se_attributes s) as [a|] eqn:Ea; [|contradiction].
      destruct (PE s a k Hs Ea Hk) as (X & Y). destruct (Y m) as (Y1 & Y2); [exists o; tauto|]. tauto.
Qed.

(** ** Keys *)
Lemma types_ok_mixed l : forall t, types_ok true t l = forallb valid_key l.
Proof.
  induction l as [|k l IH]; intros t; [reflexivity|]. cbn [types_ok forallb]. rewrite IH. unfold type_ok. cbn. rewrite andb_true_r. reflexivity.
Qed.

Lemma types_ok_some t l : types_ok false (Some t) l = forallb (fun k => valid_key k && pytype_eqb (key_type k) t) l.
Proof. induction l as [|k l IH]; [reflexivity|]. cbn [types_ok forallb type_next]. rewrite IH. reflexivity. Qed.

Lemma types_ok_false l : types_ok false None l = true <->
  (forall k, In k l -> valid_key k = true) /\ (forall k k', In k l -> In k' l -> key_type k = key_type k').
Proof.
  destruct l as [|k l]; [cbn; intuition|]. cbn [types_ok type_next]. rewrite types_ok_some, andb_true_iff, forallb_forall.
  unfold type_ok. cbn [orb]. rewrite andb_true_r. split.
  - intros [V A]. assert (B : forall x, In x (k :: l) -> valid_key x = true /\ key_type x = key_type k).
    { intros x [<-|Hx]; [auto|]. apply A, andb_true_iff in Hx as [? ?]. split; [assumption|]. apply pytype_eqb_eq. assumption. }
    split; [intros x Hx; apply B, Hx|]. intros x y Hx Hy. destruct (B x Hx), (B y Hy). congruence.
  - intros [A B]. split; [apply A; cbn; tauto|]. intros x Hx. rewrite andb_true_iff, pytype_eqb_eq. split; [apply A; cbn; tauto|apply B; cbn; tauto].
Qed.

Lemma types_ok_iff mixed l : types_ok mixed None l = true <->
  (forall n, ~ In (KObj n) l) /\ (mixed = false -> forall z s, In (KInt z) l -> ~ In (KStr s) l).
Proof.
  destruct mixed.
  - rewrite types_ok_mixed, forallb_forall. split.
    + intros H. split; [|discriminate]. intros n Hn. apply H in Hn. discriminate.
    + intros [H _] k Hk. destruct k; try reflexivity. destruct (H _ Hk).
  - rewrite types_ok_false. split.
    + intros [A B]. split; [intros n Hn; apply A in Hn; discriminate|]. intros _ z s Hz Hs. specialize (B _ _ Hz Hs). discriminate.
    + intros [A B]. specialize (B eq_refl). split; [intros [] Hk; try reflexivity; destruct (A _ Hk)|].
      intros [z|s|n] [z'|s'|n'] H1 H2; try reflexivity; try (destruct (A _ H1); fail); try (destruct (A _ H2); fail).
      * destruct (B _ _ H1 H2).
      * destruct (B _ _ H2 H1).
Qed.

Lemma clash repr l : NoDup l -> (forall n, ~ In (KObj n) l) ->
  (NoDup (map (str_of repr) l) <-> forall z, In (KInt z) l -> ~ In (KStr (NilZero.string_of_int (Z.to_int z))) l).
Proof.
  intros N O. split.
  - intros M z Hz Hs. assert (I : forall x y, In x l -> In y l -> str_of repr x = str_of repr y -> x = y).
    { clear - M. induction l as [|k l IH]; [intros x y []|]. cbn in M. inversion M as [|? ? A B]; subst. intros x y [<-|Hx] [<-|Hy] E; auto.
      - destruct A. rewrite E. apply in_map. assumption.
      - destruct A. rewrite <- E. apply in_map. assumption. }
    specialize (I _ _ Hz Hs eq_refl). discriminate.
  - intros C. assert (I : forall x y, In x l -> In y l -> str_of repr x = str_of repr y -> x = y).
    { intros [z|s|n] [z'|s'|n'] Hx Hy E; try (destruct (O _ Hx); fail); try (destruct (O _ Hy); fail).
      - apply (str_of_int repr); eauto.
      - inversion E; subst. destruct (C z Hx Hy).
      - inversion E; subst. destruct (C z' Hy Hx).
      - inversion E; subst. reflexivity. }
    clear - N I. induction l as [|k l IH]; [constructor|]. cbn. inversion N as [|? ? A B]; subst. constructor.
    + intros H. apply in_map_iff in H as (y & E & Hy). apply A. rewrite <- (I y k); [assumption|cbn; tauto|cbn; tauto|assumption].
    + apply IH; [assumption|]. intros; apply I; cbn; tauto.
Qed.

Lemma str_of_injective repr g : NoDup (map (str_of repr) (nodes g)) -> injective_on (nodes g) (str_of repr).
Proof.
  unfold injective_on. induction (nodes g) as [|k l IH]; [intros _ x y []|]. cbn. intros M. inversion M as [|? ? A B]; subst.
  intros x y [<-|Hx] [<-|Hy] E; auto.
  - destruct A. rewrite E. apply in_map. assumption.
  - destruct A. rewrite <- E. apply in_map. assumption.
Qed.

Lemma write_keys repr g mixed allow d : write_graphology_json repr g mixed allow = Ok d ->
  types_ok mixed None (nodes g) = true /\ map sn_key (doc_nodes d) = map (fun n => Some (str_of repr n)) (nodes g).
Proof.
  intros E. pose proof (write_res repr g mixed allow) as R. destruct (writable mixed allow g) eqn:Wr; [|congruence].
  destruct R as (ns & es & E' & FN & _). unfold writable in Wr. rewrite !andb_true_iff in Wr. split; [tauto|].
  assert (D : d_nodes d = Some ns) by (rewrite E in E'; inversion E'; reflexivity). unfold doc_nodes. rewrite D.
  unfold nodes. clear - FN. induction FN as [|[n a] s l ss [H _] F IH]; [reflexivity|]. cbn. fold (dkeys l). rewrite IH. f_equal. assumption.
Qed.
