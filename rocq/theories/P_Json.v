(** * C61-C66, C81: reading and writing graphology JSON *)
From Coq Require Import List ZArith Lia Bool String DecimalString.
From Verif Require Import PyBase NxGraph L_Base L_Nx L_Nx2 M_Utils M_Json S_Graph S_Json L_Graph L_Rename L_Json L_Json2.
Import ListNotations.
Open Scope list_scope.

(** graphs for the examples *)
Definition json_graph (dir multi : bool) (ga : attrs) (ns : list (key * attrs)) (es : list (key * key * attrs)) : graph :=
  fold_left (fun g e => add_edge g (fst (fst e)) (snd (fst e)) (snd e)) es
    (fold_left (fun g n => add_node g (fst n) (snd n)) ns (mkG dir multi ga [] [])).
Definition no_repr (n : nat) : string := "object"%string.
Definition n_attr (z : Z) : attrs := [(K "n", VKey (KInt z))].

Lemma str_keys_ok g mixed : str_keys g -> types_ok mixed None (nodes g) = true.
Proof.
  intros H. apply types_ok_iff. split; [|intros _]; intros; intros Q; apply H in Q as (s & E) + idtac; try discriminate.
  match goal with X : In (KInt _) _ |- _ => apply H in X as (? & ?); discriminate end.
Qed.

Lemma str_keys_id g repr : str_keys g -> forall n, In n (nodes g) -> str_of repr n = n.
Proof. intros H n Hn. destruct (H n Hn) as (s & ->). reflexivity. Qed.

Lemma str_keys_injective g repr : str_keys g -> injective_on (nodes g) (str_of repr).
Proof. intros H x y Hx Hy. rewrite !(str_keys_id g repr H) by assumption. auto. Qed.

Lemma read_back repr g mixed allow : WF g -> str_keys g -> passable g ->
  exists d, write_graphology_json repr g mixed allow = Ok d
            /\ parse_graphology_json d = Ok (add_all (edges_data g) (create_empty_copy g)).
Proof.
  intros W S P. destruct (round_trip repr g mixed allow W (str_keys_injective g repr S) P (str_keys_ok g mixed S)) as (d & h & E & F & ->).
  rewrite (rename_id (str_of repr) g) in F; [eauto|apply str_keys_id; assumption|assumption].
Qed.

(** ** C61 write then read on simple graphs with string keys *)
Theorem C61_round_trip repr g mixed allow : WF g -> g_multi g = false -> str_keys g -> passable g ->
  exists d h, write_graphology_json repr g mixed allow = Ok d /\ parse_graphology_json d = Ok h /\ same_graph g h.
Proof.
  intros W M S P. destruct (read_back repr g mixed allow W S P) as (d & E & F). exists d. eexists. split; [exact E|]. split; [exact F|].
  apply same_rebuild; [assumption|]. intros u v kd. apply simple_numbered; assumption.
Qed.
Print Assumptions C61_round_trip.

(** the names of [passable] are exactly the ones which work *)
Lemma read_back_passable repr g mixed allow d h : WF g -> g_multi g = false -> str_names g ->
  write_graphology_json repr g mixed allow = Ok d -> parse_graphology_json d = Ok h -> g_attr h = g_attr g -> passable g.
Proof.
  intros W M N E F SA. pose proof (write_res repr g mixed allow) as R. destruct (writable mixed allow g); [|congruence].
  destruct R as (ns & es & E' & _). assert (DA : d_attributes d = match g_attr g with [] => None | a => Some a end).
  { rewrite E in E'. inversion E'. reflexivity. }
  destruct (parse_spec _ _ F) as (o & t & m & _ & _ & _ & _ & _ & GA & _).
  assert (KI : dget (K "incoming_graph_data") (g_attr g) = None).
  { rewrite <- SA, GA. apply dget_None. intros Q. apply In_dkeys_dupdate in Q as [Q|[]].
    revert Q. apply dget_None. rewrite dget_dremove. reflexivity. }
  destruct (forallb (fun na => kwargs_ok node_reserved (snd na)) (g_nodes g)
            && forallb (fun e => kwargs_ok (edge_reserved false) (snd e)) (edges_data g)
            && kwargs_ok [K "self"] (g_attr g)) eqn:K.
  + rewrite !andb_true_iff in K. destruct K as ((KN & KE) & KG). rewrite forallb_forall in KN, KE. split; [|split].
    * intros k Hk. apply dget_None in KI. pose proof (proj1 (kwargs_ok_iff _ _) KG k Hk) as [A B]. split; [assumption|]. cbn in B.
      split; intros ->; tauto.
    * intros n a k Hn Hk. apply (proj1 (kwargs_ok_iff _ _) (KN _ Hn)) in Hk. assumption.
    * intros u v a k Hn Hk. rewrite M. apply (proj1 (kwargs_ok_iff _ _) (KE _ Hn)) in Hk as [A B]. split; [assumption|]. split; [assumption|discriminate].
  + exfalso. assert (NP : ~ passable g).
    { intros (PG & PN & PE). rewrite <- not_true_iff_false in K. apply K. rewrite !andb_true_iff, !forallb_forall. split; [split|].
      - intros [n a] H. apply kwargs_ok_iff. intros k Hk. eapply PN; eassumption.
      - intros [[u v] a] H. apply kwargs_ok_iff. intros k Hk. destruct (PE u v a k H Hk) as (A & B & _). rewrite M in B. tauto.
      - apply kwargs_ok_iff. intros k Hk. destruct (PG k Hk) as (A & B & C). split; [assumption|]. cbn. intuition congruence. }
    pose proof (read_back_bad repr g mixed allow _ W M N E KI NP). congruence.
Qed.

Theorem C61_exact repr g mixed allow : WF g -> g_multi g = false -> str_keys g -> str_names g ->
  exists d, write_graphology_json repr g mixed allow = Ok d
            /\ ((exists h, parse_graphology_json d = Ok h /\ same_graph g h) <-> passable g).
Proof.
  intros W M S N. pose proof (write_res repr g mixed allow) as R. destruct (str_names_ok g allow N) as (A1 & A2).
  unfold writable in R. rewrite (str_keys_ok g mixed S), A1, A2 in R. cbn [andb] in R. destruct R as (ns & es & E & _).
  eexists. split; [exact E|]. split.
  - intros (h & F & _ & SA & _). eapply read_back_passable; eassumption.
  - intros P. destruct (C61_round_trip repr g mixed allow W M S P) as (d & h & E' & F & SG). rewrite E in E'. inversion E'; subst. eauto.
Qed.
Print Assumptions C61_exact.

(** an attribute named like a parameter of a networkx method cannot be read back *)
Theorem C61_round_trip_refuted : exists g d, WF g /\ g_multi g = false /\ str_keys g /\ str_names g
  /\ write_graphology_json no_repr g false false = Ok d /\ parse_graphology_json d = Err TypeError.
Proof.
  set (g := json_graph false false [] [(K "a", [(K "self", VKey (KInt 1))])] []). exists g. eexists.
  split; [apply wf_WF; reflexivity|]. split; [reflexivity|]. split; [intros n [<-|[]]; exists "a"%string; reflexivity|]. split.
  - split; [|intros u v a k []]. intros n a k [E|[]] Hk. inversion E; subst. destruct Hk as [<-|[]]. exists "self"%string. reflexivity.
  - split; vm_compute; reflexivity.
Qed.
Print Assumptions C61_round_trip_refuted.

Definition json_ex : graph :=
  json_graph true false [(K "name", VKey (K "g"))] [(K "b", n_attr 1); (K "a", [])] [(K "b", K "a", n_attr 2); (K "a", K "b", []); (K "a", K "a", n_attr 3)].
Example C61_ex : wf json_ex = true
  /\ (let* d := write_graphology_json no_repr json_ex false false in parse_graphology_json d) = Ok json_ex.
Proof. vm_compute. auto. Qed.
Example C61_ex_passable : str_keys json_ex /\ passable json_ex.
Proof.
  split; [intros n [<-|[<-|[]]]; eexists; reflexivity|]. split; [|split].
  - intros k [<-|[]]. split; [eexists; reflexivity|]. split; discriminate.
  - intros n a k [E|[E|[]]] Hk; inversion E; subst; [|destruct Hk]. destruct Hk as [<-|[]]. split; [eexists; reflexivity|].
    intros [Q|[Q|[]]]; discriminate.
  - intros u v a k H Hk. vm_compute in H. destruct H as [E|[E|[E|[]]]]; inversion E; subst; try (exfalso; exact Hk); destruct Hk as [<-|[]];
      (split; [eexists; reflexivity|]; split; [intros [Q|[Q|[Q|[]]]]; discriminate|discriminate]).
Qed.

(** graph attributes named like the parameters of the constructor *)
Example C61_ex_names :
  map (fun a => let* d := write_graphology_json no_repr (json_graph false false a [] []) false false in parse_graphology_json d)
      [[(K "self", VNone)]; [(K "incoming_graph_data", VKey (K "x"))]; [(K "n", VNone); (K "incoming_graph_data", VNone)]]
  = [Err TypeError; Err NetworkXError; Ok (json_graph false false [(K "n", VNone)] [] [])].
Proof. vm_compute. reflexivity. Qed.

(** ** C62 integer keys are renamed injectively *)
Theorem C62_int_keys repr g mixed allow : WF g -> g_multi g = false -> int_keys g -> passable g ->
  exists d h f, write_graphology_json repr g mixed allow = Ok d /\ parse_graphology_json d = Ok h
    /\ (forall z, f (KInt z) = KStr (decimal z)) /\ injective_on (nodes g) f /\ renamed_copy f g h.
Proof.
  intros W M S P.
  assert (I : injective_on (nodes g) (str_of repr)) by (intros x y Hx Hy E; eapply str_of_int; [apply S, Hx|apply S, Hy|exact E]).
  assert (T : types_ok mixed None (nodes g) = true).
  { apply types_ok_iff. split; [|intros _]; intros; intros Q; apply S in Q as (s' & E); discriminate. }
  destruct (round_trip repr g mixed allow W I P T) as (d & h & E & F & ->). exists d. eexists. exists (str_of repr).
  split; [exact E|]. split; [exact F|]. split; [reflexivity|]. split; [assumption|]. apply renamed_rebuild; assumption.
Qed.
Print Assumptions C62_int_keys.

Theorem C62_exact repr g mixed allow : WF g -> g_multi g = false -> int_keys g -> str_names g ->
  exists d, write_graphology_json repr g mixed allow = Ok d
            /\ ((exists h f, parse_graphology_json d = Ok h /\ injective_on (nodes g) f /\ renamed_copy f g h) <-> passable g).
Proof.
  intros W M S N. pose proof (write_res repr g mixed allow) as R. destruct (str_names_ok g allow N) as (A1 & A2).
  assert (T : types_ok mixed None (nodes g) = true).
  { apply types_ok_iff. split; [|intros _]; intros; intros Q; apply S in Q as (s' & E); discriminate. }
  unfold writable in R. rewrite T, A1, A2 in R. cbn [andb] in R. destruct R as (ns & es & E & _).
  eexists. split; [exact E|]. split.
  - intros (h & f & F & _ & _ & SA & _). eapply read_back_passable; eassumption.
  - intros P. destruct (C62_int_keys repr g mixed allow W M S P) as (d & h & f & E' & F & _ & I & RC). rewrite E in E'. inversion E'; subst. eauto.
Qed.
Print Assumptions C62_exact.

Theorem C62_int_keys_refuted : exists g d, WF g /\ g_multi g = false /\ int_keys g /\ str_names g
  /\ write_graphology_json no_repr g false false = Ok d /\ parse_graphology_json d = Err TypeError.
Proof.
  set (g := json_graph false false [] [] [(KInt 1, KInt 2, [(K "u_of_edge", VNone)])]). exists g. eexists.
  split; [apply wf_WF; reflexivity|]. split; [reflexivity|]. split; [intros n [<-|[<-|[]]]; eexists; reflexivity|]. split.
  - split; [intros n a k [E|[E|[]]] Hk; inversion E; subst; destruct Hk|]. intros u v a k [E|[]] Hk. inversion E; subst. destruct Hk as [<-|[]].
    eexists. reflexivity.
  - split; vm_compute; reflexivity.
Qed.
Print Assumptions C62_int_keys_refuted.

Example C62_ex :
  (let* d := write_graphology_json no_repr (json_graph false false [] [(KInt 10, n_attr 1); (KInt (-2), [])] [(KInt (-2), KInt 10, n_attr 5)]) false false in
   parse_graphology_json d) = Ok (json_graph false false [] [(K "10", n_attr 1); (K "-2", [])] [(K "10", K "-2", n_attr 5)]).
Proof. vm_compute. reflexivity. Qed.

(** ** C63 multigraphs are kept up to edge keys *)
Theorem C63_multigraphs repr g mixed allow : WF g -> str_keys g -> passable g ->
  exists d h, write_graphology_json repr g mixed allow = Ok d /\ parse_graphology_json d = Ok h
    /\ same_kind g h /\ g_attr h = g_attr g /\ g_nodes h = g_nodes g
    /\ (forall u v, parallel h u v = parallel g u v)
    /\ (forall u v kd, edge_data h u v = Some kd -> numbered kd).
Proof.
  intros W S P. destruct (read_back repr g mixed allow W S P) as (d & E & F). exists d. eexists. split; [exact E|]. split; [exact F|].
  destruct (rebuild g W) as (_ & _ & _ & EN & EA & E1 & E2). cbn zeta in *. split; [split; symmetry; assumption|]. split; [assumption|]. split; [assumption|]. split.
  - intros u v. unfold parallel. rewrite rebuild_data by assumption. destruct (edge_data g u v); [|reflexivity]. cbn. apply map_snd_number.
  - intros u v kd H. rewrite rebuild_data in H by assumption. destruct (edge_data g u v); [|discriminate]. inversion H. apply renumber_numbered.
Qed.
Print Assumptions C63_multigraphs.

(** edge keys which are already 0, 1, 2... are kept *)
Theorem C63_numbered_multigraphs repr g mixed allow : WF g -> str_keys g -> passable g ->
  (forall u v kd, edge_data g u v = Some kd -> numbered kd) ->
  exists d h, write_graphology_json repr g mixed allow = Ok d /\ parse_graphology_json d = Ok h /\ same_graph g h.
Proof.
  intros W S P N. destruct (read_back repr g mixed allow W S P) as (d & E & F). exists d. eexists. split; [exact E|]. split; [exact F|].
  apply same_rebuild; assumption.
Qed.
Print Assumptions C63_numbered_multigraphs.

(** the names of [passable] are exactly the ones which work, for multigraphs too *)
Theorem C63_exact repr g mixed allow : WF g -> str_keys g -> str_names g ->
  exists d, write_graphology_json repr g mixed allow = Ok d
    /\ ((exists h, parse_graphology_json d = Ok h /\ same_kind g h /\ g_attr h = g_attr g /\ g_nodes h = g_nodes g
                   /\ forall u v, parallel h u v = parallel g u v)
        <-> passable g).
Proof.
  intros W S N. pose proof (write_res repr g mixed allow) as R. destruct (str_names_ok g allow N) as (A1 & A2).
  unfold writable in R. rewrite (str_keys_ok g mixed S), A1, A2 in R. cbn [andb] in R. destruct R as (ns & es & E & _).
  eexists. split; [exact E|]. split.
  - intros (h & F & _ & SA & _ & P). eapply kept_passable; try eassumption. intros _ u v _. exists u, v. apply P.
  - intros P. destruct (C63_multigraphs repr g mixed allow W S P) as (d & h & E' & F & H1 & H2 & H3 & H4 & _).
    rewrite E in E'. inversion E'; subst. exists h. auto.
Qed.
Print Assumptions C63_exact.

(** two parallel edges, one of which has an attribute "key": both are read back, without the attribute *)
Example C63_exact_ex :
  let g := json_graph false true [] [] [(K "a", K "b", n_attr 1); (K "a", K "b", [(K "key", VKey (K "x"))])] in
  (let* d := write_graphology_json no_repr g false false in
   let* h := parse_graphology_json d in Ok (parallel g (K "a") (K "b"), parallel h (K "a") (K "b")))
  = Ok ([n_attr 1; [(K "key", VKey (K "x"))]], [n_attr 1; []]).
Proof. vm_compute. reflexivity. Qed.

(** an edge attribute named "key" is taken as an edge key: edges are merged *)
Theorem C63_multigraphs_refuted : exists g d h, WF g /\ g_multi g = true /\ str_keys g /\ str_names g
  /\ write_graphology_json no_repr g false false = Ok d /\ parse_graphology_json d = Ok h
  /\ List.length (parallel g (K "a") (K "b")) = 2 /\ List.length (parallel h (K "a") (K "b")) = 1.
Proof.
  set (e := [(K "key", VKey (KInt 7))] : attrs). set (g := json_graph false true [] [] [(K "a", K "b", e); (K "a", K "b", e)]). exists g. do 2 eexists.
  split; [apply wf_WF; reflexivity|]. split; [reflexivity|]. split; [intros n [<-|[<-|[]]]; eexists; reflexivity|]. split.
  - split; [intros n a k [E|[E|[]]] Hk; inversion E; subst; destruct Hk|].
    intros u v a k H Hk. vm_compute in H. destruct H as [E|[E|[]]]; inversion E; subst; destruct Hk as [<-|[]]; eexists; reflexivity.
  - split; [vm_compute; reflexivity|]. split; [vm_compute; reflexivity|]. vm_compute. auto.
Qed.
Print Assumptions C63_multigraphs_refuted.

Example C63_ex :
  let g := mkG false true [] [(K "a", []); (K "b", [])] [mkB (K "a") (K "b") [(K "x", n_attr 1); (KInt 9, n_attr 2)]] in
  wf g = true /\ (let* d := write_graphology_json no_repr g false false in parse_graphology_json d)
  = Ok (mkG false true [] [(K "a", []); (K "b", [])] [mkB (K "a") (K "b") [(KInt 0, n_attr 1); (KInt 1, n_attr 2)]]).
Proof. vm_compute. auto. Qed.

(** ** C64 nodes are not merged *)
Theorem C64_distinct_nodes repr g allow d : WF g -> write_graphology_json repr g false allow = Ok d ->
  List.length (doc_nodes d) = List.length (nodes g) /\ NoDup (map sn_key (doc_nodes d)).
Proof.
  intros W E. destruct (write_keys repr g false allow d E) as (T & K). apply types_ok_iff in T as (T1 & T2). split.
  - rewrite <- (map_length sn_key), K, map_length. reflexivity.
  - rewrite K, <- (map_map (str_of repr) Some). apply FinFun.Injective_map_NoDup; [intros x y Q; congruence|].
    apply clash; [apply W|assumption|]. intros z. apply (T2 eq_refl).
Qed.
Print Assumptions C64_distinct_nodes.

(** with allow_mixed_keys, exactly when no int has the representation of another key *)
Theorem C64_mixed_keys repr g mixed allow d : WF g -> write_graphology_json repr g mixed allow = Ok d ->
  List.length (doc_nodes d) = List.length (nodes g)
  /\ (NoDup (map sn_key (doc_nodes d)) <-> forall z, In (KInt z) (nodes g) -> ~ In (KStr (decimal z)) (nodes g)).
Proof.
  intros W E. destruct (write_keys repr g mixed allow d E) as (T & K). apply types_ok_iff in T as (T1 & T2). split.
  - rewrite <- (map_length sn_key), K, map_length. reflexivity.
  - unfold decimal. rewrite <- (clash repr) by (try assumption; apply W). rewrite K, <- (map_map (str_of repr) Some). split.
    + apply NoDup_map_inv.
    + apply FinFun.Injective_map_NoDup. intros x y Q. congruence.
Qed.
Print Assumptions C64_mixed_keys.

Theorem C64_mixed_keys_refuted : exists g d, WF g /\ write_graphology_json no_repr g true false = Ok d /\ ~ NoDup (map sn_key (doc_nodes d)).
Proof.
  set (g := json_graph false false [] [(KInt 1, n_attr 1); (K "1", n_attr 2)] []). exists g. eexists.
  split; [apply wf_WF; reflexivity|]. split; [vm_compute; reflexivity|]. vm_compute. intros N. inversion N as [|? ? A B]; subst. apply A. cbn. tauto.
Qed.
Print Assumptions C64_mixed_keys_refuted.

Example C64_ex : exists d, write_graphology_json no_repr (json_graph false false [] [(KInt 12, []); (KInt (-12), []); (KInt 0, [])] []) false false = Ok d
  /\ map sn_key (doc_nodes d) = [Some (K "12"); Some (K "-12"); Some (K "0")].
Proof. eexists. split; vm_compute; reflexivity. Qed.

(** ** C65 what is rejected *)
Theorem C65_rejected repr g mixed allow :
  ((exists e, write_graphology_json repr g mixed allow = Err e) <->
     (exists n, In (KObj n) (nodes g))
     \/ (mixed = false /\ exists z s, In (KInt z) (nodes g) /\ In (KStr s) (nodes g))
     \/ (allow = false /\ ~ str_names g))
  /\ forall e, write_graphology_json repr g mixed allow = Err e -> e = TypeError.
Proof.
  pose proof (write_res repr g mixed allow) as R. split.
  - assert (Q : writable mixed allow g = false <-> exists e, write_graphology_json repr g mixed allow = Err e).
    { destruct (writable mixed allow g).
      - destruct R as (ns & es & E & _). split; [discriminate|]. intros (e & X). congruence.
      - split; [eauto|reflexivity]. }
    rewrite <- Q. clear. unfold writable. rewrite !andb_false_iff. split.
    + intros [[H|H]|H].
      * destruct (existsb (fun k => match k with KObj _ => true | _ => false end) (nodes g)) eqn:X.
        { apply existsb_exists in X as ([|  |n] & X & Y); try discriminate. eauto. }
        assert (O : forall n, ~ In (KObj n) (nodes g)).
        { intros n Hn. rewrite <- not_true_iff_false in X. apply X. apply existsb_exists. eauto. }
        rewrite <- not_true_iff_false in H. destruct mixed; [destruct H; apply types_ok_iff; split; [assumption|discriminate]|].
        destruct (find (fun k => match k with KInt _ => true | _ => false end) (nodes g)) as [[z| |]|] eqn:F1;
          try (apply find_some in F1 as [_ F1]; discriminate).
        { destruct (find (fun k => match k with KStr _ => true | _ => false end) (nodes g)) as [[|s|]|] eqn:F2;
            try (apply find_some in F2 as [_ F2]; discriminate).
          - right. left. split; [reflexivity|]. exists z, s. apply find_some in F1, F2. tauto.
          - destruct H. apply types_ok_iff. split; [assumption|]. intros _ z' s _ Hs. apply (find_none _ _ F2) in Hs. discriminate. }
        { destruct H. apply types_ok_iff. split; [assumption|]. intros _ z' s Hz. apply (find_none _ _ F1) in Hz. discriminate. }
      * right. right. rewrite <- not_true_iff_false in H. destruct allow.
        { destruct H. apply forallb_forall. reflexivity. }
        split; [reflexivity|]. intros S. apply H. apply str_names_ok. assumption.
      * right. right. rewrite <- not_true_iff_false in H. destruct allow.
        { destruct H. apply forallb_forall. reflexivity. }
        split; [reflexivity|]. intros S. apply H. apply str_names_ok. assumption.
    + intros [(n & H)|[(-> & z & s & H1 & H2)|(-> & H)]].
      * left. left. apply not_true_iff_false. intros T. apply types_ok_iff in T as [T _]. exact (T n H).
      * left. left. apply not_true_iff_false. intros T. apply types_ok_iff in T as [_ T]. exact (T eq_refl z s H1 H2).
      * destruct (forallb (names_ok false) (map snd (g_nodes g))) eqn:A1; [|tauto].
        destruct (forallb (names_ok false) (map snd (edges_data g))) eqn:A2; [|tauto].
        destruct H. rewrite forallb_forall in A1, A2. split.
        -- intros n a k Hn Hk. apply (in_map snd), A1 in Hn. unfold names_ok in Hn. cbn in Hn. revert k Hk. apply names_ok_iff. exact Hn.
        -- intros u v a k Hn Hk. apply (in_map snd), A2 in Hn. unfold names_ok in Hn. cbn in Hn. revert k Hk. apply names_ok_iff. exact Hn.
  - intros e E. destruct (writable mixed allow g); [|congruence]. destruct R as (ns & es & X & _). congruence.
Qed.
Print Assumptions C65_rejected.

Example C65_ex :
  write_graphology_json no_repr (json_graph false false [] [(KInt 1, []); (KObj 0, [])] []) true true = Err TypeError
  /\ write_graphology_json no_repr (json_graph false false [] [(KInt 1, []); (K "b", [])] []) false true = Err TypeError
  /\ write_graphology_json no_repr (json_graph false false [] [] [(K "a", K "b", [(KInt 1, VNone)])]) true false = Err TypeError
  /\ exists d, write_graphology_json no_repr (json_graph false false [] [(KInt 1, [])] [(K "a", K "b", [(KInt 1, VNone)])]) true true = Ok d.
Proof. repeat split; try (vm_compute; reflexivity). eexists. vm_compute. reflexivity. Qed.

(** ** C66 mixed graphs *)
Theorem C66_homogeneous d h : declared "mixed" d -> parse_graphology_json d = Ok h ->
  (g_dir h = false /\ doc_edges d <> [] /\ forall e, In e (doc_edges d) -> undirected_edge e)
  \/ (g_dir h = true /\ forall e, In e (doc_edges d) -> ~ undirected_edge e).
Proof.
  intros (o & E1 & E2) P. destruct (parse_spec d h P) as (o' & t & m & E1' & E2' & _ & _ & D & _ & _ & _ & _ & M).
  assert (o' = o) by congruence. subst o'. assert (t = "mixed"%string) by congruence. subst t. specialize (M eq_refl).
  rewrite Forall_forall in M. unfold actual_type in *. rewrite String.eqb_refl in *. unfold doc_edges, undirected_edge in *.
  destruct (d_edges d) as [[|e es]|]; [right; split; [assumption|intros ? []]| |right; split; [assumption|intros ? []]].
  destruct (get_default false (se_undirected e)); cbn in D, M.
  - left. split; [assumption|]. split; [discriminate|]. intros x Hx. apply M in Hx. destruct (se_undirected x) as [[]|]; cbn in Hx; congruence.
  - right. split; [assumption|]. intros x Hx. apply M in Hx. destruct (se_undirected x) as [[]|]; cbn in Hx; congruence.
Qed.
Print Assumptions C66_homogeneous.

Theorem C66_heterogeneous d e1 e2 : complete d -> declared "mixed" d ->
  In e1 (doc_edges d) -> undirected_edge e1 -> In e2 (doc_edges d) -> ~ undirected_edge e2 ->
  (exists e, parse_graphology_json d = Err e)
  /\ (~ In (K "incoming_graph_data") (dkeys (doc_attributes d)) -> parse_graphology_json d = Err TypeError).
Proof.
  intros C D H1 U1 H2 U2. destruct (parse_graphology_json d) as [h|e] eqn:P.
  - destruct (C66_homogeneous d h D P) as [(_ & _ & A)|(_ & A)]; [destruct (U2 (A _ H2))|destruct (A _ H1 U1)].
  - split; [eauto|]. intros NI. f_equal. eapply parse_err; eassumption.
Qed.
Print Assumptions C66_heterogeneous.

(** conversely, homogeneous graphs are read *)
Theorem C66_accepted d : complete d -> doc_passable d ->
  (declared "mixed" d -> (forall e, In e (doc_edges d) -> undirected_edge e) \/ (forall e, In e (doc_edges d) -> ~ undirected_edge e)) ->
  exists h, parse_graphology_json d = Ok h.
Proof. exact (parse_ok d). Qed.
Print Assumptions C66_accepted.

Theorem C66_no_options d : d_options d = None -> parse_graphology_json d = Err TypeError.
Proof. intros E. unfold parse_graphology_json. rewrite E. reflexivity. Qed.
Print Assumptions C66_no_options.

Definition mixed_doc (us : list (option bool)) : document :=
  mkDoc (Some (mkOptions (Some "mixed"%string) (Some false))) None None
    (Some (map (fun u => mkSEdge None (Some (K "a")) (Some (K "b")) None u) us)).
Example C66_ex :
  parse_graphology_json (mixed_doc [Some true; None]) = Err TypeError
  /\ parse_graphology_json (mixed_doc [None; Some false; Some true]) = Err TypeError
  /\ parse_graphology_json (mixed_doc [None; Some false]) = Ok (json_graph true false [] [] [(K "a", K "b", [])])
  /\ parse_graphology_json (mixed_doc [Some true; Some true]) = Ok (json_graph false false [] [] [(K "a", K "b", [])])
  /\ parse_graphology_json (mixed_doc []) = Ok (json_graph true false [] [] []).
Proof. vm_compute. auto. Qed.
Example C66_ex_complete us : complete (mixed_doc us) /\ declared "mixed" (mixed_doc us) /\ doc_passable (mixed_doc us).
Proof.
  split; [|split].
  - split; [do 3 eexists; repeat split|]. split; [intros s []|]. intros e He. cbn in He. apply in_map_iff in He as (u & <- & _). split; discriminate.
  - eexists. split; reflexivity.
  - split; [intros k []|]. split; [intros s a k []|]. intros e a k He Ea. cbn in He. apply in_map_iff in He as (u & <- & _). discriminate.
Qed.

(** ** C81 what is read *)
Theorem C81_read d h : parse_graphology_json d = Ok h ->
  declared_multi (g_multi h) d
  /\ (g_dir h = true <-> declared "directed" d \/ (declared "mixed" d /\ forall e, In e (doc_edges d) -> ~ undirected_edge e))
  /\ (NoDup (dkeys (doc_attributes d)) ->
        g_attr h = filter (fun kv => negb (key_eqb (fst kv) (K "incoming_graph_data"))) (doc_attributes d))
  /\ (forall n, In n (nodes h) <-> (exists s, In s (doc_nodes d) /\ sn_key s = Some n)
                                   \/ exists e, In e (doc_edges d) /\ (se_source e = Some n \/ se_target e = Some n))
  /\ (forall u v, has_edge h u v = true <-> exists e, In e (doc_edges d) /\
        ((se_source e = Some u /\ se_target e = Some v) \/ (g_dir h = false /\ se_source e = Some v /\ se_target e = Some u))).
Proof.
  intros P. pose proof (fun D => C66_homogeneous d h D P) as HM. destruct (parse_spec d h P) as (o & t & m & E1 & E2 & E3 & Em & D & GA & _ & N & E & M).
  split; [exists o; split; [assumption|congruence]|]. split; [|split; [|split; assumption]].
  - split.
    + intros T. destruct (String.eqb_spec t "mixed").
      * subst t. right. assert (DD : declared "mixed" d) by (exists o; tauto). split; [assumption|]. destruct (HM DD) as [(X & _)|(_ & X)]; [congruence|assumption].
      * left. exists o. split; [assumption|]. rewrite T in D. unfold actual_type in D. apply String.eqb_neq in n. rewrite n in D. symmetry in D. apply String.eqb_eq in D. congruence.
    + intros [(o' & D1 & D2)|[DD X]].
      * assert (t = "directed"%string) by congruence. subst t. rewrite D. reflexivity.
      * destruct (HM DD) as [(_ & X1 & X2)|(X1 & _)]; [|assumption]. destruct (doc_edges d) as [|e es]; [congruence|].
        destruct (X e); [cbn; tauto|]. apply X2. cbn. tauto.
  - intros Nd. rewrite GA. change (get_default [] (d_attributes d)) with (doc_attributes d). rewrite dupdate_nil.
    + unfold dremove. apply filter_ext. intros kv. cbn. rewrite orb_false_r. reflexivity.
    + unfold dremove. clear - Nd. induction (doc_attributes d) as [|[k v] l IH]; [constructor|]. inversion Nd; subst. cbn [filter].
      destruct (negb _); [|auto]. cbn. constructor; [|auto]. intros I. apply H1. apply in_map_iff in I as (x & <- & I). apply filter_In in I as [I _].
      apply in_map. assumption.
Qed.
Print Assumptions C81_read.

Example C81_ex :
  parse_graphology_json
    (mkDoc (Some (mkOptions (Some "directed"%string) (Some true))) (Some (n_attr 4))
       (Some [mkSNode (Some (K "a")) (Some (n_attr 1)); mkSNode (Some (K "b")) None])
       (Some [mkSEdge (Some (K "x")) (Some (K "a")) (Some (K "c")) (Some (n_attr 2)) None; mkSEdge None (Some (K "a")) (Some (K "c")) None None]))
  = Ok (mkG true true (n_attr 4) [(K "a", n_attr 1); (K "b", []); (K "c", [])]
          [mkB (K "a") (K "c") [(K "x", n_attr 2); (KInt 1, [])]]).
Proof. vm_compute. reflexivity. Qed.
