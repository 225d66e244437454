(** * C94, C95: reading of any JSON value, and of files *)
From Coq Require Import ZArith String.
From Verif Require Import PyBase NxGraph L_Base L_Nx M_Json M_Read S_Graph S_Json S_Read L_Json L_Read L_Read2 P_Graph P_Json.

(** ** C94 the JSON values which can be read *)
Theorem C94_exact code j h : parse_any code j = Ok h <-> exists d, reads_as code j d /\ parse_graphology_json d = Ok h.
Proof.
  split.
  - intros E. destruct (parse_any_Ok code j h E) as (d & R). exists d. split; [exact R|]. rewrite <- (parse_reads code j d R). exact E.
  - intros (d & R & E). rewrite (parse_reads code j d R). exact E.
Qed.
Print Assumptions C94_exact.

(** one value is the same graph whichever document it is read as *)
Theorem C94_one_reading code j d d' : reads_as code j d -> reads_as code j d' -> parse_graphology_json d = parse_graphology_json d'.
Proof. intros R R'. rewrite <- (parse_reads code j d R), <- (parse_reads code j d' R'). reflexivity. Qed.
Print Assumptions C94_one_reading.

Theorem C94_documents code d : complete d -> parse_any code (document_json d) = parse_graphology_json d.
Proof. intros C. apply parse_reads, document_reads. exact C. Qed.
Print Assumptions C94_documents.

Theorem C94_errors code j e : parse_any code j = Err e -> e = TypeError \/ e = KeyError \/ e = AttributeError \/ e = NetworkXError.
Proof. intros E. apply parse_any_errors in E. destruct E as [E|[E|[E|[E|[]]]]]; auto. Qed.
Print Assumptions C94_errors.

(** what a value which is no document raises, from the outside in *)
Theorem C94_headers code j : let parse := parse_any code in
  ((forall d, j <> JDict d) -> parse j = Err TypeError)
  /\ forall d, j = JDict d ->
     (no_field d "options" -> parse j = Err TypeError)
     /\ forall o, has_field d "options" o ->
        ((forall f, o <> JDict f) -> parse j = Err TypeError)
        /\ forall f, o = JDict f ->
           (no_field f "type" -> parse j = Err KeyError)
           /\ forall t, has_field f "type" t -> t <> JStr "mixed" -> no_field f "multi" -> parse j = Err KeyError.
Proof.
  cbn zeta. unfold parse_any. split.
  - intros H. destruct j as [v|l|d]; [| |destruct (H d eq_refl)]; unfold contains.
    + destruct v as [| | |k]; try reflexivity. destruct k as [z|s|n]; try reflexivity. destruct (String.index _ _ _); reflexivity.
    + destruct (existsb _ l); reflexivity.
  - intros d ->. unfold contains, no_field, has_field. rewrite dmem_dget. cbn [bind]. split; [intros ->; reflexivity|]. intros o Ho. rewrite Ho. cbn [negb].
    assert (Eo : subscript "options" (JDict d) = Ok o) by (unfold subscript; rewrite Ho; reflexivity). rewrite Eo. cbn [bind]. split.
    + intros H. destruct o as [v|l|f]; [reflexivity|reflexivity|destruct (H f eq_refl)].
    + intros f ->. split; [intros Ht; unfold subscript at 1; rewrite Ht; reflexivity|]. intros t Ht Nt Hm.
      assert (Et : subscript "type" (JDict f) = Ok t) by (unfold subscript; rewrite Ht; reflexivity). rewrite Et. cbn [bind field].
      replace (equals_str t "mixed") with false; [cbn [bind]; unfold subscript; rewrite Hm; reflexivity|].
      symmetry. destruct t as [v| |]; try reflexivity. destruct v as [| | |k]; try reflexivity. destruct k as [z|s|n]; try reflexivity.
      cbn [equals_str]. apply String.eqb_neq. intros ->. apply Nt. reflexivity.
Qed.
Print Assumptions C94_headers.

Definition no_code (j : json) : nat := 0.
Definition jint (z : Z) : json := JVal (VKey (KInt z)).
Definition jbool (b : bool) : json := JVal (VBool b).
Definition jnode (k : json) (a : list (key * json)) : json := JDict [(K "key", k); (K "attributes", JDict a)].
Definition jedge (fields : list (key * json)) : json := JDict ([(K "source", JStr "a"); (K "target", JStr "b")] ++ fields).
Definition jdoc (ty mu : json) (fields : list (key * json)) : json := JDict ((K "options", JDict [(K "type", ty); (K "multi", mu)]) :: fields).

(** a type which is no type, null nodes, a number as mark, and lists as attributes *)
Example C94_ex_read :
  map (parse_any no_code)
    [ jdoc (JVal VNone) (jint 0) [(K "nodes", JVal VNone); (K "edges", JDict [])];
      jdoc (JStr "mixed") (JList []) [(K "edges", JList [jedge [(K "undirected", jint 1)]; jedge [(K "undirected", jbool true)]])];
      jdoc (JStr "directed") (JStr "no") [(K "nodes", JList [jnode (JStr "a") [(K "l", JList [jint 1])]]); (K "edges", JList [jedge [(K "key", jint 4)]; jedge [(K "key", JVal VNone)]])];
      jdoc (JStr "directed") (jbool false) [(K "edges", JList [jedge [(K "key", JList [])]])] ]
  = [ Ok (json_graph false false [] [] []); Ok (json_graph false false [] [] [(K "a", K "b", [])]);
      Ok (mkG true true [] [(K "a", [(K "l", VKey (KObj 0))]); (K "b", [])] [mkB (K "a") (K "b") [(KInt 4, []); (KInt 1, [])]]);
      Ok (json_graph true false [] [] [(K "a", K "b", [])]) ].
Proof. vm_compute. reflexivity. Qed.

Example C94_ex_errors :
  map (parse_any no_code)
    [ JVal VNone; JList []; JStr "no options here"; JDict []; JDict [(K "options", JDict [])];
      jdoc (JStr "directed") (jbool false) [(K "nodes", jint 1)];
      jdoc (JStr "directed") (jbool false) [(K "nodes", JDict [(K "a", JDict [])])];
      jdoc (JStr "directed") (jbool false) [(K "nodes", JList [JDict []])];
      jdoc (JStr "directed") (jbool false) [(K "attributes", JVal VNone)];
      jdoc (JStr "directed") (jbool false) [(K "attributes", JDict [(K "incoming_graph_data", JStr "x")])];
      jdoc (JStr "mixed") (jbool false) [(K "edges", JStr "ab")];
      jdoc (JStr "mixed") (jbool false) [(K "edges", JList [jedge [(K "undirected", jint 2)]])];
      jdoc (JStr "directed") (jbool true) [(K "edges", JList [jedge [(K "key", JList [])]])] ]
  = [ Err TypeError; Err TypeError; Err TypeError; Err TypeError; Err KeyError; Err TypeError; Err AttributeError; Err KeyError;
      Err TypeError; Err NetworkXError; Err AttributeError; Err TypeError; Err TypeError ].
Proof. vm_compute. reflexivity. Qed.

Example C94_ex_hyps : complete (mkDoc (Some (mkOptions (Some "directed"%string) (Some true))) None (Some [mkSNode (Some (K "a")) None]) None)
  /\ parse_any no_code (document_json (mkDoc (Some (mkOptions (Some "directed"%string) (Some true))) None (Some [mkSNode (Some (K "a")) None]) None))
     = Ok (json_graph true true [] [(K "a", [])] []).
Proof.
  split; [|vm_compute; reflexivity]. split; [eexists _, _, _; cbn; repeat split|]. split; [intros s [<- |[]]; discriminate|intros e []].
Qed.

(** ** C95 files *)

(** where the document comes from does not matter *)
Theorem C95_targets code open_file load j : let read := read_graphology_json code open_file load in
  (forall d, read (TData d) = parse_any code (JDict d))
  /\ (forall c, load c = Ok j -> read (TFile c) = parse_any code j)
  /\ (forall p c, open_file p = Ok c -> load c = Ok j -> read (TPath p) = parse_any code j)
  /\ (forall c e, load c = Err e -> read (TFile c) = Err e)
  /\ (forall p e, open_file p = Err e -> read (TPath p) = Err e)
  /\ read TOther = Err TypeError.
Proof.
  cbn zeta. unfold read_graphology_json. split; [reflexivity|]. split; [intros c ->; reflexivity|]. split; [intros p c -> L; cbn [bind]; rewrite L; reflexivity|].
  split; [intros c e ->; reflexivity|]. split; [intros p e ->; reflexivity|reflexivity].
Qed.
Print Assumptions C95_targets.

(** a saved document is read as the document itself *)
Theorem C95_saved repr code g mixed allow d : WF g -> (forall k, In k (dkeys (g_attr g)) -> exists s, k = KStr s) -> savable g ->
  write_graphology_json repr g mixed allow = Ok d ->
  dump_load (document_json d) = Ok (document_json d) /\ parse_any code (document_json d) = parse_graphology_json d.
Proof.
  intros W SG V E. destruct (written_storable repr g mixed allow d (wf_gattr g W) SG V E) as (C & S). split; [apply dump_storable; exact S|apply C94_documents; exact C].
Qed.
Print Assumptions C95_saved.

(** so a graph can be saved in a file and read back *)
Theorem C95_round_trip repr code g mixed allow open_file load p c : WF g -> g_multi g = false -> str_keys g -> passable g -> savable g ->
  exists d, write_graphology_json repr g mixed allow = Ok d
    /\ (open_file p = Ok c -> load c = dump_load (document_json d) ->
        exists h, read_graphology_json code open_file load (TPath p) = Ok h /\ same_graph g h).
Proof.
  intros W M S P V. destruct (C61_round_trip repr g mixed allow W M S P) as (d & h & E & F & G). exists d. split; [exact E|]. intros O L. exists h. split; [|exact G].
  destruct (C95_saved repr code g mixed allow d W (fun k Hk => proj1 (proj1 P k Hk)) V E) as [D R]. unfold read_graphology_json. rewrite O. cbn [bind]. rewrite L, D. cbn [bind]. rewrite R. exact F.
Qed.
Print Assumptions C95_round_trip.

Theorem C95_multigraphs repr code g mixed allow open_file load p c : WF g -> str_keys g -> passable g -> savable g ->
  exists d, write_graphology_json repr g mixed allow = Ok d
    /\ (open_file p = Ok c -> load c = dump_load (document_json d) ->
        exists h, read_graphology_json code open_file load (TPath p) = Ok h
          /\ same_kind g h /\ g_attr h = g_attr g /\ g_nodes h = g_nodes g /\ (forall u v, parallel h u v = parallel g u v)).
Proof.
  intros W S P V. destruct (C63_multigraphs repr g mixed allow W S P) as (d & h & E & F & G1 & G2 & G3 & G4 & _). exists d. split; [exact E|]. intros O L. exists h. split; [|auto].
  destruct (C95_saved repr code g mixed allow d W (fun k Hk => proj1 (proj1 P k Hk)) V E) as [D R]. unfold read_graphology_json. rewrite O. cbn [bind]. rewrite L, D. cbn [bind]. rewrite R. exact F.
Qed.
Print Assumptions C95_multigraphs.

(** graph attributes are not coerced: names which are not strings are refused as a dict, and renamed in a file *)
Theorem C95_names_refuted : exists g d j h, WF g /\ savable g /\ write_graphology_json no_repr g false false = Ok d
  /\ parse_any no_code (document_json d) = Err TypeError
  /\ dump_load (document_json d) = Ok j /\ parse_any no_code j = Ok h /\ g_attr h <> g_attr g.
Proof.
  exists (json_graph false false [(KInt 1, VKey (KInt 2))] [] []). do 3 eexists. split; [apply wf_WF; reflexivity|].
  split; [split; [intros k v n [E|[]]; inversion E; discriminate|split; [intros n a []|intros u v a []]]|].
  split; [vm_compute; reflexivity|]. split; [vm_compute; reflexivity|]. split; [vm_compute; reflexivity|]. split; [vm_compute; reflexivity|]. vm_compute. discriminate.
Qed.
Print Assumptions C95_names_refuted.

Example C95_ex : savable json_ex
  /\ (let* d := write_graphology_json no_repr json_ex false false in
      let* j := dump_load (document_json d) in
      read_graphology_json no_code (fun _ => Ok ""%string) (fun _ => Ok j) (TPath "graph.json"))
     = Ok json_ex.
Proof.
  split; [|vm_compute; reflexivity]. split; [intros k v n [E|[]]; inversion E; discriminate|]. split.
  - intros n a [E|[E|[]]] k v m I; inversion E; subst; cbn in I; [destruct I as [I|[]]; inversion I; discriminate|destruct I].
  - intros u v a H k w m I. vm_compute in H. destruct H as [E|[E|[E|[]]]]; inversion E; subst; cbn in I; try (destruct I as [I|[]]; inversion I; discriminate); destruct I.
Qed.

(** an object cannot be saved *)
Example C95_ex_object :
  (let* d := write_graphology_json no_repr (json_graph false false [] [(K "a", [(K "x", VKey (KObj 0))])] []) false false in dump_load (document_json d)) = Err TypeError.
Proof. vm_compute. reflexivity. Qed.
