(** * Model of pelote/read.py and pelote/write.py

    A serialized graph is the parsed JSON document.  Each field of a JSON object is an option, None
    meaning that the field is absent.  Simplifications: fields which are present have the type of the
    format (a list of nodes, a dict of attributes, a boolean [undirected], ...) and node keys are
    ints or strings; [read_graphology_json], lines 74-103 of read.py, which opens
    files, is only modelled on documents which are already parsed (lines 97-98 and 103). *)
From Coq Require Import ZArith String DecimalString.
From Verif Require Import PyBase NxGraph M_Utils.

Record s_options : Set := mkOptions { o_type : option string; o_multi : option bool }.
Record s_node : Type := mkSNode { sn_key : option key; sn_attributes : option attrs }.
Record s_edge : Type := mkSEdge { se_key : option key; se_source : option key; se_target : option key;
                                  se_attributes : option attrs; se_undirected : option bool }.
Record document : Type := mkDoc { d_options : option s_options; d_attributes : option attrs;
                                  d_nodes : option (list s_node); d_edges : option (list s_edge) }.

(** [d.get(field, default)] and [d[field]] *)
Definition get_default {A} (default : A) (field : option A) : A := match field with Some a => a | None => default end.
Definition get_item {A} (field : option A) : res A := match field with Some a => Ok a | None => Err KeyError end.

(** ** write.py *)

(** [str(k)]; [repr] gives the string of objects which are neither ints nor strings *)
Definition py_str (repr : nat -> string) (k : key) : string :=
  match k with
  | KInt z => NilZero.string_of_int (Z.to_int z)
  | KStr s => s
  | KObj n => repr n
  end.

(** coerce_attributes, lines 10-24 *)
Definition coerce_attributes (repr : nat -> string) (allow_invalid_names : bool) (attr : attrs) : res attrs :=
  foldM (fun copy kv =>
           let '(k, v) := kv in
           if is_str k then Ok (dset k v copy)
           else if allow_invalid_names then Ok (dset (KStr (py_str repr k)) v copy)
           else Err TypeError) attr [].

(** lines 87-90 and 97-100: [if attr: ..["attributes"] = coerce_attributes(..)] *)
Definition coerced (repr : nat -> string) (allow_invalid_attr_names : bool) (attr : attrs) : res (option attrs) :=
  match attr with
  | [] => Ok None
  | _ => let* a := coerce_attributes repr allow_invalid_attr_names attr in Ok (Some a)
  end.

(** VALID_KEY_TYPES, line 7, and the test of line 70 *)
Definition valid_key (k : key) : bool := match k with KObj _ => false | _ => true end.

(** lines 69-92; the state is node_key_type and the list of nodes *)
Definition write_node (repr : nat -> string) (allow_mixed_keys allow_invalid_attr_names : bool)
  (s : option pytype * list s_node) (na : key * attrs) : res (option pytype * list s_node) :=
  let '(node_key_type, nodes) := s in
  let '(n, attr) := na in
  if negb (valid_key n) then Err TypeError
  else
    let* node_key_type :=
      if allow_mixed_keys then Ok node_key_type
      else match node_key_type with
           | None => Ok (Some (key_type n))
           | Some t => if negb (pytype_eqb (key_type n) t) then Err TypeError else Ok node_key_type
           end in
    let* a := coerced repr allow_invalid_attr_names attr in
    Ok (node_key_type, nodes ++ [mkSNode (Some (KStr (py_str repr n))) a]).

(** lines 94-102 *)
Definition write_edge (repr : nat -> string) (allow_invalid_attr_names : bool)
  (edges : list s_edge) (e : key * key * attrs) : res (list s_edge) :=
  let '(source, target, attr) := e in
  let* a := coerced repr allow_invalid_attr_names attr in
  Ok (edges ++ [mkSEdge None (Some (KStr (py_str repr source))) (Some (KStr (py_str repr target))) a None]).

(** write_graphology_json, lines 27-109 *)
Definition write_graphology_json (repr : nat -> string) (graph : graph) (allow_mixed_keys allow_invalid_attr_names : bool) : res document :=
  let options := mkOptions (Some (if g_dir graph then "directed" else "undirected")%string) (Some (g_multi graph)) in
  let* s := foldM (write_node repr allow_mixed_keys allow_invalid_attr_names) (g_nodes graph) (None, []) in
  let* edges := foldM (write_edge repr allow_invalid_attr_names) (edges_data graph) [] in
  Ok (mkDoc (Some options) (match g_attr graph with [] => None | a => Some a end) (Some (snd s)) (Some edges)).

(** ** read.py *)

(** lines 47-49 *)
Definition parse_node (graph : graph) (serialized_node : s_node) : res NxGraph.graph :=
  let attr := get_default [] (sn_attributes serialized_node) in
  let* k := get_item (sn_key serialized_node) in
  add_node_kw graph k attr.

(** lines 52-69; [undirected] tells whether graph_type is "undirected" *)
Definition parse_edge (must_check_mixed undirected is_multi : bool) (graph : graph) (serialized_edge : s_edge) : res NxGraph.graph :=
  let key := se_key serialized_edge in
  let attr := get_default [] (se_attributes serialized_edge) in
  let* source := get_item (se_source serialized_edge) in
  let* target := get_item (se_target serialized_edge) in
  if must_check_mixed && negb (Bool.eqb (get_default false (se_undirected serialized_edge)) undirected) then Err TypeError
  else
    match key with
    | Some k => if is_multi then add_edge_key_kw graph source target k attr else add_edge_kw graph source target attr
    | None => add_edge_kw graph source target attr
    end.

(** lines 25-31: the type of the graph *)
Definition actual_type (graph_type : string) (edges : option (list s_edge)) : string :=
  if String.eqb graph_type "mixed" then
    match edges with
    | Some (e :: _) => if get_default false (se_undirected e) then "undirected" else "directed"
    | _ => "directed"
    end
  else graph_type.

(** parse_graphology_json, lines 13-71 *)
Definition parse_graphology_json (data : document) : res graph :=
  match d_options data with
  | None => Err TypeError
  | Some options =>
      let* graph_type := get_item (o_type options) in
      let graph_attributes := get_default [] (d_attributes data) in
      let must_check_mixed := String.eqb graph_type "mixed" in
      let graph_type := actual_type graph_type (d_edges data) in
      let* is_multi := get_item (o_multi options) in
      let* graph := new_graph_kw (String.eqb graph_type "directed") is_multi graph_attributes in
      let* graph := foldM parse_node (get_default [] (d_nodes data)) graph in
      foldM (parse_edge must_check_mixed (String.eqb graph_type "undirected") is_multi) (get_default [] (d_edges data)) graph
  end.
