(** * Model of pelote/read.py on any JSON value

    [M_Json.v] reads documents whose fields have the type of the format.  Here data is any value made of
    dicts, lists and scalars, as json.load returns (names are strings then) or as a caller may give, and
    the operations of parse_graphology_json raise what Python raises on the values they do not suit.

    Simplifications: the lists and dicts found as attribute values are opaque objects, of identity [code];
    as in [M_Tabular.v], None, bools and floats used as node or edge keys are
    reported as TypeError; a list or a dict given as attribute [incoming_graph_data] of the graph, from which networkx would
    build a graph, is reported as NetworkXError; opaque objects are true, and are neither iterable nor subscriptable. *)
From Coq Require Import ZArith String Ascii.
From Verif Require Import PyBase NxGraph M_Json.

Inductive json : Type :=
| JVal (v : val)
| JList (l : list json)
| JDict (d : list (key * json)).

Definition JStr (s : string) : json := JVal (VStr s).

(** ** Python's operations on them *)

(** [bool(j)]: read.py, lines 28, 36 and 41 *)
Definition truthy (j : json) : bool :=
  match j with
  | JVal VNone => false
  | JVal (VBool b) => b
  | JVal (VFloat q) => negb (q_eqb q 0)
  | JVal (VKey (KInt z)) => negb (z =? 0)%Z
  | JVal (VKey (KStr s)) => negb (String.eqb s "")
  | JVal (VKey (KObj _)) => true
  | JList l => match l with [] => false | _ => true end
  | JDict d => match d with [] => false | _ => true end
  end.

(** [name in j]: a test of keys, of items or of substrings (line 14) *)
Definition contains (name : string) (j : json) : res bool :=
  match j with
  | JDict d => Ok (dmem (KStr name) d)
  | JList l => Ok (existsb (fun i => match i with JVal (VKey (KStr s)) => String.eqb s name | _ => false end) l)
  | JVal (VKey (KStr s)) => Ok (match String.index 0 name s with Some _ => true | None => false end)
  | JVal _ => Err TypeError
  end.

(** [j[name]] (lines 19, 20, 33, 49, 55, 56) *)
Definition subscript (name : string) (j : json) : res json :=
  match j with JDict d => get_item (dget (KStr name) d) | _ => Err TypeError end.

(** [j[0]] (line 28) *)
Definition first_item (j : json) : res json :=
  match j with
  | JDict d => get_item (dget (KInt 0) d)
  | JList (i :: _) => Ok i
  | JList [] => Err IndexError
  | JVal (VKey (KStr (String c _))) => Ok (JStr (String c ""))
  | JVal (VKey (KStr EmptyString)) => Err IndexError
  | JVal _ => Err TypeError
  end.

(** [j.get(name)], None when there is no such field (lines 22-24, 28, 48, 53, 54, 59) *)
Definition field (name : string) (j : json) : res (option json) :=
  match j with JDict d => Ok (dget (KStr name) d) | _ => Err AttributeError end.

(** the items of a string (lines 47 and 52) *)
Fixpoint chars (s : string) : list json :=
  match s with EmptyString => [] | String c s' => JStr (String c "") :: chars s' end.

(** [for i in j] (lines 47 and 52) *)
Definition items (j : json) : res (list json) :=
  match j with
  | JList l => Ok l
  | JDict d => Ok (map (fun kv => JVal (VKey (fst kv))) d)
  | JVal (VKey (KStr s)) => Ok (chars s)
  | JVal _ => Err TypeError
  end.

(** the value of an attribute (lines 37-44, 49, 67, 69) *)
Definition box (code : json -> nat) (j : json) : val := match j with JVal v => v | _ => VKey (KObj (code j)) end.

(** [**j] (lines 37-44, 49, 67, 69) *)
Definition keywords (code : json -> nat) (j : json) : res attrs :=
  match j with JDict d => Ok (map (fun kv => (fst kv, box code (snd kv))) d) | _ => Err TypeError end.

(** [j] used as the key of a node or of an edge (lines 49, 67, 69) *)
Definition hashed (j : json) : res key := match j with JVal (VKey k) => Ok k | _ => Err TypeError end.

(** [field == b] (line 59) *)
Definition equals_bool (j : json) (b : bool) : bool := match j with JVal v => val_eqb v (VBool b) | _ => false end.

(** [j == name] (lines 25 and 35) *)
Definition equals_str (j : json) (name : string) : bool := match j with JVal (VKey (KStr s)) => String.eqb s name | _ => false end.

(** ** parse_graphology_json *)
Section Parse.
Variable code : json -> nat.

(** lines 47-49 *)
Definition read_node (graph : graph) (serialized_node : json) : res NxGraph.graph :=
  let* attr := field "attributes" serialized_node in
  let* k := subscript "key" serialized_node in
  let* a := keywords code (get_default (JDict []) attr) in
  let* n := hashed k in
  add_node_kw graph n a.

(** the attribute called key of an edge is an argument of add_edge on a multigraph: it must be hashable (line 69) *)
Definition hashable_key (is_multi : bool) (attr : json) : bool :=
  match attr with
  | JDict d => negb is_multi || match dget (KStr "key") d with Some (JList _) | Some (JDict _) => false | _ => true end
  | _ => true
  end.

(** lines 52-69 *)
Definition read_edge (must_check_mixed undirected is_multi : bool) (graph : graph) (serialized_edge : json) : res NxGraph.graph :=
  let* key := field "key" serialized_edge in
  let* attr := field "attributes" serialized_edge in
  let* source := subscript "source" serialized_edge in
  let* target := subscript "target" serialized_edge in
  let* u := field "undirected" serialized_edge in
  if must_check_mixed && negb (equals_bool (get_default (JVal (VBool false)) u) undirected) then Err TypeError
  else
    let attr := get_default (JDict []) attr in
    let* a := keywords code attr in
    let* s := hashed source in
    let* t := hashed target in
    match key with
    | None | Some (JVal VNone) => if hashable_key is_multi attr then add_edge_kw graph s t a else Err TypeError
    | Some k => if is_multi then let* k := hashed k in add_edge_key_kw graph s t k a else add_edge_kw graph s t a
    end.

(** lines 27-31, when the type is "mixed": whether it becomes "undirected" *)
Definition mixed_type (edges : json) : res bool :=
  if truthy edges then
    let* e := first_item edges in
    let* u := field "undirected" e in
    Ok (truthy (get_default (JVal (VBool false)) u))
  else Ok false.

(** lines 23-24, [d.get(name)]: None is what it returns when there is no such field *)
Definition get_none (j : option json) : json := get_default (JVal VNone) j.

(** lines 46-49 and 51-69: [if nodes is not None: for ...] *)
Definition loop (f : graph -> json -> res graph) (j : json) (g : graph) : res graph :=
  match j with
  | JVal VNone => Ok g
  | _ => let* l := items j in foldM f l g
  end.

(** parse_graphology_json, lines 13-71 *)
Definition parse_any (data : json) : res graph :=
  let* b := contains "options" data in
  if negb b then Err TypeError
  else
    let* options := subscript "options" data in
    let* graph_type := subscript "type" options in
    let* graph_attributes := field "attributes" data in
    let* nodes := field "nodes" data in
    let* edges := field "edges" data in
    let nodes := get_none nodes in
    let edges := get_none edges in
    let must_check_mixed := equals_str graph_type "mixed" in
    let* mixed := if must_check_mixed then mixed_type edges else Ok false in
    let* is_multi := subscript "multi" options in
    let directed := if must_check_mixed then negb mixed else equals_str graph_type "directed" in
    let* a := keywords code (get_default (JDict []) graph_attributes) in
    let* graph := new_graph_kw directed (truthy is_multi) a in
    let* graph := loop read_node nodes graph in
    loop (read_edge must_check_mixed mixed (truthy is_multi)) edges graph.

(** ** read_graphology_json *)

(** str or Path, a file object, a dict, or anything else (lines 90-101) *)
Inductive target : Type := TPath (path : string) | TFile (contents : string) | TData (d : list (key * json)) | TOther.

(** lines 74-103; [open_file] reads a file and [load] is json.load *)
Definition read_graphology_json (open_file : string -> res string) (load : string -> res json) (t : target) : res graph :=
  let* data := match t with
               | TPath path => let* f := open_file path in load f
               | TFile contents => load contents
               | TData d => Ok (JDict d)
               | TOther => Err TypeError
               end in
  parse_any data.
End Parse.

(** ** The dict which write_graphology_json returns (write.py, lines 61-109), absent fields being left out *)
Definition entry {A} (name : string) (f : A -> json) (o : option A) : list (key * json) :=
  match o with Some a => [(KStr name, f a)] | None => [] end.

Definition attrs_json (a : attrs) : json := JDict (map (fun kv => (fst kv, JVal (snd kv))) a).

Definition node_json (s : s_node) : json :=
  JDict (entry "key" (fun k => JVal (VKey k)) (sn_key s) ++ entry "attributes" attrs_json (sn_attributes s)).

Definition edge_json (e : s_edge) : json :=
  JDict (entry "key" (fun k => JVal (VKey k)) (se_key e) ++ entry "source" (fun k => JVal (VKey k)) (se_source e)
         ++ entry "target" (fun k => JVal (VKey k)) (se_target e) ++ entry "attributes" attrs_json (se_attributes e)
         ++ entry "undirected" (fun b => JVal (VBool b)) (se_undirected e)).

Definition options_json (o : s_options) : json :=
  JDict ((KStr "allowSelfLoops", JVal (VBool true)) :: entry "multi" (fun b => JVal (VBool b)) (o_multi o) ++ entry "type" JStr (o_type o)).

Definition document_json (d : document) : json :=
  JDict (entry "options" options_json (d_options d) ++ entry "nodes" (fun l => JList (map node_json l)) (d_nodes d)
         ++ entry "edges" (fun l => JList (map edge_json l)) (d_edges d) ++ entry "attributes" attrs_json (d_attributes d)).

(** ** json.load(json.dump(j)), which is not in /repo: names become strings, opaque objects cannot be written; the text is
    not modelled, and numbers are read back as they were *)
Definition dump_name (k : key) : res key :=
  match k with KStr s => Ok (KStr s) | KInt z => Ok (KStr (py_str (fun _ => ""%string) (KInt z))) | KObj _ => Err TypeError end.

Fixpoint dump_load (j : json) : res json :=
  match j with
  | JVal (VKey (KObj _)) => Err TypeError
  | JVal v => Ok (JVal v)
  | JList l => let* l' := (fix go (l : list json) : res (list json) :=
                             match l with [] => Ok [] | i :: r => let* i' := dump_load i in let* r' := go r in Ok (i' :: r') end) l in Ok (JList l')
  | JDict d => let* d' := (fix go (d : list (key * json)) (acc : dict json) : res (dict json) :=
                             match d with
                             | [] => Ok acc
                             | (k, i) :: r => let* k' := dump_name k in let* i' := dump_load i in go r (dset k' i' acc)
                             end) d [] in Ok (JDict d')
  end.
