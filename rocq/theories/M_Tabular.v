(** * Model of pelote/tabular_to_graph.py, pelote/graph_to_tabular.py and of
      [iterator_from_dataframe] of pelote/utils.py

    Rows are dicts or lists; tables are sequences of rows or DataFrames.
    Simplifications: node keys are the [key]s of the graph model, so that None, a bool or a float in
    a column of node keys is reported as TypeError ([key_of]); callables are pure functions of the row;
    pandas is version 1 and its inference of column types is the simplified account of
    [convert_column]; cells read from a DataFrame are python values, not numpy ones; DataFrames have
    distinct column names; a DataFrame is never met when pandas is missing. *)
From Coq Require Import ZArith QArith String List.
From Verif Require Import PyBase PyNum NxGraph M_Graph M_Shim M_Json.
Import ListNotations.
Open Scope list_scope.

(** ** Rows *)
Inductive row : Type := RDict (d : dict val) | RList (l : list val).

(** [row[c]]: a list takes ints, counting from the end when negative *)
Definition row_item (r : row) (c : key) : res val :=
  match r with
  | RDict d => match dget c d with Some v => Ok v | None => Err KeyError end
  | RList l =>
      match c with
      | KInt z =>
          let n := Z.of_nat (List.length l) in
          let i := if (z <? 0)%Z then (z + n)%Z else z in
          if ((0 <=? i) && (i <? n))%Z%bool
          then match nth_error l (Z.to_nat i) with Some v => Ok v | None => Err IndexError end
          else Err IndexError
      | _ => Err TypeError
      end
  end.

(** [row.get(c)] *)
Definition row_get (r : row) (c : key) : res val :=
  match r with
  | RDict d => Ok (match dget c d with Some v => v | None => VNone end)
  | RList _ => Err AttributeError
  end.

(** [str(v)]; [repr] and [frepr] give the strings of objects and floats *)
Definition str_val (repr : nat -> string) (frepr : Q -> string) (v : val) : string :=
  match v with
  | VNone => "None"
  | VBool true => "True"
  | VBool false => "False"
  | VFloat q => frepr q
  | VKey k => py_str repr k
  end.

(** using a cell as a node *)
Definition key_of (v : val) : res key := match v with VKey k => Ok k | _ => Err TypeError end.

(** ** iterator_from_dataframe, utils.py lines 38-47 *)

(** a DataFrame: number of rows, columns, and index when it is not 0, 1, 2... *)
Record frame : Type := mkFrame { f_rows : nat; f_cols : dict (list val); f_index : option (list key) }.

Inductive table : Type := TRows (rows : list row) | TFrame (f : frame).

(** [zip( *ls )] *)
Fixpoint zip_star {A} (ls : list (list A)) : list (list A) :=
  match ls with
  | [] => []
  | [l] => map (fun x => [x]) l
  | l :: ls' => map (fun p => fst p :: snd p) (combine l (zip_star ls'))
  end.

Definition iterator_from_dataframe (t : table) (columns : option (list key)) : res (list row) :=
  match t with
  | TRows rows => Ok rows
  | TFrame f =>
      let columns := match columns with None => dkeys (f_cols f) | Some c => c end in
      let* cols := mapM (fun col => match dget col (f_cols f) with Some l => Ok l | None => Err KeyError end) columns in
      Ok (map (fun r => RDict (dupdate [] (combine columns r))) (zip_star cols))
  end.

(** ** collect_row_data, tabular_to_graph.py lines 15-51 *)

(** what can be given as part data; a callable which does not return a dict gives None *)
Inductive data_spec : Type :=
| DCall (f : row -> res (option attrs))
| DMap (cols : list (key * key))
| DSeq (cols : list key)
| DOther.

(** lines 31-34 and 42-45 *)
Definition collect_cell (r : row) (attr : attrs) (col_name attr_name : key) : res attrs :=
  let* v := row_get r col_name in
  match v with
  | VNone => Ok attr
  | _ => Ok (dset attr_name v attr)
  end.

Definition collect_row_data (spec : data_spec) (r : row) : res attrs :=
  match spec with
  | DCall f => let* a := f r in match a with Some attr => Ok attr | None => Err TypeError end
  | DMap cols => foldM (fun attr ca => collect_cell r attr (fst ca) (snd ca)) cols []
  | DSeq cols => foldM (fun attr c => collect_cell r attr c c) cols []
  | DOther => Err TypeError
  end.

(** the truth value of the spec, lines 155 and 163 *)
Definition given (spec : option data_spec) : bool :=
  match spec with
  | None | Some (DMap []) | Some (DSeq []) => false
  | _ => true
  end.

(** ** table_to_bipartite_graph, tabular_to_graph.py lines 54-174 *)

(** the items of the IncrementalIdRegister are pairs of a column and a value *)
Definition item : Type := key * val.
Definition item_eqb (a b : item) : bool := key_eqb (fst a) (fst b) && val_eqb (snd a) (snd b).

(** IncrementalIdRegister.__getitem__, incremental_id_register.py lines 18-26, on such items; the
    state is the counter and the index *)
Definition id_register : Type := nat * list (item * nat).
Definition register_item (s : id_register) (x : item) : id_register * nat :=
  match List.find (fun p => item_eqb x (fst p)) (snd s) with
  | Some p => (s, snd p)
  | None => ((fst s + 1, snd s ++ [(x, fst s)]), fst s)
  end.

(** [d[w] += 1] *)
Definition plus_one (v : val) : res val :=
  match v with
  | VKey (KInt z) => Ok (VInt (z + 1))
  | VFloat q => Ok (VFloat (round64 (q + 1)))
  | VBool b => Ok (VInt (if b then 2 else 1))
  | _ => Err TypeError
  end.

(** [graph[n1][n2][w] += 1] on a simple graph *)
Definition incr_edge (g : graph) (n1 n2 w : key) : res graph :=
  match edge_attrs g n1 n2 (KInt 0) with
  | None => Err KeyError
  | Some a =>
      match dget w a with
      | None => Err KeyError
      | Some v => let* v' := plus_one v in Ok (map_edge g n1 n2 (KInt 0) (dset w v'))
      end
  end.

(** lines 152-158 and 160-166 *)
Definition part_node (repr : nat -> string) (frepr : Q -> string) (node_part_attr : key) (name : val) (spec : option data_spec)
  (r : row) (label : val) (g : graph) (n : key) : res graph :=
  if has_node g n then Ok g
  else
    let node_attr := dset (K "label") (VStr (str_val repr frepr label)) [(node_part_attr, name)] in
    let* node_attr :=
      match spec with
      | Some s => if given spec then let* a := collect_row_data s r in Ok (dupdate node_attr a) else Ok node_attr
      | None => Ok node_attr
      end in
    add_node_kw g n node_attr.

(** lines 168-172 *)
Definition count_edge (edge_weight_attr : key) (g : graph) (n1 n2 : key) : res graph :=
  if has_edge g n1 n2 then incr_edge g n1 n2 edge_weight_attr
  else add_edge_kw g n1 n2 [(edge_weight_attr, VInt 1)].

(** lines 135-142 *)
Definition row_labels (c1 c2 : key) (r : row) : res (val * val) :=
  match (let* a := row_item r c1 in let* b := row_item r c2 in Ok (a, b)) with
  | Err IndexError | Err KeyError => Err TypeError
  | x => x
  end.

(** lines 135-172, a row *)
Definition bipartite_row (repr : nat -> string) (frepr : Q -> string) (c1 c2 node_part_attr edge_weight_attr : key)
  (d1 d2 : option data_spec) (name1 name2 : val) (disjoint_keys : bool)
  (s : id_register * graph) (r : row) : res (id_register * graph) :=
  let '(node_id, g) := s in
  let* labels := row_labels c1 c2 r in
  let '(label1, label2) := labels in
  let* ns :=
    if disjoint_keys then
      let* n1 := key_of label1 in
      let* n2 := key_of label2 in
      Ok (node_id, n1, n2)
    else
      let (node_id, i1) := register_item node_id (c1, label1) in
      let (node_id, i2) := register_item node_id (c2, label2) in
      Ok (node_id, KInt (Z.of_nat i1), KInt (Z.of_nat i2)) in
  let '(node_id, n1, n2) := ns in
  let* g := part_node repr frepr node_part_attr name1 d1 r label1 g n1 in
  let* g := part_node repr frepr node_part_attr name2 d2 r label2 g n2 in
  let* g := count_edge edge_weight_attr g n1 n2 in
  Ok (node_id, g).

(** lines 54-174 *)
Definition table_to_bipartite_graph (repr : nat -> string) (frepr : Q -> string) (t : table) (c1 c2 : key)
  (node_part_attr edge_weight_attr : key) (d1 d2 : option data_spec) (name1 name2 : option val) (disjoint_keys : bool) : res graph :=
  if key_eqb c1 c2 then Err TypeError
  else
    let name1 := match name1 with None | Some VNone => VKey c1 | Some n => n end in
    let name2 := match name2 with None | Some VNone => VKey c2 | Some n => n end in
    let* rows := iterator_from_dataframe t None in
    let* s := foldM (bipartite_row repr frepr c1 c2 node_part_attr edge_weight_attr d1 d2 name1 name2 disjoint_keys)
                rows ((0, []), mkG false false [] [] []) in
    Ok (snd s).

(** ** edges_table_to_graph and tables_to_graph *)

(** [{str(attr): row[attr] for attr in cols}], lines 194 and 362 *)
Definition row_data (repr : nat -> string) (cols : list key) (r : row) : res attrs :=
  foldM (fun d c => let* v := row_item r c in Ok (dset (KStr (py_str repr c)) v d)) cols [].

(** lines 188-202, a row *)
Definition edge_row (repr : nat -> string) (sc tc : key) (edge_data : list key) (count_rows_as_weight : bool) (edge_weight_attr : key)
  (add_missing_nodes : bool) (g : graph) (r : row) : res graph :=
  let* v1 := row_item r sc in
  let* v2 := row_item r tc in
  let* n1 := key_of v1 in
  let* n2 := key_of v2 in
  let* _ := if add_missing_nodes then Ok tt
            else let* _ := check_node_exists g n1 in let* _ := check_node_exists g n2 in Ok tt in
  let* data := row_data repr edge_data r in
  if count_rows_as_weight then
    if has_edge g n1 n2 then incr_edge g n1 n2 edge_weight_attr
    else add_edge_kw g n1 n2 (dset edge_weight_attr (VInt 1) data)
  else add_edge_kw g n1 n2 data.

(** _edges_table_to_graph, lines 177-204 *)
Definition edges_rows_to_graph (repr : nat -> string) (g : graph) (rows : list row) (sc tc : key) (edge_data : list key)
  (count_rows_as_weight : bool) (edge_weight_attr : key) (add_missing_nodes : bool) : res graph :=
  foldM (edge_row repr sc tc edge_data count_rows_as_weight edge_weight_attr add_missing_nodes) rows g.

(** edges_table_to_graph, lines 207-269 *)
Definition edges_table_to_graph (repr : nat -> string) (edge_table : table) (sc tc : key) (edge_data : list key)
  (count_rows_as_weight : bool) (edge_weight_attr : key) (directed : bool) : res graph :=
  let* rows := iterator_from_dataframe edge_table (Some ([sc; tc] ++ edge_data)) in
  edges_rows_to_graph repr (mkG directed false [] [] []) rows sc tc edge_data count_rows_as_weight edge_weight_attr true.

(** lines 361-362, a row *)
Definition node_row (repr : nat -> string) (node_col : key) (node_data : list key) (g : graph) (r : row) : res graph :=
  let* v := row_item r node_col in
  let* a := row_data repr node_data r in
  let* n := key_of v in
  add_node_kw g n a.

(** tables_to_graph, lines 272-373 *)
Definition tables_to_graph (repr : nat -> string) (nodes_table edges_table : table) (node_col sc tc : key) (node_data edge_data : list key)
  (count_rows_as_weight : bool) (edge_weight_attr : key) (add_missing_nodes directed : bool) : res graph :=
  let* nrows := iterator_from_dataframe nodes_table (Some (node_col :: node_data)) in
  let* erows := iterator_from_dataframe edges_table (Some ([sc; tc] ++ edge_data)) in
  let* g := foldM (node_row repr node_col node_data) nrows (mkG directed false [] [] []) in
  edges_rows_to_graph repr g erows sc tc edge_data count_rows_as_weight edge_weight_attr add_missing_nodes.

(** ** graph_to_tabular.py *)

(** an int which is neither an int64 nor a uint64 *)
Definition huge (z : Z) : bool := ((z <? - 2 ^ 63) || (2 ^ 64 <=? z))%Z%bool.

(** [pd.DataFrame(data=rows)], graph_to_tabular.py lines 42, 52 and 126: the type of a column is inferred
    from its cells, None standing for an absent cell.  In a column of numbers None becomes NaN, and ints
    are rounded to floats when there is a float or a NaN; a column with a huge int stays one of objects. *)
Definition convert_column (nan : val) (cells : list (option val)) : list val :=
  let obj := existsb (fun c => match c with Some (VBool _ | VKey (KStr _ | KObj _)) => true | Some (VKey (KInt z)) => huge z | _ => false end) cells in
  let flo := existsb (fun c => match c with None | Some (VFloat _) => true | _ => false end) cells in
  let int := existsb (fun c => match c with Some (VKey (KInt _)) => true | _ => false end) cells in
  let none := existsb (fun c => match c with Some VNone => true | _ => false end) cells in
  if negb obj && (flo || (int && none))
  then map (fun c => match c with
                     | Some (VKey (KInt z)) => VFloat (round64 (inject_Z z))
                     | Some (VFloat q) => VFloat q
                     | _ => nan
                     end) cells
  else map (fun c => match c with Some v => v | None => nan end) cells.

(** the columns in the order in which they are met *)
Definition add_column (cols : list key) (c : key) : list key := if mem c cols then cols else cols ++ [c].
Definition columns_of (rows : list attrs) : list key := fold_left (fun cols r => fold_left add_column (dkeys r) cols) rows [].

Definition make_frame (nan : val) (rows : list attrs) (index : option (list key)) : frame :=
  mkFrame (List.length rows)
    (map (fun c => (c, convert_column nan (map (fun r => dget c r) rows))) (columns_of rows)) index.

(** graph_to_nodes_dataframe, lines 13-52; node_key_col is None or a name *)
Definition graph_to_nodes_dataframe (s : shim) (nan : val) (g : graph) (node_key_col : option key) : res frame :=
  let* _ := check_pandas s in
  match node_key_col with
  | None => Ok (make_frame nan (map snd (g_nodes g)) (Some (nodes g)))
  | Some c => Ok (make_frame nan (map (fun na => dupdate [(c, VKey (fst na))] (snd na)) (g_nodes g)) None)
  end.

(** source_node_data and target_node_data *)
Inductive node_columns : Type := NMap (cols : list (key * key)) | NIter (cols : list key) | NOther.

(** lines 89-96 and 98-105 *)
Definition check_columns (c : option node_columns) : res (option (list (key * key))) :=
  match c with
  | None => Ok None
  | Some (NMap cols) => Ok (Some cols)
  | Some (NIter cols) => Ok (Some (dupdate [] (map (fun k => (k, k)) cols)))
  | Some NOther => Err TypeError
  end.

(** lines 112-116 and 118-122 *)
Definition add_node_columns (g : graph) (n : key) (cols : option (list (key * key))) (r : attrs) : attrs :=
  match cols with
  | None => r
  | Some l =>
      let node_data := match node_data g n with Some a => a | None => [] end in
      fold_left (fun r ac => dset (snd ac) (match dget (fst ac) node_data with Some v => v | None => VNone end) r) l r
  end.

(** lines 108-124 *)
Definition edge_line (g : graph) (sc tc : key) (snd_cols tnd_cols : option (list (key * key))) (e : key * key * attrs) : attrs :=
  let '(source, target, a) := e in
  let r := dupdate (dupdate [] [(sc, VKey source); (tc, VKey target)]) a in
  add_node_columns g target tnd_cols (add_node_columns g source snd_cols r).

(** graph_to_edges_dataframe, lines 55-126 *)
Definition graph_to_edges_dataframe (s : shim) (nan : val) (g : graph) (sc tc : key) (source_node_data target_node_data : option node_columns) : res frame :=
  let* _ := check_pandas s in
  let* sd := check_columns source_node_data in
  let* td := check_columns target_node_data in
  Ok (make_frame nan (map (edge_line g sc tc sd td) (edges_data g)) None).

(** graph_to_dataframes, lines 129-172 *)
Definition graph_to_dataframes (s : shim) (nan : val) (g : graph) (node_key_col : option key) (sc tc : key)
  (source_node_data target_node_data : option node_columns) : res (frame * frame) :=
  let* n := graph_to_nodes_dataframe s nan g node_key_col in
  let* e := graph_to_edges_dataframe s nan g sc tc source_node_data target_node_data in
  Ok (n, e).
