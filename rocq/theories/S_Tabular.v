(** * Specifications for tables *)
From Coq Require Import List ZArith QArith String Bool.
From Verif Require Import PyBase PyNum NxGraph L_Nx M_Json M_Tabular S_Num S_Json.
Import ListNotations.
Open Scope list_scope.

(** ** Cells and strings *)

(** the cell of a column of a row; the columns of lists are numbered from the start, or from the end by negative ints *)
Definition holds (r : row) (c : key) (v : val) : Prop :=
  match r with
  | RDict d => exists l1 l2, d = l1 ++ (c, v) :: l2 /\ ~ In c (map fst l1)
  | RList l => exists l1 l2, l = l1 ++ v :: l2 /\ (c = KInt (Z.of_nat (List.length l1)) \/ c = KInt (- Z.of_nat (List.length (v :: l2))))
  end.

(** Python's strings of keys and values *)
Definition key_text (repr : nat -> string) (k : key) : string := match k with KInt z => decimal z | KStr s => s | KObj n => repr n end.
Definition text (repr : nat -> string) (frepr : Q -> string) (v : val) : string :=
  match v with VNone => "None" | VBool b => if b then "True" else "False" | VFloat q => frepr q | VKey k => key_text repr k end.

(** ** Bipartite graphs *)

(** the cells of two columns *)
Definition reads (c1 c2 : key) (r : row) (ab : val * val) : Prop :=
  row_item r c1 = Ok (fst ab) /\ row_item r c2 = Ok (snd ab).

(** the (column, value) pairs in the order in which they are met *)
Definition met (c1 c2 : key) (cells : list (val * val)) : list item :=
  flat_map (fun ab => [(c1, fst ab); (c2, snd ab)]) cells.

(** the distinct ones, in the same order *)
Fixpoint firsts (l : list item) : list item :=
  match l with
  | [] => []
  | x :: l' => x :: filter (fun y => negb (item_eqb x y)) (firsts l')
  end.

Fixpoint position (x : item) (l : list item) : nat :=
  match l with
  | [] => 0
  | y :: l' => if item_eqb x y then 0 else Datatypes.S (position x l')
  end.

(** the node of a value of a column *)
Definition node_of (c1 c2 : key) (cells : list (val * val)) (x : item) : key :=
  KInt (Z.of_nat (position x (firsts (met c1 c2 cells)))).

(** number of rows holding both values *)
Definition rows_with (a b : val) (cells : list (val * val)) : nat :=
  List.length (filter (fun ab => val_eqb (fst ab) a && val_eqb (snd ab) b) cells).

(** the int stored as an attribute, 0 if none *)
Definition stored_int (w : key) (a : attrs) : Z := match dget w a with Some (VKey (KInt z)) => z | _ => 0%Z end.
Definition sum_Z (l : list Z) : Z := fold_right Z.add 0%Z l.

(** ** Data of rows *)

(** [a] has under each name the value of the last column given for that name which has a value *)
Definition picked (cols : list (key * key)) (d : dict val) (a : attrs) : Prop :=
  forall k v, dget k a = Some v <->
    exists l1 c l2, cols = l1 ++ (c, k) :: l2 /\ dget c d = Some v /\ v <> VNone
      /\ forall c', In (c', k) l2 -> dget c' d = None \/ dget c' d = Some VNone.

Definition collected (spec : option data_spec) (r : row) (a : attrs) : Prop :=
  match spec with
  | None => a = []
  | Some (DCall f) => f r = Ok (Some a)
  | Some (DMap cols) => (cols = [] /\ a = []) \/ exists d, r = RDict d /\ picked cols d a
  | Some (DSeq cols) =>
      (cols = [] /\ a = []) \/
      exists d, r = RDict d /\ forall k v, dget k a = Some v <-> In k cols /\ dget k d = Some v /\ v <> VNone
  | Some DOther => False
  end.

(** callables give dicts, which have distinct keys *)
Definition proper (spec : option data_spec) : Prop :=
  match spec with Some (DCall f) => forall r a, f r = Ok (Some a) -> NoDup (dkeys a) | _ => True end.

(** names which can be given to add_node and add_edge *)
Definition node_name (k : key) : Prop := (exists s, k = KStr s) /\ ~ In k node_reserved.
Definition edge_name (k : key) : Prop := (exists s, k = KStr s) /\ ~ In k (edge_reserved false).

(** ** Tables of edges *)
Definition joins (directed : bool) (e : key * key) (u v : key) : Prop :=
  e = (u, v) \/ (directed = false /\ e = (v, u)).

Definition ends (sc tc : key) (r : row) (e : key * key) : Prop :=
  row_item r sc = Ok (VKey (fst e)) /\ row_item r tc = Ok (VKey (snd e)).

(** [a] has under each name the value of the last column with that name *)
Definition kept (repr : nat -> string) (cols : list key) (r : row) (a : attrs) : Prop :=
  forall k v, dget k a = Some v <->
    exists l1 c l2, cols = l1 ++ c :: l2 /\ KStr (key_text repr c) = k /\ row_item r c = Ok v
      /\ forall c', In c' l2 -> KStr (key_text repr c') <> k.

(** row [i] is the last (first) one which joins the two nodes *)
Definition last_row (directed : bool) (es : list (key * key)) (u v : key) (i : nat) : Prop :=
  (exists e, nth_error es i = Some e /\ joins directed e u v)
  /\ forall j e, i < j -> nth_error es j = Some e -> ~ joins directed e u v.
Definition first_row (directed : bool) (es : list (key * key)) (u v : key) (i : nat) : Prop :=
  (exists e, nth_error es i = Some e /\ joins directed e u v)
  /\ forall j e, j < i -> nth_error es j = Some e -> ~ joins directed e u v.

Definition joinsb (directed : bool) (u v : key) (e : key * key) : bool :=
  (key_eqb (fst e) u && key_eqb (snd e) v) || (negb directed && key_eqb (fst e) v && key_eqb (snd e) u).

(** number of rows which join the two nodes *)
Definition rows_joining (directed : bool) (es : list (key * key)) (u v : key) : nat :=
  List.length (filter (joinsb directed u v) es).

(** data can be collected from the row, and given to add_node *)
Definition accepts (spec : option data_spec) (r : row) : Prop :=
  match spec with
  | None => True
  | Some (DCall f) => exists a, f r = Ok (Some a) /\ forall k, In k (dkeys a) -> node_name k
  | Some (DMap cols) => cols = [] \/ ((exists d, r = RDict d) /\ forall c k, In (c, k) cols -> node_name k)
  | Some (DSeq cols) => cols = [] \/ ((exists d, r = RDict d) /\ forall k, In k cols -> node_name k)
  | Some DOther => False
  end.

(** the attributes of the node of a value: the data collected from the row, the label and the part name *)
Definition node_attrs (repr : nat -> string) (frepr : Q -> string) (part : key) (name : val) (spec : option data_spec)
  (r : row) (label : val) (a : attrs) : Prop :=
  exists data, collected spec r data /\
    forall k, dget k a = match dget k data with
                         | Some v => Some v
                         | None => if key_eqb k (K "label") then Some (VStr (text repr frepr label))
                                   else if key_eqb k part then Some name else None
                         end.

(** the name of a part *)
Definition part_name (name : option val) (col : key) : val :=
  match name with None | Some VNone => VKey col | Some v => v end.

(** ** DataFrames *)
Definition cell (f : frame) (c : key) (i : nat) : option val :=
  match dget c (f_cols f) with Some l => nth_error l i | None => None end.

(** all columns have the same length, with distinct names; a frame without columns has no rows *)
Definition rectangular (f : frame) : Prop :=
  NoDup (dkeys (f_cols f)) /\ (forall c l, In (c, l) (f_cols f) -> List.length l = f_rows f) /\ (f_cols f = [] -> f_rows f = 0).

(** the rows of the frame, as dicts with all columns *)
Definition is_row (f : frame) (i : nat) (r : row) : Prop :=
  exists d, r = RDict d /\ NoDup (dkeys d) /\ forall c, dget c d = cell f c i.
Definition rows_of (f : frame) (rows : list row) : Prop :=
  List.length rows = f_rows f /\ forall i r, nth_error rows i = Some r -> is_row f i r.

(** the same rows, columns in the order of the frame *)
Definition records (f : frame) : list row :=
  map (fun i => RDict (map (fun cl => (fst cl, nth i (snd cl) VNone)) (f_cols f))) (seq 0 (f_rows f)).

(** ** From graphs to tables and back *)
Definition same_attrs (a b : attrs) : Prop :=
  forall k, match dget k a, dget k b with
            | Some x, Some y => val_eqb x y = true
            | None, None => True
            | _, _ => False
            end.

Definition is_object (v : val) : Prop :=
  match v with
  | VBool _ | VKey (KStr _) | VKey (KObj _) => True
  | VKey (KInt z) => (z < - 2 ^ 63 \/ 2 ^ 64 <= z)%Z
  | _ => False
  end.

(** a column of objects, or one of numbers without None, where ints beside floats are floats too *)
Definition clean (vals : list val) : Prop :=
  (exists v, In v vals /\ is_object v)
  \/ (In VNone vals -> forall v, In v vals -> v = VNone)
     /\ forall q z, In (VFloat q) vals -> In (VInt z) vals -> representable round64 (inject_Z z).

(** all have exactly these names *)
Definition uniform (names : list key) (l : list attrs) : Prop := forall a, In a l -> forall k, In k (dkeys a) <-> In k names.
Definition values (k : key) (l : list attrs) : list val := flat_map (fun a => match dget k a with Some v => [v] | None => [] end) l.
Definition clean_columns (names : list key) (l : list attrs) : Prop := forall k, In k names -> clean (values k l).

(** no node (edge) has an attribute of that name *)
Definition no_node_attr (g : graph) (c : key) : Prop := forall n a, In (n, a) (g_nodes g) -> ~ In c (dkeys a).
Definition no_edge_attr (g : graph) (c : key) : Prop := forall u v a, In (u, v, a) (edges_data g) -> ~ In c (dkeys a).
(** no such column is made from the attributes of nodes *)
Definition no_column (cols : option node_columns) (c : key) : Prop :=
  match cols with
  | Some (NMap l) => forall x, ~ In (x, c) l
  | Some (NIter l) => ~ In c l
  | _ => True
  end.

(** such a column is made from the attribute [attr]; the last one wins *)
Definition asks (cols : option node_columns) (attr c : key) : Prop :=
  match cols with
  | Some (NMap l) => exists l1 l2, l = l1 ++ (attr, c) :: l2 /\ forall x, ~ In (x, c) l2
  | Some (NIter l) => attr = c /\ In c l
  | _ => False
  end.
(** the attribute of a node, None when it has not *)
Definition attr_of (g : graph) (n attr : key) : val :=
  match node_data g n with
  | Some a => match dget attr a with Some v => v | None => VNone end
  | None => VNone
  end.
(** what the cell of a DataFrame shows for [v]: in a column of numbers None becomes NaN, and ints may be rounded to floats *)
Definition shows (nan v w : val) : Prop := w = v \/ (v = VNone /\ w = nan) \/ exists z, v = VInt z /\ w = VFloat (round64 (inject_Z z)).

(** all nodes have the same attribute names, and all edges, none of them being a column of keys *)
Definition tabular (g : graph) (c sc tc : key) (node_names edge_names : list key) : Prop :=
  WF g /\ g_multi g = false
  /\ uniform node_names (map snd (g_nodes g)) /\ uniform edge_names (map snd (edges_data g))
  /\ (forall k, In k node_names -> node_name k) /\ (forall k, In k edge_names -> edge_name k)
  /\ ~ In c node_names /\ ~ In sc edge_names /\ ~ In tc edge_names /\ sc <> tc.

(** the same graph, graph attributes aside; values are compared with [==] *)
Definition same_values (g h : graph) : Prop :=
  g_dir h = g_dir g /\ g_multi h = g_multi g /\ nodes h = nodes g
  /\ (forall n a, node_data g n = Some a -> exists b, node_data h n = Some b /\ same_attrs a b)
  /\ (forall u v, has_edge h u v = has_edge g u v)
  /\ (forall u v a, edge_attrs g u v (KInt 0) = Some a -> exists b, edge_attrs h u v (KInt 0) = Some b /\ same_attrs a b).

(** the same graph but for what the cells of DataFrames show *)
Definition shown_attrs (nan : val) (a b : attrs) : Prop :=
  forall k, match dget k a, dget k b with
            | Some x, Some y => shows nan x y
            | None, None => True
            | _, _ => False
            end.
Definition shown_values (nan : val) (g h : graph) : Prop :=
  g_dir h = g_dir g /\ g_multi h = g_multi g /\ nodes h = nodes g
  /\ (forall n a, node_data g n = Some a -> exists b, node_data h n = Some b /\ shown_attrs nan a b)
  /\ (forall u v, has_edge h u v = has_edge g u v)
  /\ (forall u v a, edge_attrs g u v (KInt 0) = Some a -> exists b, edge_attrs h u v (KInt 0) = Some b /\ shown_attrs nan a b).
