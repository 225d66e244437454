(** * The unit tests of the repository (/repo/test) on the model

    These are tests of the model, not proofs: each example replays one test of the repository and expects what
    the repository expects.  Left out: tests which only check the type of an argument, and les_miserables.json
    (read_test.py:99-118).  Lines are those of the test file named above each group. *)
From Coq Require Import List ZArith QArith String Bool.
From Verif Require Import PyBase PyNum NxGraph M_UnionFind M_Utils M_Graph M_Umst M_Sparse M_Disparity M_Tri M_Proj M_Shim M_Json M_Read M_Tabular
  P_Graph P_Tri P_Json P_Tabular P_Read.
Import ListNotations.
Close Scope Q_scope.

(** helpers to write the tests *)
Definition same_set {A} (eqb : A -> A -> bool) (l l' : list A) : bool :=
  forallb (fun x => existsb (eqb x) l') l && forallb (fun x => existsb (eqb x) l) l'.
Definition same_edge (e f : key * key * attrs) : bool := pair_eqb (fst e) (fst f) && attrs_eqb (snd e) (snd f).
Definition flip (e : Z * Z * attrs) : key * key * attrs := (KInt (fst (fst e)), KInt (snd (fst e)), snd e).
Definition ordered (e : key * key * attrs) : key * key * attrs :=
  match e with (KInt u, KInt v, a) => if (v <? u)%Z then (KInt v, KInt u, a) else e | _ => e end.
Definition has_edges (r : res (list (key * key * attrs))) (l : list (Z * Z * attrs)) : bool :=
  match r with Ok out => Nat.eqb (List.length out) (List.length l) && same_set same_edge (map ordered out) (map (fun e => ordered (flip e)) l) | _ => false end.
Definition same_as (r : res graph) (h : graph) (check : bool) : bool := match r with Ok g => are_same_graphs g h check | _ => false end.
Definition names_graph (dir : bool) (ns : list (string * attrs)) (es : list (string * string * attrs)) : graph :=
  json_graph dir false [] (map (fun na => (K (fst na), snd na)) ns) (map (fun e => (K (fst (fst e)), K (snd (fst e)), snd e)) es).

(** ** classes/union_find_test.py *)
(** lines 8-48 *)
Example test_union_find :
  (let* u := make Long64 5 in
   Ok (capacity u, snd (run ustep [ULen; UCardinality 0; UCardinality 1; UCardinality 2; UCardinality 3; UCardinality 4; UUnion 0 1; USame 0 1; USame 1 2; ULen; UCardinality 0; UCardinality 1; UCardinality 3;
     UUnion 1 0; USame 0 1; USame 1 2; ULen; UUnion 1 2; UUnion 4 3; UUnion 3 2; ULen; USame 2 1; USame 4 1; UCardinality 0; UClear; ULen; USame 0 1] u)))
  = Ok (5, [Ok (OInt 5); Ok (ONat 1); Ok (ONat 1); Ok (ONat 1); Ok (ONat 1); Ok (ONat 1); Ok (OBool true); Ok (OBool true); Ok (OBool false); Ok (OInt 4); Ok (ONat 2); Ok (ONat 2); Ok (ONat 1);
     Ok (OBool false); Ok (OBool true); Ok (OBool false); Ok (OInt 4); Ok (OBool true); Ok (OBool true); Ok (OBool true); Ok (OInt 1); Ok (OBool true); Ok (OBool true);
     Ok (ONat 5); Ok OUnit; Ok (OInt 5); Ok (OBool false)]).
Proof. vm_compute. reflexivity. Qed.

(** lines 52-94 *)
Example test_disjoint_set :
  (let* s := make_ds Long64 5 in
   Ok (ds_capacity s, snd (run dstep [DLen; DCardinality (K "zero"); DCardinality (K "one"); DCardinality (K "two"); DCardinality (K "three"); DCardinality (K "four"); DUnion (K "zero") (K "one"); DSame (K "zero") (K "one"); DSame (K "one") (K "two"); DLen;
     DCardinality (K "zero"); DCardinality (K "one"); DCardinality (K "three"); DUnion (K "one") (K "zero"); DSame (K "zero") (K "one"); DSame (K "one") (K "two"); DLen; DUnion (K "one") (K "two"); DUnion (K "four") (K "three");
     DUnion (K "three") (K "two"); DLen; DSame (K "two") (K "one"); DSame (K "four") (K "one"); DCardinality (K "zero"); DClear; DLen; DSame (K "zero") (K "one")] s)))
  = Ok (5, [Ok (OInt 5); Ok (ONat 1); Ok (ONat 1); Ok (ONat 1); Ok (ONat 1); Ok (ONat 1); Ok (OBool true); Ok (OBool true); Ok (OBool false); Ok (OInt 4);
     Ok (ONat 2); Ok (ONat 2); Ok (ONat 1); Ok (OBool false); Ok (OBool true); Ok (OBool false); Ok (OInt 4); Ok (OBool true); Ok (OBool true);
     Ok (OBool true); Ok (OInt 1); Ok (OBool true); Ok (OBool true); Ok (ONat 5); Ok OUnit; Ok (OInt 5); Ok (OBool false)]).
Proof. vm_compute. reflexivity. Qed.

(** ** metrics/chiba_nishizeki_test.py *)
Definition letters (es : list (string * string)) : graph := names_graph false [] (map (fun e => (e, [])) es).
Definition same_triangle (s t : triangle) : bool := pair_eqb (fst s) (fst t) && key_eqb (snd s) (snd t).
Definition has_triangles (es : list (string * string)) (l : list (string * string * string)) : bool :=
  match triangles in_order (letters es) with
  | Ok out => same_set same_triangle out (map (fun t => (K (fst (fst t)), K (snd (fst t)), K (snd t))) l)
  | _ => false
  end.
Definition seven : list (string * string) := [("A", "B"); ("A", "F"); ("B", "F"); ("E", "F"); ("B", "E"); ("B", "C"); ("C", "D")]%string.
(** lines 14-43; the order inside each triple is the one of the sets, here [in_order] *)
Example test_triangles :
  has_triangles seven [("B", "E", "F"); ("B", "F", "A")]%string = true
  /\ has_triangles (seven ++ [("B", "D")]%string) [("B", "D", "C"); ("B", "F", "A"); ("B", "E", "F")]%string = true
  /\ has_triangles (seven ++ [("B", "D"); ("G", "H"); ("H", "I"); ("I", "G"); ("G", "G")]%string)
       [("B", "D", "C"); ("B", "F", "A"); ("B", "E", "F"); ("G", "I", "H")]%string = true.
Proof. vm_compute. auto. Qed.

Definition has_strengths (r : res (pdict nat)) (l : list (Z * Z * nat)) : bool :=
  match r with
  | Ok d => same_set (fun p q => pair_eqb (fst p) (fst q) && Nat.eqb (snd p) (snd q)) d (map (fun e => (KInt (fst (fst e)), KInt (snd (fst e)), snd e)) l)
  | _ => false
  end.
Definition both_strengths (g : graph) (full : bool) (l : list (Z * Z * nat)) : bool :=
  has_strengths (triangular_strength in_order g full) l && has_strengths (naive_triangular_strength in_order g full) l.
(** lines 45-77 *)
Example test_triangular_strength :
  let es := [(0, 1); (1, 2); (2, 3); (3, 1)]%Z in
  both_strengths (ex_graph false false [] (plain es)) false [(1, 2, 1%nat); (2, 3, 1%nat); (1, 3, 1%nat)]%Z = true
  /\ both_strengths (ex_graph false false [] (plain es)) true [(1, 2, 1%nat); (2, 3, 1%nat); (1, 3, 1%nat); (0, 1, 0%nat)]%Z = true
  /\ both_strengths (ex_graph false false [] (plain (es ++ [(4, 2); (4, 3)]%Z))) true
       [(1, 2, 1%nat); (2, 3, 2%nat); (1, 3, 1%nat); (0, 1, 0%nat); (2, 4, 1%nat); (3, 4, 1%nat)]%Z = true.
Proof. vm_compute. auto. Qed.

Definition complete_graph (dir : bool) (n : nat) : graph :=
  let ns := map Z.of_nat (seq 0 n) in
  ex_graph dir false ns (plain (filter (fun e => if dir then negb (fst e =? snd e)%Z else (fst e <? snd e)%Z) (list_prod ns ns))).
Definition complete_strengths (n : nat) : bool :=
  let k := complete_graph false n in
  match triangles in_order k, triangular_strength in_order k false, naive_triangular_strength in_order k false with
  | Ok t, Ok s, Ok s' =>
      Nat.eqb (6 * List.length t) (n * (n - 1) * (n - 2)) && Nat.eqb (2 * List.length s) (n * (n - 1)) && forallb (fun x => Nat.eqb (snd x) (n - 2)) s
      && same_set (fun p q => pair_eqb (fst p) (fst q) && Nat.eqb (snd p) (snd q)) s s'
  | _, _, _ => false
  end.
(** lines 79-89 *)
Example test_complete_graphs : forallb complete_strengths [3; 4; 5; 6; 7; 8; 9] = true.
Proof. vm_compute. reflexivity. Qed.

(** ** metrics/edge_disparity_test.py *)
(** lines 12-14 *)
Example test_disparity_errors : edge_disparity lib64 (empty_graph true false) (K "weight") false = Err TypeError.
Proof. vm_compute. reflexivity. Qed.

Definition weighted (l : list (Z * Z * Z)) : graph := ex_graph false false [] (map (fun e => (fst e, weight (snd e))) l).
(** lines 16-27 *)
Example test_identical_values :
  match edge_disparity lib64 (weighted [(0, 1, 1); (0, 2, 1); (0, 3, 1); (1, 2, 1); (1, 3, 1); (2, 3, 1)]%Z) (K "weight") false with
  | Ok (x :: l) => forallb (fun y => q_eqb (snd x) (snd y)) l && Nat.eqb (List.length l) 5
  | _ => false
  end = true.
Proof. vm_compute. reflexivity. Qed.

Definition house : graph :=
  ex_graph false false [0; 1; 2; 3; 4; 10]%Z [(0, 1, weight 25); (0, 2, weight 25); (0, 3, weight 25); (1, 3, weight 1); (1, 4, weight 1); (2, 4, weight 1)]%Z.
Definition has_scores (r : res (pdict Q)) (l : list (Z * Z * Q)) : bool :=
  match r with
  | Ok d => same_set (fun p q => pair_eqb (fst p) (fst q) && q_eqb (snd p) (snd q)) d (map (fun e => (KInt (fst (fst e)), KInt (snd (fst e)), snd e)) l)
  | _ => false
  end.
(** the floats written in the test, as fractions: equality is the one of floats *)
(** lines 29-69 *)
Example test_correct_disparities :
  has_scores (edge_disparity lib64 house (K "weight") false)
    [(0, 1, (6326043921025223 # 1152921504606846976)%Q); (0, 2, (346430740566961 # 9007199254740992)%Q); (0, 3, (346430740566961 # 9007199254740992)%Q);
     (1, 3, (1044044358059827 # 1125899906842624)%Q); (1, 4, (1 # 2)%Q); (2, 4, (1 # 2)%Q)]%Z = true
  /\ has_scores (edge_disparity lib64 house (K "weight") true)
    [(0, 1, (4478888518303991 # 4503599627370496)%Q); (0, 2, (8660768514174031 # 9007199254740992)%Q); (0, 3, (8660768514174031 # 9007199254740992)%Q);
     (1, 3, (81855548782797 # 1125899906842624)%Q); (1, 4, (1 # 2)%Q); (2, 4, (1 # 2)%Q)]%Z = true.
Proof. vm_compute. auto. Qed.

(** ** graph_test.py *)
Definition components_edges : list (Z * Z) := [(0, 1); (1, 2); (0, 2); (3, 4); (4, 5)]%Z.
Definition components_graph (dir multi : bool) : graph :=
  add_node (ex_graph dir multi [] (plain components_edges)) (KInt 6) [].
Definition longer (g : graph) : graph := fold_left (fun g e => add_edge g (KInt (fst e)) (KInt (snd e)) []) [(7, 8); (8, 9); (9, 10); (10, 11)]%Z g.
Definition has_nodes (o : option (list key)) (l : list Z) : bool := match o with Some c => same_set key_eqb c (ks l) | None => false end.
Definition cropped (g : graph) (l : list Z) (m : nat) : bool :=
  let '(h, r) := crop_to_largest_connected_component g in
  match r with Ok _ => same_set key_eqb (nodes h) (ks l) && Nat.eqb (size h) m | _ => false end.
(** lines 22-62 *)
Example test_largest_connected_component :
  has_nodes (largest_connected_component (components_graph false true)) [0; 1; 2]%Z = true
  /\ has_nodes (largest_connected_component (longer (components_graph false true))) [7; 8; 9; 10; 11]%Z = true
  /\ cropped (longer (components_graph false true)) [7; 8; 9; 10; 11]%Z 4 = true
  /\ has_nodes (largest_connected_component (components_graph true false)) [0; 1; 2]%Z = true
  /\ cropped (components_graph true false) [0; 1; 2]%Z 3 = true.
Proof. vm_compute. auto 6. Qed.

Definition not_skipped : edge_predicate := fun _ _ a => Ok (match dget (K "skip") a with Some v => negb (val_eqb v (VBool true)) | None => true end).
(** lines 73-92 *)
Example test_connected_component_orders :
  let triangle := ex_graph false false [] (plain [(0, 1); (1, 2); (0, 2)]%Z) in
  let more := add_node (add_edge triangle (KInt 3) (KInt 4) []) (KInt 5) [] in
  let last := add_edge more (KInt 6) (KInt 7) [(K "skip", VBool true)] in
  connected_component_orders triangle None = Ok [3]
  /\ connected_component_orders more None = Ok [3; 2; 1]
  /\ connected_component_orders last None = Ok [3; 2; 1; 2]
  /\ connected_component_orders last (Some not_skipped) = Ok [3; 2; 1; 1; 1].
Proof. vm_compute. auto. Qed.

Definition dense : graph := weighted [(0, 1, 10); (1, 2, 5); (2, 3, 5)]%Z.
Definition four_nodes (es : list (Z * Z * attrs)) : graph := ex_graph false false [0; 1; 2; 3]%Z es.
Definition weight_from (z : Z) (a : attrs) : res bool :=
  match dget (K "weight") a with Some (VKey (KInt w)) => Ok (z <=? w)%Z | Some _ => Err TypeError | None => Err KeyError end.
(** lines 96-106 *)
Example test_filter_edges : same_as (filter_edges dense (fun _ _ a => weight_from 10 a)) (four_nodes [(0, 1, weight 10)]%Z) true = true.
Proof. vm_compute. reflexivity. Qed.

Definition weighted_nodes (l : list (Z * Z)) (es : list (Z * Z)) : graph :=
  fold_left (fun g e => add_edge g (KInt (fst e)) (KInt (snd e)) []) es (fold_left (fun g n => add_node g (KInt (fst n)) (weight (snd n))) l (empty_graph false false)).
(** lines 110-130 *)
Example test_filter_nodes :
  same_as (filter_nodes (weighted_nodes [(1, 42); (2, 4); (3, 3); (4, 22); (5, 24)]%Z [(4, 5); (3, 2); (3, 5)]%Z) (fun _ a => weight_from 10 a))
    (weighted_nodes [(1, 42); (4, 22); (5, 24)]%Z [(4, 5)]%Z) true = true.
Proof. vm_compute. reflexivity. Qed.

Definition umst (g : graph) : res (list (key * key * attrs)) := union_of_maximum_spanning_trees lib64 Long64 g (K "weight").
Definition five (k : Z) : list (Z * Z * attrs) :=
  [(k, 3 + k, weight 6); (k, 1 + k, weight 6); (1 + k, 3 + k, weight 8); (1 + k, 4 + k, weight 5); (3 + k, 4 + k, weight 9); (2 + k, 4 + k, weight 7); (1 + k, 2 + k, weight 3)]%Z.
Definition five_kept (k : Z) : list (Z * Z * attrs) :=
  [(3 + k, 4 + k, weight 9); (1 + k, 3 + k, weight 8); (2 + k, 4 + k, weight 7); (k, 1 + k, weight 6); (k, 3 + k, weight 6)]%Z.
Definition no_weight : list (Z * Z * attrs) := plain [(0, 3); (0, 1); (1, 2); (1, 3); (1, 4); (2, 4); (3, 4)]%Z.
(** lines 163-239 *)
Example test_umst :
  umst (ex_graph false false [] (plain [(0, 1)]%Z)) = Ok [(KInt 0, KInt 1, [])]
  /\ has_edges (umst (ex_graph false false [] (five 0))) (five_kept 0) = true
  /\ has_edges (umst (ex_graph false false [] no_weight)) no_weight = true
  /\ has_edges (umst (ex_graph false false [] (five 0 ++ five 5))) (five_kept 0 ++ five_kept 5) = true.
Proof. vm_compute. auto. Qed.

(** lines 241-297 *)
Example test_umst_kinds :
  let a := [(0, 1, weight 2); (1, 2, weight 1); (2, 1, weight 2)]%Z in
  let b := [(0, 1, weight 2); (1, 2, weight 2); (2, 1, weight 2)]%Z in
  umst (ex_graph true false [] a) = Ok (map flip [(0, 1, weight 2); (2, 1, weight 2)]%Z)
  /\ umst (ex_graph true false [] b) = Ok (map flip b)
  /\ has_edges (umst (ex_graph false true [] a)) [(0, 1, weight 2); (2, 1, weight 2)]%Z = true
  /\ has_edges (umst (ex_graph false true [] b)) b = true.
Proof. vm_compute. auto. Qed.

(** lines 301-311 *)
Example test_filter_leaves :
  same_as (filter_leaves (ex_graph false false [] (plain [(1, 2); (2, 3)]%Z))) (ex_graph false false [2]%Z []) false = true.
Proof. vm_compute. reflexivity. Qed.

(** lines 315-321 *)
Example test_create_null_copy : create_null_copy (mkG false false [(K "hello", st "world")] [] []) = Ok (mkG false false [(K "hello", st "world")] [] []).
Proof. vm_compute. reflexivity. Qed.

(** ** sparsification/global_threshold_test.py *)
Definition thresholded (t : Q) (reverse keep : bool) (g : graph) : res graph := global_threshold_sparsification lib64 Long64 g t (K "weight") reverse keep.
Definition with_sp {A} (keep : bool) (f : sparsifier -> res A) : res A := let* sp := global_threshold_sparsifier lib64 Long64 10%Q (K "weight") false keep in f sp.
Definition after {A} (keep : bool) (f : sparsifier -> sm graph unit) (get : graph -> A) : res A :=
  with_sp keep (fun sp => match f sp dense with (g, Ok _) => Ok (get g) | (_, Err e) => Err e end).
Definition flagged (name : string) (l : list (option bool)) : list (key * key * attrs) :=
  map (fun p => match snd p with Some b => (fst (fst p), snd (fst p) ++ [(K name, VBool b)]) | None => fst p end) (combine (edges_data dense) l).

(** lines 14-68 *)
Example test_threshold :
  same_as (thresholded 10%Q false false dense) (four_nodes [(0, 1, weight 10)]%Z) true = true
  /\ same_as (thresholded 9%Q true false dense) (four_nodes [(1, 2, weight 5); (2, 3, weight 5)]%Z) true = true
  /\ same_as (with_sp false (fun sp => sparsifier_filter sp dense)) (four_nodes [(0, 1, weight 10)]%Z) true = true
  /\ same_as (after false sparsifier_remove (fun g => g)) (four_nodes [(0, 1, weight 10)]%Z) true = true.
Proof. vm_compute. auto. Qed.

(** lines 70-131 *)
Example test_threshold_edges :
  with_sp false (fun sp => relevant_edges sp dense) = Ok (map flip [(0, 1, weight 10)]%Z)
  /\ with_sp false (fun sp => redundant_edges sp dense) = Ok (map flip [(1, 2, weight 5); (2, 3, weight 5)]%Z)
  /\ after false (fun sp => flag_relevant_edges sp (K "relevant") false) edges_data = Ok (flagged "relevant" [Some true; None; None])
  /\ after false (fun sp => let! _ := flag_relevant_edges sp (K "relevant") false in flag_relevant_edges sp (K "relevant") true) edges_data
     = Ok (flagged "relevant" [Some true; Some false; Some false])
  /\ after false (fun sp => flag_redundant_edges sp (K "redundant") false) edges_data = Ok (flagged "redundant" [None; Some true; Some true])
  /\ after false (fun sp => let! _ := flag_redundant_edges sp (K "redundant") false in flag_redundant_edges sp (K "redundant") true) edges_data
     = Ok (flagged "redundant" [Some false; Some true; Some true]).
Proof. vm_compute. repeat split. Qed.

(** lines 133-143 *)
Example test_keep_connected :
  let g := weighted [(0, 1, 5)]%Z in
  (let* h := with_sp true (fun sp => sparsifier_filter sp g) in Ok (edges h)) = Ok [(KInt 0, KInt 1)]
  /\ with_sp true (fun sp => relevant_edges sp g) = Ok (map flip [(0, 1, weight 5)]%Z)
  /\ with_sp true (fun sp => redundant_edges sp g) = Ok [].
Proof. vm_compute. auto. Qed.

(** ** projection_test.py *)
Definition people : list string := ["John"; "Mary"; "Lucy"; "Gabriel"; "Meredith"]%string.
Definition colours : list string := ["red"; "blue"; "yellow"; "purple"; "orange"]%string.
Definition weightq (q : Q) : attrs := [(K "weight", VFloat q)].
Definition bipartite (tag : bool) : graph :=
  names_graph false (map (fun n => (n, [(K "part", st "people")])) people ++ map (fun n => (n, if tag then [(K "part", st "color")] else [])) colours)
    [("John", "red", weightq 1%Q); ("John", "purple", weightq 3%Q); ("Gabriel", "yellow", weightq 2%Q); ("Gabriel", "orange", weightq 4%Q);
     ("Mary", "red", weightq 2%Q); ("Mary", "yellow", weightq 1%Q); ("Lucy", "red", weightq 7%Q); ("Lucy", "purple", weightq 1%Q)]%string.
Definition people_graph (es : list (string * string * Z)) : graph :=
  names_graph false (map (fun n => (n, [])) people) (map (fun e => (fst e, weight (snd e))) es).
Definition people_monopartite : graph := people_graph [("John", "Mary", 1); ("John", "Lucy", 2); ("Mary", "Lucy", 1); ("Mary", "Gabriel", 1)]%string%Z.
Definition project (g : graph) (p : part) (metric threshold : val) : res graph := monopartite_projection lib64 g p (K "part") (K "weight") metric true threshold.

(** lines 63-83 *)
Example test_projection_errors :
  [ project (empty_graph false false) (ByValue (st "person")) (st "test") VNone;
    project (ex_graph false false [] (plain [(0, 1)]%Z)) (ByValue (st "person")) VNone VNone;
    project (ex_graph false false [] (plain [(1, 2); (1, 3); (2, 3)]%Z)) (ByCollection false (ks [1; 3]%Z)) VNone VNone;
    project (ex_graph false false [] (plain [(0, 1)]%Z)) (ByCollection false (ks [0]%Z)) VNone (st "test") ]
  = [Err TypeError; Err TypeError; Err TypeError; Err TypeError].
Proof. vm_compute. reflexivity. Qed.

(** lines 85-97 *)
Example test_projection_minimal :
  let g := fold_left (fun g n => add_node g (KInt n) [(K "part", st (if (n <=? 3)%Z then "account" else "color"))]) [1; 2; 3; 4; 5; 6]%Z (empty_graph false false) in
  let g := fold_left (fun g e => add_edge g (KInt (fst e)) (KInt (snd e)) []) [(1, 4); (1, 5); (2, 6); (3, 4); (3, 6)]%Z g in
  same_as (project g (ByValue (st "account")) VNone VNone) (ex_graph false false [1; 2; 3]%Z (plain [(1, 3); (2, 3)]%Z)) false = true.
Proof. vm_compute. reflexivity. Qed.

(** lines 99-127 *)
Example test_projection :
  same_as (project (bipartite true) (ByValue (st "people")) VNone VNone) people_monopartite false = true
  /\ same_as (project (bipartite false) (ByValue (st "people")) VNone VNone) people_monopartite false = true
  /\ same_as (project (bipartite true) (ByCollection false (map K people)) VNone VNone) people_monopartite false = true
  /\ same_as (project (bipartite true) (ByValue (st "people")) VNone (VInt 2)) (people_graph [("John", "Lucy", 2)]%string%Z) false = true.
Proof. vm_compute. auto. Qed.

(** The test of self_similarity_projection calls are_same_graphs without check_attributes, so that it compares the
    nodes and the links only.  The weights it writes are compared here too: they are those of the code except in the
    last case, where the test (projection_test.py:180-188) writes 1 and the code gives 1/2: node 0 has one link, node 2
    has two, they share one, and projection.py:257 computes 1 / (2 + 1 - 1).  The test passes nonetheless. *)
Definition same_weights (r : res graph) (ns : list Z) (l : list (Z * Z * Q)) : bool :=
  match r with
  | Ok h => same_set key_eqb (nodes h) (ks ns) && Nat.eqb (size h) (List.length l)
            && forallb (fun e => match edge_attrs h (KInt (fst (fst e))) (KInt (snd (fst e))) (KInt 0) with
                                 | Some a => match dget (K "weight") a with
                                             | Some v => match num_of v with Some q => q_eqb q (snd e) | None => false end
                                             | None => false
                                             end
                                 | None => false
                                 end) l
  | _ => false
  end.
Definition self_similar (es : list (Z * Z)) : res graph := self_similarity_projection lib64 (ex_graph true false [] (plain es)) 1.
(** lines 131-188 *)
Example test_self_similarity :
  same_weights (self_similar [(0, 1); (2, 1)]%Z) [0; 1; 2]%Z [(0, 2, 1%Q)]%Z = true
  /\ same_weights (self_similar [(0, 1); (0, 2); (1, 0); (1, 2); (2, 0); (2, 1)]%Z) [0; 1; 2]%Z [(0, 1, 1%Q); (0, 2, 1%Q); (1, 2, 1%Q)]%Z = true
  /\ same_weights (self_similar [(0, 1); (0, 2); (1, 0); (1, 2); (2, 1)]%Z) [0; 1; 2]%Z [(0, 1, (1 # 2)%Q); (0, 2, 1%Q); (1, 2, (1 # 2)%Q)]%Z = true
  /\ same_weights (self_similar [(0, 1); (1, 0); (2, 1); (1, 2)]%Z) [0; 1; 2]%Z [(0, 2, 1%Q)]%Z = true
  /\ same_as (self_similar [(0, 1); (2, 1); (1, 2)]%Z) (ex_graph false false [0; 1; 2]%Z [(0, 2, weight 1)]%Z) false = true
  /\ same_weights (self_similar [(0, 1); (2, 1); (1, 2)]%Z) [0; 1; 2]%Z [(0, 2, 1%Q)]%Z = false
  /\ same_weights (self_similar [(0, 1); (2, 1); (1, 2)]%Z) [0; 1; 2]%Z [(0, 2, (1 # 2)%Q)]%Z = true.
Proof. vm_compute. repeat split. Qed.

(** ** utils_test.py *)
(** lines 14-25 *)
Example test_has_mixed_types :
  map (has_mixed_types key_type) [[]; [KInt 1]; [KInt 1; K "5"]] = [false; false; true].
Proof. vm_compute. reflexivity. Qed.

(** lines 27-31 *)
Example test_representations :
  map (fun n => let* r := uint_representation_for_capacity n in Ok (rep_code r)) [34; 345; 486462; 847586358646854]%Z
  = [Ok CodeB; Ok CodeH; Ok CodeL; Ok CodeQ].
Proof. vm_compute. reflexivity. Qed.

Definition sorts (key : Z -> Z) (reverse : bool) (l : list Z) : res (list (option Z)) := counting_sort Long64 key reverse l.
(** lines 33-47 *)
Example test_counting_sort :
  let numbers := [0; 4; 3; 1; 0; 2; 4; 5; 9]%Z in
  let expected := [0; 0; 1; 2; 3; 4; 4; 5; 9]%Z in
  sorts (fun x => x) false numbers = Ok (map Some expected)
  /\ sorts (fun x => x) true numbers = Ok (map Some (rev expected))
  /\ sorts (fun x => 10 - x)%Z false numbers = Ok (map Some (rev expected))
  /\ sorts (fun x => x) false [4; 5; 6; 7]%Z = Ok (map Some [4; 5; 6; 7]%Z)
  /\ sorts (fun x => x) false [18; 54; 5; 16]%Z = Ok (map Some [5; 16; 18; 54]%Z).
Proof. vm_compute. repeat split. Qed.

(** ** tabular_to_graph_test.py *)
Definition labelled (part_attr : string) (part : val) (label : val) (more : attrs) : attrs := (K part_attr, part) :: (K "label", label) :: more.
Definition two_columns (rows : list (string * string)) (part_attr w : string) (disjoint : bool) : res graph :=
  table_to_bipartite_graph no_repr no_frepr (TRows (map (fun r => RList [st (fst r); st (snd r)]) rows)) (KInt 0) (KInt 1) (K part_attr) (K w) None None None None disjoint.
Definition fruits : list (string * string) := [("john", "apple"); ("jack", "apple"); ("lisa", "pear")]%string.
Definition counted (w : string) (n : Z) : attrs := [(K w, VInt n)].
Definition in_part (part_attr : string) (n : string) (p : Z) : string * attrs := (n, labelled part_attr (VInt p) (st n) []).
(** lines 12-56 *)
Example test_bipartite :
  table_to_bipartite_graph no_repr no_frepr (TRows []) (K "one") (K "one") (K "part") (K "weight") None None None None false = Err TypeError
  /\ same_as (two_columns fruits "part" "weight" true)
       (names_graph false [in_part "part" "john" 0; in_part "part" "jack" 0; in_part "part" "lisa" 0; in_part "part" "apple" 1; in_part "part" "pear" 1]
          [("john", "apple", counted "weight" 1); ("jack", "apple", counted "weight" 1); ("lisa", "pear", counted "weight" 1)]%string) true = true
  /\ same_as (two_columns fruits "part" "weight" false)
       (json_graph false false []
          [(KInt 0, labelled "part" (VInt 0) (st "john") []); (KInt 2, labelled "part" (VInt 0) (st "jack") []); (KInt 3, labelled "part" (VInt 0) (st "lisa") []);
           (KInt 1, labelled "part" (VInt 1) (st "apple") []); (KInt 4, labelled "part" (VInt 1) (st "pear") [])]
          [(KInt 0, KInt 1, counted "weight" 1); (KInt 2, KInt 1, counted "weight" 1); (KInt 3, KInt 4, counted "weight" 1)]) true = true.
Proof. vm_compute. auto. Qed.

(** lines 58-91 *)
Example test_bipartite_weights :
  forallb (fun p => same_as (two_columns [("john", "apple"); ("john", "apple"); ("john", "pear")]%string (fst p) (snd p) true)
       (names_graph false [in_part (fst p) "john" 0; in_part (fst p) "apple" 1; in_part (fst p) "pear" 1]
          [("john", "apple", counted (snd p) 2); ("john", "pear", counted (snd p) 1)]%string) true)
    [("part", "weight"); ("category", "count")]%string = true.
Proof. vm_compute. reflexivity. Qed.

Definition person : row := of_row [("person", st "john"); ("color", st "red"); ("light", st "high"); ("age", VInt 45)]%string.
Definition person_graph (d1 d2 : option data_spec) (n1 n2 : option val) : res graph :=
  table_to_bipartite_graph no_repr no_frepr (TRows [person]) (K "person") (K "color") (K "part") (K "weight") d1 d2 n1 n2 true.
Definition john_and_red (john red : attrs) : graph := names_graph false [("john", john); ("red", red)]%string [("john", "red", counted "weight" 1)]%string.
Definition twice_age (r : row) : res (option attrs) :=
  let* v := row_item r (K "age") in match v with VKey (KInt z) => Ok (Some [(K "age", VInt (2 * z))]) | _ => Err TypeError end.
(** lines 93-170 *)
Example test_part_data :
  same_as (person_graph (Some (DSeq [K "age"])) (Some (DSeq [K "light"])) None None)
    (john_and_red (labelled "part" (st "person") (st "john") [(K "age", VInt 45)]) (labelled "part" (st "color") (st "red") [(K "light", st "high")])) true = true
  /\ same_as (person_graph (Some (DCall twice_age)) None None None)
    (john_and_red (labelled "part" (st "person") (st "john") [(K "age", VInt 90)]) (labelled "part" (st "color") (st "red") [])) true = true
  /\ same_as (person_graph (Some (DMap [(K "age", K "label")])) (Some (DMap [(K "light", K "dark")])) None None)
    (john_and_red (labelled "part" (st "person") (VInt 45) []) (labelled "part" (st "color") (st "red") [(K "dark", st "high")])) true = true
  /\ same_as (person_graph (Some (DSeq [K "age"])) (Some (DSeq [K "light"])) (Some (st "vegetable")) (Some (st "fruit")))
    (john_and_red (labelled "part" (st "vegetable") (st "john") [(K "age", VInt 45)]) (labelled "part" (st "fruit") (st "red") [(K "light", st "high")])) true = true.
Proof. vm_compute. auto. Qed.

Definition key_row (n : string) (more : list (string * val)) : row := of_row (("key"%string, st n) :: more).
Definition link_row (u v : string) (more : list (string * val)) : row := of_row (("source"%string, st u) :: ("target"%string, st v) :: more).
Definition tables (ns es : list row) (node_data edge_data : list string) (count missing directed : bool) : res graph :=
  tables_to_graph no_repr (TRows ns) (TRows es) (K "key") (K "source") (K "target") (map K node_data) (map K edge_data) count (K "weight") missing directed.
Definition names : list row := map (fun n => key_row n []) ["john"; "jack"; "lisa"]%string.
Definition half : list (string * val) := [("weight"%string, VFloat (1 # 2)%Q)].
Definition three (dir : bool) (es : list (string * string * attrs)) : graph := names_graph dir [("john", []); ("jack", []); ("lisa", [])]%string es.
(** lines 174-182 *)
Example test_tables_errors :
  same_as (tables [key_row "john" []] [link_row "john" "lisa" []] [] [] false true false) (names_graph false [] [("john", "lisa", [])]%string) true = true
  /\ tables [key_row "john" []] [link_row "john" "lisa" []] [] [] false false false = Err KeyError.
Proof. vm_compute. auto. Qed.

Definition coloured : list row := [key_row "john" [("color", st "blue")]; key_row "jack" [("color", st "green")]; key_row "lisa" [("color", st "green")]]%string.
Definition coloured_graph (es : list (string * string * attrs)) : graph :=
  names_graph false [("john", [(K "color", st "blue")]); ("jack", [(K "color", st "green")]); ("lisa", [(K "color", st "green")])]%string es.
(** lines 184-305 *)
Example test_tables :
  same_as (tables names [link_row "john" "jack" []; link_row "jack" "lisa" []] [] [] false false false) (three false [("john", "jack", []); ("jack", "lisa", [])]%string) true = true
  /\ same_as (tables names [link_row "john" "jack" half; link_row "jack" "lisa" half] [] ["weight"%string] false false false)
       (three false [("john", "jack", weightq (1 # 2)%Q); ("jack", "lisa", weightq (1 # 2)%Q)]%string) true = true
  /\ same_as (tables names [link_row "john" "jack" half; link_row "jack" "lisa" half; link_row "lisa" "jack" half] [] ["weight"%string] false false true)
       (three true [("john", "jack", weightq (1 # 2)%Q); ("jack", "lisa", weightq (1 # 2)%Q); ("lisa", "jack", weightq (1 # 2)%Q)]%string) true = true
  /\ same_as (tables coloured [link_row "john" "jack" half; link_row "jack" "lisa" half] ["color"%string] ["weight"%string] false false false)
       (coloured_graph [("john", "jack", weightq (1 # 2)%Q); ("jack", "lisa", weightq (1 # 2)%Q)]%string) true = true
  /\ same_as (tables coloured [link_row "john" "jack" []; link_row "jack" "lisa" []; link_row "jack" "lisa" []] ["color"%string] [] true false false)
       (coloured_graph [("john", "jack", counted "weight" 1); ("jack", "lisa", counted "weight" 2)]%string) true = true.
Proof. vm_compute. repeat split. Qed.

(** ** graph_to_tabular_test.py *)
Definition with_pandas : shim := import_shim true.
Definition without_pandas : shim := obliterate_pandas with_pandas.
Definition ints (l : list Z) : list val := map (fun z => VInt z) l.
Definition range_graph : graph := json_graph false false [] (map (fun n => (KInt n, [(K "value", VInt n)])) [0; 1; 2]%Z) [].
(** lines 28-57 *)
Example test_nodes_dataframe :
  graph_to_nodes_dataframe without_pandas (st "nan") (empty_graph false false) (Some (K "key")) = Err MissingPandasException
  /\ graph_to_nodes_dataframe with_pandas (st "nan") range_graph (Some (K "key")) = Ok (mkFrame 3 [(K "key", ints [0; 1; 2]%Z); (K "value", ints [0; 1; 2]%Z)] None)
  /\ graph_to_nodes_dataframe with_pandas (st "nan") range_graph (Some (K "node")) = Ok (mkFrame 3 [(K "node", ints [0; 1; 2]%Z); (K "value", ints [0; 1; 2]%Z)] None)
  /\ graph_to_nodes_dataframe with_pandas (st "nan") range_graph None = Ok (mkFrame 3 [(K "value", ints [0; 1; 2]%Z)] (Some (ks [0; 1; 2]%Z))).
Proof. vm_compute. auto. Qed.

Definition one_link : graph := json_graph false false [] [] [(KInt 0, KInt 1, weightq 2%Q)].
Definition link_frame (s t : string) : frame := mkFrame 1 [(K s, ints [0]%Z); (K t, ints [1]%Z); (K "weight", [VFloat 2%Q])] None.
Definition ages : graph :=
  json_graph true false [] [(KInt 1, [(K "name", st "John"); (K "age", VInt 34)]); (KInt 2, [(K "name", st "Lisa"); (K "age", VInt 47)])] [(KInt 1, KInt 2, [])].
Definition ages_frame (s t : option node_columns) : res frame := graph_to_edges_dataframe with_pandas (st "nan") ages (K "source") (K "target") s t.
Definition ages_line (more : list (key * list val)) : res frame := Ok (mkFrame 1 ([(K "source", ints [1]%Z); (K "target", ints [2]%Z)] ++ more) None).
(** lines 61-125 *)
Example test_edges_dataframe :
  graph_to_edges_dataframe without_pandas (st "nan") (empty_graph false false) (K "source") (K "target") None None = Err MissingPandasException
  /\ graph_to_edges_dataframe with_pandas (st "nan") one_link (K "source") (K "target") None None = Ok (link_frame "source" "target")
  /\ graph_to_edges_dataframe with_pandas (st "nan") one_link (K "Source") (K "Target") None None = Ok (link_frame "Source" "Target")
  /\ ages_frame (Some (NIter [K "age"])) None = ages_line [(K "age", ints [34]%Z)]
  /\ ages_frame None (Some (NIter [K "age"])) = ages_line [(K "age", ints [47]%Z)]
  /\ ages_frame (Some (NMap [(K "name", K "source_name")])) (Some (NMap [(K "age", K "target_age")]))
     = ages_line [(K "source_name", [st "John"]); (K "target_age", ints [47]%Z)].
Proof. vm_compute. repeat split. Qed.

(** lines 129-162 *)
Example test_dataframes :
  graph_to_dataframes without_pandas (st "nan") (empty_graph false false) (Some (K "key")) (K "source") (K "target") None None = Err MissingPandasException
  /\ graph_to_dataframes with_pandas (st "nan") one_link (Some (K "key")) (K "source") (K "target") None None
     = Ok (mkFrame 2 [(K "key", ints [0; 1]%Z)] None, link_frame "source" "target")
  /\ graph_to_dataframes with_pandas (st "nan") one_link (Some (K "Node")) (K "Source") (K "Target") None None
     = Ok (mkFrame 2 [(K "Node", ints [0; 1]%Z)] None, link_frame "Source" "Target").
Proof. vm_compute. auto. Qed.

(** ** read_test.py *)
Definition s_named (n : string) (a : option attrs) : s_node := mkSNode (Some (K n)) a.
Definition s_link (k : option string) (u v : string) (a : option attrs) (undirected : option bool) : s_edge :=
  mkSEdge (option_map K k) (Some (K u)) (Some (K v)) a undirected.
Definition doc (type : string) (multi : bool) (a : option attrs) (ns : list s_node) (es : list s_edge) : document :=
  mkDoc (Some (mkOptions (Some type) (Some multi))) a (Some ns) (Some es).
Definition bare (l : list string) : list s_node := map (fun n => s_named n None) l.
Definition world : attrs := [(K "hello", st "world")].
Definition aged : attrs := [(K "age", VInt 34)].
Definition one_two : list s_node := [s_named "one" (Some world); s_named "two" (Some aged)].
Definition parsed (d : document) : res (bool * bool * list (key * attrs) * list (key * key * attrs)) :=
  let* g := parse_graphology_json d in Ok (g_dir g, g_multi g, g_nodes g, edges_data g).

(** lines 15-29 *)
Example test_parsing_errors :
  parse_any no_code (JDict []) = Err TypeError
  /\ parse_graphology_json (doc "mixed" false None (bare ["one"; "two"; "three"]%string)
       [s_link None "one" "two" None (Some true); s_link None "two" "three" None (Some false)]) = Err TypeError.
Proof. vm_compute. auto. Qed.

(** lines 31-97 *)
Example test_parsing :
  parsed (doc "directed" false None one_two [s_link None "one" "two" (Some (weight 35)) None])
  = Ok (true, false, [(K "one", world); (K "two", aged)], [(K "one", K "two", weight 35)])
  /\ (let* g := parse_graphology_json (doc "mixed" false (Some [(K "name", st "Test Graph"); (K "year", VInt 2022)]) (bare ["one"; "two"]%string) [s_link None "one" "two" None None]) in Ok (g_attr g))
     = Ok [(K "name", st "Test Graph"); (K "year", VInt 2022)]
  /\ (let* g := parse_graphology_json (doc "undirected" true None one_two
         [s_link None "one" "two" (Some (weight 35)) None; s_link (Some "one--two"%string) "one" "two" (Some (weight 12)) None]) in
      Ok (g_dir g, g_multi g, g_nodes g, edge_attrs g (K "one") (K "two") (KInt 0), edge_attrs g (K "one") (K "two") (K "one--two"), size g))
     = Ok (false, true, [(K "one", world); (K "two", aged)], Some (weight 35), Some (weight 12), 2).
Proof. vm_compute. auto. Qed.

Definition kind (es : list s_edge) : res bool := let* g := parse_graphology_json (doc "mixed" false None (bare ["one"; "two"; "three"]%string) es) in Ok (g_dir g).
(** lines 120-143 *)
Example test_falsely_mixed :
  kind [s_link None "one" "two" None (Some true)] = Ok false /\ kind [s_link None "one" "two" None None] = Ok true.
Proof. vm_compute. auto. Qed.

(** ** write_test.py *)
Definition written (g : graph) (mixed names : bool) : res document := write_graphology_json no_repr g mixed names.
Definition rewritten (d : document) : res document := let* g := parse_graphology_json d in written g false false.
Definition reread (g : graph) : res graph := let* d := written g false false in parse_graphology_json d.
Definition two_named (dir multi : bool) (first : attrs) (ws : list Z) : graph :=
  json_graph dir multi [] [(K "one", first); (K "two", aged)] (map (fun w => (K "one", K "two", weight w)) ws).
Definition two_doc (type : string) (multi : bool) (first : attrs) (ws : list Z) : document :=
  doc type multi None [s_named "one" (Some first); s_named "two" (Some aged)] (map (fun w => s_link None "one" "two" (Some (weight w)) None) ws).
(** lines 13-133 *)
Example test_write :
  let polite := world ++ [(K "hey", st "how are you?")] in
  written (two_named true false polite [35]%Z) false false = Ok (two_doc "directed" false polite [35]%Z)
  /\ written (two_named false true world [35; 12]%Z) false false = Ok (two_doc "undirected" true world [35; 12]%Z)
  /\ rewritten (two_doc "directed" false world [35]%Z) = Ok (two_doc "directed" false world [35]%Z)
  /\ rewritten (two_doc "undirected" true world [35; 12]%Z) = Ok (two_doc "undirected" true world [35; 12]%Z)
  /\ same_as (reread (two_named true false world [35]%Z)) (two_named true false world [35]%Z) false = true
  /\ same_as (reread (two_named false true world [35; 12]%Z)) (two_named false true world [35; 12]%Z) false = true.
Proof. vm_compute. repeat split. Qed.

Definition written_nodes (g : graph) (mixed names : bool) : res (option (list s_node)) := let* d := written g mixed names in Ok (d_nodes d).
(** lines 135-164 *)
Example test_write_keys :
  let mixed := json_graph false false [] [] [(KInt 1, K "2", [])] in
  let named := json_graph false false [] [(K "test", [(KInt 45, st "ok")])] [] in
  written (json_graph false false [] [(KObj 0, [])] []) false false = Err TypeError
  /\ written mixed false false = Err TypeError
  /\ written_nodes mixed true false = Ok (Some [s_named "1" None; s_named "2" None])
  /\ written named false false = Err TypeError
  /\ written_nodes named false true = Ok (Some [s_named "test" (Some [(K "45", st "ok")])]).
Proof. vm_compute. repeat split. Qed.
