(** * JSON values which are graphology documents *)
From Coq Require Import String ZArith QArith.
From Verif Require Import PyBase NxGraph M_Json M_Read.

(** the field [name] of a dict *)
Definition has_field (d : list (key * json)) (name : string) (j : json) : Prop := dget (KStr name) d = Some j.
Definition no_field (d : list (key * json)) (name : string) : Prop := dget (KStr name) d = None.

(** a list, or something empty which can be iterated: an empty dict or string *)
Definition list_of (j : json) (l : list json) : Prop := j = JList l \/ (l = [] /\ (j = JDict [] \/ j = JStr "")).

Section Reads.
Variable code : json -> nat.

(** values which Python takes for false *)
Definition false_value (j : json) : Prop := j = JVal VNone \/ j = JVal (VBool false) \/ j = JVal (VInt 0) \/ (exists q, j = JVal (VFloat q) /\ (q == 0)%Q)
  \/ j = JStr "" \/ j = JList [] \/ j = JDict [].

(** [v] stands for the value [j] of an attribute: lists and dicts are opaque objects *)
Definition attribute (j : json) (v : val) : Prop := match j with JVal w => v = w | _ => v = VKey (KObj (code j)) end.

(** a dict of attributes, or nothing *)
Definition reads_attrs (d : list (key * json)) (o : option attrs) : Prop :=
  match o with
  | None => no_field d "attributes"
  | Some a => exists b, has_field d "attributes" (JDict b) /\ Forall2 (fun kv x => fst x = fst kv /\ attribute (snd kv) (snd x)) b a
  end.

Definition reads_node (j : json) (s : s_node) : Prop := exists d, j = JDict d
  /\ (exists k, sn_key s = Some k /\ has_field d "key" (JVal (VKey k))) /\ reads_attrs d (sn_attributes s).

(** the key of an edge, which only matters in multigraphs, where an attribute key must be hashable if there is no key *)
Definition reads_key (multi : bool) (d : list (key * json)) (o : option key) : Prop :=
  match o with
  | Some k => has_field d "key" (JVal (VKey k))
  | None => (no_field d "key" \/ has_field d "key" (JVal VNone) \/ multi = false)
            /\ (multi = true -> forall b, has_field d "attributes" (JDict b) -> forall l e, ~ has_field b "key" (JList l) /\ ~ has_field b "key" (JDict e))
  end.

(** the mark of undirected edges, which only matters when the type is mixed; 1 and 1.0 are equal to true *)
Definition reads_undirected (mixed : bool) (d : list (key * json)) (o : option bool) : Prop :=
  mixed = true -> match o with
                  | None => no_field d "undirected"
                  | Some b => exists v, has_field d "undirected" (JVal v) /\ val_eqb v (VBool b) = true
                  end.

Definition reads_edge (mixed multi : bool) (j : json) (e : s_edge) : Prop := exists d, j = JDict d
  /\ (exists s, se_source e = Some s /\ has_field d "source" (JVal (VKey s)))
  /\ (exists t, se_target e = Some t /\ has_field d "target" (JVal (VKey t)))
  /\ reads_attrs d (se_attributes e) /\ reads_key multi d (se_key e) /\ reads_undirected mixed d (se_undirected e).

(** a field which is absent or null, or a list of things *)
Definition reads_list {A} (R : json -> A -> Prop) (d : list (key * json)) (name : string) (o : option (list A)) : Prop :=
  match o with
  | None => no_field d name \/ has_field d name (JVal VNone)
  | Some l => exists j i, has_field d name j /\ list_of j i /\ Forall2 R i l
  end.

(** any type which is not the string directed or mixed is taken for undirected, and any value tells whether the graph is multi *)
Definition reads_as (j : json) (d : document) : Prop := exists o top t m ty mu, j = JDict top
  /\ has_field top "options" (JDict o) /\ has_field o "type" t /\ has_field o "multi" m
  /\ d_options d = Some (mkOptions (Some ty) (Some mu)) /\ (mu = false <-> false_value m)
  /\ (t = JStr ty \/ ty = "undirected"%string /\ forall s, t <> JStr s)
  /\ reads_attrs top (d_attributes d)
  /\ reads_list reads_node top "nodes" (d_nodes d)
  /\ reads_list (reads_edge (String.eqb ty "mixed") mu) top "edges" (d_edges d).
End Reads.

(** values which can be written in a file *)
Fixpoint storable (j : json) : Prop :=
  match j with
  | JVal v => forall n, v <> VKey (KObj n)
  | JList l => (fix all (l : list json) : Prop := match l with [] => True | i :: r => storable i /\ all r end) l
  | JDict d => NoDup (map fst d) /\ (fix all (d : list (key * json)) : Prop :=
                  match d with [] => True | (k, i) :: r => (exists s, k = KStr s) /\ storable i /\ all r end) d
  end.

(** attributes which can be written in a file: no opaque object *)
Definition plain_values (a : attrs) : Prop := forall k v n, In (k, v) a -> v <> VKey (KObj n).
Definition savable (g : graph) : Prop := plain_values (g_attr g)
  /\ (forall n a, In (n, a) (g_nodes g) -> plain_values a) /\ (forall u v a, In (u, v, a) (edges_data g) -> plain_values a).
