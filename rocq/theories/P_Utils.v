(** * C67-C71, C74, C75: utils, traversal structures, pandas shim *)
From Coq Require Import Permutation Sorted.
From Verif Require Import PyBase S_Partition M_UnionFind M_Utils M_Traversal M_Shim S_Utils L_Utils L_Traversal.

(** ** C67 counting_sort sorts

    The list has less than 2^64 items (beyond that no array type suffices). *)
Lemma counting_sort_sorts {A} pf (key : A -> Z) reverse items :
  items <> [] -> (Z.of_nat (List.length items) < 2 ^ 64)%Z ->
  exists out, counting_sort pf key reverse items = Ok (map Some out)
    /\ Permutation out items /\ in_order key reverse out.
Proof.
  intros NE LT. destruct (counting_sort_spec key pf reverse items NE LT) as (out & E & P & S & _).
  exists out. split; [exact E|]. split; [exact P|exact S].
Qed.

Theorem C67_counting_sort_sorts {A} pf (key : A -> Z) reverse items :
  items <> [] -> (Z.of_nat (List.length items) < 2 ^ 64)%Z ->
  exists out, counting_sort pf key reverse items = Ok (map Some out)
    /\ Permutation out items /\ in_order key reverse out.
Proof. exact (counting_sort_sorts pf key reverse items). Qed.
Print Assumptions C67_counting_sort_sorts.

Example C67_ex : counting_sort Long64 (fun x => x) false [5; -3; 5; 0; 9; -3]%Z
  = Ok (map Some [-3; -3; 0; 5; 5; 9])%Z.
Proof. vm_compute. reflexivity. Qed.

(** ** C68 drop-in replacement for sorted: false on ties and on the empty list *)
Lemma not_stable : exists items : list (Z * Z),
  items <> [] /\ (exists out, counting_sort Long64 fst false items = Ok (map Some out))
  /\ forall out, counting_sort Long64 fst false items = Ok (map Some out) -> ~ sorted_gives fst false items out.
Proof.
  exists [(0, 1); (0, 2)]%Z. split; [discriminate|]. split; [exists [(0, 2); (0, 1)]%Z; reflexivity|].
  intros out E (_ & _ & T). vm_compute in E. injection E as E. symmetry in E.
  destruct out as [|a [|b [|c out]]]; try discriminate. injection E as -> ->.
  specialize (T 0%Z). discriminate.
Qed.

Theorem C68_like_sorted_refuted : exists items : list (Z * Z),
  items <> [] /\ (exists out, counting_sort Long64 fst false items = Ok (map Some out))
  /\ forall out, counting_sort Long64 fst false items = Ok (map Some out) -> ~ sorted_gives fst false items out.
Proof. exact not_stable. Qed.
Print Assumptions C68_like_sorted_refuted.

Theorem C68_empty_refuted : forall A pf (key : A -> Z) reverse,
  counting_sort pf key reverse [] = Err TypeError /\ sorted_gives key reverse [] [].
Proof. intros. split; [reflexivity|]. repeat split; constructor. Qed.
Print Assumptions C68_empty_refuted.

(** What holds: with reverse=True the result is exactly [sorted]'s; in forward mode it is
    what [sorted] gives on the reversed list. *)
Lemma like_sorted {A} pf (key : A -> Z) reverse items :
  items <> [] -> (Z.of_nat (List.length items) < 2 ^ 64)%Z ->
  exists out, counting_sort pf key reverse items = Ok (map Some out)
    /\ sorted_gives key reverse (if reverse then items else rev items) out.
Proof.
  intros NE LT. destruct (counting_sort_spec key pf reverse items NE LT) as (out & E & P & S & T).
  exists out. split; [exact E|]. split; [|split; [exact S|]].
  - destruct reverse; [exact P|]. rewrite <- Permutation_rev. exact P.
  - intros k. rewrite T. destruct reverse; [reflexivity|]. symmetry. apply filter_rev'.
Qed.

Theorem C68_like_sorted_partial {A} pf (key : A -> Z) reverse items :
  items <> [] -> (Z.of_nat (List.length items) < 2 ^ 64)%Z ->
  exists out, counting_sort pf key reverse items = Ok (map Some out)
    /\ sorted_gives key reverse (if reverse then items else rev items) out.
Proof. exact (like_sorted pf key reverse items). Qed.
Print Assumptions C68_like_sorted_partial.

Example C68_ex : counting_sort Long64 fst true [(1, 1); (2, 7); (1, 2); (2, 8)]%Z
  = Ok (map Some [(2, 7); (2, 8); (1, 1); (1, 2)])%Z.
Proof. vm_compute. reflexivity. Qed.

(** ** C69 *)
Theorem C69_smallest_representation n :
  match uint_representation_for_max n with
  | Ok r => In r uint_representations /\ (n <= rep_max r)%Z
            /\ (forall r', In r' uint_representations -> (n <= rep_max r')%Z -> (rep_max r <= rep_max r')%Z)
  | Err e => e = TypeError /\ (2 ^ 64 <= n)%Z
  end.
Proof. exact (uint_rep_spec n). Qed.
Print Assumptions C69_smallest_representation.

Example C69_ex : uint_representation_for_max 256 = Ok ((2 ^ 16 - 1)%Z, CodeH)
  /\ uint_representation_for_max (2 ^ 64) = Err TypeError.
Proof. split; reflexivity. Qed.

(** ** C70; [same] is [A is B] *)
Theorem C70_intersection_size same A B :
  NoDup A -> NoDup B -> (same = true -> A = B) ->
  has_size (fun x => In x A /\ In x B) (fast_intersection_size same A B).
Proof. exact (fis_spec same A B). Qed.
Print Assumptions C70_intersection_size.

Lemma fis_sym same A B : NoDup A -> NoDup B -> (same = true -> A = B) ->
  fast_intersection_size same A B = fast_intersection_size same B A.
Proof.
  intros NA NB S. eapply L_Partition.has_size_unique; [apply fis_spec; assumption|].
  apply L_Partition.has_size_ext with (P := fun x => In x B /\ In x A); [tauto|].
  apply fis_spec; try assumption. intros E. symmetry. auto.
Qed.
Theorem C70_symmetric same A B : NoDup A -> NoDup B -> (same = true -> A = B) ->
  fast_intersection_size same A B = fast_intersection_size same B A.
Proof. exact (fis_sym same A B). Qed.
Print Assumptions C70_symmetric.

Example C70_ex : NoDup [KInt 1; KInt 2; KInt 3] /\ NoDup [KInt 3; KInt 4; KInt 2]
  /\ fast_intersection_size false [KInt 1; KInt 2; KInt 3] [KInt 3; KInt 4; KInt 2] = 2.
Proof. repeat split; try reflexivity; repeat constructor; cbn; intuition congruence. Qed.

(** ** C71 *)
Theorem C71_mixed_types {A} (type_of : A -> pytype) items :
  has_mixed_types type_of items = true <->
  exists a b, In a items /\ In b items /\ type_of a <> type_of b.
Proof. exact (mixed_types_iff type_of items). Qed.
Print Assumptions C71_mixed_types.

Example C71_ex : has_mixed_types key_type [KInt 1; KInt 2; KStr "1"] = true
  /\ has_mixed_types key_type [KInt 1; KInt 2; KInt 1] = false.
Proof. split; reflexivity. Qed.

(** ** C74 DFSStack and BFSQueue, after any history of calls on a fresh structure *)

Theorem C74_append_true_once {I} (step : top I -> sm (trav I) (tout I)) ops g t outs n i :
  step = dfs_step \/ step = bfs_step ->
  run step ops (t_make g) = (t, outs) ->
  exists b, snd (step (TAppend n i) t) = Ok (OBool b) /\ (b = true <-> ~ In n (appended ops)).
Proof.
  intros [->| ->] E; destruct (append_answers t_pop n i t) as (b & H).
  - exists b. split; [exact H|]. exact (append_first _ _ _ _ _ _ _ _ pop_is_pop E H).
  - exists b. split; [exact H|]. exact (append_first _ _ _ _ _ _ _ _ popleft_is_pop E H).
Qed.
Print Assumptions C74_append_true_once.

Theorem C74_contains {I} (step : top I -> sm (trav I) (tout I)) ops g t outs n :
  step = dfs_step \/ step = bfs_step ->
  run step ops (t_make g) = (t, outs) -> (t_contains t n = true <-> In n (appended ops)).
Proof.
  intros [->| ->] E;
    [exact (contains_iff _ _ _ _ _ _ pop_is_pop E)|exact (contains_iff _ _ _ _ _ _ popleft_is_pop E)].
Qed.
Print Assumptions C74_contains.

(** Every pop of a queue returns what was stored first among what is left: the items
    popped so far are a prefix of the items stored so far. *)
Theorem C74_fifo {I} (ops : list (top I)) g t outs :
  run bfs_step ops (t_make g) = (t, outs) ->
  exists left, stored_items (combine ops outs) = popped_items (combine ops outs) ++ left
    /\ t_len t = List.length left
    /\ ((exists e, snd (bfs_step TPop t) = Err e) <-> left = []).
Proof.
  intros E. exists (t_items t). split; [exact (fifo ops _ _ _ E)|]. split; [reflexivity|].
  rewrite popleft_raises_iff. unfold t_len. destruct (t_items t); cbn; split; congruence.
Qed.
Print Assumptions C74_fifo.

(** A pop of a stack returns the item of the last append that stored something and
    whose item has not been popped: between the two, whatever was stored was popped. *)
Theorem C74_lifo {I} pre ops g (n : key) (i : option I) outs0 outs t t1 t2 :
  run dfs_step pre (t_make g) = (t, outs0) ->
  dfs_step (TAppend n i) t = (t1, Ok (OBool true)) ->
  run dfs_step ops t1 = (t2, outs) -> balanced (combine ops outs) ->
  snd (dfs_step TPop t2) = Ok (OItem (stored n i)).
Proof. intros _ A R B. exact (proj1 (lifo ops n i outs t t1 t2 A R B)). Qed.
Print Assumptions C74_lifo.

(** A stack pop raises exactly when everything stored was popped. *)
Theorem C74_lifo_len {I} (ops : list (top I)) g t outs :
  run dfs_step ops (t_make g) = (t, outs) ->
  List.length (stored_items (combine ops outs)) = List.length (popped_items (combine ops outs)) + t_len t
  /\ ((exists e, snd (dfs_step TPop t) = Err e) <-> t_len t = 0).
Proof. intros E. split; [symmetry; exact (len_dfs ops _ _ _ E)|exact (pop_raises_iff t)]. Qed.
Print Assumptions C74_lifo_len.

(** [nodes_yet_unseen] and [has_already_seen_everything], when only nodes of the graph
    are appended *)
Theorem C74_unseen {I} (step : top I -> sm (trav I) (tout I)) ops g t outs :
  step = dfs_step \/ step = bfs_step -> NoDup g -> incl (appended ops) g ->
  run step ops (t_make g) = (t, outs) ->
  nodes_yet_unseen t = filter (fun n => negb (mem n (appended ops))) g
  /\ (seen_everything t = true <-> incl g (appended ops)).
Proof.
  intros [->| ->] N H E;
    [exact (unseen_spec _ _ _ _ _ pop_is_pop N H E)|exact (unseen_spec _ _ _ _ _ popleft_is_pop N H E)].
Qed.
Print Assumptions C74_unseen.

(** Without that condition it fails: after appending a foreign node to the stack of a
    one-node graph, no node is reported unseen. *)
Theorem C74_unseen_foreign_refuted : exists (ops : list (top unit)) g t outs n,
  NoDup g /\ run dfs_step ops (t_make g) = (t, outs) /\
  In n g /\ ~ In n (appended ops) /\ ~ In n (nodes_yet_unseen t).
Proof.
  exists [TAppend (KInt 9) None], [KInt 1], (mkT [KInt 1] [inl (KInt 9)] [KInt 9]), [Ok (OBool true)], (KInt 1).
  repeat split; cbn; try (constructor; [intros []|constructor]); intuition congruence.
Qed.
Print Assumptions C74_unseen_foreign_refuted.

Definition C74_history : list (top nat) :=
  [TAppend (KInt 1) None; TAppend (KInt 2) (Some 20); TAppend (KInt 1) None; TPop; TAppend (KInt 2) None; TPop; TPop].
Example C74_ex_dfs : snd (run dfs_step C74_history (t_make [KInt 1; KInt 2; KInt 3]))
  = [Ok (OBool true); Ok (OBool true); Ok (OBool false); Ok (OItem (inr 20)); Ok (OBool false);
     Ok (OItem (inl (KInt 1))); Err IndexError].
Proof. reflexivity. Qed.
Example C74_ex_bfs : snd (run bfs_step C74_history (t_make [KInt 1; KInt 2; KInt 3]))
  = [Ok (OBool true); Ok (OBool true); Ok (OBool false); Ok (OItem (inl (KInt 1))); Ok (OBool false);
     Ok (OItem (inr 20)); Err IndexError].
Proof. reflexivity. Qed.
Example C74_ex_unseen : nodes_yet_unseen (fst (run dfs_step C74_history (t_make [KInt 3; KInt 1; KInt 2; KInt 4])))
  = [KInt 3; KInt 4].
Proof. reflexivity. Qed.
Example C74_ex_balanced : balanced (combine (tl C74_history)
   (tl (snd (run dfs_step (firstn 5 C74_history) (t_make [KInt 1; KInt 2]))))).
Proof.
  cbn. apply (bal_app ([_; _; _]) [_]); [|constructor].
  apply (bal_nest _ _ _ [_]). constructor.
Qed.

(** ** C75 missing_pandas *)

(** After any client program, raising or not, pandas is available iff it was installed. *)
Theorem C75_restored installed p s l r :
  run_client 0 p (import_shim installed, []) = ((s, l), r) -> is_pandas_available s = installed.
Proof.
  intros E. destruct (run_client_inv p _ _ _ _ _ _ E) as (O & l1 & _ & _ & B & _).
  unfold is_pandas_available. rewrite (B eq_refl), O. reflexivity.
Qed.
Print Assumptions C75_restored.

(** In programs that do not nest blocks, a check raises exactly when it is in a block
    (its depth is positive) or pandas is not installed.  Missing: nested blocks, where this is
    false. *)
Theorem C75_hidden_inside_partial installed p s l r :
  nesting p <= 1 ->
  run_client 0 p (import_shim installed, []) = ((s, l), r) ->
  Forall (fun dr : nat * res unit => let (depth, seen) := dr in
            seen = if andb (Nat.eqb depth 0) installed then Ok tt else Err MissingPandasException) l.
Proof.
  intros N E. destruct (run_client_inv p _ _ _ _ _ _ E) as (O & l1 & -> & _ & _ & C).
  specialize (C N eq_refl eq_refl). eapply Forall_impl; [|exact C].
  intros [d o] H. exact H.
Qed.
Print Assumptions C75_hidden_inside_partial.

Definition C75_program : client :=
  Then Check (Then (Try (With (Then (Try Check) (Raise ValueError)))) (Then Check (With Check))).
Example C75_ex : nesting C75_program = 1
  /\ run_client 0 C75_program (import_shim true, [])
   = ((import_shim true, [(0, Ok tt); (1, Err MissingPandasException); (0, Ok tt); (1, Err MissingPandasException)]),
      Err MissingPandasException).
Proof. split; reflexivity. Qed.

(** Nested blocks: leaving the inner one brings pandas back inside the outer one. *)
Theorem C75_hidden_inside_refuted : exists p s l r,
  run_client 0 p (import_shim true, []) = ((s, l), r) /\ In (1, Ok tt) l.
Proof.
  exists (With (Then (With Skip) Check)). do 3 eexists. split; [reflexivity|]. left. reflexivity.
Qed.
Print Assumptions C75_hidden_inside_refuted.
