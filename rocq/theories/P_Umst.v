(** * C25-C28: union of maximum spanning trees *)
From Coq Require Import List Relations ZArith QArith Lia Lqa Bool Permutation Sorted.
From Verif Require Import PyBase PyNum S_Num L_Num NxGraph L_Base L_Nx M_UnionFind S_UnionFind S_Partition L_Partition M_Umst S_Umst L_Forest L_Umst P_Graph.
Import ListNotations.
Close Scope Q_scope.

(** In the theorems [E] is the list of the edges of the graph with their weights and [sel] gives, in
    order, the positions in [G.edges.data()] of the edges yielded.  Weights are Python numbers, of values
    those of [E]; float arithmetic rounds as [lib] says. *)

Lemma exact_fine lib : exact lib -> fine lib.
Proof. intros X. split; [apply (exact_sound lib X)|]. rewrite (proj1 X). reflexivity. Qed.
Lemma lib64_fine : fine lib64.
Proof. split; [apply round64_rounding|vm_compute; reflexivity]. Qed.

(** a triangle with a pendant edge, parallel edges and a loop *)
Definition triangle : graph :=
  ex_graph false true [0; 1; 2; 3]%Z
    [(0, 1, weight 5); (1, 2, weight 3); (0, 2, weight 3); (2, 3, []); (0, 1, weight 4); (1, 1, weight 9)]%Z.
Definition triangle_E : list (key * key * Q) :=
  [(KInt 0, KInt 1, 5%Q); (KInt 0, KInt 1, 4%Q); (KInt 0, KInt 2, 3%Q);
   (KInt 1, KInt 2, 3%Q); (KInt 1, KInt 1, 9%Q); (KInt 2, KInt 3, 1%Q)].
Ltac computed_edges g :=
  let x := eval vm_compute in (edges_data g) in
  replace (edges_data g) with x by (vm_compute; reflexivity); repeat constructor.
Lemma triangle_weighted : weighted_edges (K "weight") (edges_data triangle) triangle_E.
Proof. computed_edges triangle. Qed.

(** ** C25 every edge of every maximum spanning forest is yielded

    False when ints which are not floats are mixed with floats: subtracting a float from such an int
    rounds the int first, so that equal weights are put in different buckets. *)
Definition mixed : graph :=
  ex_graph false false [0; 1; 2]%Z
    [(0, 1, weight (2 ^ 53 + 1)); (0, 2, [(K "weight", VFloat (inject_Z (2 ^ 53)))]); (1, 2, weight (2 ^ 53))]%Z.
Definition mixed_E : list (key * key * Q) :=
  [(KInt 0, KInt 1, inject_Z (2 ^ 53 + 1)); (KInt 0, KInt 2, inject_Z (2 ^ 53)); (KInt 1, KInt 2, inject_Z (2 ^ 53))].

Theorem C25_msf_edges_yielded_refuted :
  exists g E out T i, WF g /\ weighted_edges (K "weight") (edges_data g) E
    /\ (forall pf, union_of_maximum_spanning_trees lib64 pf g (K "weight") = Ok out)
    /\ maximum_spanning_forest E T /\ In i T
    /\ ~ In (nth i (edges_data g) (KInt 0, KInt 0, [])) out.
Proof.
  assert (M : in_some_msf mixed_E 2).
  { apply in_some_msf_iff; [cbn; lia|].
    assert (H : heavier mixed_E 2 = [0]) by (vm_compute; reflexivity). rewrite H.
    assert (P : forall x y, joined mixed_E [0] x y -> (x = KInt 2 <-> y = KInt 2)).
    { unfold joined, closure. induction 1 as [x y I|x|x y _ IH|x y z _ IH1 _ IH2]; try tauto; vm_compute in I;
        destruct I as [I|[]]; injection I as <- <-; split; discriminate. }
    intros J. apply P in J. vm_compute in J. destruct J as [_ J]. discriminate (J eq_refl). }
  destruct M as (T & M & I). exists mixed, mixed_E. eexists. exists T, 2.
  split; [apply graph_WF; reflexivity|]. split; [computed_edges mixed|].
  split; [intros []; vm_compute; reflexivity|]. split; [exact M|]. split; [exact I|].
  vm_compute. intuition discriminate.
Qed.
Print Assumptions C25_msf_edges_yielded_refuted.

(** Missing from the full claim: graphs mixing ints which are not floats with floats. *)
Theorem C25_msf_edges_yielded_partial lib pf g attr E out :
  WF g -> weighted_edges attr (edges_data g) E -> fine lib -> alike lib attr (edges_data g) ->
  union_of_maximum_spanning_trees lib pf g attr = Ok out ->
  exists sel, out = at_positions (edges_data g) sel /\ NoDup sel
    /\ forall T i, maximum_spanning_forest E T -> In i T -> In i sel.
Proof.
  intros W WE FI AL U. destruct (numbers_exist _ _ _ WE) as (ws & EN).
  destruct (umst_covers lib pf g attr E ws W WE EN FI AL out U) as (sel & Eo & N & H & _).
  exists sel. split; [exact Eo|]. split; [exact N|]. intros T i M I. apply H. exists T. auto.
Qed.
Print Assumptions C25_msf_edges_yielded_partial.

Example C25_ex :
  wf triangle = true
  /\ union_of_maximum_spanning_trees lib64 Long64 triangle (K "weight") = Ok (at_positions (edges_data triangle) [0; 2; 3; 5])
  /\ map (edge_at triangle_E) [0; 2; 3; 5] = [(KInt 0, KInt 1); (KInt 0, KInt 2); (KInt 1, KInt 2); (KInt 2, KInt 3)].
Proof. vm_compute. auto. Qed.
Lemma triangle_alike lib : alike lib (K "weight") (edges_data triangle).
Proof.
  left. intros e He.
  assert (F : forallb (fun e => match edge_number (K "weight") (snd e) with Some (NInt _) => true | _ => false end) (edges_data triangle) = true)
    by (vm_compute; reflexivity).
  rewrite forallb_forall in F. specialize (F e He). destruct (edge_number (K "weight") (snd e)) as [[z|]|]; try discriminate. eauto.
Qed.

(** there is always a maximum spanning forest, so C25 is not vacuous *)
Theorem C25_forests_exist E : exists T, maximum_spanning_forest E T.
Proof. exact (msf_exists E). Qed.
Print Assumptions C25_forests_exist.

(** ** C26 only edges of maximum spanning forests are yielded

    False when two different weights are within 1e-8 of each other: they share a bucket. *)
Definition near_tie : graph :=
  ex_graph false false [0; 1; 2]%Z
    [(0, 1, [(K "weight", VFloat (1 + (1 # 1073741824)))]); (1, 2, [(K "weight", VFloat (1 + (1 # 1073741824)))]); (0, 2, [])]%Z%Q.
Definition near_tie_E : list (key * key * Q) :=
  [(KInt 0, KInt 1, (1 + (1 # 1073741824))%Q); (KInt 0, KInt 2, 1%Q); (KInt 1, KInt 2, (1 + (1 # 1073741824))%Q)].

Lemma near_tie_alike : alike lib64 (K "weight") (edges_data near_tie).
Proof.
  right. intros e x He.
  assert (F : forallb (fun e => match edge_number (K "weight") (snd e) with
                | Some x => Qeq_bool (m_round lib64 (value x)) (value x) | None => true end) (edges_data near_tie) = true)
    by (vm_compute; reflexivity).
  rewrite forallb_forall in F. specialize (F e He). intros H. rewrite H in F. apply Qeq_bool_iff, F.
Qed.

Theorem C26_only_msf_edges_refuted :
  exists g E out e, WF g /\ weighted_edges (K "weight") (edges_data g) E
    /\ alike lib64 (K "weight") (edges_data g)
    /\ (forall pf, union_of_maximum_spanning_trees lib64 pf g (K "weight") = Ok out)
    /\ In e out
    /\ forall T i, maximum_spanning_forest E T -> In i T -> nth i (edges_data g) (KInt 0, KInt 0, []) <> e.
Proof.
  exists near_tie, near_tie_E. eexists. exists (KInt 0, KInt 2, []).
  split; [apply graph_WF; reflexivity|]. split; [computed_edges near_tie|]. split; [exact near_tie_alike|].
  split; [intros []; vm_compute; reflexivity|]. split; [cbn [In]; tauto|].
  intros T i M I. pose proof (sf_edges _ _ (proj1 M) i I) as B. cbn in B.
  pose proof (msf_not_joined near_tie_E T i M I) as J.
  destruct i as [|[|[|i]]]; try lia; vm_compute; try discriminate.
  intros _. apply J. apply (closure_trans _ _ (KInt 1)).
  - apply closure_In. vm_compute. auto.
  - apply closure_In. vm_compute. auto.
Qed.
Print Assumptions C26_only_msf_edges_refuted.

(** Missing from the full claim: graphs with different weights at most 1e-8 apart, and those of C25. *)
Theorem C26_only_msf_edges_partial lib pf g attr E out :
  WF g -> weighted_edges attr (edges_data g) E -> fine lib -> alike lib attr (edges_data g) ->
  separated E (m_round lib) ->
  union_of_maximum_spanning_trees lib pf g attr = Ok out ->
  exists sel, out = at_positions (edges_data g) sel /\ NoDup sel
    /\ forall i, In i sel <-> exists T, maximum_spanning_forest E T /\ In i T.
Proof.
  intros W WE FI AL S U. destruct (numbers_exist _ _ _ WE) as (ws & EN).
  destruct (umst_covers lib pf g attr E ws W WE EN FI AL out U) as (sel & Eo & N & H & H').
  exists sel. split; [exact Eo|]. split; [exact N|]. intros i. split; [apply H', S|apply H].
Qed.
Print Assumptions C26_only_msf_edges_partial.

(** At binary64 it is enough that different weights be at least 1.0001e-8 apart. *)
Theorem C26_binary64_partial pf g attr E out :
  WF g -> weighted_edges attr (edges_data g) E -> alike lib64 attr (edges_data g) ->
  (forall i j, i < List.length E -> j < List.length E -> (weight_at E j < weight_at E i)%Q ->
     (weight_at E j + (10001 # 1000000000000) <= weight_at E i)%Q) ->
  union_of_maximum_spanning_trees lib64 pf g attr = Ok out ->
  exists sel, out = at_positions (edges_data g) sel /\ NoDup sel
    /\ forall i, In i sel <-> exists T, maximum_spanning_forest E T /\ In i T.
Proof.
  intros W WE AL S. apply (C26_only_msf_edges_partial lib64 pf g attr E out W WE lib64_fine AL).
  intros i j Hi Hj L. specialize (S i j Hi Hj L). unfold far_below.
  apply (Qlt_le_trans _ (round64 (10001 # 1000000000000))); [vm_compute; reflexivity|].
  apply (rnd_le _ round64_rounding). lra.
Qed.
Print Assumptions C26_binary64_partial.

Example C26_ex : separated triangle_E (m_round lib64)
  /\ union_of_maximum_spanning_trees lib64 Long32 triangle (K "weight") = Ok (at_positions (edges_data triangle) [0; 2; 3; 5]).
Proof.
  split; [|vm_compute; reflexivity].
  intros i j Hi Hj. cbn in Hi, Hj.
  do 6 (destruct i as [|i]; [do 6 (destruct j as [|j]; [vm_compute; intuition discriminate|]); lia|]). lia.
Qed.

(** Exactly the edges yielded, for weights as in C25: those whose ends are not joined by the edges heavier
    than the start of their bucket. *)
Theorem C26_exact lib pf g attr E out :
  WF g -> weighted_edges attr (edges_data g) E -> fine lib -> alike lib attr (edges_data g) ->
  union_of_maximum_spanning_trees lib pf g attr = Ok out ->
  exists sel, out = at_positions (edges_data g) sel /\ NoDup sel
    /\ forall i, In i sel <-> i < List.length E
         /\ exists c, bucket_start E (m_round lib) c
              /\ (weight_at E i <= c)%Q /\ ~ far_below (m_round lib) c (weight_at E i)
              /\ ~ joined E (above E c) (fst (edge_at E i)) (snd (edge_at E i)).
Proof.
  intros W WE FI AL U. destruct (numbers_exist _ _ _ WE) as (ws & EN).
  exact (umst_buckets lib pf g attr E ws W WE EN FI AL out U).
Qed.
Print Assumptions C26_exact.

(** Exactly the edges yielded, for any numbers and any rounding: sort the edges, heaviest first and equals
    in their order, cut this list each time Python finds that the first weight of the current bucket minus
    the weight of the edge exceeds 1e-8, and keep the edges whose ends are not joined by the buckets before
    theirs. *)
Theorem C26_any_numbers lib pf g attr E ws out :
  WF g -> weighted_edges attr (edges_data g) E -> edge_numbers attr (edges_data g) ws ->
  union_of_maximum_spanning_trees lib pf g attr = Ok out ->
  exists p sel, sorted_positions ws p /\ out = at_positions (edges_data g) sel
    /\ NoDup sel /\ StronglySorted (precedes ws) sel /\ (forall i, In i sel -> i < List.length ws)
    /\ forall before b after i, buckets lib ws p = before ++ b :: after -> In i b ->
         (In i sel <-> ~ joined E (List.concat before) (fst (edge_at E i)) (snd (edge_at E i))).
Proof.
  intros W WE EN U. destruct (umst_any lib pf g attr E ws W WE EN out U) as (p & sel & Hp & Eo & N & S & B & _ & _ & D).
  exists p, sel. do 4 (split; [assumption|]). split; [|exact D].
  intros i Hi. rewrite (ws_length g attr E ws WE EN). apply B, Hi.
Qed.
Print Assumptions C26_any_numbers.

(** the three weights of [mixed] *)
Example C26_any_numbers_ex :
  let ws := [NInt (2 ^ 53 + 1); NFloat (inject_Z (2 ^ 53)); NInt (2 ^ 53)]%Z in
  edge_numbers (K "weight") (edges_data mixed) ws
  /\ sorted_positions ws [0; 1; 2] /\ buckets lib64 ws [0; 1; 2] = [[0; 1]; [2]]
  /\ union_of_maximum_spanning_trees lib64 Long64 mixed (K "weight") = Ok (at_positions (edges_data mixed) [0; 1]).
Proof.
  split; [computed_edges mixed|]. split.
  - split; [reflexivity|].
    repeat first [apply SSorted_cons|apply SSorted_nil|apply Forall_cons|apply Forall_nil]; vm_compute; auto.
  - split; vm_compute; reflexivity.
Qed.

(** the three edges share the bucket of start [1 + 2^-30], so all are yielded *)
Example C26_exact_ex :
  bucket_start near_tie_E (m_round lib64) (weight_at near_tie_E 0)
  /\ (weight_at near_tie_E 1 < weight_at near_tie_E 0)%Q
  /\ above near_tie_E (weight_at near_tie_E 0) = []
  /\ union_of_maximum_spanning_trees lib64 Long64 near_tie (K "weight") = Ok (at_positions (edges_data near_tie) [0; 2; 1]).
Proof.
  split; [|vm_compute; auto]. apply first_start; [cbn; lia|]. intros j Hj. cbn in Hj.
  destruct j as [|[|[|j]]]; try lia; vm_compute; discriminate.
Qed.

(** ** C27 connectivity is preserved, no loop, no duplicate, heaviest first *)
Theorem C27_connectivity lib pf g attr E out :
  WF g -> weighted_edges attr (edges_data g) E ->
  union_of_maximum_spanning_trees lib pf g attr = Ok out ->
  (forall a b, closure (map fst out) a b <-> closure (map fst (edges_data g)) a b)
  /\ (forall u v a, In (u, v, a) out -> u <> v)
  /\ exists sel, out = at_positions (edges_data g) sel /\ NoDup sel
     /\ (forall i, In i sel -> i < List.length (edges_data g))
     /\ StronglySorted (fun i j => (weight_at E j <= weight_at E i)%Q) sel.
Proof.
  intros W WE U. destruct (numbers_exist _ _ _ WE) as (ws & EN).
  destruct (umst_any lib pf g attr E ws W WE EN out U) as (p & sel & _ & Eo & N & S & B & C & L & _).
  apply (ordered_heavier g attr E ws WE EN sel B) in S.
  assert (P : map fst out = map (edge_at E) sel).
  { rewrite Eo. unfold at_positions. rewrite map_map. apply map_ext_in. intros i Hi.
    apply (we_nth g attr E WE i), B, Hi. }
  split; [|split].
  - intros a b. rewrite P, (we_ends g attr E WE). apply C.
  - intros u v a I. rewrite Eo in I. apply in_map_iff in I as (i & Ei & Hi).
    specialize (L i Hi). destruct (we_nth g attr E WE i (B i Hi)) as [X _]. unfold item_of in X. rewrite Ei in X.
    rewrite <- X in L. exact L.
  - exists sel. split; [exact Eo|]. split; [exact N|]. split; [rewrite (we_length g attr E WE); exact B|exact S].
Qed.
Print Assumptions C27_connectivity.

Example C27_ex : map (weight_at triangle_E) [0; 2; 3; 5] = [5; 3; 3; 1]%Q
  /\ In (KInt 1, KInt 1, weight 9) (edges_data triangle)
  /\ In (KInt 0, KInt 1, weight 4) (edges_data triangle).
Proof. vm_compute. auto 10. Qed.

(** ** C28 the iteration never raises

    False for graphs of 256 nodes: the sizes of sets are kept in unsigned bytes. *)
Definition star256 : graph :=
  ex_graph false false [] (map (fun i => (0, Z.of_nat i, weight 2)) (seq 1 255) ++ [(1, 2, weight 1)])%Z.

Theorem C28_never_raises_refuted :
  exists g, WF g /\ (exists E, weighted_edges (K "weight") (edges_data g) E) /\ order g = 256
    /\ forall pf, union_of_maximum_spanning_trees lib64 pf g (K "weight") = Err OverflowError.
Proof.
  exists star256. split; [apply graph_WF; vm_compute; reflexivity|]. split.
  - exists (map (fun e => (fst e, match edge_weight (K "weight") (snd e) with Some q => q | None => 0%Q end)) (edges_data star256)).
    assert (F : forallb (fun e => match edge_weight (K "weight") (snd e) with Some _ => true | None => false end) (edges_data star256) = true)
      by (vm_compute; reflexivity).
    revert F. unfold weighted_edges. induction (edges_data star256) as [|e l IH]; intros F; constructor; cbn [forallb] in F;
      apply andb_true_iff in F as [F1 F2]; [|apply IH, F2].
    split; [reflexivity|]. cbn [snd]. destruct (edge_weight (K "weight") (snd e)); [reflexivity|discriminate].
  - split; [vm_compute; reflexivity|]. intros []; vm_compute; reflexivity.
Qed.
Print Assumptions C28_never_raises_refuted.

(** Missing from the full claim: connected graphs whose number of nodes is 256, 65536, 2^32 (where
    C's unsigned long has 32 bits) or 2^64, and graphs of more than 2^64 nodes. *)
Theorem C28_never_raises_partial lib pf g attr E :
  WF g -> weighted_edges attr (edges_data g) E -> (Z.of_nat (order g) <= 2 ^ 64)%Z ->
  (~ tight_capacity pf (order g)
   \/ exists a b, In a (nodes g) /\ In b (nodes g) /\ ~ closure (map fst (edges_data g)) a b) ->
  exists out, union_of_maximum_spanning_trees lib pf g attr = Ok out.
Proof.
  intros W WE L H. destruct (numbers_exist _ _ _ WE) as (ws & EN).
  destruct (umst_spec lib pf g attr E ws W WE EN) as (p & Hp & [(sel & U & _)|[(_ & T & dn & bk & af & Eb & C)|(_ & G)]]).
  - eauto.
  - exfalso. destruct H as [H|(a & b & Ha & Hb & H)]; [contradiction|]. apply H.
    rewrite (we_ends g attr E WE), edges_all. specialize (C a b Ha Hb). revert C. apply joined_incl.
    destruct Hp as [Pp _]. rewrite (ws_length g attr E ws WE EN) in Pp.
    intros i Hi. apply (Permutation_in _ (Permutation_sym Pp)). rewrite <- (buckets_concat lib ws p), Eb, concat_app, in_app_iff. auto.
  - lia.
Qed.
Print Assumptions C28_never_raises_partial.

(** Exactly when it raises: at these capacities, if the edges of all buckets but the last one join all the
    nodes (the edges of the last bucket are yielded without being merged). *)
Theorem C28_exact lib pf g attr E e :
  WF g -> weighted_edges attr (edges_data g) E -> fine lib -> alike lib attr (edges_data g) ->
  (Z.of_nat (order g) <= 2 ^ 64)%Z ->
  (union_of_maximum_spanning_trees lib pf g attr = Err e <->
   e = OverflowError /\ tight_capacity pf (order g)
   /\ exists c, bucket_start E (m_round lib) c
        /\ forall a b, In a (nodes g) -> In b (nodes g) -> joined E (above E c) a b).
Proof.
  intros W WE FI AL L. destruct (numbers_exist _ _ _ WE) as (ws & EN).
  destruct (umst_spec lib pf g attr E ws W WE EN) as (p & Hp & [(sel & U' & _ & NO)|[(U' & O)|(_ & G)]]); [| |lia]; rewrite U';
    rewrite (overflowing_start lib pf g attr E ws WE EN FI AL p Hp) in *.
  - split; [discriminate|]. intros (_ & O). destruct (NO O).
  - split; [|intros (-> & _); reflexivity]. intros Eq. split; [congruence|exact O].
Qed.
Print Assumptions C28_exact.

(** a connected graph of 256 nodes whose edges share one bucket *)
Example C28_exact_ex :
  let g := ex_graph false false [] (map (fun i => (0, Z.of_nat i, weight 2)) (seq 1 255))%Z in
  wf g = true /\ order g = 256 /\
  match union_of_maximum_spanning_trees lib64 Long64 g (K "weight") with Ok out => List.length out | Err _ => 0 end = 255.
Proof. vm_compute. auto. Qed.

(** 256 nodes in two components: the disjoint sets never merge completely *)
Example C28_ex :
  let g := ex_graph false false [] (map (fun i => (0, Z.of_nat i, weight 2)) (seq 1 253) ++ [(254, 255, weight 2); (1, 2, weight 1)])%Z in
  wf g = true /\ order g = 256 /\
  match union_of_maximum_spanning_trees lib64 Long64 g (K "weight") with Ok out => List.length out | Err _ => 0 end = 254.
Proof. vm_compute. auto. Qed.
