(** * C97: triangles counted once per edge *)
From Coq Require Import List ZArith Lia Bool Permutation.
From Verif Require Import PyBase NxGraph L_Base L_Nx M_Disparity M_Tri S_Graph S_Tri L_Tri L_Tri2 P_Graph P_Tri.
Import ListNotations.

(** the strengths added up *)
Definition total {A} (d : list (A * nat)) : nat := list_sum (map snd d).

Lemma total_pset p n (d : pdict nat) : total (pset p n d) + match pget p d with Some m => m | None => 0 end = total d + n.
Proof.
  unfold total. induction d as [|[q m] d IH]; [cbn; lia|]. cbn [pset pget]. destruct (pair_eqb p q); cbn [map snd]; change (list_sum (?x :: ?l)) with (x + list_sum l); lia.
Qed.

Lemma total_increment p d : total (increment p d) = S (total d).
Proof. unfold increment. pose proof (total_pset p (match pget p d with Some n => n | None => 0 end + 1) d). lia. Qed.

Lemma total_count_pair u v c c' : count_pair u v c = Ok c' -> total c' = S (total c).
Proof. unfold count_pair. destruct (key_lt u v); [|discriminate]. cbn. intros E. inversion E. apply total_increment. Qed.

Lemma total_triangle t c c' : count_triangle c t = Ok c' -> total c' = 3 + total c.
Proof.
  destruct t as [[u v] w]. unfold count_triangle. intros E.
  destruct (count_pair u v c) as [c1|] eqn:E1; [|discriminate]. cbn [bind] in E.
  destruct (count_pair u w c1) as [c2|] eqn:E2; [|discriminate]. cbn [bind] in E.
  apply total_count_pair in E, E1, E2. lia.
Qed.

Lemma total_triangles l : forall c c', foldM count_triangle l c = Ok c' -> total c' = 3 * List.length l + total c.
Proof.
  induction l as [|t l IH]; intros c c' E; cbn [foldM] in E; [inversion E; cbn; lia|].
  destruct (count_triangle c t) as [c1|] eqn:E1; [|discriminate]. apply IH in E. apply total_triangle in E1. cbn [List.length]. lia.
Qed.

Lemma total_zeros l : forall c c', foldM zero_edge l c = Ok c' -> total c = 0 -> total c' = 0.
Proof.
  induction l as [|uv l IH]; intros c c' E Z; cbn [foldM] in E; [inversion E; subst; exact Z|].
  destruct (zero_edge c uv) as [c1|] eqn:E1; [|discriminate]. apply (IH c1 c' E). unfold zero_edge in E1.
  destruct (key_gt (fst uv) (snd uv)) as [b|]; [|discriminate]. cbn in E1. inversion E1. subst c1.
  match goal with |- total (pset ?p 0 c) = 0 => pose proof (total_pset p 0 c) end. lia.
Qed.

Theorem C97_total set_order g full l d : triangles set_order g = Ok l -> triangular_strength set_order g full = Ok d ->
  total d = 3 * List.length l.
Proof.
  unfold triangular_strength. intros T E. rewrite T in E.
  destruct full; cbn [bind] in E.
  - destruct (foldM zero_edge (edge_list g) []) as [c|] eqn:Z; [|discriminate]. cbn [bind] in E.
    apply total_triangles in E. apply total_zeros in Z; [lia|reflexivity].
  - apply total_triangles in E. cbn in E. lia.
Qed.
Print Assumptions C97_total.

Lemma total_positive {A} (d : list (A * nat)) : total d = total (filter (fun x => 0 <? snd x) d).
Proof.
  unfold total. induction d as [|[x n] d IH]; [reflexivity|]. cbn [filter snd].
  destruct n as [|n]; cbn [Nat.ltb Nat.leb map snd]; change (list_sum (?x :: ?l)) with (x + list_sum l); rewrite IH; reflexivity.
Qed.

Lemma total_same {A} (d d' : list (A * nat)) : NoDup (map fst d) -> NoDup (map fst d') ->
  (forall x n, 0 < n -> (In (x, n) d <-> In (x, n) d')) -> total d = total d'.
Proof.
  intros N N' H. rewrite (total_positive d), (total_positive d'). unfold total.
  assert (P : Permutation (filter (fun x => 0 <? snd x) d) (filter (fun x => 0 <? snd x) d')).
  { apply NoDup_Permutation; [apply NoDup_filter, (NoDup_map_inv fst), N|apply NoDup_filter, (NoDup_map_inv fst), N'|].
    intros [x n]. rewrite !filter_In. cbn [snd]. destruct n as [|n]; [cbn; intuition discriminate|]. rewrite (H x (S n)) by lia. reflexivity. }
  apply (Permutation_map snd) in P. clear - P. induction P; try reflexivity; change list_sum with (fold_right Nat.add 0) in *; cbn [fold_right] in *; lia.
Qed.

(** the other function, on graphs without loops *)
Theorem C97_naive_total set_order g full l d : WF g -> reorders set_order -> comparable (nodes g) -> no_loops g ->
  triangles set_order g = Ok l -> naive_triangular_strength set_order g full = Ok d -> total d = 3 * List.length l.
Proof.
  intros W R C L T E. destruct (C42_agree_partial set_order g full W R C) as (d1 & d2 & E1 & E2 & N1 & N2 & A & _).
  assert (d2 = d) by congruence. subst d2. rewrite <- (C97_total set_order g full l d1 T E1). symmetry. apply total_same; [exact N1|exact N2|].
  intros [u v] n P. destruct (key_eq_dec u v) as [->|D]; [|rewrite (A u v n D); intuition].
  assert (NL : ~ linked g v v) by (intros [H|H]; rewrite L in H; discriminate).
  destruct (triangular_strength_spec set_order g full W R C) as (x & Ex & _ & KD & _). assert (x = d1) by congruence. subst x.
  destruct (naive_spec set_order g full W R C) as (y & Ey & _ & KD'). assert (y = d) by congruence. subst y. split; intros I; exfalso; apply NL.
  - assert (K : In (v, v) (map fst d1)) by (apply in_map_iff; exists (v, v, n); auto). apply KD in K. tauto.
  - apply KD' in I. tauto.
Qed.
Print Assumptions C97_naive_total.

(** a loop is given the number of neighbours of its node *)
Theorem C97_naive_total_refuted :
  exists g d, WF g /\ triangles in_order g = Ok [] /\ naive_triangular_strength in_order g true = Ok d /\ total d = 2.
Proof. exists looped. eexists. split; [apply graph_WF; reflexivity|]. vm_compute. auto. Qed.
Print Assumptions C97_naive_total_refuted.

Definition open_knot : graph := ex_graph false false [] (plain [(0, 1); (1, 2); (2, 0); (2, 3); (3, 0); (3, 4)]%Z).
Example C97_ex :
  (let* l := triangles in_order knot in let* d := triangular_strength in_order knot true in Ok (List.length l, total d)) = Ok (5, 15)
  /\ (let* l := triangles in_order open_knot in let* d := naive_triangular_strength in_order open_knot false in Ok (List.length l, total d)) = Ok (2, 6).
Proof. vm_compute. auto. Qed.
