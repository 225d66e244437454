(** * Lemmas about renamings: bfs_from_node, self_similarity_projection *)
From Coq Require Import List ZArith Lia Bool QArith.
From Verif Require Import PyBase PyNum NxGraph L_Base M_UnionFind M_Traversal M_Graph M_Proj S_Renaming L_Renaming L_Renaming2.
Import ListNotations.
Close Scope Q_scope.

Section Similarity.
Variable f : key -> key.
Hypothesis I : injective f.

(** queues whose items are nodes with their depth *)
Definition rq (t : trav (key * Z)) : trav (key * Z) :=
  mkT (map f (t_graph t)) (map (fun x => match x with inl k => inl (f k) | inr i => inr (on_key f i) end) (t_items t)) (map f (t_seen t)).

Lemma t_append_item_renamed n i t : fst (t_append (f n) (Some (on_key f i)) (rq t)) = rq (fst (t_append n (Some i) t)).
Proof.
  unfold t_append. cbn [rq t_seen]. rewrite (set_add_renamed f I), !map_length. destruct (Nat.eqb _ _); unfold rq; cbn [fst t_graph t_items t_seen]; [reflexivity|].
  rewrite map_app. reflexivity.
Qed.
Lemma t_popleft_renamed t : t_popleft (rq t)
  = (rq (fst (t_popleft t)), on_res (fun x => match x with inl k => inl (f k) | inr i => inr (on_key f i) end) (snd (t_popleft t))).
Proof. unfold t_popleft. cbn [rq t_items]. destruct (t_items t) as [|x r]; reflexivity. Qed.
Lemma bfs_neighbors_renamed g r n : bfs_neighbors (renamed f g) r (f n) = map f (bfs_neighbors g r n).
Proof. unfold bfs_neighbors. destruct r; [apply (predecessors_renamed f I)|apply (neighbors_renamed f I)]. Qed.
Lemma has_node_renamed g n : has_node (renamed f g) (f n) = has_node g n.
Proof. exact (dmem_renamed f I n (g_nodes g)). Qed.
Lemma fill_renamed l d : forall t, fold_left (fun q n => fst (t_append n (Some (n, d)) q)) (map f l) (rq t) = rq (fold_left (fun q n => fst (t_append n (Some (n, d)) q)) l t).
Proof.
  induction l as [|n l IH]; intros t; [reflexivity|]. cbn [map fold_left]. change (f n, d) with (on_key f (n, d)). rewrite t_append_item_renamed. apply IH.
Qed.
Lemma bfs_loop_renamed fuel g r limit : forall t, bfs_loop fuel (renamed f g) r limit (rq t) = on_res (map (on_key f)) (bfs_loop fuel g r limit t).
Proof.
  induction fuel as [|fuel IH]; intros t; [reflexivity|]. cbn [bfs_loop]. replace (t_len (rq t)) with (t_len t) by (unfold t_len; cbn; rewrite map_length; reflexivity).
  destruct (Nat.eqb (t_len t) 0); [reflexivity|]. rewrite t_popleft_renamed. destruct (t_popleft t) as [t' [[k|[n d]]|e]]; cbn [fst snd on_res on_key]; try reflexivity.
  assert (Y : (if (0 <? d)%Z then [(f n, d)] else []) = map (on_key f) (if (0 <? d)%Z then [(n, d)] else [])) by (destruct (0 <? d)%Z; reflexivity).
  rewrite Y. destruct (limit <=? d)%Z.
  - rewrite IH. destruct (bfs_loop fuel g r limit t'); cbn [on_res bind]; [rewrite map_app|]; reflexivity.
  - rewrite has_node_renamed. destruct (has_node g n); [|reflexivity]. rewrite bfs_neighbors_renamed, fill_renamed, IH.
    destruct (bfs_loop fuel g r limit _); cbn [on_res bind]; [rewrite map_app|]; reflexivity.
Qed.
Lemma bfs_from_node_renamed g n r limit : bfs_from_node (renamed f g) (f n) r limit = on_res (map (on_key f)) (bfs_from_node g n r limit).
Proof.
  unfold bfs_from_node. cbn zeta. rewrite order_renamed, nodes_renamed. rewrite <- bfs_loop_renamed. reflexivity.
Qed.

Definition ri (d : list (ikey * list key)) : list (ikey * list key) := map (fun x => ((fst (fst x), f (snd (fst x))), map f (snd x))) d.
Definition rk (k : ikey) : ikey := (fst k, f (snd k)).
Lemma ikey_eqb_renamed a b : ikey_eqb (rk a) (rk b) = ikey_eqb a b.
Proof. unfold ikey_eqb, rk. cbn [fst snd]. rewrite (key_eqb_renamed f I). reflexivity. Qed.
Lemma iget_renamed k d : iget (rk k) (ri d) = map f (iget k d).
Proof.
  induction d as [|[k' l] d IH]; [reflexivity|]. cbn [ri map iget fst snd]. change (fst k', f (snd k')) with (rk k'). rewrite ikey_eqb_renamed. destruct (ikey_eqb k k'); [reflexivity|exact IH].
Qed.
Lemma iappend_renamed k n d : iappend (rk k) (f n) (ri d) = ri (iappend k n d).
Proof.
  induction d as [|[k' l] d IH]; [reflexivity|]. cbn [ri map iappend fst snd]. change (fst k', f (snd k')) with (rk k'). rewrite ikey_eqb_renamed.
  destruct (ikey_eqb k k'); cbn [map fst snd]; [rewrite map_app; reflexivity|]. f_equal. exact IH.
Qed.
Lemma dincr_renamed k d : dincr (f k) (map (on_key f) d) = map (on_key f) (dincr k d).
Proof. unfold dincr. rewrite (dget_renamed f I). apply (dset_renamed f I). Qed.

Definition rs (s : scan) : scan := let '(norm, c, i, d) := s in (norm, map (on_key f) c, ri i, d).
Lemma scan_renamed n out l : forall s, scan_neighbors (f n) out (map (on_key f) l) (rs s) = rs (scan_neighbors n out l s).
Proof.
  unfold scan_neighbors. induction l as [|[m d] l IH]; intros [[[norm c] i] d0]; [reflexivity|]. cbn [map fold_left]. rewrite <- IH. f_equal.
  cbn [rs on_key fst snd]. change (out, d, f m) with (rk (out, d, m)). rewrite iget_renamed, iappend_renamed. do 3 f_equal.
  revert c. induction (iget (out, d, m) i) as [|x xs IHx]; intros c; [reflexivity|]. cbn [map fold_left]. rewrite dincr_renamed. apply IHx.
Qed.
Lemma link_candidate_renamed lib g norms n x h ci :
  link_candidate lib (renamed f g) (map (on_key f) norms) (f n) x (renamed f h) (on_key f ci) = on_res (renamed f) (link_candidate lib g norms n x h ci).
Proof.
  destruct ci as [c i]. change (on_key f (c, i)) with (f c, i). unfold link_candidate. rewrite (dget_renamed f I). destruct (dget c norms); [|reflexivity].
  cbn zeta. rewrite !(has_edge_renamed f I). destruct (n_div _ _ _); cbn [bind on_res]; [|reflexivity]. rewrite (add_edge_renamed f I). reflexivity.
Qed.
Lemma similarity_step_renamed lib g s na :
  let r := fun s : dict nat * list (ikey * list key) * graph * Z => let '(norms, i, h, d) := s in (map (on_key f) norms, ri i, renamed f h, d) in
  similarity_step lib (renamed f g) (r s) (on_key f na) = on_res r (similarity_step lib g s na).
Proof.
  cbn zeta. destruct s as [[[norms i] h] d]. destruct na as [n a]. change (on_key f (n, a)) with (f n, a). unfold similarity_step.
  rewrite (add_node_kw_renamed f I). destruct (add_node_kw h n a) as [h'|]; cbn [on_res bind]; [|reflexivity].
  rewrite bfs_from_node_renamed. destruct (bfs_from_node g n false d) as [l|]; cbn [on_res bind]; [|reflexivity].
  change (0, [], ri i, d) with (rs (0, [], i, d)). rewrite scan_renamed. destruct (scan_neighbors n true l (0, [], i, d)) as [[[n1 c1] i1] d1]. cbn [rs].
  rewrite bfs_from_node_renamed. destruct (bfs_from_node g n true d1) as [l2|]; cbn [on_res bind]; [|reflexivity].
  change (n1, map (on_key f) c1, ri i1, d1) with (rs (n1, c1, i1, d1)). rewrite scan_renamed. destruct (scan_neighbors n false l2 (n1, c1, i1, d1)) as [[[n2 c2] i2] d2]. cbn [rs].
  rewrite (dset_renamed f I). rewrite (foldM_renamed (renamed f) (on_key f) (link_candidate lib g (dset n n2 norms) n n2)).
  - destruct (foldM _ c2 h'); reflexivity.
  - intros. apply link_candidate_renamed.
Qed.
Lemma self_similarity_renamed lib g d : self_similarity_projection lib (renamed f g) d = on_res (renamed f) (self_similarity_projection lib g d).
Proof.
  unfold self_similarity_projection. cbn [renamed g_dir]. change (mkG _ _ _ _ _) with (renamed f g). destruct (negb (g_dir g)); [reflexivity|].
  rewrite order_renamed. destruct (Nat.eqb (order g) 0); [reflexivity|]. change (g_nodes (renamed f g)) with (map (on_key f) (g_nodes g)).
  pose proof (foldM_renamed _ (on_key f) _ _ (g_nodes g) (fun s na => similarity_step_renamed lib g s na) ([], [], empty_graph false false, d)) as E.
  match goal with |- context [foldM (similarity_step lib (renamed f g)) ?l ?s] =>
    match type of E with _ = ?r => replace (foldM (similarity_step lib (renamed f g)) l s) with r end end.
  destruct (foldM _ (g_nodes g) _) as [[[[a b] c] e]|]; reflexivity.
Qed.
End Similarity.
