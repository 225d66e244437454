(** * Proofs for C102 *)
From Coq Require Import List ZArith QArith Lia Bool String Permutation.
From Verif Require Import PyBase PyNum NxGraph L_Base L_Nx L_Nx2 S_Partition M_Graph M_Json M_Tabular S_Graph S_Json L_Graph L_Graph2 M_Proj S_Num L_Num S_Proj S_Pipe
  S_Tabular L_Tab L_Bip L_Bip2 L_Bip3 P_Tabular.
Import ListNotations.
Close Scope Q_scope.
Open Scope list_scope.

(** ** distinct values *)
Lemma distinct_In l x : In x (distinct l) -> In x l.
Proof.
  induction l as [|y l IH]; cbn; [tauto|]. intros [->|I]; [left; reflexivity|]. apply filter_In in I as [I _]. right. apply IH, I.
Qed.

Lemma distinct_known l x : In x l -> exists y, In y (distinct l) /\ val_eqb y x = true.
Proof.
  induction l as [|z l IH]; cbn; [tauto|]. intros [->|I]; [exists x; split; [left; reflexivity|apply val_eqb_refl]|].
  destruct (IH I) as (y & Iy & E). destruct (val_eqb z y) eqn:Ez.
  - exists z. split; [left; reflexivity|]. eapply val_eqb_trans; eassumption.
  - exists y. split; [right; apply filter_In; rewrite Ez; auto|exact E].
Qed.

Lemma distinct_apart l : ForallOrdPairs (fun x y => val_eqb x y = false) (distinct l).
Proof.
  induction l as [|z l IH]; cbn; [constructor|]. constructor.
  - apply Forall_forall. intros y I. apply filter_In in I as [_ I]. apply negb_true_iff in I. exact I.
  - induction IH as [|x l' H P IHP]; cbn; [constructor|]. destruct (negb (val_eqb z x)).
    + constructor; [|exact IHP]. apply Forall_forall. intros y I. apply filter_In in I as [I _]. rewrite Forall_forall in H. apply H, I.
    + exact IHP.
Qed.

Lemma rows_with_pos a b cells : 0 < rows_with a b cells <-> exists ab, In ab cells /\ val_eqb (fst ab) a = true /\ val_eqb (snd ab) b = true.
Proof.
  unfold rows_with. split.
  - destruct (filter _ cells) as [|ab l] eqn:F; cbn; [lia|]. intros _. exists ab.
    assert (I : In ab (ab :: l)) by (left; reflexivity). rewrite <- F in I. apply filter_In in I as [I E]. apply andb_true_iff in E as [E1 E2]. auto.
  - intros (ab & I & E1 & E2). assert (J : In ab (filter (fun ab => val_eqb (fst ab) a && val_eqb (snd ab) b) cells)) by (apply filter_In; rewrite E1, E2; auto).
    destruct (filter _ cells); [destruct J|cbn; lia].
Qed.

Lemma val_eqb_ext a a' x : val_eqb a a' = true -> val_eqb x a = val_eqb x a'.
Proof.
  intros E. apply eq_true_iff_eq. split; intros H; [eapply val_eqb_trans; eassumption|]. eapply val_eqb_trans; [exact H|]. rewrite val_eqb_sym. exact E.
Qed.

Lemma rows_with_ext a a' b b' cells : val_eqb a a' = true -> val_eqb b b' = true -> rows_with a b cells = rows_with a' b' cells.
Proof.
  intros E F. unfold rows_with. f_equal. apply filter_ext. intros ab. rewrite (val_eqb_ext a a' _ E), (val_eqb_ext b b' _ F). reflexivity.
Qed.

(** the first cell equal to a given one *)
Lemma first_match {A} (f : A -> bool) (l : list A) : (exists x, In x l /\ f x = true) ->
  exists i x, nth_error l i = Some x /\ f x = true /\ forall j y, j < i -> nth_error l j = Some y -> f y = false.
Proof.
  induction l as [|z l IH]; intros (x & I & E); [destruct I|]. destruct (f z) eqn:Ez.
  - exists 0, z. split; [reflexivity|]. split; [exact Ez|]. intros; lia.
  - destruct I as [->|I]; [congruence|]. destruct IH as (i & y & N & Ey & B); [eauto|]. exists (Datatypes.S i), y. split; [exact N|]. split; [exact Ey|].
    intros [|j] y' L N'; [cbn in N'; congruence|]. apply (B j); [lia|exact N'].
Qed.

Lemma accepts_names spec r a k v : accepts spec r -> collected spec r a -> dget k a = Some v -> node_name k.
Proof.
  intros A C D. destruct spec as [[f|cols|cols|]|]; cbn in A, C.
  - destruct A as (a' & E & H). assert (a' = a) as -> by congruence. apply H. apply dget_Some_In in D. unfold dkeys. apply in_map_iff. exists (k, v). auto.
  - destruct C as [[_ ->]|(d & -> & P)]; [discriminate D|]. apply P in D as (l1 & c & l2 & -> & _). destruct A as [A|[_ A]]; [destruct l1; discriminate A|].
    apply (A c). apply in_or_app. right. left. reflexivity.
  - destruct C as [[_ ->]|(d & -> & P)]; [discriminate D|]. apply P in D as (I & _). destruct A as [A|[_ A]]; [subst cols; destruct I|]. apply A, I.
  - contradiction.
  - subst a. discriminate D.
Qed.

(** ** the graph of a table *)
Section Pipe.
Variables (repr : nat -> string) (frepr : Q -> string) (c1 c2 part w : key) (d1 d2 : option data_spec) (name1 name2 : option val).
Notation build rows dis := (table_to_bipartite_graph repr frepr (TRows rows) c1 c2 part w d1 d2 name1 name2 dis).
Variables (rows : list row) (cells : list (val * val)) (g : graph).
Hypotheses (Bg : build rows false = Ok g) (Fc : Forall2 (reads c1 c2) rows cells) (PL : part <> K "label") (P1 : proper d1) (P2 : proper d2)
  (L1 : leaves d1 part) (L2 : leaves d2 part) (A1 : forall r, In r rows -> accepts d1 r) (A2 : forall r, In r rows -> accepts d2 r)
  (ND : val_eqb (part_name name2 c2) (part_name name1 c1) = false).
Notation one a := (node_of c1 c2 cells (c1, a)).
Notation two b := (node_of c1 c2 cells (c2, b)).
Notation p := (ByValue (part_name name1 c1)).

Lemma cells_here cells' : Forall2 (reads c1 c2) rows cells' -> cells' = cells.
Proof. intros F. eapply Forall2_fun; [apply reads_fun|exact F|exact Fc]. Qed.

Lemma c_differ : c1 <> c2.
Proof. exact (build_differ _ _ _ _ _ _ _ _ _ _ _ _ _ Bg). Qed.

Lemma table_kind : WF g /\ g_dir g = false /\ g_multi g = false.
Proof. destruct (main_ids repr frepr c1 c2 part w d1 d2 name1 name2 rows g Bg) as (cells' & F' & (Si & _) & _). exact Si. Qed.

Lemma table_attrs a b : edge_attrs g (one a) (two b) (KInt 0) = match rows_with a b cells with 0 => None | n => Some [(w, VInt (Z.of_nat n))] end.
Proof.
  destruct (C51_counts repr frepr c1 c2 part w d1 d2 name1 name2 rows g Bg) as (cells' & F & _ & _ & E & _). apply cells_here in F. subst cells'. apply E.
Qed.

Lemma table_edge a b : has_edge g (one a) (two b) = true <-> 0 < rows_with a b cells.
Proof.
  destruct table_kind as (W & _ & M). pose proof (table_attrs a b) as E. split.
  - intros H. destruct (has_edge_attrs g _ _ W M H) as (x & X). rewrite X in E. destruct (rows_with a b cells); [discriminate|lia].
  - intros H. destruct (rows_with a b cells); [lia|]. eapply edge_attrs_has. exact E.
Qed.

Lemma met_one ab : In ab cells -> In (c1, fst ab) (met c1 c2 cells).
Proof. intros I. unfold met. apply in_flat_map. exists ab. split; [exact I|left; reflexivity]. Qed.
Lemma met_two ab : In ab cells -> In (c2, snd ab) (met c1 c2 cells).
Proof. intros I. unfold met. apply in_flat_map. exists ab. split; [exact I|right; left; reflexivity]. Qed.

Lemma one_eq ab a : In ab cells -> (one (fst ab) = one a <-> val_eqb (fst ab) a = true).
Proof. intros I. rewrite (node_of_item c1 c2 cells _ _ (met_one ab I)). unfold item_eqb. cbn. rewrite key_eqb_refl. reflexivity. Qed.
Lemma two_eq ab b : In ab cells -> (two (snd ab) = two b <-> val_eqb (snd ab) b = true).
Proof. intros I. rewrite (node_of_item c1 c2 cells _ _ (met_two ab I)). unfold item_eqb. cbn. rewrite key_eqb_refl. reflexivity. Qed.
Lemma one_two ab b : In ab cells -> one (fst ab) <> two b.
Proof.
  intros I E. apply (node_of_item c1 c2 cells _ _ (met_one ab I)) in E. unfold item_eqb in E. cbn in E. pose proof c_differ as N. apply key_eqb_neq in N. rewrite N in E. discriminate.
Qed.
Lemma two_one ab a : In ab cells -> two (snd ab) <> one a.
Proof.
  intros I E. apply (node_of_item c1 c2 cells _ _ (met_two ab I)) in E. unfold item_eqb in E. cbn in E. pose proof c_differ as N. apply key_eqb_neq in N. rewrite key_eqb_sym, N in E. discriminate.
Qed.

Lemma table_edges u v : has_edge g u v = true -> exists ab, In ab cells /\ ((u = one (fst ab) /\ v = two (snd ab)) \/ (v = one (fst ab) /\ u = two (snd ab))).
Proof.
  destruct (C51_counts repr frepr c1 c2 part w d1 d2 name1 name2 rows g Bg) as (cells' & F & _ & _ & _ & E & _). apply cells_here in F. subst cells'.
  intros H. destruct (E u v H) as (ab & I & [X|[_ X]]); injection X as <- <-; exists ab; auto.
Qed.

Lemma row_of i : forall ab, nth_error cells i = Some ab -> exists r, nth_error rows i = Some r /\ In r rows.
Proof.
  intros ab N. assert (L : List.length rows = List.length cells) by (eapply Forall2_len; exact Fc).
  destruct (nth_error rows i) as [r|] eqn:E; [exists r; split; [reflexivity|eapply nth_error_In; exact E]|].
  apply nth_error_None in E. assert (X : nth_error cells i <> None) by congruence. apply nth_error_Some in X. lia.
Qed.

Lemma data_one ab : In ab cells -> exists r x, In r rows /\ node_data g (one (fst ab)) = Some x /\ exists a, node_attrs repr frepr part (part_name name1 c1) d1 r a x.
Proof.
  intros I. destruct (first_match (fun c => val_eqb (fst c) (fst ab)) cells) as (i & [a b] & N & E & B); [exists ab; split; [exact I|apply val_eqb_refl]|].
  destruct (row_of i _ N) as (r & Nr & Ir).
  destruct (C53_first_row repr frepr c1 c2 part w d1 d2 name1 name2 rows g P1 P2 Bg) as (cells' & F & H). apply cells_here in F. subst cells'.
  destruct (H i r a b Nr N) as [H1 _]. destruct H1 as (x & X & A).
  - intros j c L Nj. rewrite (val_eqb_ext a (fst ab) _ E). apply (B j c L Nj).
  - exists r, x. split; [exact Ir|]. split; [|eauto]. cbn [fst] in E. replace (one (fst ab)) with (one a); [exact X|].
    apply nth_error_In in N. exact (proj2 (one_eq _ (fst ab) N) E).
Qed.

Lemma data_two ab : In ab cells -> exists r x, In r rows /\ node_data g (two (snd ab)) = Some x /\ exists b, node_attrs repr frepr part (part_name name2 c2) d2 r b x.
Proof.
  intros I. destruct (first_match (fun c => val_eqb (snd c) (snd ab)) cells) as (i & [a b] & N & E & B); [exists ab; split; [exact I|apply val_eqb_refl]|].
  destruct (row_of i _ N) as (r & Nr & Ir).
  destruct (C53_first_row repr frepr c1 c2 part w d1 d2 name1 name2 rows g P1 P2 Bg) as (cells' & F & H). apply cells_here in F. subst cells'.
  destruct (H i r a b Nr N) as [_ H2]. destruct H2 as (x & X & A).
  - intros j c L Nj. rewrite (val_eqb_ext b (snd ab) _ E). apply (B j c L Nj).
  - exists r, x. split; [exact Ir|]. split; [|eauto]. cbn [snd] in E. replace (two (snd ab)) with (two b); [exact X|].
    apply nth_error_In in N. exact (proj2 (two_eq _ (snd ab) N) E).
Qed.

Lemma table_nodes n : In n (nodes g) -> exists ab, In ab cells /\ (n = one (fst ab) \/ n = two (snd ab)).
Proof.
  destruct (C52_nodes repr frepr c1 c2 part w d1 d2 name1 name2 rows g Bg) as (cells' & F & E & H & _). apply cells_here in F. subst cells'.
  rewrite E. intros I. apply in_map_iff in I as (i & <- & I). apply in_seq in I. destruct (nth_error (firsts (met c1 c2 cells)) i) as [x|] eqn:N.
  - rewrite <- (H i x N). apply nth_error_In in N. assert (J : In x (met c1 c2 cells)).
    { revert N. generalize (met c1 c2 cells). intros l. induction l as [|y l IH]; cbn; [tauto|]. intros [->|J]; [left; reflexivity|]. apply filter_In in J as [J _]. right. apply IH, J. }
    unfold met in J. apply in_flat_map in J as (ab & J & [<-|[<-|[]]]); exists ab; auto.
  - apply nth_error_None in N. lia.
Qed.

Lemma part_attr spec name r l x : leaves spec part -> node_attrs repr frepr part name spec r l x -> dget part x = Some name.
Proof.
  intros L (data & C & H). rewrite H, (L r data C). destruct (key_eqb_spec part (K "label")) as [E|E]; [contradiction|]. rewrite key_eqb_refl. reflexivity.
Qed.

Lemma name_not_none name c : part_name name c <> VNone.
Proof. destruct name as [[| | |]|]; discriminate. Qed.

Lemma kept_one ab : In ab cells -> S_Proj.kept g p part (one (fst ab)).
Proof.
  intros I. destruct (data_one ab I) as (r & x & Ir & X & a & A). exists x. split; [exact X|]. left. exists (part_name name1 c1).
  split; [eapply part_attr; [exact L1|exact A]|apply val_eqb_refl].
Qed.

Lemma not_kept_two ab : In ab cells -> ~ S_Proj.kept g p part (two (snd ab)).
Proof.
  intros I (y & Y & Ky). destruct (data_two ab I) as (r & x & Ir & X & b & A). assert (y = x) as -> by congruence. apply part_attr in A; [|exact L2].
  destruct Ky as [(v & V & E)|[V _]]; [|congruence]. assert (v = part_name name2 c2) as -> by congruence. congruence.
Qed.

Lemma kept_table n : S_Proj.kept g p part n <-> exists ab, In ab cells /\ n = one (fst ab).
Proof.
  split; [|intros (ab & I & ->); apply kept_one, I]. intros Kn. destruct (table_nodes n) as (ab & I & [->| ->]).
  - destruct Kn as (a & E & _). apply node_data_Some_In in E. exact E.
  - eauto.
  - destruct (not_kept_two ab I Kn).
Qed.

Lemma table_bipartite : bipartite g p part.
Proof.
  intros u v H. destruct (table_edges u v H) as (ab & I & [[-> ->]|[-> ->]]).
  - split; intros _; [apply not_kept_two, I|apply kept_one, I].
  - split; [intros Kx; destruct (not_kept_two ab I Kx)|intros Nx; destruct (Nx (kept_one ab I))].
Qed.

Lemma table_comparable : comparable_part g p part.
Proof. left. intros n Kn. apply kept_table in Kn as (ab & I & ->). unfold node_of. eauto. Qed.

Lemma table_names : part_names g p part.
Proof.
  intros n a k E Kp I Nk. assert (Kn : S_Proj.kept g p part n) by (exists a; auto). apply kept_table in Kn as (ab & J & ->).
  destruct (data_one ab J) as (r & x & Ir & X & l & (data & C & H)). assert (a = x) as -> by congruence.
  destruct (dget k x) as [v|] eqn:D.
  - specialize (H k). rewrite D in H. destruct (dget k data) as [v'|] eqn:D'; [exact (accepts_names d1 r data k v' (A1 r Ir) C D')|].
    destruct (key_eqb_spec k (K "label")) as [->|_]; [split; [eauto|]; intros [X'|[X'|[]]]; discriminate X'|].
    destruct (key_eqb_spec k part) as [->|_]; [contradiction|discriminate H].
  - apply dget_None in D. contradiction.
Qed.

Lemma table_unmarked : w <> part -> unmarked g p part.
Proof.
  intros N v Ev u t a Ku E Kp. injection Ev as Ev. pose proof (edge_attrs_has _ _ _ _ _ E) as H. destruct (table_edges u t H) as (ab & I & [[-> ->]|[-> ->]]).
  - rewrite table_attrs in E. destruct (rows_with (fst ab) (snd ab) cells); [discriminate|]. injection E as <-.
    destruct Kp as [(x & X & _)|[_ X]]; [cbn in X; destruct (key_eqb_spec part w); [congruence|discriminate]|exact (name_not_none _ _ X)].
  - exact (not_kept_two ab I Ku).
Qed.

(** ** neighbours *)
Lemma shared_table a a' t : In a (map fst cells) -> In a' (map fst cells) ->
  (shared g (one a) (one a') t <-> exists b, In b (together a a' cells) /\ t = two b).
Proof.
  intros Ia Ia'. apply in_map_iff in Ia as (ra & <- & Ia). apply in_map_iff in Ia' as (ra' & <- & Ia'). unfold shared, together. split.
  - intros [H H']. destruct (table_edges _ _ H) as (ab & I & [[E ->]|[-> E]]); [|destruct (one_two ra (snd ab) Ia E)].
    destruct (distinct_known (map snd cells) (snd ab)) as (b & Ib & Eb); [apply in_map, I|]. exists b.
    assert (T : two (snd ab) = two b) by (apply two_eq; [exact I|]; rewrite val_eqb_sym; exact Eb). rewrite T in H, H'. split; [|exact T].
    apply filter_In. split; [exact Ib|]. apply table_edge in H, H'. apply andb_true_iff. split; apply Nat.ltb_lt; assumption.
  - intros (b & Ib & ->). apply filter_In in Ib as [_ Ib]. apply andb_true_iff in Ib as [B B']. apply Nat.ltb_lt in B, B'. split; apply table_edge; assumption.
Qed.

Lemma two_distinct : NoDup (map (fun b => two b) (distinct (map snd cells))).
Proof.
  assert (S : forall b, In b (distinct (map snd cells)) -> exists ab, In ab cells /\ snd ab = b).
  { intros b I. apply distinct_In, in_map_iff in I as (ab & E & I). eauto. }
  pose proof (distinct_apart (map snd cells)) as O. revert S O. generalize (distinct (map snd cells)). intros l S O. induction O as [|b l H O IH]; cbn; [constructor|].
  constructor; [|apply IH; intros; apply S; right; assumption]. intros I. apply in_map_iff in I as (b' & E & I). rewrite Forall_forall in H. specialize (H b' I).
  destruct (S b (or_introl eq_refl)) as (ab & Iab & <-). symmetry in E. apply (two_eq ab b' Iab) in E. congruence.
Qed.

Lemma together_size a a' : In a (map fst cells) -> In a' (map fst cells) -> has_size (shared g (one a) (one a')) (List.length (together a a' cells)).
Proof.
  intros Ia Ia'. exists (map (fun b => two b) (together a a' cells)). split; [|apply map_length]. split.
  - pose proof two_distinct as N. unfold together. revert N. generalize (distinct (map snd cells)). intros l N. induction l as [|b l IH]; cbn; [constructor|].
    cbn in N. inversion N as [|? ? NI ND']; subst. destruct (_ && _); [|apply IH, ND']. cbn. constructor; [|apply IH, ND'].
    intros I. apply NI. apply in_map_iff in I as (b' & E & I). apply filter_In in I as [I _]. apply in_map_iff. eauto.
  - intros t. rewrite (shared_table a a' t Ia Ia'), in_map_iff. split; intros (b & X & Y); exists b; auto.
Qed.

Lemma table_bond a b : bond_number w g (one a) (two b) = NInt (Z.of_nat (rows_with a b cells)).
Proof.
  unfold bond_number. rewrite table_attrs. destruct (rows_with a b cells) as [|n]; [reflexivity|]. cbn [dget]. rewrite key_eqb_refl. reflexivity.
Qed.

(** the scalar product of two nodes *)
Lemma fold_ints lib (zs : list Z) : forall z, fold_left (n_add lib) (map NInt zs) (NInt z) = NInt (z + fold_right Z.add 0 zs)%Z.
Proof. induction zs as [|x zs IH]; intros z; cbn; [f_equal; lia|]. rewrite IH. f_equal. lia. Qed.

Lemma sum_perm (l l' : list Z) : Permutation l l' -> fold_right Z.add 0%Z l = fold_right Z.add 0%Z l'.
Proof. intros H. induction H; cbn; lia. Qed.

Lemma table_scalar lib a a' s : In a (map fst cells) -> In a' (map fst cells) -> python_scalar lib w g (one a) (one a') s -> s = NInt (products a a' cells).
Proof.
  intros Ia Ia' (l & N & H & ->).
  assert (Pm : Permutation l (map (fun b => two b) (together a a' cells))).
  { destruct (together_size a a' Ia Ia') as (l' & [N' H'] & _). apply NoDup_Permutation; [exact N| |].
    - pose proof two_distinct as N2. unfold together. revert N2. generalize (distinct (map snd cells)). intros m N2. induction m as [|b m IH]; cbn; [constructor|].
      cbn in N2. inversion N2 as [|? ? NI ND']; subst. destruct (_ && _); [|apply IH, ND']. cbn. constructor; [|apply IH, ND'].
      intros I. apply NI. apply in_map_iff in I as (b' & E & I). apply filter_In in I as [I _]. apply in_map_iff. eauto.
    - intros t. rewrite H, (shared_table a a' t Ia Ia'), in_map_iff. split; intros (b & X & Y); exists b; auto. }
  set (f := fun t => match n_mul lib (bond_number w g (one a) t) (bond_number w g (one a') t) with NInt z => z | _ => 0%Z end).
  assert (Ef : map (fun t => n_mul lib (bond_number w g (one a) t) (bond_number w g (one a') t)) l = map NInt (map f l)).
  { rewrite map_map. apply map_ext_in. intros t It. apply H, (shared_table a a' t Ia Ia') in It as (b & _ & ->). unfold f. rewrite !table_bond. reflexivity. }
  rewrite Ef, fold_ints. f_equal. rewrite Z.add_0_l, (sum_perm _ _ (Permutation_map f Pm)), map_map. unfold products, sum_Z, together, f.
  generalize (distinct (map snd cells)). intros m. induction m as [|b m IH]; [reflexivity|]. cbn [filter map fold_right].
  destruct ((0 <? rows_with a b cells) && (0 <? rows_with a' b cells)) eqn:B; cbn [map fold_right].
  - rewrite IH, !table_bond. reflexivity.
  - rewrite IH. apply andb_false_iff in B as [B|B]; apply Nat.ltb_ge in B.
    + replace (rows_with a b cells) with 0 by lia. lia.
    + replace (rows_with a' b cells) with 0 by lia. lia.
Qed.
End Pipe.
