(** * Lemmas about DataFrames *)
From Coq Require Import List ZArith QArith Lia Bool String.
From Verif Require Import PyBase PyNum NxGraph L_Base L_Nx L_Nx2 M_Graph M_Shim M_Json M_Tabular S_Graph S_Json S_Tabular L_Graph L_Graph2 L_Sparse L_Rename L_Json L_Tab L_Bip L_Bip2 L_Bip3 L_Edges.
Import ListNotations.
Open Scope list_scope.

(** ** Rows of a frame *)
Lemma zip_star_map n (ls : list (list val)) : ls <> [] -> (forall l, In l ls -> List.length l = n) ->
  zip_star ls = map (fun i => map (fun l => nth i l VNone) ls) (seq 0 n).
Proof.
  assert (One : forall l, List.length l = n -> map (fun x : val => [x]) l = map (fun i => [nth i l VNone]) (seq 0 n)).
  { intros l <-. clear. induction l as [|x l IH]; [reflexivity|]. cbn [List.length seq map nth]. f_equal. rewrite <- seq_shift, map_map. exact IH. }
  assert (Two : forall l (h : nat -> list val), List.length l = n -> map (fun p : val * list val => fst p :: snd p) (combine l (map h (seq 0 n))) = map (fun i => nth i l VNone :: h i) (seq 0 n)).
  { intros l h <-. clear. revert h. induction l as [|x l IH]; intros h; [reflexivity|]. cbn [List.length seq map combine fst snd nth]. f_equal.
    rewrite <- seq_shift, !map_map. rewrite <- (IH (fun i => h (Datatypes.S i))). reflexivity. }
  induction ls as [|l ls IH]; intros N H; [contradiction|]. destruct ls as [|l2 ls].
  - cbn [zip_star map]. apply One. apply H. left. reflexivity.
  - change (map (fun p : val * list val => fst p :: snd p) (combine l (zip_star (l2 :: ls))) = map (fun i => map (fun l0 => nth i l0 VNone) (l :: l2 :: ls)) (seq 0 n)).
    rewrite IH; [|discriminate|intros; apply H; right; assumption]. apply Two. apply H. left. reflexivity.
Qed.

Lemma mapM_cols (f : frame) cols ls : (let* l := mapM (fun col => match dget col (f_cols f) with Some l => Ok l | None => Err KeyError end) cols in Ok l) = Ok ls ->
  Forall2 (fun c l => dget c (f_cols f) = Some l) cols ls.
Proof.
  revert ls. induction cols as [|c cols IH]; intros ls H; cbn [mapM bind] in H.
  - inversion H. constructor.
  - destruct (dget c (f_cols f)) as [l|] eqn:E; [|discriminate]. cbn [bind] in H.
    destruct (mapM _ cols) as [ls'|] eqn:M; [|discriminate]. cbn [bind] in H. inversion H; subst. constructor; [assumption|]. apply IH. reflexivity.
Qed.

Lemma mapM_cols_ok (f : frame) cols : (forall c, In c cols -> In c (dkeys (f_cols f))) ->
  exists ls, mapM (fun col => match dget col (f_cols f) with Some l => Ok l | None => Err KeyError end) cols = Ok ls
  /\ Forall2 (fun c l => dget c (f_cols f) = Some l) cols ls.
Proof.
  induction cols as [|c cols IH]; intros H; [exists []; split; [reflexivity|constructor]|].
  destruct (dkeys_dget c (f_cols f) (H c (or_introl eq_refl))) as [l E]. destruct (IH (fun c' Hc => H c' (or_intror Hc))) as (ls & M & F).
  exists (l :: ls). cbn [mapM]. rewrite E. cbn [bind]. rewrite M. cbn [bind]. split; [reflexivity|constructor; assumption].
Qed.

Lemma dget_combine_nth (f : frame) cols ls i c : Forall2 (fun c l => dget c (f_cols f) = Some l) cols ls ->
  dget c (rev (combine cols (map (fun l => nth i l VNone) ls))) = if mem c cols then option_map (fun l => nth i l VNone) (dget c (f_cols f)) else None.
Proof.
  induction 1 as [|c0 l cols ls E F IH]; [reflexivity|]. cbn [map combine rev]. rewrite dget_app, IH. cbn [dget]. rewrite mem_cons.
  destruct (key_eqb_spec c c0) as [->|N].
  - cbn [orb]. rewrite E. destruct (mem c0 cols); reflexivity.
  - cbn [orb]. destruct (mem c cols); [|reflexivity]. destruct (dget c (f_cols f)); reflexivity.
Qed.

Theorem iterate f cols : rectangular f -> cols <> [] -> (forall c, In c cols -> In c (dkeys (f_cols f))) ->
  exists rows, iterator_from_dataframe (TFrame f) (Some cols) = Ok rows /\ List.length rows = f_rows f
  /\ forall i r, nth_error rows i = Some r -> exists d, r = RDict d /\ NoDup (dkeys d) /\ forall c, dget c d = if mem c cols then cell f c i else None.
Proof.
  intros (ND & Le & _) Ne H. destruct (mapM_cols_ok f cols H) as (ls & M & F). unfold iterator_from_dataframe. rewrite M. cbn [bind]. eexists. split; [reflexivity|].
  assert (Ll : forall l, In l ls -> List.length l = f_rows f).
  { clear - F Le. induction F as [|c l cols ls E F IH]; intros l' Hl; [destruct Hl|]. destruct Hl as [<- |Hl]; [|apply IH; assumption].
    apply (Le c). apply dget_Some_In. assumption. }
  assert (Nl : ls <> []) by (intros ->; inversion F; subst; contradiction).
  rewrite (zip_star_map (f_rows f) ls Nl Ll). split; [rewrite !map_length, seq_length; reflexivity|].
  intros i r Hr. rewrite map_map, nth_error_map in Hr. destruct (nth_error (seq 0 (f_rows f)) i) as [j|] eqn:E; [|discriminate].
  assert (Hi : i < f_rows f) by (rewrite <- (seq_length (f_rows f) 0); apply nth_error_Some; congruence).
  apply (nth_error_nth _ _ 0) in E. rewrite seq_nth in E by assumption. cbn in E. subst j. cbn in Hr. inversion Hr; subst r. eexists. split; [reflexivity|].
  split; [apply NoDup_dupdate; constructor|]. intros c. rewrite dget_dupdate. rewrite (dget_combine_nth f cols ls i c F). cbn [dget]. destruct (mem c cols) eqn:Mc; [|reflexivity].
  unfold cell. destruct (dget c (f_cols f)) as [l|] eqn:E; [|reflexivity]. cbn [option_map]. symmetry. apply nth_error_nth'. rewrite (Le c l); [assumption|]. apply dget_Some_In. assumption.
Qed.

Lemma iterate_all f : rectangular f -> iterator_from_dataframe (TFrame f) None = Ok (records f).
Proof.
  intros (ND & Le & Em). unfold iterator_from_dataframe, records.
  assert (M : mapM (fun col => match dget col (f_cols f) with Some l => Ok l | None => Err KeyError end) (dkeys (f_cols f)) = Ok (map snd (f_cols f))).
  { rewrite (mapM_Ok _ (fun col => match dget col (f_cols f) with Some l => l | None => [] end)).
    - f_equal. unfold dkeys. rewrite map_map. apply map_ext_in. intros [c l] I. cbn [fst snd]. rewrite (dget_In c l) by assumption. reflexivity.
    - intros c Hc. destruct (dkeys_dget c _ Hc) as [l ->]. reflexivity. }
  rewrite M. cbn [bind]. f_equal. destruct (f_cols f) as [|cl cols] eqn:E; [rewrite (Em eq_refl); reflexivity|]. rewrite <- E in *.
  rewrite (zip_star_map (f_rows f)).
  - rewrite map_map. apply map_ext. intros i. f_equal. replace (combine (dkeys (f_cols f)) (map (fun l => nth i l VNone) (map snd (f_cols f)))) with (map (fun cl => (fst cl, nth i (snd cl) VNone)) (f_cols f)).
    + apply dupdate_nil. unfold dkeys in *. rewrite map_map. exact ND.
    + unfold dkeys. clear. induction (f_cols f) as [|[c l] d IH]; [reflexivity|]. cbn. f_equal. exact IH.
  - rewrite E. discriminate.
  - intros l Hl. apply in_map_iff in Hl as ([c l'] & <- & I). apply (Le c). assumption.
Qed.

(** functions of tables of edges only read the selected columns *)
Definition agree (cols : list key) (r r' : row) : Prop := forall c, In c cols -> row_item r c = row_item r' c.

Lemma row_data_agree repr cols r r' : agree cols r r' -> row_data repr cols r = row_data repr cols r'.
Proof.
  unfold row_data. intros A. generalize (@nil (key * val)) as acc. induction cols as [|c cols IH]; intros acc; [reflexivity|]. cbn [foldM].
  rewrite (A c (or_introl eq_refl)). destruct (row_item r' c); cbn [bind]; [|reflexivity]. apply IH. intros c' Hc. apply A. right. assumption.
Qed.

Lemma edge_row_agree repr sc tc ed count w miss g r r' : agree ([sc; tc] ++ ed) r r' -> edge_row repr sc tc ed count w miss g r = edge_row repr sc tc ed count w miss g r'.
Proof.
  intros A. unfold edge_row. rewrite (A sc) by (left; reflexivity). rewrite (A tc) by (right; left; reflexivity).
  rewrite (row_data_agree repr ed r r'); [reflexivity|]. intros c Hc. apply A. right. right. assumption.
Qed.

Lemma node_row_agree repr nc nd g r r' : agree (nc :: nd) r r' -> node_row repr nc nd g r = node_row repr nc nd g r'.
Proof.
  intros A. unfold node_row. rewrite (A nc) by (left; reflexivity). rewrite (row_data_agree repr nd r r'); [reflexivity|]. intros c Hc. apply A. right. assumption.
Qed.

Lemma foldM_agree {S A} (step : S -> A -> res S) l l' : Forall2 (fun a b => forall s, step s a = step s b) l l' -> forall s, foldM step l s = foldM step l' s.
Proof. induction 1 as [|a b l l' E F IH]; intros s; [reflexivity|]. cbn [foldM]. rewrite E. destruct (step s b); cbn [bind]; [apply IH|reflexivity]. Qed.

Lemma nth_Forall2 {A B} (R : A -> B -> Prop) l l' : List.length l = List.length l' -> (forall i a b, nth_error l i = Some a -> nth_error l' i = Some b -> R a b) -> Forall2 R l l'.
Proof.
  revert l'. induction l as [|a l IH]; intros [|b l'] Le H; try discriminate; constructor; [apply (H 0); reflexivity|]. apply IH; [cbn in Le; lia|]. intros i. apply (H (Datatypes.S i)).
Qed.

Lemma rows_agree f cols rows rows' : List.length rows = f_rows f ->
  (forall i r, nth_error rows i = Some r -> exists d, r = RDict d /\ NoDup (dkeys d) /\ forall c, dget c d = if mem c cols then cell f c i else None) ->
  rows_of f rows' -> Forall2 (agree cols) rows rows'.
Proof.
  intros L H [L' H']. apply nth_Forall2; [congruence|]. intros i a b Ha Hb c Hc. destruct (H i a Ha) as (d & -> & _ & G). destruct (H' i b Hb) as (d' & -> & _ & G').
  cbn. rewrite G, G'. apply mem_In in Hc. rewrite Hc. reflexivity.
Qed.

Theorem edges_frame repr f rows sc tc ed count w dir : rectangular f -> (forall c, In c ([sc; tc] ++ ed) -> In c (dkeys (f_cols f))) -> rows_of f rows ->
  edges_table_to_graph repr (TFrame f) sc tc ed count w dir = edges_table_to_graph repr (TRows rows) sc tc ed count w dir.
Proof.
  intros R H Ro. unfold edges_table_to_graph. destruct (iterate f ([sc; tc] ++ ed) R ltac:(discriminate) H) as (rs & E & L & D). rewrite E. cbn [iterator_from_dataframe bind].
  unfold edges_rows_to_graph. apply foldM_agree. pose proof (rows_agree f _ rs rows L D Ro) as F. eapply Forall2_imp; [|exact F]. intros r r' _ A s. apply edge_row_agree. exact A.
Qed.

Theorem tables_frames repr nf nrows ef erows nc sc tc nd ed count w miss dir :
  rectangular nf -> rectangular ef -> (forall c, In c (nc :: nd) -> In c (dkeys (f_cols nf))) -> (forall c, In c ([sc; tc] ++ ed) -> In c (dkeys (f_cols ef))) ->
  rows_of nf nrows -> rows_of ef erows ->
  tables_to_graph repr (TFrame nf) (TFrame ef) nc sc tc nd ed count w miss dir = tables_to_graph repr (TRows nrows) (TRows erows) nc sc tc nd ed count w miss dir.
Proof.
  intros Rn Re Hn He Ron Roe. unfold tables_to_graph. destruct (iterate nf (nc :: nd) Rn ltac:(discriminate) Hn) as (rn & En & Ln & Dn). destruct (iterate ef ([sc; tc] ++ ed) Re ltac:(discriminate) He) as (re & Ee & Le & De).
  rewrite En, Ee. cbn [iterator_from_dataframe bind].
  rewrite (foldM_agree (node_row repr nc nd) rn nrows).
  - destruct (foldM _ nrows _); cbn [bind]; [|reflexivity]. unfold edges_rows_to_graph. apply foldM_agree. pose proof (rows_agree ef _ re erows Le De Roe) as F. eapply Forall2_imp; [|exact F]. intros r r' _ A s. apply edge_row_agree. exact A.
  - pose proof (rows_agree nf _ rn nrows Ln Dn Ron) as F. eapply Forall2_imp; [|exact F]. intros r r' _ A s. apply node_row_agree. exact A.
Qed.

Lemma records_rows f : rectangular f -> rows_of f (records f).
Proof.
  intros (ND & Le & _). split; [unfold records; rewrite map_length, seq_length; reflexivity|]. intros i r Hr. unfold records in Hr. rewrite nth_error_map in Hr.
  destruct (nth_error (seq 0 (f_rows f)) i) as [j|] eqn:E; [|discriminate]. assert (Hi : i < f_rows f) by (rewrite <- (seq_length (f_rows f) 0); apply nth_error_Some; congruence).
  apply (nth_error_nth _ _ 0) in E. rewrite seq_nth in E by assumption. cbn in E. subst j. cbn in Hr. inversion Hr; subst r. eexists. split; [reflexivity|]. split.
  - unfold dkeys in *. rewrite map_map. exact ND.
  - intros c. unfold cell. clear Hr ND. induction (f_cols f) as [|[c' l] d IH]; [reflexivity|]. cbn. destruct (key_eqb c c').
    + symmetry. apply nth_error_nth'. rewrite (Le c' l); [assumption|left; reflexivity].
    + apply IH. intros c0 l0 H0. apply (Le c0). right. assumption.
Qed.

(** ** Making frames *)
(** whether a column becomes one of floats *)
Definition to_floats (cells : list (option val)) : bool :=
  negb (existsb (fun c => match c with Some (VBool _ | VKey (KStr _ | KObj _)) => true | Some (VKey (KInt z)) => huge z | _ => false end) cells)
  && (existsb (fun c => match c with None | Some (VFloat _) => true | _ => false end) cells
      || (existsb (fun c => match c with Some (VKey (KInt _)) => true | _ => false end) cells && existsb (fun c => match c with Some VNone => true | _ => false end) cells)).
Definition turned (nan : val) (cells : list (option val)) (c : option val) : val :=
  if to_floats cells
  then match c with Some (VKey (KInt z)) => VFloat (round64 (inject_Z z)) | Some (VFloat q) => VFloat q | _ => nan end
  else match c with Some v => v | None => nan end.
Lemma convert_map nan cells : convert_column nan cells = map (turned nan cells) cells.
Proof. unfold convert_column, turned. fold (to_floats cells). destruct (to_floats cells); reflexivity. Qed.

Lemma not_objects vals : existsb (fun c => match c with Some (VBool _ | VKey (KStr _ | KObj _)) => true | Some (VKey (KInt z)) => huge z | _ => false end) (map Some vals) = true <-> exists v, In v vals /\ is_object v.
Proof.
  rewrite existsb_exists. split.
  - intros (c & Hc & B). apply in_map_iff in Hc as (v & <- & Hv). exists v. split; [assumption|]. destruct v as [| | |[]]; try discriminate; try exact I.
    unfold huge in B. apply orb_true_iff in B as [B|B]; [left; apply Z.ltb_lt; assumption|right; apply Z.leb_le; assumption].
  - intros (v & Hv & O). exists (Some v). split; [apply in_map; assumption|]. destruct v as [| | |[]]; cbn in O; try reflexivity; try destruct O.
    + unfold huge. apply orb_true_iff. left. apply Z.ltb_lt. assumption.
    + unfold huge. apply orb_true_iff. right. apply Z.leb_le. assumption.
Qed.

Lemma some_float vals : existsb (fun c => match c with None | Some (VFloat _) => true | _ => false end) (map Some vals) = true <-> exists q, In (VFloat q) vals.
Proof.
  rewrite existsb_exists. split.
  - intros (c & Hc & B). apply in_map_iff in Hc as (v & <- & Hv). destruct v; try discriminate. eauto.
  - intros (q & H). exists (Some (VFloat q)). split; [apply in_map; assumption|reflexivity].
Qed.
Lemma some_int vals : existsb (fun c => match c with Some (VKey (KInt _)) => true | _ => false end) (map Some vals) = true <-> exists z, In (VInt z) vals.
Proof.
  rewrite existsb_exists. split.
  - intros (c & Hc & B). apply in_map_iff in Hc as (v & <- & Hv). destruct v as [| | |[]]; try discriminate. eauto.
  - intros (q & H). exists (Some (VInt q)). split; [apply in_map; assumption|reflexivity].
Qed.
Lemma some_none vals : existsb (fun c => match c with Some VNone => true | _ => false end) (map Some vals) = true <-> In VNone vals.
Proof.
  rewrite existsb_exists. split.
  - intros (c & Hc & B). apply in_map_iff in Hc as (v & <- & Hv). destruct v; try discriminate. assumption.
  - intros H. exists (Some VNone). split; [apply in_map; assumption|reflexivity].
Qed.
Lemma to_floats_iff vals : to_floats (map Some vals) = true <->
  ~ (exists v, In v vals /\ is_object v) /\ ((exists q, In (VFloat q) vals) \/ (exists z, In (VInt z) vals) /\ In VNone vals).
Proof. unfold to_floats. rewrite andb_true_iff, orb_true_iff, andb_true_iff, negb_true_iff, <- not_true_iff_false, not_objects, some_float, some_int, some_none. reflexivity. Qed.

Lemma turned_clean nan vals : clean vals -> forall v, In v vals -> val_eqb v (turned nan (map Some vals) (Some v)) = true.
Proof.
  intros C v Hv. unfold turned. destruct (to_floats (map Some vals)) eqn:B; [|apply val_eqb_refl]. apply to_floats_iff in B as [O F].
  destruct C as [C|[N R]]; [contradiction|]. assert (Nn : ~ In VNone vals).
  { intros Hn. destruct F as [(q & Hq)|[(z & Hz) _]]; [specialize (N Hn _ Hq)|specialize (N Hn _ Hz)]; discriminate. }
  destruct v as [|b|q|[z|s|n]].
  - contradiction.
  - destruct O. exists (VBool b). split; [assumption|exact I].
  - apply (val_eqb_refl (VFloat q)).
  - unfold val_eqb. cbn [num_of]. apply Qeq_bool_iff. destruct F as [(q & Hq)|[_ Hn]]; [|contradiction]. symmetry. exact (R q z Hq Hv).
  - destruct O. exists (VKey (KStr s)). split; [assumption|exact I].
  - destruct O. exists (VKey (KObj n)). split; [assumption|exact I].
Qed.

Lemma turned_unclean nan vals : val_eqb VNone nan = false -> (forall v, In v vals -> val_eqb v (turned nan (map Some vals) (Some v)) = true) -> clean vals.
Proof.
  intros Nn H. unfold turned in H. destruct (existsb (fun c => match c with Some (VBool _ | VKey (KStr _ | KObj _)) => true | Some (VKey (KInt z)) => huge z | _ => false end) (map Some vals)) eqn:O; [left; apply not_objects; assumption|].
  rewrite <- not_true_iff_false, not_objects in O. right. split.
  - intros Hn v Hv. destruct (to_floats (map Some vals)) eqn:B; [specialize (H VNone Hn); cbv beta iota in H; congruence|].
    rewrite <- not_true_iff_false, to_floats_iff in B. destruct v as [|b|q|[z|s|n]]; [reflexivity| | | | |].
    + destruct O. exists (VBool b). split; [assumption|exact I].
    + destruct B. split; [assumption|left; eauto].
    + destruct B. split; [assumption|right; split; [eauto|assumption]].
    + destruct O. exists (VKey (KStr s)). split; [assumption|exact I].
    + destruct O. exists (VKey (KObj n)). split; [assumption|exact I].
  - intros q z Hq Hz. assert (B : to_floats (map Some vals) = true) by (apply to_floats_iff; split; [assumption|left; eauto]). rewrite B in H.
    specialize (H _ Hz). unfold val_eqb in H. cbn [num_of] in H. apply Qeq_bool_iff in H. symmetry. exact H.
Qed.

Lemma convert_keys nan ks : convert_column nan (map (fun k => Some (VKey k)) ks) = map VKey ks.
Proof.
  unfold convert_column.
  assert (F : existsb (fun c : option val => match c with None | Some (VFloat _) => true | _ => false end) (map (fun k => Some (VKey k)) ks) = false) by (clear; induction ks; [reflexivity|assumption]).
  assert (N : existsb (fun c : option val => match c with Some VNone => true | _ => false end) (map (fun k => Some (VKey k)) ks) = false) by (clear; induction ks; [reflexivity|assumption]).
  rewrite F, N. rewrite andb_false_r. cbn [orb]. rewrite andb_false_r. rewrite map_map. reflexivity.
Qed.

Lemma convert_length nan cells : List.length (convert_column nan cells) = List.length cells.
Proof. unfold convert_column. match goal with |- context [if ?b then _ else _] => destruct b end; apply map_length. Qed.

Lemma add_columns_In l : forall acc c, In c (fold_left add_column l acc) <-> In c l \/ In c acc.
Proof. exact (add_ids_In l). Qed.

Lemma columns_In rows c : In c (columns_of rows) <-> exists r, In r rows /\ In c (dkeys r).
Proof.
  unfold columns_of. assert (G : forall acc, In c (fold_left (fun cols r => fold_left add_column (dkeys r) cols) rows acc) <-> (exists r, In r rows /\ In c (dkeys r)) \/ In c acc).
  { induction rows as [|r rows IH]; intros acc; cbn [fold_left].
    - split; [auto|]. intros [(r & [] & _)|H]; exact H.
    - rewrite IH, add_columns_In. split.
      + intros [(r' & Hr & Hc)|[H|H]]; [left; exists r'; split; [right|]; assumption|left; exists r; split; [left; reflexivity|assumption]|auto].
      + intros [(r' & [<- |Hr] & Hc)|H]; [auto|left; exists r'; auto|auto]. }
  rewrite G. cbn. tauto.
Qed.

Lemma columns_NoDup rows : NoDup (columns_of rows).
Proof.
  unfold columns_of. assert (A : forall l acc, NoDup acc -> NoDup (fold_left add_column l acc)).
  { induction l as [|x l IH]; intros acc N; [exact N|]. apply IH. unfold add_column. destruct (mem_spec x acc); [assumption|apply NoDup_snoc; assumption]. }
  assert (G : forall acc, NoDup acc -> NoDup (fold_left (fun cols r => fold_left add_column (dkeys r) cols) rows acc)) by (induction rows as [|r rows IH]; intros acc N; [exact N|]; apply IH, A, N).
  apply G. constructor.
Qed.

Lemma dget_map_keys {A} (F : key -> A) l c : dget c (map (fun c => (c, F c)) l) = if mem c l then Some (F c) else None.
Proof. induction l as [|x l IH]; [reflexivity|]. cbn [map dget]. rewrite mem_cons, IH. destruct (key_eqb_spec c x) as [->|]; reflexivity. Qed.

Lemma frame_cols nan rows idx c : In c (dkeys (f_cols (make_frame nan rows idx))) <-> exists r, In r rows /\ In c (dkeys r).
Proof. rewrite <- columns_In. unfold make_frame, dkeys. cbn [f_cols]. rewrite map_map. cbn [fst]. rewrite map_id. reflexivity. Qed.

Lemma frame_cell nan rows idx c i : (exists r, In r rows /\ In c (dkeys r)) ->
  cell (make_frame nan rows idx) c i = nth_error (convert_column nan (map (fun r => dget c r) rows)) i.
Proof.
  intros H. apply columns_In in H. unfold cell, make_frame. cbn [f_cols]. rewrite (dget_map_keys (fun c => convert_column nan (map (fun r => dget c r) rows))).
  apply mem_In in H. rewrite H. reflexivity.
Qed.

Lemma frame_rectangular nan rows idx : (rows <> [] -> exists c r, In r rows /\ In c (dkeys r)) -> rectangular (make_frame nan rows idx).
Proof.
  intros H. split; [|split].
  - unfold make_frame, dkeys. cbn [f_cols]. rewrite map_map. cbn [fst]. rewrite map_id. apply columns_NoDup.
  - intros c l I. cbn [make_frame f_cols f_rows] in *. apply in_map_iff in I as (c' & E & _). inversion E; subst. rewrite convert_length, map_length. reflexivity.
  - intros E. cbn [make_frame f_rows f_cols] in *. destruct rows as [|r rows]; [reflexivity|]. destruct (H ltac:(discriminate)) as (c & r' & Hr & Hc).
    assert (X : In c (columns_of (r :: rows))) by (apply columns_In; eauto). destruct (columns_of (r :: rows)); [destruct X|discriminate].
Qed.

(** a column of keys *)
Lemma key_column nan rows idx c ks : map (fun r => dget c r) rows = map (fun k => Some (VKey k)) ks -> forall i k, nth_error ks i = Some k -> cell (make_frame nan rows idx) c i = Some (VKey k).
Proof.
  intros E i k Hk. rewrite frame_cell.
  - rewrite E, convert_keys. apply map_nth_error. assumption.
  - assert (Hi : nth_error (map (fun r => dget c r) rows) i = Some (Some (VKey k))) by (rewrite E; apply map_nth_error with (f := fun k => Some (VKey k)); assumption).
    rewrite nth_error_map in Hi. destruct (nth_error rows i) as [r|] eqn:Er; [|discriminate]. exists r. split; [eapply nth_error_In; eassumption|]. cbn in Hi. inversion Hi as [X]. eapply dget_Some_key; eassumption.
Qed.

(** a column of attributes *)
Lemma attr_column nan rows idx c vals : map (fun r => dget c r) rows = map Some vals ->
  forall i v, nth_error vals i = Some v -> cell (make_frame nan rows idx) c i = Some (turned nan (map Some vals) (Some v)).
Proof.
  intros E i v Hv. rewrite frame_cell.
  - rewrite E, convert_map. apply (map_nth_error (turned nan (map Some vals))), (map_nth_error Some), Hv.
  - assert (Hi : nth_error (map (fun r => dget c r) rows) i = Some (Some v)) by (rewrite E; apply map_nth_error; assumption).
    rewrite nth_error_map in Hi. destruct (nth_error rows i) as [r|] eqn:Er; [|discriminate]. exists r. split; [eapply nth_error_In; eassumption|]. cbn in Hi. inversion Hi as [X]. eapply dget_Some_key; eassumption.
Qed.

(** ** The frames of a graph *)
Definition node_line (c : key) (na : key * attrs) : attrs := dupdate [(c, VKey (fst na))] (snd na).

Lemma node_line_get c na k : NoDup (dkeys (snd na)) -> dget k (node_line c na) = match dget k (snd na) with Some v => Some v | None => if key_eqb k c then Some (VKey (fst na)) else None end.
Proof. intros N. unfold node_line. rewrite dget_dupdate_nodup by assumption. reflexivity. Qed.

Lemma node_keys nan g c idx : WF g -> (forall n a, In (n, a) (g_nodes g) -> ~ In c (dkeys a)) ->
  forall i n, nth_error (nodes g) i = Some n -> cell (make_frame nan (map (node_line c) (g_nodes g)) idx) c i = Some (VKey n).
Proof.
  intros W N. apply key_column. unfold nodes, dkeys. rewrite !map_map. apply map_ext_in. intros [n a] I. rewrite node_line_get by (eapply wf_nattrs; eassumption). cbn [fst snd].
  assert (E : dget c a = None) by (apply dget_None; eapply N; eassumption). rewrite E, key_eqb_refl. reflexivity.
Qed.

Definition plain_edge_line (sc tc : key) (e : key * key * attrs) : attrs := let '(u, v, a) := e in dupdate (dupdate [] [(sc, VKey u); (tc, VKey v)]) a.

Lemma edge_line_get sc tc u v a k : NoDup (dkeys a) -> dget k (plain_edge_line sc tc (u, v, a)) =
  match dget k a with Some x => Some x | None => if key_eqb k tc then Some (VKey v) else if key_eqb k sc then Some (VKey u) else None end.
Proof.
  intros N. unfold plain_edge_line. rewrite dget_dupdate_nodup by assumption. destruct (dget k a); [reflexivity|]. rewrite dget_dupdate. cbn [rev app dget]. destruct (key_eqb k tc); [reflexivity|]. destruct (key_eqb k sc); reflexivity.
Qed.

Lemma add_node_columns_get g n cols r k : (forall l c x, cols = Some l -> In (c, x) l -> x <> k) -> dget k (add_node_columns g n cols r) = dget k r.
Proof.
  intros H. destruct cols as [l|]; [|reflexivity]. cbn [add_node_columns]. specialize (H l). revert r. induction l as [|[c x] l IH]; intros r; [reflexivity|]. cbn [fold_left fst snd]. rewrite IH.
  - rewrite dget_dset. assert (Ne : x <> k) by (eapply H; [reflexivity|left; reflexivity]). assert (E : key_eqb k x = false) by (apply key_eqb_neq; congruence). rewrite E. reflexivity.
  - intros c' x' _ I. eapply H; [reflexivity|right; exact I].
Qed.

Lemma edge_line_plain g sc tc sd td e k : (forall l c x, sd = Some l -> In (c, x) l -> x <> k) -> (forall l c x, td = Some l -> In (c, x) l -> x <> k) ->
  dget k (edge_line g sc tc sd td e) = dget k (plain_edge_line sc tc e).
Proof. intros Hs Ht. destruct e as [[u v] a]. unfold edge_line. rewrite !add_node_columns_get by assumption. reflexivity. Qed.

Lemma check_columns_Ok c l : check_columns c = Ok (Some l) -> forall x y, In (x, y) l ->
  match c with Some (NMap cols) => In (x, y) cols | Some (NIter cols) => x = y /\ In y cols | _ => False end.
Proof.
  destruct c as [[cols|cols|]|]; cbn; intros H x y I; inversion H; subst; try assumption. clear H.
  assert (G : forall (d : dict key), (forall x y, In (x, y) d -> x = y /\ In y cols) -> forall cs, incl cs cols -> forall x y, In (x, y) (dupdate d (map (fun k => (k, k)) cs)) -> x = y /\ In y cols).
  { clear. intros d Hd cs. revert d Hd. induction cs as [|k cs IH]; intros d Hd Hi x y I; [apply Hd; exact I|]. cbn [map dupdate fold_left fst snd] in I.
    apply (IH (dset k k d)); [|intros z Hz; apply Hi; right; exact Hz|exact I]. intros x' y' I'. apply In_dset in I' as [E|I']; [inversion E; subst; split; [reflexivity|apply Hi; left; reflexivity]|apply Hd; assumption]. }
  apply (G [] ltac:(intros ? ? []) cols (incl_refl _) x y I).
Qed.
