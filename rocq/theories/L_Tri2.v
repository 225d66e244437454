(** * Lemmas about triangular strength *)
From Coq Require Import Lia Permutation.
From Verif Require Import NxGraph L_Base L_Utils L_Nx L_Graph L_Graph2 L_Partition M_Utils M_Disparity L_Sparse S_Graph S_Partition S_Sparse S_Tri M_Tri L_Tri.

(** ** dicts indexed by pairs *)
Lemma pget_pset {A} p (v : A) q d : pget q (pset p v d) = if pair_eqb q p then Some v else pget q d.
Proof.
  induction d as [|[p' v'] d IH]; cbn [pset pget]; [reflexivity|].
  destruct (pair_eqb_spec p p'); cbn [pget].
  - subst. destruct (pair_eqb_spec q p'); reflexivity.
  - rewrite IH. destruct (pair_eqb_spec q p'); [|reflexivity]. destruct (pair_eqb_spec q p); [congruence|reflexivity].
Qed.
Lemma pset_keys {A} p (v : A) d : map fst (pset p v d) = if existsb (pair_eqb p) (map fst d) then map fst d else map fst d ++ [p].
Proof.
  induction d as [|[p' v'] d IH]; cbn [pset map fst existsb]; [reflexivity|].
  destruct (pair_eqb_spec p p'); cbn [map fst orb]; [reflexivity|]. rewrite IH. destruct (existsb _ _); reflexivity.
Qed.
Lemma pset_NoDup {A} p (v : A) d : NoDup (map fst d) -> NoDup (map fst (pset p v d)).
Proof.
  intros N. rewrite pset_keys. destruct (existsb _ _) eqn:E; [exact N|]. apply NoDup_snoc; [exact N|].
  intros I. assert (X : existsb (pair_eqb p) (map fst d) = true); [|congruence].
  apply existsb_exists. exists p. split; [exact I|]. destruct (pair_eqb_spec p p); congruence.
Qed.
Lemma pget_In_iff {A} p (v : A) d : NoDup (map fst d) -> (In (p, v) d <-> pget p d = Some v).
Proof.
  induction d as [|[p' v'] d IH]; cbn [In pget map fst]; intros N; [split; [tauto|discriminate]|]. inversion N; subst.
  destruct (pair_eqb_spec p p').
  - subst. split.
    + intros [E|I]; [congruence|]. exfalso. apply H1. apply in_map_iff. exists (p', v). auto.
    + intros E. left. congruence.
  - rewrite <- IH by assumption. split; [intros [E|I]; [congruence|exact I]|auto].
Qed.
Lemma pget_key {A} p (d : pdict A) : In p (map fst d) <-> exists v, pget p d = Some v.
Proof.
  induction d as [|[p' v'] d IH]; cbn [In pget map fst]; [split; [tauto|intros (v & E); discriminate]|].
  destruct (pair_eqb_spec p p'); [subst; split; eauto|]. rewrite <- IH. split; [intros [E|I]; congruence|auto].
Qed.

(** ** the pair with the smaller end first *)
Definition ord (u v : key) : key * key := match key_lt u v with Ok true => (u, v) | _ => (v, u) end.

Section Comparable.
  Variable N : list key.
  Hypothesis C : comparable N.

  Lemma ord_sym u v : In u N -> In v N -> ord u v = ord v u.
  Proof.
    intros Hu Hv. unfold ord. destruct (comparable_lt N u v C Hu Hv) as (b & E). destruct (comparable_lt N v u C Hv Hu) as (b' & E').
    rewrite E, E'. destruct b, b'; try reflexivity.
    - apply key_lt_asym in E. congruence.
    - rewrite (key_lt_total u v E E'). reflexivity.
  Qed.
  Lemma ord_cases u v : ord u v = (u, v) \/ ord u v = (v, u).
  Proof. unfold ord. destruct (key_lt u v) as [[|]|]; auto. Qed.
  Lemma ord_smaller u v : smaller_first u v -> ord u v = (u, v).
  Proof. intros [->|E]; [destruct (ord_cases v v); assumption|]. unfold ord. rewrite E. reflexivity. Qed.
  Lemma smaller_ord u v a b : In u N -> In v N -> ord u v = (a, b) -> smaller_first a b.
  Proof.
    intros Hu Hv. unfold ord. destruct (comparable_lt N u v C Hu Hv) as (b0 & E). rewrite E. destruct b0; intros X; inversion X; subst.
    - right. exact E.
    - destruct (comparable_lt N a b C Hv Hu) as (b0 & E'). destruct b0; [right; exact E'|]. left. symmetry. apply key_lt_total; assumption.
  Qed.
  Lemma ord_inj u v u' v' : ord u v = ord u' v' -> (u = u' /\ v = v') \/ (u = v' /\ v = u').
  Proof. destruct (ord_cases u v) as [-> | ->], (ord_cases u' v') as [-> | ->]; intros E; inversion E; auto. Qed.

  Lemma count_pair_Ok u v c : In u N -> In v N -> count_pair u v c = Ok (increment (ord u v) c).
  Proof.
    intros Hu Hv. unfold count_pair, ord. destruct (comparable_lt N u v C Hu Hv) as (b & E). rewrite E. cbn [bind]. destruct b; reflexivity.
  Qed.
  Lemma zero_edge_Ok c uv : In (fst uv) N -> In (snd uv) N -> zero_edge c uv = Ok (pset (ord (fst uv) (snd uv)) 0 c).
  Proof.
    destruct uv as [u v]. cbn [fst snd]. intros Hu Hv. rewrite (ord_sym u v Hu Hv). unfold zero_edge, key_gt, ord. cbn [fst snd].
    destruct (comparable_lt N v u C Hv Hu) as (b & E). rewrite E. cbn [bind]. destruct b; reflexivity.
  Qed.

  Definition pairs_of (t : triangle) : list (key * key) :=
    let '(u, v, w) := t in [ord u v; ord u w; ord v w].

  Lemma count_triangles_Ok l : (forall t x, In t l -> In x (corners t) -> In x N) -> forall c,
    foldM count_triangle l c = Ok (fold_left (fun c p => increment p c) (flat_map pairs_of l) c).
  Proof.
    induction l as [|[[u v] w] l IH]; intros H c; [reflexivity|]. cbn [foldM flat_map pairs_of app fold_left count_triangle].
    assert (X : In u N /\ In v N /\ In w N).
    { assert (Y : forall x, In x (corners (u, v, w)) -> In x N) by (intros x; apply H; cbn; auto).
      repeat split; apply Y; cbn; auto. }
    destruct X as (Hu & Hv & Hw).
    rewrite (count_pair_Ok u v) by assumption. cbn [bind]. rewrite (count_pair_Ok u w) by assumption. cbn [bind].
    rewrite (count_pair_Ok v w) by assumption. cbn [bind]. apply IH. intros t x I. apply H. cbn. auto.
  Qed.

  Lemma zero_edges_Ok l : (forall uv, In uv l -> In (fst uv) N /\ In (snd uv) N) -> forall c,
    foldM zero_edge l c = Ok (fold_left (fun c uv => pset (ord (fst uv) (snd uv)) 0 c) l c).
  Proof.
    induction l as [|uv l IH]; intros H c; [reflexivity|]. cbn [foldM fold_left].
    destruct (H uv) as [Hu Hv]; [cbn; auto|]. rewrite zero_edge_Ok by assumption. cbn [bind]. apply IH. intros x I. apply H. cbn. auto.
  Qed.
End Comparable.

Definition occ (p : key * key) (l : list (key * key)) : nat := List.length (filter (pair_eqb p) l).

Lemma pget_increments p l : forall c, pget p (fold_left (fun c q => increment q c) l c)
  = match occ p l with 0 => pget p c | S n => Some ((match pget p c with Some m => m | None => 0 end) + S n) end.
Proof.
  unfold occ. induction l as [|q l IH]; intros c; cbn [fold_left filter]; [reflexivity|]. rewrite IH. unfold increment. rewrite pget_pset.
  destruct (pair_eqb_spec p q); cbn [List.length].
  - subst. destruct (List.length (filter (pair_eqb q) l)); f_equal; lia.
  - reflexivity.
Qed.
Lemma increments_NoDup l : forall c, NoDup (map fst c) -> NoDup (map fst (fold_left (fun c q => increment q c) l c)).
Proof. induction l as [|q l IH]; intros c H; [exact H|]. cbn [fold_left]. apply IH, pset_NoDup, H. Qed.

Lemma pget_zeros p l : forall c, (forall q n, pget q c = Some n -> n = 0) ->
  pget p (fold_left (fun c (uv : key * key) => pset (ord (fst uv) (snd uv)) 0 c) l c)
  = if existsb (fun uv => pair_eqb p (ord (fst uv) (snd uv))) l then Some 0 else pget p c.
Proof.
  induction l as [|q l IH]; intros c H; cbn [fold_left existsb]; [reflexivity|]. rewrite IH.
  - rewrite pget_pset. destruct (pair_eqb p (ord (fst q) (snd q))); cbn [orb]; [|reflexivity]. destruct (existsb _ l); reflexivity.
  - intros r n. rewrite pget_pset. destruct (pair_eqb r _); [intros E; congruence|apply H].
Qed.
Lemma zeros_NoDup l : forall c : pdict nat, NoDup (map fst c) ->
  NoDup (map fst (fold_left (fun c (uv : key * key) => pset (ord (fst uv) (snd uv)) 0 c) l c)).
Proof. induction l as [|q l IH]; intros c H; [exact H|]. cbn [fold_left]. apply IH, pset_NoDup, H. Qed.

(** ** the third corners *)
Definition third (p : key * key) (t : triangle) : list key :=
  let '(a, b, c) := t in
  if pair_eqb p (ord a b) then [c] else if pair_eqb p (ord a c) then [b] else if pair_eqb p (ord b c) then [a] else [].

Definition proper (t : triangle) : Prop := NoDup (corners t).

Lemma proper_iff a b c : proper (a, b, c) <-> a <> b /\ a <> c /\ b <> c.
Proof.
  unfold proper, corners. cbn. split.
  - intros N. inversion N as [|? ? H H']; subst. inversion H' as [|? ? H2 _]; subst. cbn in *. intuition congruence.
  - intros (A & B & D). constructor; [cbn; intuition congruence|]. constructor; [cbn; intuition congruence|]. constructor; [intros []|constructor].
Qed.

Lemma occ_pairs p t : proper t -> occ p (pairs_of t) = List.length (third p t).
Proof.
  destruct t as [[a b] c]. rewrite proper_iff. intros (A & B & D). unfold occ, pairs_of, third. cbn [filter].
  destruct (pair_eqb_spec p (ord a b)) as [E|E], (pair_eqb_spec p (ord a c)) as [E'|E'], (pair_eqb_spec p (ord b c)) as [E2|E2];
    try reflexivity; exfalso; subst;
    match goal with H : ord _ _ = ord _ _ |- _ => apply ord_inj in H; intuition congruence end.
Qed.

Lemma occ_flat p l : (forall t, In t l -> proper t) -> occ p (flat_map pairs_of l) = List.length (flat_map (third p) l).
Proof.
  intros H. induction l as [|t l IH]; [reflexivity|]. cbn [flat_map]. unfold occ in *. rewrite filter_app, !app_length.
  rewrite IH by (intros; apply H; cbn; auto). f_equal. apply occ_pairs. apply H. cbn. auto.
Qed.

Lemma third_corners u v w t : In w (third (u, v) t) -> Permutation [u; v; w] (corners t).
Proof.
  destruct t as [[a b] c]. unfold third, corners. cbn [fst snd].
  assert (X : forall x y, (u, v) = ord x y -> Permutation [u; v] [x; y]).
  { intros x y E. destruct (ord_cases x y) as [X|X]; rewrite X in E; inversion E; subst; [reflexivity|apply perm_swap]. }
  destruct (pair_eqb_spec (u, v) (ord a b)) as [E|_]; [|destruct (pair_eqb_spec (u, v) (ord a c)) as [E|_];
    [|destruct (pair_eqb_spec (u, v) (ord b c)) as [E|_]; [|intros []]]]; intros [<-|[]].
  - apply (Permutation_app_tail [c]) with (1 := X a b E).
  - etransitivity; [apply (Permutation_app_tail [b]) with (1 := X a c E)|]. constructor. apply perm_swap.
  - etransitivity; [apply (Permutation_app_tail [a]) with (1 := X b c E)|]. symmetry. apply (Permutation_middle [b; c] []).
Qed.

Lemma corners_third N u v w t : comparable N -> (forall x, In x (corners t) -> In x N) -> proper t ->
  smaller_first u v -> Permutation [u; v; w] (corners t) -> In w (third (u, v) t).
Proof.
  destruct t as [[a b] c]. intros C H Pr S P. pose proof (ord_smaller u v S) as O.
  assert (PD : NoDup [u; v; w]) by (eapply Permutation_NoDup; [symmetry; exact P|exact Pr]).
  pose proof (proj1 (proper_iff u v w) PD) as (D1 & D2 & D3). apply proper_iff in Pr. destruct Pr as (A & B & D).
  assert (Ha : In a N) by (apply H; cbn; auto). assert (Hb : In b N) by (apply H; cbn; auto). assert (Hc : In c N) by (apply H; cbn; auto).
  assert (Iu : In u (corners (a, b, c))) by (eapply Permutation_in; [exact P|cbn; auto]).
  assert (Iv : In v (corners (a, b, c))) by (eapply Permutation_in; [exact P|cbn; auto]).
  assert (Iw : In w (corners (a, b, c))) by (eapply Permutation_in; [exact P|cbn; auto]).
  assert (Sy : forall x y, In x N -> In y N -> ord x y = ord y x) by (apply (ord_sym N C)).
  assert (Q : ((u, v) = ord a b /\ w = c) \/ ((u, v) = ord a c /\ w = b) \/ ((u, v) = ord b c /\ w = a)).
  { rewrite <- O. cbn in Iu, Iv, Iw. clear P PD H O S C.
    destruct Iu as [<-|[<-|[<-|[]]]], Iv as [<-|[<-|[<-|[]]]]; try congruence;
      destruct Iw as [<-|[<-|[<-|[]]]]; try congruence; auto. }
  unfold third. destruct (pair_eqb_spec (u, v) (ord a b)) as [E|E].
  - destruct Q as [[_ ->]|[[E' _]|[E' _]]]; [cbn; auto| |]; rewrite E in E'; apply ord_inj in E'; intuition congruence.
  - destruct (pair_eqb_spec (u, v) (ord a c)) as [E'|E'].
    + destruct Q as [[X _]|[[_ ->]|[X _]]]; [contradiction|cbn; auto|]. rewrite E' in X. apply ord_inj in X. intuition congruence.
    + destruct (pair_eqb_spec (u, v) (ord b c)) as [E2|E2]; [|intuition]. destruct Q as [[X _]|[[X _]|[_ ->]]]; [contradiction|contradiction|cbn; auto].
Qed.

Lemma thirds_enumerate g l u v : WF g -> comparable (nodes g) -> lists_triangles g l -> distinct_sets l ->
  smaller_first u v -> linked g u v -> enumerates (flat_map (third (u, v)) l) (common g u v).
Proof.
  intros W C (Snd & Cmp & _) Dst S L.
  assert (Pr : forall t, In t l -> proper t /\ forall x, In x (corners t) -> In x (nodes g)).
  { intros [[a b] c] I. apply Snd in I as ((N1 & N2 & N3) & L1 & L2 & L3). split; [apply proper_iff; auto|].
    apply linked_nodes in L1, L2; try exact W. intros x [<-|[<-|[<-|[]]]]; cbn; tauto. }
  split.
  - clear Cmp Snd. induction Dst as [|t l F Dst IH]; [constructor|]. cbn [flat_map]. apply NoDup_app_iff. split; [|split].
    + destruct t as [[a b] c]. unfold third. destruct (pair_eqb _ _); [repeat constructor; intros []|].
      destruct (pair_eqb _ _); [repeat constructor; intros []|]. destruct (pair_eqb _ _); [repeat constructor; intros []|constructor].
    + apply IH. intros t' I. apply Pr. cbn. auto.
    + intros w I I'. apply in_flat_map in I' as (t' & It & I'). rewrite Forall_forall in F. apply (F t' It).
      apply third_corners in I. apply third_corners in I'. etransitivity; [symmetry; exact I|exact I'].
  - intros w. rewrite in_flat_map. split.
    + intros (t & It & I). apply third_corners in I. destruct (Pr t It) as [Pt _]. destruct t as [[a b] c].
      pose proof (Snd a b c It) as ((N1 & N2 & N3) & L1 & L2 & L3).
      assert (PD : NoDup [u; v; w]) by (eapply Permutation_NoDup; [symmetry; exact I|exact Pt]).
      pose proof (proj1 (proper_iff u v w) PD) as (D1 & D2 & D3). split; [auto|].
      assert (X : forall x y, In x (corners (a, b, c)) -> In y (corners (a, b, c)) -> x <> y -> linked g x y).
      { intros x y Hx Hy Hxy. pose proof (linked_sym g a b L1). pose proof (linked_sym g a c L2). pose proof (linked_sym g b c L3).
        cbn in Hx, Hy. destruct Hx as [<-|[<-|[<-|[]]]], Hy as [<-|[<-|[<-|[]]]]; congruence || assumption. }
      split; apply X; try assumption; (eapply Permutation_in; [exact I|cbn; auto]).
    + intros ((D1 & D2 & D3) & L1 & L2). destruct (Cmp u v w) as (t & It & P); [unfold is_triangle; auto|].
      exists t. split; [exact It|]. apply (corners_third (nodes g)); try assumption; apply Pr, It.
Qed.

Lemma triangular_strength_spec so g full : WF g -> reorders so -> comparable (nodes g) ->
  exists d, triangular_strength so g full = Ok d /\ NoDup (map fst d)
    /\ (forall u v, In (u, v) (map fst d) <->
          smaller_first u v /\ linked g u v /\ (full = true \/ exists w, common g u v w))
    /\ forall u v n, In (u, v, n) d -> has_size (common g u v) n.
Proof.
  intros W R C. destruct (triangles_spec so g W R) as (l & E & T & Dst). unfold triangular_strength.
  set (z := if full then fold_left (fun c (uv : key * key) => pset (ord (fst uv) (snd uv)) 0 c) (edge_list g) [] else []).
  assert (EN : forall uv, In uv (edge_list g) -> In (fst uv) (nodes g) /\ In (snd uv) (nodes g)).
  { intros [u v] I. unfold edge_list in I. apply in_map_iff in I as ([p a] & <- & I). cbn. destruct p as [x y].
    apply edges_data_edges in I. apply edges_nodes in I; assumption. }
  assert (EZ : (if full then foldM zero_edge (edge_list g) [] else Ok []) = Ok z).
  { unfold z. destruct full; [|reflexivity]. apply (zero_edges_Ok (nodes g) C). exact EN. }
  rewrite EZ, E. cbn [bind]. destruct T as (Snd & Cmp & Unq).
  assert (Pr : forall t, In t l -> proper t /\ forall x, In x (corners t) -> In x (nodes g)).
  { intros [[a b] c] I. apply Snd in I as ((N1 & N2 & N3) & L1 & L2 & L3). split; [apply proper_iff; auto|].
    apply linked_nodes in L1, L2; try exact W. intros x [<-|[<-|[<-|[]]]]; cbn; tauto. }
  rewrite (count_triangles_Ok (nodes g) C) by (intros t x It; apply Pr, It).
  eexists. split; [reflexivity|].
  assert (NZ : NoDup (map fst z)) by (unfold z; destruct full; [apply zeros_NoDup; constructor|constructor]).
  assert (PZ : forall p, pget p z = if full && existsb (fun uv => pair_eqb p (ord (fst uv) (snd uv))) (edge_list g) then Some 0 else None).
  { intros p. unfold z. destruct full; [|reflexivity]. rewrite pget_zeros by discriminate. destruct (existsb _ _); reflexivity. }
  assert (ND := increments_NoDup (flat_map pairs_of l) z NZ). split; [exact ND|].
  (* the edges of [g] are the linked pairs *)
  assert (EX : forall u v, smaller_first u v -> (existsb (fun uv => pair_eqb (u, v) (ord (fst uv) (snd uv))) (edge_list g) = true <-> linked g u v)).
  { intros u v S. pose proof (ord_smaller u v S) as O. rewrite existsb_exists. split.
    - intros ([x y] & I & Q). cbn [fst snd] in Q. destruct (pair_eqb_spec (u, v) (ord x y)) as [Q'|]; [|discriminate]. clear Q.
      unfold edge_list in I. apply in_map_iff in I as ([p a] & Q & I). cbn in Q. subst p. apply edges_data_edges in I.
      assert (X : linked g x y) by (left; apply has_edge_edges; auto).
      destruct (ord_cases x y) as [Y|Y]; rewrite Y in Q'; inversion Q'; subst; [exact X|apply linked_sym, X].
    - intros L. pose proof (linked_nodes g u v W L) as [Hu Hv].
      assert (X : exists x y, In (x, y) (edges g) /\ ((x, y) = (u, v) \/ (x, y) = (v, u))).
      { destruct L as [H|H]; apply has_edge_edges in H; try exact W; destruct H as [H|[_ H]]; eauto. }
      destruct X as (x & y & I & Q). apply edges_edges_data in I as (a & I); [|exact W]. exists (x, y). split.
      + unfold edge_list. apply in_map_iff. exists (x, y, a). auto.
      + cbn [fst snd]. assert (Z : ord x y = (u, v)).
        { destruct Q as [Q|Q]; inversion Q; subst; [exact O|]. rewrite (ord_sym (nodes g) C) by assumption. exact O. }
        rewrite Z. destruct (pair_eqb_spec (u, v) (u, v)); congruence. }
  assert (SM : forall u v, pget (u, v) z <> None \/ occ (u, v) (flat_map pairs_of l) <> 0 -> smaller_first u v /\ linked g u v).
  { intros u v [H|H].
    - rewrite PZ in H. destruct (full && _) eqn:Q; [|congruence]. apply andb_true_iff in Q as [_ Q]. pose proof Q as Q0.
      apply existsb_exists in Q as ([x y] & I & Q). cbn [fst snd] in Q. destruct (pair_eqb_spec (u, v) (ord x y)) as [Q'|]; [|discriminate].
      assert (S : smaller_first u v) by (destruct (EN (x, y) I); eapply (smaller_ord (nodes g) C x y); try assumption; congruence).
      split; [exact S|]. apply EX; assumption.
    - rewrite occ_flat in H by (intros; apply Pr; assumption).
      destruct (flat_map (third (u, v)) l) as [|w ws] eqn:Q; [cbn in H; congruence|].
      assert (I : In w (flat_map (third (u, v)) l)) by (rewrite Q; cbn; auto). clear Q H. apply in_flat_map in I as (t & It & I).
      pose proof (third_corners u v w t I) as P. destruct t as [[a b] c].
      pose proof (Snd a b c It) as ((N1 & N2 & N3) & L1 & L2 & L3). destruct (Pr _ It) as [_ HN].
      assert (X : (u, v) = ord a b \/ (u, v) = ord a c \/ (u, v) = ord b c).
      { unfold third in I. destruct (pair_eqb_spec (u, v) (ord a b)); [auto|]. destruct (pair_eqb_spec (u, v) (ord a c)); [auto|].
        destruct (pair_eqb_spec (u, v) (ord b c)); [auto|destruct I]. }
      assert (Y : exists x y, (u, v) = ord x y /\ linked g x y) by (destruct X as [X|[X|X]]; eauto).
      destruct Y as (x & y & Y & L). destruct (linked_nodes g x y W L) as [Hx Hy]. split.
      + eapply (smaller_ord (nodes g) C x y); try assumption. congruence.
      + destruct (ord_cases x y) as [Z|Z]; rewrite Z in Y; inversion Y; subst; [exact L|apply linked_sym, L]. }
  assert (OC : forall u v, smaller_first u v -> linked g u v -> has_size (common g u v) (occ (u, v) (flat_map pairs_of l))).
  { intros u v S L. rewrite occ_flat by (intros; apply Pr; assumption). exists (flat_map (third (u, v)) l). split; [|reflexivity].
    apply thirds_enumerate; try assumption. split; [exact Snd|]. split; [exact Cmp|exact Unq]. }
  assert (PO : forall u v, smaller_first u v -> linked g u v -> (occ (u, v) (flat_map pairs_of l) <> 0 <-> exists w, common g u v w)).
  { intros u v S L. destruct (OC u v S L) as (ws & (_ & Hw) & Lw). rewrite <- Lw. destruct ws as [|w ws]; cbn [List.length].
    - split; [congruence|]. intros (w & Cw). apply Hw in Cw. destruct Cw.
    - split; [|lia]. intros _. exists w. apply Hw. cbn. auto. }
  split.
  - intros u v. rewrite pget_key. split.
    + intros (n & G). rewrite pget_increments in G.
      destruct (occ (u, v) (flat_map pairs_of l)) eqn:O.
      * assert (X : pget (u, v) z <> None) by congruence. destruct (SM u v (or_introl X)) as [S L]. split; [exact S|]. split; [exact L|].
        rewrite PZ in X. destruct full; [auto|]. cbn in X. congruence.
      * assert (X : occ (u, v) (flat_map pairs_of l) <> 0) by (rewrite O; discriminate). destruct (SM u v (or_intror X)) as [S L]. split; [exact S|]. split; [exact L|]. right. apply PO; [exact S|exact L|exact X].
    + intros (S & L & H). rewrite pget_increments. destruct (occ (u, v) (flat_map pairs_of l)) eqn:O; [|eauto].
      destruct H as [-> |H]; [|apply PO in H; [congruence|exact S|exact L]].
      rewrite PZ. cbn [andb]. rewrite (proj2 (EX u v S) L). eauto.
  - intros u v n I. apply pget_In_iff in I; [|exact ND]. rewrite pget_increments in I.
    assert (Z : forall m, pget (u, v) z = Some m -> m = 0) by (intros m; rewrite PZ; destruct (_ && _); congruence).
    assert (SL : smaller_first u v /\ linked g u v).
    { apply SM. destruct (occ (u, v) (flat_map pairs_of l)); [left; congruence|right; discriminate]. }
    destruct SL as [S L]. pose proof (OC u v S L) as OC'. destruct (occ (u, v) (flat_map pairs_of l)) as [|m].
    + rewrite (Z n I). exact OC'.
    + destruct (pget (u, v) z) as [m0|] eqn:G; [rewrite (Z m0 eq_refl) in I|]; inversion I; subst; exact OC'.
Qed.

(** ** naive_triangular_strength *)
Lemma neighborhoods_get g x : dget x (neighborhoods g) =
  if mem x (v_nodes g) && (1 <? List.length (neighborhood g x)) then Some (neighborhood g x) else None.
Proof.
  unfold neighborhoods.
  assert (X : forall l d, dget x (fold_left (fun d node => let l := neighborhood g node in if 1 <? List.length l then dset node l d else d) l d)
    = if mem x l && (1 <? List.length (neighborhood g x)) then Some (neighborhood g x) else dget x d).
  { induction l as [|n l IH]; intros d; cbn [fold_left]; [reflexivity|]. rewrite IH, mem_cons. cbv zeta.
    destruct (key_eqb_spec x n) as [->|E]; cbn [orb].
    - destruct (1 <? List.length (neighborhood g n)) eqn:L; rewrite ?andb_true_r, ?andb_false_r; [|reflexivity].
      rewrite dget_dset, key_eqb_refl. destruct (mem n l); reflexivity.
    - destruct (mem x l && _); [reflexivity|]. destruct (1 <? List.length (neighborhood g n)); [|reflexivity].
      rewrite dget_dset. apply key_eqb_neq in E. rewrite E. reflexivity. }
  rewrite X. reflexivity.
Qed.

Lemma neighborhood_In g v x y : shows g v -> (In y (neighborhood v x) <-> linked g x y /\ x <> y).
Proof. intros (_ & _ & NI & _). unfold neighborhood. rewrite filter_In, NI, negb_true_iff, key_eqb_neq. reflexivity. Qed.
Lemma neighborhood_NoDup g v x : shows g v -> NoDup (neighborhood v x).
Proof. intros (_ & N & _). apply NoDup_filter, N. Qed.

(** the value stored for an edge *)
Definition naive_value (g : view) (full : bool) (p : key * key) : option nat :=
  match dget (fst p) (neighborhoods g), dget (snd p) (neighborhoods g) with
  | Some n1, Some n2 => Some (fast_intersection_size (key_eqb (fst p) (snd p)) n1 n2)
  | _, _ => if full then Some 0 else None
  end.

Definition store (f : key * key -> option nat) (c : pdict nat) (uv : key * key) : pdict nat :=
  match f (ord (fst uv) (snd uv)) with Some n => pset (ord (fst uv) (snd uv)) n c | None => c end.

Lemma naive_edge_Ok N g full c uv : comparable N -> In (fst uv) N -> In (snd uv) N ->
  naive_edge (neighborhoods g) full c uv = Ok (store (naive_value g full) c uv).
Proof.
  destruct uv as [u v]. cbn [fst snd]. intros C Hu Hv. unfold store. cbn [fst snd]. rewrite (ord_sym N C u v Hu Hv).
  unfold naive_edge, key_gt, ord. cbn [fst snd].
  destruct (comparable_lt N v u C Hv Hu) as (b & E). rewrite E. cbn [bind]. unfold naive_value.
  destruct b; cbn [fst snd]; destruct (dget u (neighborhoods g)), (dget v (neighborhoods g)), full; reflexivity.
Qed.

Lemma pget_store f p l : forall c, pget p (fold_left (store f) l c)
  = if existsb (fun uv => pair_eqb p (ord (fst uv) (snd uv))) l
    then match f p with Some n => Some n | None => pget p c end else pget p c.
Proof.
  induction l as [|q l IH]; intros c; cbn [fold_left existsb]; [reflexivity|]. rewrite IH.
  assert (X : pget p (store f c q) = if pair_eqb p (ord (fst q) (snd q)) then match f p with Some n => Some n | None => pget p c end else pget p c).
  { unfold store. destruct (pair_eqb_spec p (ord (fst q) (snd q))) as [E|E].
    - rewrite <- E. destruct (f p); [|reflexivity]. rewrite pget_pset. destruct (pair_eqb_spec p p); congruence.
    - destruct (f (ord (fst q) (snd q))); [|reflexivity]. rewrite pget_pset. destruct (pair_eqb_spec p (ord (fst q) (snd q))); congruence. }
  rewrite X. destruct (pair_eqb p (ord (fst q) (snd q))); cbn [orb]; destruct (existsb _ l), (f p); reflexivity.
Qed.
Lemma store_NoDup f l : forall c, NoDup (map fst c) -> NoDup (map fst (fold_left (store f) l c)).
Proof.
  induction l as [|q l IH]; intros c H; [exact H|]. cbn [fold_left]. apply IH. unfold store. destruct (f _); [apply pset_NoDup|]; exact H.
Qed.

Lemma view_edges_linked g vw u v : WF g -> comparable (nodes g) -> shows g vw ->
  (existsb (fun uv => pair_eqb (u, v) (ord (fst uv) (snd uv))) (v_edges vw) = true <-> smaller_first u v /\ linked g u v).
Proof.
  intros W C (_ & _ & _ & _ & ES & EC). rewrite existsb_exists. split.
  - intros ([x y] & I & Q). cbn [fst snd] in Q. destruct (pair_eqb_spec (u, v) (ord x y)) as [Q'|]; [|discriminate]. clear Q.
    apply ES in I. destruct (linked_nodes g x y W I) as [Hx Hy].
    split; [eapply (smaller_ord (nodes g) C x y); try assumption; congruence|].
    destruct (ord_cases x y) as [Y|Y]; rewrite Y in Q'; inversion Q'; subst; [exact I|apply linked_sym, I].
  - intros [S L]. pose proof (ord_smaller u v S) as O. pose proof (linked_nodes g u v W L) as [Hu Hv].
    assert (X : exists x y, In (x, y) (v_edges vw) /\ ((x, y) = (u, v) \/ (x, y) = (v, u))) by (destruct (EC u v L); eauto).
    destruct X as (x & y & I & Q). exists (x, y). split; [exact I|].
    cbn [fst snd]. assert (Z : ord x y = (u, v)).
    { destruct Q as [Q|Q]; inversion Q; subst; [exact O|]. rewrite (ord_sym (nodes g) C) by assumption. exact O. }
    rewrite Z. destruct (pair_eqb_spec (u, v) (u, v)); congruence.
Qed.

(** the nodes other than [u] and [v] adjacent to both (to [u] when they are the same) *)
Lemma naive_spec so g full : WF g -> reorders so -> comparable (nodes g) ->
  exists d, naive_triangular_strength so g full = Ok d /\ NoDup (map fst d)
    /\ forall u v n, In (u, v, n) d <->
         smaller_first u v /\ linked g u v /\ naive_value (undirected_view so g) full (u, v) = Some n.
Proof.
  intros W R C. unfold naive_triangular_strength. pose proof (undirected_view_shows so g W R) as Sh.
  set (U := undirected_view so g) in *. clearbody U.
  exists (fold_left (store (naive_value U full)) (v_edges U) []). split; [|split].
  - apply (foldM_Ok _ (store (naive_value U full))). intros s [x y] I. apply Sh in I. destruct (linked_nodes g x y W I) as [Hx Hy].
    apply (naive_edge_Ok (nodes g)); assumption.
  - apply store_NoDup. constructor.
  - intros u v n. rewrite pget_In_iff by (apply store_NoDup; constructor). rewrite pget_store.
    destruct (existsb _ _) eqn:X.
    + apply (view_edges_linked g) in X; try assumption. destruct X as [X Y]. split.
      * intros H. split; [exact X|]. split; [exact Y|]. destruct (naive_value U full (u, v)); [exact H|discriminate].
      * intros (_ & _ & ->). reflexivity.
    + split; [discriminate|]. intros (S & L & _). assert (Y := proj2 (view_edges_linked g U u v W C Sh) (conj S L)). congruence.
Qed.

Lemma naive_value_common g U full u v : WF g -> shows g U -> comparable (nodes g) -> u <> v -> linked g u v ->
  match naive_value U full (u, v) with
  | Some n => has_size (common g u v) n
  | None => full = false /\ forall w, ~ common g u v w
  end.
Proof.
  intros W Sh C D L.
  assert (CM : forall w, common g u v w <-> In w (neighborhood U u) /\ In w (neighborhood U v)).
  { intros w. rewrite !(neighborhood_In g) by exact Sh. unfold common. tauto. }
  assert (VN : v_nodes U = nodes g) by apply Sh.
  assert (Nu : mem u (v_nodes U) = true) by (apply mem_In; rewrite VN; apply (linked_nodes g u v W L)).
  assert (Nv : mem v (v_nodes U) = true) by (apply mem_In; rewrite VN; apply (linked_nodes g u v W L)).
  unfold naive_value. cbn [fst snd]. rewrite !neighborhoods_get, Nu, Nv. cbn [andb].
  destruct ((1 <? List.length (neighborhood U u)) && (1 <? List.length (neighborhood U v))) eqn:B.
  - apply andb_true_iff in B as [-> ->]. eapply has_size_ext; [intros w; symmetry; apply CM|].
    apply fis_spec; try (apply (neighborhood_NoDup g), Sh). intros E. apply key_eqb_eq in E. contradiction.
  - assert (Z : forall w, ~ common g u v w).
    { intros w Hw. pose proof Hw as Hw'. apply CM in Hw' as [I1 I2]. destruct Hw as ((D1 & D2 & D3) & _).
      assert (J1 : In v (neighborhood U u)) by (apply (neighborhood_In g); auto).
      assert (J2 : In u (neighborhood U v)) by (apply (neighborhood_In g); [exact Sh|]; split; [apply linked_sym, L|congruence]).
      assert (X : forall l (a b : key), In a l -> In b l -> a <> b -> 1 < List.length l).
      { intros l a b Ha Hb Hab. apply (NoDup_incl_length (l := [a; b])).
        - constructor; [intros [E|[]]; congruence|]. constructor; [intros []|constructor].
        - intros y [<-|[<-|[]]]; assumption. }
      apply andb_false_iff in B as [B|B]; apply Nat.ltb_ge in B.
      - pose proof (X _ v w J1 I1 D3). lia.
      - pose proof (X _ u w J2 I2 D2). lia. }
    assert (Q : has_size (common g u v) 0).
    { exists []. split; [|reflexivity]. split; [constructor|]. intros w. split; [intros []|]. intros H. apply (Z w H). }
    apply andb_false_iff in B. destruct (1 <? List.length (neighborhood U u)), (1 <? List.length (neighborhood U v)), full;
      try (destruct B; discriminate); auto.
Qed.

Lemma strengths_agree so g full d d' : WF g -> reorders so -> comparable (nodes g) ->
  triangular_strength so g full = Ok d -> naive_triangular_strength so g full = Ok d' ->
  forall u v n, u <> v -> (In (u, v, n) d <-> In (u, v, n) d' /\ (full = true \/ 0 < n)).
Proof.
  intros W R C E E' u v n D. pose proof (undirected_view_shows so g W R) as Sh. destruct (triangular_strength_spec so g full W R C) as (d0 & X & ND & KD & VD). rewrite E in X. inversion X; subst d0. clear X.
  destruct (naive_spec so g full W R C) as (d0 & X & ND' & KD'). rewrite E' in X. inversion X; subst d0. clear X.
  rewrite KD'. split.
  - intros I. assert (K : In (u, v) (map fst d)) by (apply in_map_iff; exists (u, v, n); auto). apply KD in K as (S & L & F).
    pose proof (VD u v n I) as Hn. pose proof (naive_value_common g _ full u v W Sh C D L) as V.
    destruct (naive_value (undirected_view so g) full (u, v)) as [m|].
    + assert (m = n) by (eapply has_size_unique; eassumption). subst m. split; [auto|]. destruct F as [F|(w & F)]; [auto|]. right.
      destruct Hn as (ws & (_ & Hw) & <-). apply Hw in F. destruct ws; [destruct F|cbn; lia].
    + exfalso. destruct V as [V1 V2]. destruct F as [F|(w & F)]; [congruence|]. apply (V2 w F).
  - intros ((S & L & V) & F). pose proof (naive_value_common g _ full u v W Sh C D L) as V'. rewrite V in V'.
    assert (K : In (u, v) (map fst d)).
    { apply KD. split; [exact S|]. split; [exact L|]. destruct F as [F|F]; [auto|]. right. destruct V' as (ws & (_ & Hw) & <-).
      destruct ws as [|w ws]; [cbn in F; lia|]. exists w. apply Hw. cbn. auto. }
    apply in_map_iff in K as ([p m] & Ep & K). cbn in Ep. subst p. pose proof (VD u v m K) as Hm.
    assert (m = n) by (eapply has_size_unique; eassumption). subst m. exact K.
Qed.
