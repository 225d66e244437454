(** * Maximum spanning forests: which edges belong to one *)
From Coq Require Import Lia Relations QArith Lqa Permutation.
From Verif Require Import PyBase L_Base S_Partition L_Partition S_Umst.
Close Scope Q_scope.

Lemma without_In i j T : In j (without i T) <-> In j T /\ j <> i.
Proof. unfold without. rewrite filter_In, negb_true_iff, Nat.eqb_neq. tauto. Qed.

Lemma without_notin i T : ~ In i T -> without i T = T.
Proof.
  induction T as [|j T IH]; simpl; [reflexivity|]. intros H.
  destruct (Nat.eqb_spec j i); [intuition|]. simpl. f_equal. apply IH. tauto.
Qed.

Lemma without_NoDup i T : NoDup T -> NoDup (without i T).
Proof. apply NoDup_filter. Qed.

Lemma without_perm i T : NoDup T -> In i T -> Permutation T (i :: without i T).
Proof.
  intros N H. apply NoDup_Permutation; [assumption| |].
  - constructor; [rewrite without_In; tauto|apply without_NoDup; assumption].
  - intros j. cbn [In]. rewrite without_In. destruct (Nat.eq_dec i j); subst; intuition.
Qed.

Section Forests.
  Context (E : list (key * key * Q)).
  Notation edge_at := (edge_at E).
  Notation weight_at := (weight_at E).
  Notation joined := (joined E).
  Notation n := (List.length E).

  Lemma joined_incl T T' x y : incl T T' -> joined T x y -> joined T' x y.
  Proof.
    intros H. apply closure_incl. intros p I. apply in_map_iff in I as (i & <- & I).
    apply in_map, H, I.
  Qed.
  Lemma joined_In i T : In i T -> joined T (fst (edge_at i)) (snd (edge_at i)).
  Proof. intros I. apply closure_In. rewrite <- surjective_pairing. apply in_map, I. Qed.
  Lemma joined_dec T x y : {joined T x y} + {~ joined T x y}.
  Proof. apply closure_dec, key_eq_dec. Qed.
  Lemma joined_perm T T' x y : Permutation T T' -> joined T x y -> joined T' x y.
  Proof. intros P. apply joined_incl. intros i. apply Permutation_in, P. Qed.
  Lemma joined_cons i T x y : joined (i :: T) x y <->
    joined T x y \/ (joined T x (fst (edge_at i)) /\ joined T (snd (edge_at i)) y)
    \/ (joined T x (snd (edge_at i)) /\ joined T (fst (edge_at i)) y).
  Proof.
    unfold joined, S_Umst.joined. cbn [map]. rewrite (surjective_pairing (edge_at i)) at 1.
    apply closure_cons.
  Qed.
  Lemma joined_mono T T' x y :
    (forall i, In i T -> joined T' (fst (edge_at i)) (snd (edge_at i))) -> joined T x y -> joined T' x y.
  Proof.
    intros H. apply closure_mono. intros a b I. apply in_map_iff in I as (i & Ei & I).
    specialize (H i I). rewrite Ei in H. exact H.
  Qed.

  Lemma edges_all : map fst E = map edge_at (seq 0 n).
  Proof.
    unfold edge_at, S_Umst.edge_at. rewrite <- (map_map (fun i => nth i E (KInt 0, KInt 0, 0%Q)) fst).
    f_equal. clear. induction E as [|e l IH]; [reflexivity|]. simpl. f_equal.
    rewrite <- seq_shift, map_map. exact IH.
  Qed.

  Lemma span_iff T : (forall x y, closure (map fst E) x y -> joined T x y) <->
    forall i, i < n -> joined T (fst (edge_at i)) (snd (edge_at i)).
  Proof.
    rewrite edges_all. split.
    - intros H i Hi. apply H. apply (joined_In i (seq 0 n)). apply in_seq. lia.
    - intros H x y. apply (joined_mono (seq 0 n)). intros i Hi. apply in_seq in Hi. apply H. lia.
  Qed.

  Definition acyclic (T : list nat) : Prop :=
    forall i, In i T -> ~ joined (without i T) (fst (edge_at i)) (snd (edge_at i)).

  (** adding an edge between two trees *)
  Lemma acyclic_add i T : acyclic T -> ~ In i T ->
    ~ joined T (fst (edge_at i)) (snd (edge_at i)) -> acyclic (i :: T).
  Proof.
    intros A NI J j Hj.
    destruct (Nat.eq_dec j i) as [->|D].
    - unfold without. cbn [filter]. rewrite Nat.eqb_refl. cbn [negb]. fold (without i T).
      rewrite without_notin by assumption. assumption.
    - destruct Hj as [->|Hj]; [tauto|].
      unfold without. cbn [filter]. destruct (Nat.eqb_spec i j); [congruence|]. cbn [negb]. fold (without j T).
      rewrite joined_cons. pose proof (A j Hj) as B. intros [H|[[H1 H2]|[H1 H2]]].
      + contradiction.
      + apply J. assert (L : incl (without j T) T) by (intros k Hk; apply without_In in Hk; tauto).
        apply (closure_trans _ _ (fst (edge_at j))); [apply closure_sym, (joined_incl _ _ _ _ L), H1|].
        apply (closure_trans _ _ (snd (edge_at j))); [apply joined_In, Hj|].
        apply closure_sym, (joined_incl _ _ _ _ L), H2.
      + apply J. assert (L : incl (without j T) T) by (intros k Hk; apply without_In in Hk; tauto).
        apply (closure_trans _ _ (snd (edge_at j))); [apply (joined_incl _ _ _ _ L), H2|].
        apply (closure_trans _ _ (fst (edge_at j))); [apply closure_sym, joined_In, Hj|].
        apply (joined_incl _ _ _ _ L), H1.
  Qed.

  Lemma acyclic_incl T T' : incl T T' -> acyclic T' -> acyclic T.
  Proof.
    intros L A i Hi H. apply (A i (L i Hi)). revert H. apply joined_incl.
    intros j. rewrite !without_In. intros [Hj D]. auto.
  Qed.

  Lemma total_perm T T' : Permutation T T' -> (total_weight E T == total_weight E T')%Q.
  Proof.
    unfold total_weight. induction 1; cbn [map fold_right]; try lra.
  Qed.
  Lemma total_without i T : NoDup T -> In i T -> (total_weight E T == weight_at i + total_weight E (without i T))%Q.
  Proof. intros N H. rewrite (total_perm _ _ (without_perm i T N H)). reflexivity. Qed.

  (** a chain leaving a class crosses its border *)
  Lemma crossing (C : list (key * key)) (S : list (key * key)) u v :
    closure C u v -> ~ closure S u v ->
    exists x y, (In (x, y) C \/ In (y, x) C) /\ closure S u x /\ ~ closure S u y.
  Proof.
    intros H D.
    assert (X : (exists x y, (In (x, y) C \/ In (y, x) C) /\ closure S u x /\ ~ closure S u y)
                \/ (forall x y, In (x, y) C -> closure S u x <-> closure S u y)).
    { clear H D. induction C as [|[a b] C [(x & y & I & P)|IH]].
      - right. intros x y [].
      - left. exists x, y. cbn [In]. tauto.
      - destruct (closure_dec key_eq_dec S u a) as [Ha|Ha], (closure_dec key_eq_dec S u b) as [Hb|Hb].
        + right. intros x y [I|I]; [injection I as <- <-; tauto|apply IH, I].
        + left. exists a, b. cbn [In]. tauto.
        + left. exists b, a. cbn [In]. tauto.
        + right. intros x y [I|I]; [injection I as <- <-; tauto|apply IH, I]. }
    destruct X as [X|X]; [exact X|]. exfalso. apply D.
    assert (Y : closure S u u <-> closure S u v).
    { clear D. apply (closure_least C (fun x y => closure S u x <-> closure S u y));
        [tauto|intros; tauto|intros; tauto|exact X|exact H]. }
    apply Y, closure_refl.
  Qed.

  Definition heavier (i : nat) : list nat := filter (fun j => negb (Qle_bool (weight_at j) (weight_at i))) (seq 0 n).
  Lemma heavier_In i j : In j (heavier i) <-> j < n /\ (weight_at i < weight_at j)%Q.
  Proof.
    unfold heavier. rewrite filter_In, in_seq, negb_true_iff.
    destruct (Qle_bool (weight_at j) (weight_at i)) eqn:L.
    - apply Qle_bool_iff in L. split; [intros [_ H]; discriminate|]. intros [_ H]. lra.
    - assert (weight_at i < weight_at j)%Q.
      { apply Qnot_le_lt. intros H. apply Qle_bool_iff in H. congruence. }
      intuition lia.
  Qed.

  (** an edge of a maximum spanning forest: its ends are not joined by heavier edges *)
  Lemma msf_not_joined T i : maximum_spanning_forest E T -> In i T ->
    ~ joined (heavier i) (fst (edge_at i)) (snd (edge_at i)).
  Proof.
    intros [[N B A S] M] Hi H.
    pose proof (A i Hi) as D.
    destruct (crossing _ _ _ _ H D) as (x & y & I & Hx & Hy).
    assert (Ej : exists j, In j (heavier i) /\ (edge_at j = (x, y) \/ edge_at j = (y, x))).
    { destruct I as [I|I]; apply in_map_iff in I as (j & Ej & Hj); exists j; auto. }
    clear I. destruct Ej as (j & Hj & Ej). apply heavier_In in Hj as [Bj Wj].
    set (T' := without i T) in *. set (u := fst (edge_at i)) in *. set (v := snd (edge_at i)) in *.
    assert (Sxy : joined T x y).
    { pose proof (proj1 (span_iff T) S j Bj) as J. destruct Ej as [Ej|Ej]; rewrite Ej in J; cbn [fst snd] in J.
      - exact J. - apply closure_sym, J. }
    assert (Vy : joined T' v y).
    { apply (joined_perm _ _ _ _ (without_perm i T N Hi)) in Sxy. apply joined_cons in Sxy.
      destruct Sxy as [J|[[J1 J2]|[J1 J2]]].
      - exfalso. apply Hy. apply (closure_trans _ _ x); assumption.
      - exact J2.
      - exfalso. apply Hy. exact J2. }
    assert (Nj : ~ In j T').
    { intros Hj. apply Hy. pose proof (joined_In j T' Hj) as J.
      destruct Ej as [Ej|Ej]; rewrite Ej in J; cbn [fst snd] in J;
        (apply (closure_trans _ _ x); [exact Hx|]); [exact J|apply closure_sym, J]. }
    assert (Jxy : ~ joined T' (fst (edge_at j)) (snd (edge_at j))).
    { intros J. apply Hy. apply (closure_trans _ _ x); [exact Hx|].
      destruct Ej as [Ej|Ej]; rewrite Ej in J; cbn [fst snd] in J; [exact J|apply closure_sym, J]. }
    assert (F : spanning_forest E (j :: T')).
    { constructor.
      - constructor; [exact Nj|apply without_NoDup, N].
      - intros k [<-|Hk]; [exact Bj|]. apply without_In in Hk. apply B, Hk.
      - apply acyclic_add; try assumption. apply (acyclic_incl _ T); [|exact A].
        intros k Hk. apply without_In in Hk. tauto.
      - apply span_iff. intros k Hk. pose proof (proj1 (span_iff T) S k Hk) as J. revert J.
        apply joined_mono. intros l Hl. destruct (Nat.eq_dec l i) as [->|Dl].
        + assert (L : incl T' (j :: T')) by (intros q Hq; right; exact Hq).
          apply (closure_trans _ _ x); [apply (joined_incl _ _ _ _ L), Hx|].
          apply (closure_trans _ _ y).
          * pose proof (joined_In j (j :: T') (or_introl eq_refl)) as K.
            destruct Ej as [Ej|Ej]; rewrite Ej in K; cbn [fst snd] in K; [exact K|apply closure_sym, K].
          * apply closure_sym, (joined_incl _ _ _ _ L), Vy.
        + apply joined_In. right. apply without_In. tauto. }
    specialize (M _ F). rewrite (total_without i T N Hi) in M. fold T' in M.
    unfold total_weight in M. cbn [map fold_right] in M. lra.
  Qed.

  (** there is a spanning forest *)
  Lemma prefix_forest k : k <= n -> exists T, NoDup T /\ (forall i, In i T -> i < k) /\ acyclic T
    /\ forall i, i < k -> joined T (fst (edge_at i)) (snd (edge_at i)).
  Proof.
    induction k as [|k IH]; intros Hk.
    - exists []. repeat split; [constructor|intros i []|intros i []|lia].
    - destruct IH as (T & N & B & A & S); [lia|].
      destruct (joined_dec T (fst (edge_at k)) (snd (edge_at k))) as [J|J].
      + exists T. repeat split; try assumption.
        * intros i Hi. specialize (B i Hi). lia.
        * intros i Hi. destruct (Nat.eq_dec i k) as [->|]; [exact J|apply S; lia].
      + assert (NK : ~ In k T) by (intros H; specialize (B k H); lia).
        exists (k :: T). repeat split.
        * constructor; assumption.
        * intros i [<-|Hi]; [lia|]. specialize (B i Hi). lia.
        * apply acyclic_add; assumption.
        * intros i Hi. destruct (Nat.eq_dec i k) as [->|]; [apply joined_In; left; reflexivity|].
          apply (joined_incl T); [intros j; right; assumption|]. apply S. lia.
  Qed.

  Fixpoint sublists (l : list nat) : list (list nat) :=
    match l with [] => [[]] | x :: l' => sublists l' ++ map (cons x) (sublists l') end.
  Lemma sublists_filter f l : In (filter f l) (sublists l).
  Proof.
    induction l as [|x l IH]; simpl; [auto|]. apply in_app_iff.
    destruct (f x); [right; apply in_map, IH|left; exact IH].
  Qed.

  Lemma forest_perm T T' : Permutation T T' -> spanning_forest E T -> spanning_forest E T'.
  Proof.
    intros P [N B A S]. assert (P' := Permutation_sym P). constructor.
    - apply (Permutation_NoDup P), N.
    - intros i Hi. apply B, (Permutation_in _ P'), Hi.
    - apply (acyclic_incl _ T); [|exact A]. intros i. apply Permutation_in, P'.
    - intros x y H. apply (joined_perm T); [exact P|]. apply S, H.
  Qed.

  Lemma forest_dec T : {spanning_forest E T} + {~ spanning_forest E T}.
  Proof.
    assert (ND : {NoDup T} + {~ NoDup T}) by (apply (ListDec.NoDup_dec Nat.eq_dec)).
    destruct ND as [N|N]; [|right; intros []; auto].
    destruct (Forall_Exists_dec (fun i => i < n) (fun i => lt_dec i n) T) as [B|B];
      [|right; intros [_ B' _ _]; apply Exists_exists in B as (i & Hi & K); apply K, B', Hi].
    destruct (Forall_Exists_dec (fun i => ~ joined (without i T) (fst (edge_at i)) (snd (edge_at i)))
      (fun i => match joined_dec (without i T) (fst (edge_at i)) (snd (edge_at i)) with left h => right (fun k => k h) | right h => left h end) T) as [A|A];
      [|right; intros [_ _ A' _]; apply Exists_exists in A as (i & Hi & K); apply K, A', Hi].
    destruct (Forall_Exists_dec (fun i => joined T (fst (edge_at i)) (snd (edge_at i)))
      (fun i => joined_dec T (fst (edge_at i)) (snd (edge_at i))) (seq 0 n)) as [S|S].
    - left. rewrite Forall_forall in *. constructor; try assumption.
      apply span_iff. intros i Hi. apply S, in_seq. lia.
    - right. intros [_ _ _ S']. apply Exists_exists in S as (i & Hi & K). apply K.
      apply (proj1 (span_iff T) S'). apply in_seq in Hi. lia.
  Qed.

  Lemma msf_exists : exists T, maximum_spanning_forest E T.
  Proof.
    assert (G : forall l, (exists T, In T l /\ spanning_forest E T /\ forall T', In T' l -> spanning_forest E T' -> (total_weight E T' <= total_weight E T)%Q)
                          \/ forall T, In T l -> ~ spanning_forest E T).
    { induction l as [|X l [(T & I & F & M)|IH]].
      - right. intros T [].
      - left. destruct (forest_dec X) as [FX|FX].
        + destruct (Qlt_le_dec (total_weight E T) (total_weight E X)) as [L|L].
          * exists X. split; [left; reflexivity|]. split; [exact FX|]. intros T' [<-|H] F'; [lra|].
            specialize (M T' H F'). lra.
          * exists T. split; [right; exact I|]. split; [exact F|]. intros T' [<-|H] F'; [exact L|auto].
        + exists T. split; [right; exact I|]. split; [exact F|]. intros T' [<-|H] F'; [contradiction|auto].
      - destruct (forest_dec X) as [FX|FX].
        + left. exists X. split; [left; reflexivity|]. split; [exact FX|]. intros T' [<-|H] F'; [lra|].
          destruct (IH T' H F').
        + right. intros T [<-|H]; auto. }
    assert (C : forall T, spanning_forest E T -> exists T', In T' (sublists (seq 0 n)) /\ Permutation T T').
    { intros T F. exists (filter (fun i => if in_dec Nat.eq_dec i T then true else false) (seq 0 n)).
      split; [apply sublists_filter|]. apply NoDup_Permutation; [apply F|apply NoDup_filter, seq_NoDup|].
      intros i. rewrite filter_In, in_seq. destruct (in_dec Nat.eq_dec i T) as [I|I]; [|intuition discriminate].
      pose proof (sf_edges _ _ F i I). intuition lia. }
    destruct (G (sublists (seq 0 n))) as [(T & I & F & M)|K].
    - exists T. split; [exact F|]. intros T' F'. destruct (C T' F') as (T2 & I2 & P).
      rewrite (total_perm _ _ P). apply M; [exact I2|]. apply (forest_perm _ _ P F').
    - exfalso. destruct (prefix_forest n (le_n n)) as (T & N & B & A & S).
      assert (F : spanning_forest E T) by (constructor; try assumption; apply span_iff, S).
      destruct (C T F) as (T2 & I2 & P). apply (K T2 I2), (forest_perm _ _ P F).
  Qed.

  (** where a chain gets completed *)
  Lemma completing H L x y : ~ joined H x y -> joined (L ++ H) x y ->
    exists L1 f L2, L = L1 ++ f :: L2 /\ ~ joined (L2 ++ H) x y /\ joined (f :: L2 ++ H) x y.
  Proof.
    induction L as [|f L IH]; intros D J; [contradiction|].
    destruct (joined_dec (L ++ H) x y) as [K|K].
    - destruct (IH D K) as (L1 & f' & L2 & -> & R). exists (f :: L1), f', L2. split; [reflexivity|exact R].
    - exists [], f, L. split; [reflexivity|]. split; assumption.
  Qed.

  Lemma not_joined_msf i : i < n -> ~ joined (heavier i) (fst (edge_at i)) (snd (edge_at i)) -> in_some_msf E i.
  Proof.
    intros Bi D. destruct msf_exists as (T & [[N B A S] M]).
    destruct (in_dec Nat.eq_dec i T) as [I|I]; [exists T; repeat split; assumption|].
    set (u := fst (edge_at i)) in *. set (v := snd (edge_at i)) in *.
    set (hv := fun j => if in_dec Nat.eq_dec j (heavier i) then true else false).
    assert (PT : Permutation T (filter (fun j => negb (hv j)) T ++ filter hv T)).
    { clear. induction T as [|j T IH]; [constructor|]. cbn [filter]. destruct (hv j); cbn [negb].
      - apply Permutation_cons_app. exact IH.
      - cbn [app]. constructor. exact IH. }
    assert (Juv : joined T u v) by (apply (proj1 (span_iff T) S i Bi)).
    apply (joined_perm _ _ _ _ PT) in Juv.
    assert (DH : ~ joined (filter hv T) u v).
    { intros J. apply D. revert J. apply joined_incl. intros j Hj. apply filter_In in Hj as [_ Hj].
      unfold hv in Hj. destruct (in_dec Nat.eq_dec j (heavier i)); [assumption|discriminate]. }
    destruct (completing _ _ _ _ DH Juv) as (L1 & f & L2 & EL & Dn & Jn).
    assert (Hf : In f T /\ hv f = false).
    { assert (In f (filter (fun j => negb (hv j)) T)) by (rewrite EL; apply in_app_iff; right; left; reflexivity).
      apply filter_In in H. rewrite negb_true_iff in H. exact H. }
    destruct Hf as [If Hf].
    assert (Wf : (weight_at f <= weight_at i)%Q).
    { unfold hv in Hf. destruct (in_dec Nat.eq_dec f (heavier i)) as [|NH]; [discriminate|].
      apply Qnot_lt_le. intros W. apply NH, heavier_In. split; [apply B, If|exact W]. }
    assert (Lf : incl (L2 ++ filter hv T) (without f T)).
    { assert (NL : NoDup (L1 ++ f :: L2 ++ filter hv T)).
      { apply (Permutation_NoDup (l := T)); [|exact N]. rewrite EL, <- app_assoc in PT. exact PT. }
      apply NoDup_remove_2 in NL. intros j Hj. apply without_In. split.
      - apply (Permutation_in _ (Permutation_sym PT)). rewrite EL, <- app_assoc, in_app_iff. right. right. exact Hj.
      - intros ->. apply NL, in_app_iff. right. exact Hj. }
    set (T' := without f T) in *.
    assert (Duv : ~ joined T' u v /\ (forall T2, incl T' T2 -> joined T2 u v -> joined T2 (fst (edge_at f)) (snd (edge_at f)))).
    { pose proof (A f If) as Af. fold T' in Af.
      apply joined_cons in Jn. destruct Jn as [J|[[J1 J2]|[J1 J2]]]; [contradiction| |];
        apply (joined_incl _ _ _ _ Lf) in J1; apply (joined_incl _ _ _ _ Lf) in J2; split.
      - intros J. apply Af. apply (closure_trans _ _ u); [apply closure_sym, J1|].
        apply (closure_trans _ _ v); [exact J|apply closure_sym, J2].
      - intros T2 L J. apply (joined_incl _ _ _ _ L) in J1. apply (joined_incl _ _ _ _ L) in J2.
        apply (closure_trans _ _ u); [apply closure_sym, J1|].
        apply (closure_trans _ _ v); [exact J|apply closure_sym, J2].
      - intros J. apply Af. apply (closure_trans _ _ v); [exact J2|].
        apply (closure_trans _ _ u); [apply closure_sym, J|exact J1].
      - intros T2 L J. apply (joined_incl _ _ _ _ L) in J1. apply (joined_incl _ _ _ _ L) in J2.
        apply (closure_trans _ _ v); [exact J2|].
        apply (closure_trans _ _ u); [apply closure_sym, J|exact J1]. }
    destruct Duv as [Duv Jf].
    assert (Ni : ~ In i T') by (unfold T'; rewrite without_In; tauto).
    assert (F : spanning_forest E (i :: T')).
    { constructor.
      - constructor; [exact Ni|apply without_NoDup, N].
      - intros k [<-|Hk]; [exact Bi|]. apply without_In in Hk. apply B, Hk.
      - apply acyclic_add; try assumption. apply (acyclic_incl _ T); [|exact A].
        intros k Hk. apply without_In in Hk. tauto.
      - apply span_iff. intros k Hk. pose proof (proj1 (span_iff T) S k Hk) as J. revert J.
        apply joined_mono. intros l Hl. destruct (Nat.eq_dec l f) as [->|Dl].
        + apply Jf; [intros q Hq; right; exact Hq|]. apply joined_In. left. reflexivity.
        + apply joined_In. right. apply without_In. tauto. }
    exists (i :: T'). split; [|left; reflexivity]. split; [exact F|].
    intros T2 F2. specialize (M T2 F2). rewrite (total_without f T N If) in M. fold T' in M.
    unfold total_weight at 2. cbn [map fold_right]. fold (total_weight E T'). lra.
  Qed.

  Theorem in_some_msf_iff i : i < n ->
    in_some_msf E i <-> ~ joined (heavier i) (fst (edge_at i)) (snd (edge_at i)).
  Proof.
    intros Bi. split.
    - intros (T & M & I). apply (msf_not_joined T); assumption.
    - apply not_joined_msf, Bi.
  Qed.
End Forests.
