(** * Proofs about reading any JSON value *)
From Coq Require Import ZArith String Lia QArith.
From Verif Require Import PyBase NxGraph L_Base M_Json M_Read S_Read.
Close Scope Q_scope.

Lemma truthy_bool v b : val_eqb v (VBool b) = true -> truthy (JVal v) = b.
Proof.
  unfold val_eqb. destruct v as [|x|q|[z|s|n]]; cbn [num_of]; destruct b; cbn [truthy]; try discriminate; intros H.
  - destruct x; [reflexivity|discriminate].
  - destruct x; [discriminate|reflexivity].
  - apply Qeq_bool_iff in H. destruct (q_eqb q 0) eqn:E; [apply Qeq_bool_iff in E; rewrite E in H; discriminate|reflexivity].
  - unfold q_eqb in *. apply Qeq_bool_iff in H. apply Bool.negb_false_iff, Qeq_bool_iff. exact H.
  - apply Qeq_bool_iff in H. unfold Qeq in H. cbn in H. destruct (Z.eqb_spec z 0); [lia|reflexivity].
  - apply Qeq_bool_iff in H. unfold Qeq in H. cbn in H. destruct (Z.eqb_spec z 0); [reflexivity|lia].
Qed.

Lemma bool_equal v b b' : val_eqb v (VBool b) = true -> val_eqb v (VBool b') = Bool.eqb b b'.
Proof.
  intros H. destruct (Bool.bool_dec b b') as [<-|N]; [rewrite H; destruct b; reflexivity|].
  replace (Bool.eqb b b') with false by (destruct b, b'; try reflexivity; destruct N; reflexivity).
  destruct (val_eqb v (VBool b')) eqn:E; [|reflexivity]. apply truthy_bool in H, E. congruence.
Qed.

Lemma truthy_false j : truthy j = false <-> false_value j.
Proof.
  unfold false_value, JStr. split.
  - destruct j as [[|b|q|[z|s|n]]|l|d]; cbn [truthy]; intros H; try discriminate.
    + auto.
    + subst b. auto.
    + right; right; right; left. exists q. split; [reflexivity|]. apply negb_false_iff in H. unfold q_eqb in H. apply Qeq_bool_iff. exact H.
    + apply negb_false_iff, Z.eqb_eq in H. subst. auto.
    + apply negb_false_iff, String.eqb_eq in H. subst. auto 10.
    + destruct l; [auto 10|discriminate].
    + destruct d; [auto 10|discriminate].
  - intros [->|[->|[->|[(q & -> & H)|[->|[->| ->]]]]]]; try reflexivity. cbn [truthy]. apply negb_false_iff. unfold q_eqb. apply Qeq_bool_iff. exact H.
Qed.

Lemma truthy_is mu m : (mu = false <-> false_value m) <-> mu = truthy m.
Proof. rewrite <- truthy_false. destruct mu, (truthy m); intuition congruence. Qed.

Section Reads.
Variable code : json -> nat.

Lemma boxes (b : list (key * json)) (a : attrs) : Forall2 (fun (kv : key * json) (x : key * val) => fst x = fst kv /\ attribute code (snd kv) (snd x)) b a <-> a = map (fun kv => (fst kv, box code (snd kv))) b.
Proof.
  split.
  - intros H. induction H as [|[k j] [k' v] b a [E A] H IH]; [reflexivity|]. cbn in *. subst k' a. f_equal. f_equal. destruct j; exact A.
  - intros ->. induction b as [|[k j] b IH]; constructor; [|exact IH]. split; [reflexivity|]. cbn. destruct j; reflexivity.
Qed.

Lemma keywords_attrs d o : reads_attrs code d o -> exists j, field "attributes" (JDict d) = Ok j /\ keywords code (get_default (JDict []) j) = Ok (get_default [] o).
Proof.
  unfold reads_attrs, no_field, has_field. destruct o as [a|].
  - intros (b & H & B). apply boxes in B. subst a. exists (Some (JDict b)). cbn. rewrite H. auto.
  - intros H. exists None. cbn. rewrite H. auto.
Qed.

Lemma keywords_Ok j a : keywords code j = Ok a -> exists b, j = JDict b /\ a = map (fun kv => (fst kv, box code (snd kv))) b.
Proof. destruct j as [v|l|b]; cbn; try discriminate. intros H. inversion H. eauto. Qed.

Lemma attrs_keywords d j a : field "attributes" (JDict d) = Ok j -> keywords code (get_default (JDict []) j) = Ok a -> exists o, reads_attrs code d o /\ get_default [] o = a.
Proof.
  cbn. intros H E. inversion H as [Q]; clear H. subst j. destruct (dget (KStr "attributes") d) as [i|] eqn:G; cbn [get_default] in E.
  - apply keywords_Ok in E as (b & -> & ->). exists (Some (map (fun kv => (fst kv, box code (snd kv))) b)). split; [|reflexivity]. exists b. split; [exact G|]. apply boxes. reflexivity.
  - exists None. split; [exact G|]. cbn in *. congruence.
Qed.

Lemma hashed_Ok j k : hashed j = Ok k -> j = JVal (VKey k).
Proof. destruct j as [[| | |]| |]; cbn; try discriminate. congruence. Qed.

(** ** nodes *)
Lemma read_node_as j s g : reads_node code j s -> read_node code g j = parse_node g s.
Proof.
  intros (d & -> & (k & Ek & Fk) & A). apply keywords_attrs in A as (i & I & A). unfold read_node, parse_node, has_field in *.
  rewrite I. cbn [bind subscript]. rewrite Fk. cbn [get_item bind]. rewrite A. cbn [bind hashed]. rewrite Ek. reflexivity.
Qed.

Lemma read_node_Ok j g g' : read_node code g j = Ok g' -> exists s, reads_node code j s.
Proof.
  unfold read_node. intros H. apply bind_Ok in H as (i & I & H). apply bind_Ok in H as (k & Ik & H). apply bind_Ok in H as (a & A & H). apply bind_Ok in H as (n & N & H).
  destruct j as [v|l|d]; try discriminate I. destruct (attrs_keywords d i a I A) as (o & R & _). apply hashed_Ok in N. subst k.
  exists (mkSNode (Some n) o). exists d. split; [reflexivity|]. split; [|exact R]. exists n. split; [reflexivity|]. cbn in Ik. unfold has_field.
  destruct (dget (KStr "key") d); cbn in Ik; [congruence|discriminate].
Qed.

(** ** edges *)
Lemma hashable_free multi b : hashable_key multi (JDict b) = true <-> (multi = true -> forall l e, ~ has_field b "key" (JList l) /\ ~ has_field b "key" (JDict e)).
Proof.
  unfold hashable_key, has_field. destruct multi; cbn [negb orb]; [|split; [discriminate|reflexivity]].
  destruct (dget (KStr "key") b) as [[v|l|e]|]; split; intros H; try reflexivity; try discriminate.
  - intros _ l e. split; discriminate.
  - destruct (proj1 (H eq_refl l []) eq_refl).
  - destruct (proj2 (H eq_refl [] e) eq_refl).
  - intros _ l e. split; discriminate.
Qed.

Lemma read_edge_as mixed und multi j e g : reads_edge code mixed multi j e -> read_edge code mixed und multi g j = parse_edge mixed und multi g e.
Proof.
  intros (d & -> & (s & Es & Fs) & (t & Et & Ft) & A & Kk & U). pose proof A as A0. apply keywords_attrs in A as (i & I & A). unfold read_edge, parse_edge, has_field in *.
  rewrite I. cbn [field bind subscript]. rewrite Fs, Ft. cbn [get_item bind]. rewrite Es, Et. cbn [get_item bind].
  assert (M : mixed && negb (equals_bool (get_default (JVal (VBool false)) (dget (KStr "undirected") d)) und) = mixed && negb (Bool.eqb (get_default false (se_undirected e)) und)).
  { destruct mixed; [|reflexivity]. cbn [andb]. f_equal. specialize (U eq_refl). destruct (se_undirected e) as [b|].
    - destruct U as (v & Fv & V). unfold has_field in Fv. rewrite Fv. cbn [get_default equals_bool]. apply bool_equal. exact V.
    - unfold no_field in U. rewrite U. cbn [get_default equals_bool]. apply bool_equal. reflexivity. }
  rewrite M. destruct (mixed && negb (Bool.eqb (get_default false (se_undirected e)) und)); [reflexivity|]. rewrite A. cbn [bind hashed].
  assert (HB : get_default (JDict []) i = JDict [] \/ exists b, has_field d "attributes" (JDict b) /\ get_default (JDict []) i = JDict b).
  { destruct (keywords_Ok _ _ A) as (b & Eb & _). cbn in I. injection I as <-. unfold has_field. destruct (dget (KStr "attributes") d) as [i'|]; [right|left; reflexivity].
    exists b. cbn in *. split; congruence. }
  unfold reads_key in Kk. destruct (se_key e) as [k|].
  - unfold has_field in Kk. rewrite Kk. cbn [hashed bind]. destruct k; reflexivity.
  - destruct Kk as (K1 & K2). assert (HK : hashable_key multi (get_default (JDict []) i) = true).
    { destruct HB as [-> |(b & Fb & ->)]; [cbn; destruct multi; reflexivity|]. apply hashable_free. intros M1. exact (K2 M1 b Fb). }
    rewrite HK. unfold no_field, has_field in K1. destruct K1 as [->|[->| ->]]; [reflexivity|reflexivity|].
    destruct (dget (KStr "key") d) as [[[]| |]|]; reflexivity.
Qed.

Lemma read_edge_Ok mixed und multi j g g' : read_edge code mixed und multi g j = Ok g' -> exists e, reads_edge code mixed multi j e.
Proof.
  unfold read_edge. intros H. apply bind_Ok in H as (k & Ik & H). apply bind_Ok in H as (i & I & H). apply bind_Ok in H as (s & Is & H). apply bind_Ok in H as (t & It & H).
  apply bind_Ok in H as (u & Iu & H). destruct (mixed && _) eqn:M; [discriminate|]. cbv zeta in H. apply bind_Ok in H as (a & A & H).
  apply bind_Ok in H as (s' & S & H). apply bind_Ok in H as (t' & T & H). apply hashed_Ok in S, T. subst s t.
  destruct j as [v|l|d]; try discriminate I. destruct (attrs_keywords d i a I A) as (o & R & _).
  assert (F : forall name x, subscript name (JDict d) = Ok x -> has_field d name x).
  { unfold has_field. intros name x. cbn. destruct (dget (KStr name) d); cbn; [congruence|discriminate]. }
  cbn [field] in Ik, Iu. injection Ik as <-. injection Iu as <-.
  assert (UD : exists ud, reads_undirected mixed d ud).
  { destruct mixed; [|exists None; discriminate]. cbn [andb] in M. apply Bool.negb_false_iff in M. unfold reads_undirected, no_field, has_field.
    destruct (dget (KStr "undirected") d) as [[v| |]|] eqn:G; cbn in M; try discriminate M.
    - exists (Some und). intros _. exists v. auto.
    - exists None. auto. }
  destruct UD as (ud & UD).
  assert (KK : exists ok, reads_key multi d ok).
  { assert (HN : (dget (KStr "key") d = None \/ dget (KStr "key") d = Some (JVal VNone)) -> exists ok, reads_key multi d ok).
    { intros N. exists None. assert (HK : hashable_key multi (get_default (JDict []) i) = true).
      { destruct N as [N|N]; rewrite N in H; destruct (hashable_key multi (get_default (JDict []) i)); auto; discriminate. }
      split; [unfold no_field, has_field; tauto|]. intros M1 b Fb. cbn in I. injection I as <-. unfold has_field in Fb. rewrite Fb in HK. cbn [get_default] in HK.
      apply (proj1 (hashable_free multi b) HK M1). }
    assert (HM : multi = false -> exists ok, reads_key multi d ok) by (intros ->; exists None; split; [auto|discriminate]).
    destruct (dget (KStr "key") d) as [x|] eqn:G; [|apply HN; auto].
    destruct multi eqn:MM; [|apply HM; reflexivity].
    destruct x as [[|b|q|k]|l|e]; [apply HN; auto|cbn in H; discriminate|cbn in H; discriminate| |cbn in H; discriminate|cbn in H; discriminate].
    exists (Some k). exact G. }
  destruct KK as (ok & KK).
  exists (mkSEdge ok (Some s') (Some t') o ud). exists d. split; [reflexivity|]. cbn. repeat split; eauto.
Qed.

(** ** lists *)
Lemma reads_fold {A} (R : json -> A -> Prop) f h l : (forall j a g, R j a -> f g j = h g a) -> forall l' g, Forall2 R l l' -> foldM f l g = foldM (h : graph -> A -> res graph) l' g.
Proof.
  intros E l' g F. revert g. induction F as [|j a l l' J F IH]; intros g; [reflexivity|]. cbn [foldM]. rewrite (E j a g J). destruct (h g a); [apply IH|reflexivity].
Qed.

Lemma items_list j l : list_of j l -> items j = Ok l /\ j <> JVal VNone.
Proof. intros [-> |[-> [-> | ->]]]; split; try reflexivity; discriminate. Qed.

Lemma loop_list j l f g : list_of j l -> loop f j g = foldM f l g.
Proof. intros H. destruct (items_list j l H) as [E N]. unfold loop. rewrite E. destruct j as [[]| |]; try reflexivity. destruct (N eq_refl). Qed.

Lemma loop_reads {A} (R : json -> A -> Prop) f (h : graph -> A -> res graph) d name o g : (forall j a g, R j a -> f g j = h g a) -> reads_list R d name o ->
  loop f (get_none (dget (KStr name) d)) g = foldM h (get_default [] o) g.
Proof.
  intros E L. unfold reads_list, no_field, has_field in L. destruct o as [l|].
  - destruct L as (j & i & J & I & F). rewrite J. cbn [get_none get_default]. rewrite (loop_list j i f g I). apply reads_fold with (R := R); assumption.
  - destruct L as [-> | ->]; reflexivity.
Qed.

Lemma loop_Ok {A} (R : json -> A -> Prop) f d name g g' : (forall j h h', f h j = Ok h' -> exists a, R j a) -> (forall v j, R j v -> exists e, j = JDict e) ->
  loop f (get_none (dget (KStr name) d)) g = Ok g' -> exists o, reads_list R d name o.
Proof.
  intros E D H. unfold reads_list, no_field, has_field. destruct (dget (KStr name) d) as [j|] eqn:G; [|exists None; auto].
  cbn [get_none get_default] in H.
  assert (C : j = JVal VNone \/ exists l, items j = Ok l /\ foldM f l g = Ok g').
  { unfold loop in H. destruct j as [[|b|q|k]|l|e]; auto; right; apply bind_Ok in H as (l' & I & H); eauto. }
  destruct C as [->|(l & I & F)]; [exists None; auto|].
  assert (AL : exists l', Forall2 R l l').
  { assert (P : forall x, In x l -> exists a, R x a) by (intros x Hx; destruct (foldM_ran f l x g g' F Hx) as (s1 & s2 & E1); eapply E; exact E1).
    clear - P. induction l as [|x l IH]; [exists []; constructor|]. destruct (P x (or_introl eq_refl)) as (a & Ra). destruct IH as (l' & Fl); [intros y Hy; apply P; right; exact Hy|].
    exists (a :: l'). constructor; assumption. }
  destruct AL as (l' & AL). exists (Some l'). exists j, l. split; [reflexivity|]. split; [|exact AL].
  unfold list_of. destruct j as [[|b|q|[z|s|n]]|i|e]; cbn in I; try discriminate I.
  - injection I as <-. destruct s as [|c s]; [right; auto|]. exfalso. cbn in AL. inversion AL as [|? ? ? ? X]; subst. apply D in X as (? & X). discriminate X.
  - injection I as <-. auto.
  - injection I as <-. destruct e as [|kv e]; [right; auto|]. exfalso. cbn in AL. inversion AL as [|? ? ? ? X]; subst. apply D in X as (? & X). discriminate X.
Qed.

(** ** documents *)
Lemma equals_ty t ty name : (t = JStr ty \/ ty = "undirected"%string /\ forall s, t <> JStr s) -> name <> "undirected"%string -> equals_str t name = String.eqb ty name.
Proof.
  intros [-> |[-> N]] H; [reflexivity|]. replace (String.eqb "undirected" name) with false by (symmetry; apply String.eqb_neq; auto).
  destruct t as [[| | |[| |]]| |]; try reflexivity. destruct (N s eq_refl).
Qed.

Lemma mixed_reads multi d o : reads_list (reads_edge code true multi) d "edges" o ->
  mixed_type (get_none (dget (KStr "edges") d)) = Ok (match o with Some (e :: _) => get_default false (se_undirected e) | _ => false end).
Proof.
  unfold reads_list, no_field, has_field. destruct o as [l|].
  - intros (j & i & J & I & F). rewrite J. cbn [get_none get_default]. destruct F as [|x e i l Re F].
    + destruct I as [-> |[_ [-> | ->]]]; reflexivity.
    + destruct I as [-> |[I _]]; [|discriminate I]. destruct Re as (ed & -> & _ & _ & _ & _ & U). specialize (U eq_refl). cbn [mixed_type truthy first_item bind field].
      destruct (se_undirected e) as [b|].
      * destruct U as (v & Fv & V). unfold has_field in Fv. unfold mixed_type. cbn [truthy first_item bind field]. rewrite Fv. cbn [bind get_default]. f_equal. apply truthy_bool. exact V.
      * unfold no_field in U. unfold mixed_type. cbn [truthy first_item bind field]. rewrite U. reflexivity.
  - intros [-> | ->]; reflexivity.
Qed.

Lemma parse_reads j d : reads_as code j d -> parse_any code j = parse_graphology_json d.
Proof.
  intros (o & top & t & m & ty & mu & -> & Fo & Ft & Fm & Ed & Mu & T & A & N & E). apply truthy_is in Mu. unfold parse_any, parse_graphology_json, contains, has_field in *.
  rewrite Ed. assert (C : dmem (KStr "options") top = true).
  { unfold dmem. apply mem_In. apply dget_Some_In in Fo. apply in_map_iff. eexists. split; [|exact Fo]. reflexivity. }
  rewrite C. cbn [bind negb subscript]. rewrite Fo. cbn [get_item bind subscript o_type o_multi]. rewrite Ft. cbn [get_item bind].
  pose proof A as A0. apply keywords_attrs in A as (i & I & A). rewrite I. cbn [bind field].
  rewrite (equals_ty t ty "mixed" T) by discriminate. rewrite (equals_ty t ty "directed" T) by discriminate.
  unfold actual_type. destruct (String.eqb_spec ty "mixed") as [-> |NM].
  - rewrite (mixed_reads mu top (d_edges d) E). cbn [bind subscript]. rewrite Fm. cbn [get_item bind]. rewrite A, <- Mu. cbn [bind].
    set (b := match d_edges d with Some (e :: _) => get_default false (se_undirected e) | _ => false end) in *.
    assert (B : match d_edges d with Some (e :: _) => if get_default false (se_undirected e) then "undirected" else "directed" | _ => "directed" end%string = (if b then "undirected" else "directed")%string).
    { unfold b. destruct (d_edges d) as [[|e l]|]; reflexivity. }
    rewrite B. destruct b; cbn [negb String.eqb Ascii.eqb Bool.eqb].
    + replace (String.eqb "undirected" "directed") with false by reflexivity. destruct (new_graph_kw false mu _) as [g0|]; [|reflexivity]. cbn [bind].
      rewrite (loop_reads _ _ parse_node top "nodes" (d_nodes d) g0 (fun j a g => read_node_as j a g) N). destruct (foldM parse_node _ g0) as [g1|]; [|reflexivity]. cbn [bind].
      apply loop_reads with (R := reads_edge code true mu); [|exact E]. intros. apply read_edge_as. assumption.
    + replace (String.eqb "directed" "directed") with true by reflexivity. destruct (new_graph_kw true mu _) as [g0|]; [|reflexivity]. cbn [bind].
      rewrite (loop_reads _ _ parse_node top "nodes" (d_nodes d) g0 (fun j a g => read_node_as j a g) N). destruct (foldM parse_node _ g0) as [g1|]; [|reflexivity]. cbn [bind].
      apply loop_reads with (R := reads_edge code true mu); [|exact E]. intros. apply read_edge_as. assumption.
  - cbn [bind subscript]. rewrite Fm. cbn [get_item bind]. rewrite A, <- Mu. cbn [bind]. destruct (new_graph_kw _ mu _) as [g0|]; [|reflexivity]. cbn [bind].
    rewrite (loop_reads _ _ parse_node top "nodes" (d_nodes d) g0 (fun j a g => read_node_as j a g) N). destruct (foldM parse_node _ g0) as [g1|]; [|reflexivity]. cbn [bind].
    apply loop_reads with (R := reads_edge code false mu); [|exact E]. intros. rewrite (read_edge_as false false mu j a g H). reflexivity.
Qed.

Lemma parse_any_Ok j h : parse_any code j = Ok h -> exists d, reads_as code j d.
Proof.
  unfold parse_any. intros H. apply bind_Ok in H as (b & B & H). destruct b; [|discriminate]. cbn [negb] in H.
  apply bind_Ok in H as (o & Fo & H). apply bind_Ok in H as (t & Ft & H). apply bind_Ok in H as (i & I & H). apply bind_Ok in H as (n & Nn & H). apply bind_Ok in H as (e & Ee & H).
  cbv zeta in H. apply bind_Ok in H as (x & X & H). apply bind_Ok in H as (m & Fm & H). apply bind_Ok in H as (a & A & H). apply bind_Ok in H as (g0 & G0 & H). apply bind_Ok in H as (g1 & G1 & H).
  destruct j as [v|l|top]; try discriminate I. destruct o as [v|l|o]; try discriminate Ft.
  assert (F : forall d name x, subscript name (JDict d) = Ok x -> has_field d name x).
  { unfold has_field. intros d name y. cbn. destruct (dget (KStr name) d); cbn; [congruence|discriminate]. }
  apply F in Fo, Ft, Fm. destruct (attrs_keywords top i a I A) as (oa & RA & _).
  cbn [field] in Nn, Ee. injection Nn as <-. injection Ee as <-.
  destruct (loop_Ok (reads_node code) (read_node code) top "nodes" g0 g1) as (on & RN); [intros; eapply read_node_Ok; eassumption|intros v j (d & -> & _); eauto|exact G1|].
  destruct (loop_Ok (reads_edge code (equals_str t "mixed") (truthy m)) (read_edge code (equals_str t "mixed") x (truthy m)) top "edges" g1 h) as (oe & RE);
    [intros; eapply read_edge_Ok; eassumption|intros v j (d & -> & _); eauto|exact H|].
  assert (TY : exists ty, (t = JStr ty \/ ty = "undirected"%string /\ forall s, t <> JStr s) /\ String.eqb ty "mixed" = equals_str t "mixed").
  { destruct t as [[|b'|q|[z|s|y]]|l|e]; try (exists "undirected"%string; split; [right; split; [reflexivity|intros; discriminate]|reflexivity]). exists s. auto. }
  destruct TY as (ty & T & TE). rewrite <- TE in RE.
  exists (mkDoc (Some (mkOptions (Some ty) (Some (truthy m)))) oa on oe). exists o, top, t, m, ty, (truthy m). cbn. rewrite truthy_is. auto 12.
Qed.

(** ** errors *)
Definition reader_error (e : exc) : Prop := In e [TypeError; KeyError; AttributeError; NetworkXError].
Definition safe {A} (x : res A) : Prop := forall e, x = Err e -> reader_error e.

Lemma safe_bind {A B} (x : res A) (f : A -> res B) : safe x -> (forall a, x = Ok a -> safe (f a)) -> safe (bind x f).
Proof. intros Hx Hf e. destruct x as [a|e']; cbn; [apply Hf; reflexivity|]. intros E. inversion E; subst. apply Hx. reflexivity. Qed.

Lemma safe_foldM {A B} (f : B -> A -> res B) l : (forall s a, safe (f s a)) -> forall s, safe (foldM f l s).
Proof. intros H. induction l as [|a l IH]; intros s; cbn [foldM]; [intros e E; discriminate|]. apply safe_bind; auto. Qed.
End Reads.

Ltac safe_now := let e := fresh in let E := fresh in intros e E; inversion E; subst; unfold reader_error; cbn; tauto.

Lemma safe_subscript name j : safe (subscript name j).
Proof. destruct j as [v|l|d]; cbn; [safe_now|safe_now|]. destruct (dget (KStr name) d); safe_now. Qed.
Lemma safe_field name j : safe (field name j).
Proof. destruct j; cbn; safe_now. Qed.
Lemma safe_hashed j : safe (hashed j).
Proof. destruct j as [[]| |]; cbn; safe_now. Qed.
Lemma safe_keywords code j : safe (keywords code j).
Proof. destruct j; cbn; safe_now. Qed.
Lemma safe_add_edge g u v a : safe (add_edge_kw g u v a).
Proof. unfold add_edge_kw. destruct (kwargs_ok _ a); [|safe_now]. destruct (g_multi g); [|safe_now]. destruct (dget (K "key") a) as [[]|]; safe_now. Qed.
Lemma safe_first j : truthy j = true -> safe (first_item j).
Proof.
  destruct j as [[|b|q|[z|[|c s]|n]]|[|x l]|[|x d]]; intros T; try discriminate T; try (cbn; safe_now).
  cbn [first_item]. destruct (dget (KInt 0) (x :: d)); cbn [get_item]; safe_now.
Qed.
Lemma safe_loop f j g : (forall h i, safe (f h i)) -> safe (loop f j g).
Proof.
  intros H. unfold loop. assert (I : safe (items j)) by (destruct j as [[|b|q|[z|s|n]]|l|d]; cbn; safe_now).
  destruct j as [[]| |]; try safe_now; apply safe_bind; auto; intros; apply safe_foldM; auto.
Qed.

Lemma parse_any_errors code j e : parse_any code j = Err e -> reader_error e.
Proof.
  revert e. change (safe (parse_any code j)). unfold parse_any.
  apply safe_bind; [destruct j as [[|b|q|[z|s|n]]|l|d]; cbn; safe_now|]. intros [|] _; cbn [negb]; [|safe_now].
  apply safe_bind; [apply safe_subscript|]. intros o _. apply safe_bind; [apply safe_subscript|]. intros t _.
  apply safe_bind; [apply safe_field|]. intros i _. apply safe_bind; [apply safe_field|]. intros n _. apply safe_bind; [apply safe_field|]. intros ed _. cbv zeta.
  apply safe_bind.
  { destruct (equals_str t "mixed"); [|safe_now]. unfold mixed_type. destruct (truthy (get_none ed)) eqn:T; [|safe_now].
    apply safe_bind; [apply safe_first; exact T|]. intros x _. apply safe_bind; [apply safe_field|]. intros u _. safe_now. }
  intros x _. apply safe_bind; [apply safe_subscript|]. intros m _. apply safe_bind; [apply safe_keywords|]. intros a _.
  apply safe_bind; [unfold new_graph_kw; destruct (kwargs_ok _ a); [|safe_now]; destruct (dget _ a) as [[]|]; safe_now|]. intros g0 _.
  apply safe_bind.
  { apply safe_loop. intros h s. unfold read_node. apply safe_bind; [apply safe_field|]. intros at_ _. apply safe_bind; [apply safe_subscript|]. intros k _.
    apply safe_bind; [apply safe_keywords|]. intros a' _. apply safe_bind; [apply safe_hashed|]. intros n' _. unfold add_node_kw. destruct (kwargs_ok _ a'); safe_now. }
  intros g1 _. apply safe_loop. intros h s. unfold read_edge. apply safe_bind; [apply safe_field|]. intros k _. apply safe_bind; [apply safe_field|]. intros at_ _.
  apply safe_bind; [apply safe_subscript|]. intros so _. apply safe_bind; [apply safe_subscript|]. intros ta _. apply safe_bind; [apply safe_field|]. intros u _.
  destruct (_ && _); [safe_now|]. cbv zeta. apply safe_bind; [apply safe_keywords|]. intros a' _. apply safe_bind; [apply safe_hashed|]. intros s' _. apply safe_bind; [apply safe_hashed|]. intros t' _.
  destruct k as [k|].
  - assert (G : safe (if truthy m then let* k0 := hashed k in add_edge_key_kw h s' t' k0 a' else add_edge_kw h s' t' a')).
    { destruct (truthy m); [|apply safe_add_edge]. apply safe_bind; [apply safe_hashed|]. intros k0 _. unfold add_edge_key_kw. destruct (kwargs_ok _ a'); safe_now. }
    destruct k as [[]| |]; try exact G. destruct (hashable_key _ _); [apply safe_add_edge|safe_now].
  - destruct (hashable_key _ _); [apply safe_add_edge|safe_now].
Qed.
