(** * Proofs about files *)
From Coq Require Import ZArith String.
From Verif Require Import PyBase NxGraph L_Base L_Nx L_Nx2 M_Json M_Read S_Graph S_Json S_Read L_Json L_Read.

(** ** documents as dicts *)
Section Dicts.
Variable code : json -> nat.

Lemma attrs_back d a : has_field d "attributes" (attrs_json a) -> reads_attrs code d (Some a).
Proof.
  intros H. exists (map (fun kv => (fst kv, JVal (snd kv))) a). split; [exact H|]. apply boxes. rewrite map_map. cbn. symmetry. rewrite <- (map_id a) at 2. apply map_ext. intros [k v]. reflexivity.
Qed.

Lemma node_reads s : sn_key s <> None -> reads_node code (node_json s) s.
Proof.
  intros H. destruct s as [[k|] a]; [|destruct (H eq_refl)]. eexists. split; [reflexivity|]. split; [exists k; split; reflexivity|].
  destruct a as [a|]; [apply attrs_back|]; reflexivity.
Qed.

Lemma edge_reads mixed multi e : se_source e <> None -> se_target e <> None -> reads_edge code mixed multi (edge_json e) e.
Proof.
  intros H1 H2. destruct e as [k [s|] [t|] a u]; cbn in H1, H2; try (destruct (H1 eq_refl)); try (destruct (H2 eq_refl)).
  eexists. split; [reflexivity|]. split; [exists s; split; [reflexivity|destruct k; reflexivity]|]. split; [exists t; split; [reflexivity|destruct k; reflexivity]|].
  split; [|split].
  - destruct a as [a|]; [apply attrs_back|]; destruct k; destruct u; reflexivity.
  - destruct k as [k|]; [reflexivity|]. split; [left; destruct a, u; reflexivity|]. intros _ b Fb l e. destruct a as [a|]; [|destruct u; discriminate Fb].
    assert (E : JDict b = attrs_json a) by (unfold has_field in Fb; cbn in Fb; congruence). injection E as ->. unfold has_field.
    clear. induction a as [|[k v] a IH]; [split; discriminate|]. cbn [map dget fst snd]. destruct (key_eqb (KStr "key") k); [split; discriminate|exact IH].
  - intros _. destruct u as [b|]; cbn [se_undirected].
    + exists (VBool b). split; [destruct k, a; reflexivity|]. destruct b; reflexivity.
    + destruct k, a; reflexivity.
Qed.

Lemma document_reads d : complete d -> reads_as code (document_json d) d.
Proof.
  intros ((o & t & m & Eo & Et & Em) & N & E). destruct d as [o' a n e]. cbn in Eo. subst o'. destruct o as [ty mu]. cbn in Et, Em. subst ty mu.
  unfold doc_nodes, doc_edges in N, E. cbn [d_nodes d_edges] in N, E.
  exists ((KStr "allowSelfLoops", JVal (VBool true)) :: (KStr "multi", JVal (VBool m)) :: (KStr "type", JStr t) :: []).
  eexists. exists (JStr t), (JVal (VBool m)), t, m. split; [reflexivity|]. split; [reflexivity|]. split; [reflexivity|]. split; [reflexivity|]. split; [reflexivity|]. split; [exact (truthy_false (JVal (VBool m)))|]. split; [left; reflexivity|].
  split; [|split].
  - destruct a as [a|]; [apply attrs_back|]; destruct n, e; reflexivity.
  - destruct n as [n|]; cbn [d_nodes reads_list]; [|left; destruct e, a; reflexivity]. exists (JList (map node_json n)), (map node_json n). split; [destruct e, a; reflexivity|]. split; [left; reflexivity|].
    clear - N. induction n as [|s n IH]; [constructor|]. cbn [map]. constructor; [apply node_reads, N; left; reflexivity|apply IH; intros; apply N; right; assumption].
  - destruct e as [e|]; cbn [d_edges reads_list]; [|left; destruct n, a; reflexivity]. exists (JList (map edge_json e)), (map edge_json e). split; [destruct n, a; reflexivity|]. split; [left; reflexivity|].
    clear - E. induction e as [|s e IH]; [constructor|]. cbn [map]. constructor; [apply edge_reads; apply E; left; reflexivity|apply IH; intros; apply E; right; assumption].
Qed.
End Dicts.

(** ** files *)
Section Ind.
Variable P : json -> Prop.
Hypothesis HV : forall v, P (JVal v).
Hypothesis HL : forall l, Forall P l -> P (JList l).
Hypothesis HD : forall d, Forall (fun kv => P (snd kv)) d -> P (JDict d).
Fixpoint json_nested (j : json) : P j :=
  match j with
  | JVal v => HV v
  | JList l => HL l ((fix go (l : list json) : Forall P l := match l with [] => Forall_nil _ | i :: r => Forall_cons _ (json_nested i) (go r) end) l)
  | JDict d => HD d ((fix go (d : list (key * json)) : Forall (fun kv => P (snd kv)) d := match d with [] => Forall_nil _ | i :: r => Forall_cons _ (json_nested (snd i)) (go r) end) d)
  end.
End Ind.

Definition dump_items : list (key * json) -> dict json -> res (dict json) :=
  fix go (d : list (key * json)) (acc : dict json) : res (dict json) :=
    match d with
    | [] => Ok acc
    | (k, i) :: r => let* k' := dump_name k in let* i' := dump_load i in go r (dset k' i' acc)
    end.

Lemma dump_load_dict d : dump_load (JDict d) = let* d' := dump_items d [] in Ok (JDict d').
Proof. reflexivity. Qed.

Lemma dump_items_storable (d : list (key * json)) : Forall (fun kv => (exists s, fst kv = KStr s) /\ dump_load (snd kv) = Ok (snd kv)) d -> forall acc, NoDup (map fst (acc ++ d)) -> dump_items d acc = Ok (acc ++ d).
Proof.
  induction 1 as [|[k i] d [(s & Hk) Hi] F IH]; intros acc N; [cbn; rewrite app_nil_r; reflexivity|]. cbn in Hk, Hi. subst k. cbn [dump_items dump_name bind]. rewrite Hi. cbn [bind].
  rewrite dset_notin.
  - rewrite IH; rewrite <- app_assoc; [reflexivity|exact N].
  - rewrite map_app in N. cbn [map fst] in N. apply NoDup_remove_2 in N. intros H. apply N, in_or_app. left. exact H.
Qed.

Lemma dump_storable j : storable j -> dump_load j = Ok j.
Proof.
  induction j as [v|l F|d F] using json_nested; intros H.
  - cbn in H. destruct v as [|b|q|[z|s|n]]; try reflexivity. destruct (H n eq_refl).
  - cbn [dump_load]. assert (G : (fix go (l : list json) : res (list json) :=
                             match l with [] => Ok [] | i :: r => let* i' := dump_load i in let* r' := go r in Ok (i' :: r') end) l = Ok l); [|rewrite G; reflexivity].
    induction F as [|i l Fi F IH]; [reflexivity|]. destruct H as [H1 H2]. rewrite (Fi H1). cbn [bind]. rewrite (IH H2). reflexivity.
  - destruct H as [N H]. rewrite dump_load_dict, dump_items_storable; [reflexivity| |exact N].
    clear N. induction F as [|[k i] d Fi F IH]; [constructor|]. destruct H as (H0 & H1 & H2). constructor; [split; [exact H0|apply Fi; exact H1]|apply IH; exact H2].
Qed.

(** what is written is storable *)
Lemma storable_dict d : NoDup (map fst d) -> (forall k i, In (k, i) d -> (exists s, k = KStr s) /\ storable i) -> storable (JDict d).
Proof.
  intros N H. split; [exact N|]. clear N. induction d as [|[k i] d IH]; [exact I|]. destruct (H k i (or_introl eq_refl)) as [A B]. split; [exact A|]. split; [exact B|].
  apply IH. intros k' i' I'. apply H. right. exact I'.
Qed.

Lemma storable_list l : (forall i, In i l -> storable i) -> storable (JList l).
Proof. intros H. cbn. induction l as [|i l IH]; [exact I|]. split; [apply H; left; reflexivity|apply IH; intros; apply H; right; assumption]. Qed.

Lemma storable_attrs a : NoDup (dkeys a) -> (forall k, In k (dkeys a) -> exists s, k = KStr s) -> plain_values a -> storable (attrs_json a).
Proof.
  intros N S P. apply storable_dict; [rewrite map_map; exact N|]. intros k i I. apply in_map_iff in I as ([k' v] & E & I). inversion E; subst. split.
  - apply S. apply in_map_iff. exists (k, v). auto.
  - cbn. intros n. eapply P. exact I.
Qed.

Ltac distinct := repeat constructor; cbn; intuition discriminate.
Ltac members H := cbn in H; repeat destruct H as [H|H]; try contradiction; try (inversion H; subst; clear H).

Lemma storable_str s : storable (JVal (VKey (KStr s))).
Proof. cbn. intros n. discriminate. Qed.
Lemma storable_bool b : storable (JVal (VBool b)).
Proof. cbn. intros n. discriminate. Qed.

Lemma storable_entries l : NoDup (map fst l) -> Forall (fun ki => (exists s, fst ki = KStr s) /\ storable (snd ki)) l -> storable (JDict l).
Proof. intros N F. apply storable_dict; [exact N|]. intros k i I. rewrite Forall_forall in F. exact (F (k, i) I). Qed.

Lemma Forall2_right {A B} (R : A -> B -> Prop) l l' y : Forall2 R l l' -> In y l' -> exists x, In x l /\ R x y.
Proof.
  induction 1 as [|x z l l' H F IH]; intros I; [destruct I|]. destruct I as [<- |I]; [exists x; split; [left; reflexivity|exact H]|].
  destruct (IH I) as (w & Iw & Rw). exists w. split; [right; exact Iw|exact Rw].
Qed.

Lemma In_dset_either {V} k (v : V) d x : In x (dset k v d) -> x = (k, v) \/ In x d.
Proof.
  induction d as [|[k' v'] d IH]; cbn; [intros [H|[]]; left; auto|]. destruct (key_eqb k k') eqn:E.
  - intros [H|H]; [|right; right; exact H]. left. apply key_eqb_eq in E. subst. auto.
  - intros [H|H]; [right; left; exact H|]. destruct (IH H); auto.
Qed.

Lemma coerce_plain repr allow a : forall c b, plain_values a -> NoDup (dkeys c) -> (forall k, In k (dkeys c) -> exists s, k = KStr s) -> plain_values c ->
  foldM (fun copy kv => let '(k, v) := kv in
           if is_str k then Ok (dset k v copy) else if (allow : bool) then Ok (dset (KStr (py_str repr k)) v copy) else Err TypeError) a c = Ok b ->
  NoDup (dkeys b) /\ (forall k, In k (dkeys b) -> exists s, k = KStr s) /\ plain_values b.
Proof.
  induction a as [|[k v] a IH]; intros c b P N S Q E; [inversion E; subst; auto|].
  assert (K : exists s, foldM (fun copy kv => let '(k, v) := kv in
           if is_str k then Ok (dset k v copy) else if (allow : bool) then Ok (dset (KStr (py_str repr k)) v copy) else Err TypeError) a (dset (KStr s) v c) = Ok b).
  { cbn [foldM] in E. destruct k as [z|s|n]; cbn [is_str] in E; [destruct allow; [|discriminate]| |destruct allow; [|discriminate]]; eexists; exact E. }
  destruct K as (s & K). eapply IH; [intros ? ? ? I; apply (P _ _ _ (or_intror I))|apply NoDup_dset; exact N| | |exact K].
  - intros k' I. apply In_dkeys_dset in I as [-> |I]; [eexists; reflexivity|apply S; exact I].
  - intros k' v' m I. apply In_dset_either in I as [I|I]; [|eapply Q; exact I]. inversion I; subst. apply (P k v m). left. reflexivity.
Qed.

Lemma coerced_plain repr allow a o : plain_values a -> coerced repr allow a = Ok o -> match o with Some b => storable (attrs_json b) | None => True end.
Proof.
  intros P E. unfold coerced in E. destruct a as [|kv a]; [inversion E; exact I|]. destruct (coerce_attributes repr allow (kv :: a)) as [b|] eqn:F; [|discriminate]. inversion E; subst.
  unfold coerce_attributes in F. apply coerce_plain in F as (A & B & C); [apply storable_attrs; assumption|exact P|constructor|intros k []|intros k v n []].
Qed.

Lemma written_storable repr g mixed allow d : NoDup (dkeys (g_attr g)) -> (forall k, In k (dkeys (g_attr g)) -> exists s, k = KStr s) -> savable g ->
  write_graphology_json repr g mixed allow = Ok d -> complete d /\ storable (document_json d).
Proof.
  intros W SG (V1 & V2 & V3) E. pose proof (write_res repr g mixed allow) as R. destruct (writable mixed allow g); [|congruence]. destruct R as (ns & es & E' & FN & FE).
  rewrite E in E'. injection E' as ->.
  assert (NS : forall s, In s ns -> sn_key s <> None /\ storable (node_json s)).
  { intros s Hs. destruct (Forall2_right _ _ _ _ FN Hs) as ([n a] & Hn & K1 & C1). cbn in K1, C1.
    assert (SA := coerced_plain repr allow a (sn_attributes s) (V2 n a Hn) C1).
    split; [congruence|]. unfold node_json. rewrite K1. cbn [entry app]. apply storable_entries.
    - destruct (sn_attributes s); distinct.
    - constructor; [split; [eexists; reflexivity|apply storable_str]|]. destruct (sn_attributes s) as [b|]; cbn [entry]; [|constructor]. constructor; [split; [eexists; reflexivity|exact SA]|constructor]. }
  assert (ES : forall s, In s es -> se_source s <> None /\ se_target s <> None /\ storable (edge_json s)).
  { intros s Hs. destruct (Forall2_right _ _ _ _ FE Hs) as ([[u v] a] & Hn & o & C1 & ->). cbn in C1.
    assert (SA := coerced_plain repr allow a o (V3 u v a Hn) C1).
    split; [discriminate|]. split; [discriminate|]. unfold edge_json. cbn [se_key se_source se_target se_attributes se_undirected entry app fst snd]. rewrite app_nil_r. apply storable_entries.
    - destruct o; distinct.
    - constructor; [split; [eexists; reflexivity|apply storable_str]|]. constructor; [split; [eexists; reflexivity|apply storable_str]|].
      destruct o as [b|]; cbn [entry]; [|constructor]. constructor; [split; [eexists; reflexivity|exact SA]|constructor]. }
  split.
  - split; [eexists _, _, _; cbn; repeat split|]. unfold doc_nodes, doc_edges. cbn. split; [intros s Hs; apply NS; exact Hs|intros s Hs; split; apply (ES s Hs)].
  - unfold document_json. cbn [d_options d_nodes d_edges d_attributes entry app]. apply storable_entries.
    + destruct (g_attr g); distinct.
    + constructor; [|constructor; [|constructor]].
      * split; [eexists; reflexivity|]. apply storable_entries; [distinct|]. cbn.
        constructor; [split; [eexists; reflexivity|intros; discriminate]|]. constructor; [split; [eexists; reflexivity|intros; discriminate]|]. constructor; [split; [eexists; reflexivity|intros; discriminate]|constructor].
      * split; [eexists; reflexivity|]. apply storable_list. intros i Hi. apply in_map_iff in Hi as (s & <- & Hs). apply NS. exact Hs.
      * split; [eexists; reflexivity|]. apply storable_list. intros i Hi. apply in_map_iff in Hi as (s & <- & Hs). apply ES. exact Hs.
      * assert (SA : storable (attrs_json (g_attr g))) by (apply storable_attrs; [exact W|exact SG|exact V1]).
        destruct (g_attr g) as [|kv a] eqn:EA; cbn [entry]; constructor; [|constructor]. split; [eexists; reflexivity|exact SA].
Qed.
