(** Lemmas for the properties of files (C39-C44, C56). *)
From Verif Require Import Base BaseFacts StrOps Corr Table Charset ModifierKind Yaml File Spec FileSpec CorrFacts CorrProps.

(** ** CSV *)
Lemma record_items_iff rec its : record_items rec = Ok its <-> row_of rec its.
Proof.
  unfold record_items, row_of. destruct rec as [|t fs _] using rev_ind.
  - cbn. split; [discriminate|]. intros (fs & t & E & _). destruct fs; discriminate.
  - rewrite rev_app_distr. cbn [rev app hd_error unwrap bind]. rewrite app_length. cbn [length].
    replace (length fs + 1 - 1) with (length fs) by lia. rewrite firstn_app, firstn_all, Nat.sub_diag.
    cbn [firstn]. rewrite app_nil_r. split.
    + intros E. injection E as <-. exists fs, t. auto.
    + intros (fs' & t' & E & ->). apply app_inj_tail in E as [-> ->]. reflexivity.
Qed.
Lemma record_items_cases rec : rec <> [] -> exists its, record_items rec = Ok its.
Proof.
  intros H. destruct (exists_last H) as (fs & t & ->). exists (map (fun f => Item f t) fs).
  apply record_items_iff. exists fs, t. auto.
Qed.
Lemma csv_items_iff recs its : csv_items recs = Ok its <->
  exists rows, recs = map CsvFields rows /\ rows_items rows its.
Proof.
  revert its; induction recs as [|r recs IH]; intros its; cbn [csv_items].
  - split.
    + intros E. injection E as <-. exists []. split; [reflexivity|]. exists []. split; [constructor|reflexivity].
    + intros (rows & E & parts & F & ->). destruct rows; [|discriminate]. inversion F. reflexivity.
  - destruct r as [rec| |].
    + rewrite bind_ok. split.
      * intros (a & E1 & E2). apply bind_ok in E2 as (b & E2 & E3). injection E3 as <-.
        apply record_items_iff in E1. apply IH in E2 as (rows & -> & parts & F & ->).
        exists (rec :: rows). split; [reflexivity|]. exists (a :: parts). split; [constructor; assumption|reflexivity].
      * intros (rows & E & parts & F & ->). destruct rows as [|rec' rows]; [discriminate|]. cbn in E. injection E as -> ->.
        inversion F as [|? part ? parts' F1 F2]; subst. exists part. split; [apply record_items_iff, F1|].
        apply bind_ok. exists (concat parts'). split; [|reflexivity]. apply IH. exists rows. split; [reflexivity|].
        exists parts'. auto.
    + split; [discriminate|]. intros (rows & E & _). destruct rows; discriminate.
    + split; [discriminate|]. intros (rows & E & _). destruct rows; discriminate.
Qed.
Lemma csv_items_cases recs : ~ In (CsvFields []) recs ->
  csv_items recs = Err CsvFileLoadError \/ exists its, csv_items recs = Ok its.
Proof.
  induction recs as [|r recs IH]; intros H; cbn [csv_items]; [right; eexists; reflexivity|].
  destruct r as [rec| |]; [|left; reflexivity..].
  destruct (record_items_cases rec) as (a & E1). { intros ->. apply H. left; reflexivity. }
  rewrite E1. cbn [bind]. destruct IH as [E|(b & E)]; [intros G; apply H; right; exact G|..]; rewrite E; cbn [bind]; eauto.
Qed.
Lemma C39_iff w p t : table_from_csv_path w p = Ok t <->
  exists recs rows, w_csv w p = Some recs /\ hd_error recs <> Some CsvIoError /\ tl recs = map CsvFields rows /\
    rows_items rows (table_items t) /\ t_origin t = OriginFile p.
Proof.
  unfold table_from_csv_path. split.
  - destruct (w_csv w p) as [recs|]; [|discriminate]. intros H.
    assert (Hh : hd_error recs <> Some CsvIoError).
    { destruct recs as [|[rec| |] r]; discriminate. }
    assert (H' : (items <- csv_items (tl recs);; Ok (table_from_corr items (OriginFile p))) = Ok t).
    { destruct recs as [|[rec| |] r]; (exact H || discriminate). }
    apply bind_ok in H' as (its & E & H'). injection H' as <-. apply csv_items_iff in E as (rows & E & F).
    exists recs, rows. auto.
  - intros (recs & rows & -> & Hh & E & F & G).
    assert (H' : (items <- csv_items (tl recs);; Ok (table_from_corr items (OriginFile p))) = Ok t).
    { apply bind_ok. exists (table_items t). split; [apply csv_items_iff; exists rows; auto|].
      destruct t as [its org]. cbn in *. subst. reflexivity. }
    destruct recs as [|[rec| |] r]; (exact H' || contradiction Hh; reflexivity).
Qed.
Lemma C39_fail w p : (forall recs, w_csv w p = Some recs -> ~ In (CsvFields []) (tl recs)) ->
  table_from_csv_path w p = Err CsvFileLoadError \/ exists t, table_from_csv_path w p = Ok t.
Proof.
  unfold table_from_csv_path. intros H. destruct (w_csv w p) as [recs|]; [|left; reflexivity].
  specialize (H recs eq_refl). destruct (csv_items_cases _ H) as [E|(its & E)].
  - left. destruct recs as [|[rec| |] r]; cbn [tl] in *; rewrite ?E; reflexivity.
  - destruct recs as [|[rec| |] r]; cbn [tl] in *; rewrite ?E; cbn [bind]; eauto.
Qed.

(** ** Export *)
Definition group_items (kv : str * list str) : list item := map (fun v => Item v (fst kv)) (snd kv).
Lemma export_rows m : rows_items (map (fun kv : str * list str => snd kv ++ [fst kv]) m) (flat_map group_items m).
Proof.
  exists (map group_items m). rewrite <- flat_map_concat_map. split; [|reflexivity].
  induction m as [|kv m IH]; cbn [map]; constructor; [|exact IH]. exists (snd kv), (fst kv). auto.
Qed.
Lemma C40_drop o c w p : w_csv w p = Some (map CsvFields (to_csv_records o c)) ->
  exists t lost, table_from_csv_path w p = Ok t /\ Permutation (table_items t ++ lost) (c o) /\
    (c o <> [] -> lost <> []) /\
    (forall a b, In a lost -> In b lost -> to a = to b) /\
    (forall a b, In a lost -> In b (table_items t) -> lex_lt (to a) (to b)).
Proof.
  intros H. destruct (C38_lemma (c o)) as (S & G & P).
  destruct (item_map (c o)) as [|kv m] eqn:E.
  - exists (Table [] (OriginFile p)), []. split.
    { apply C39_iff. exists [], []. unfold to_csv_records in H. rewrite E in H. rewrite H. repeat split; try discriminate.
      exists []. split; [constructor|reflexivity]. }
    cbn in P. apply Permutation_nil in P. rewrite P. repeat split; try (constructor || contradiction).
  - exists (Table (flat_map group_items m) (OriginFile p)), (group_items kv). split.
    { apply C39_iff. unfold to_csv_records in H. rewrite E in H. cbn [map] in H.
      eexists. eexists. split; [exact H|]. split; [discriminate|]. split; [reflexivity|]. split; [|reflexivity].
      apply export_rows. }
    cbn [table_items t_corr]. split.
    { rewrite Permutation_app_comm. exact P. }
    split.
    { intros _ F. assert (K : snd kv <> []).
      { destruct kv as [k vs]. apply (G k vs). left; reflexivity. }
      destruct kv as [k [|v vs]]; [contradiction|discriminate]. }
    split.
    { intros a b Ha Hb. unfold group_items in *. apply in_map_iff in Ha as (x & <- & _). apply in_map_iff in Hb as (y & <- & _). reflexivity. }
    intros a b Ha Hb. apply in_map_iff in Ha as (x & <- & _). apply in_flat_map in Hb as (kv' & Hk & Hb).
    apply in_map_iff in Hb as (y & <- & _). cbn [to]. cbn in S. destruct S as [S _].
    rewrite Forall_forall in S. apply S. apply in_map, Hk.
Qed.
Lemma C40_header o c w p h : h <> CsvIoError -> w_csv w p = Some (h :: map CsvFields (to_csv_records o c)) ->
  exists t, table_from_csv_path w p = Ok t /\ Permutation (table_items t) (c o).
Proof.
  intros Hh H. destruct (C38_lemma (c o)) as (_ & _ & P).
  exists (Table (flat_map group_items (item_map (c o))) (OriginFile p)). split; [|exact P].
  apply C39_iff. eexists. eexists. split; [exact H|]. split; [cbn; congruence|]. split; [reflexivity|].
  split; [|reflexivity]. apply export_rows.
Qed.

(** ** YAML tables *)
Lemma lookup_str_iff k l v : lookup_str k l = Some v <->
  exists l1 l2, l = l1 ++ (YStr k, v) :: l2 /\ forall v', ~ In (YStr k, v') l1.
Proof.
  induction l as [|[x y] l IH].
  - cbn. split; [discriminate|]. intros (l1 & l2 & E & _). destruct l1; discriminate.
  - assert (Hs : (exists l1 l2, (x, y) :: l = l1 ++ (YStr k, v) :: l2 /\ forall v', ~ In (YStr k, v') l1) <->
      (x = YStr k /\ y = v) \/ (x <> YStr k /\ lookup_str k l = Some v)).
    { rewrite IH. split.
      - intros (l1 & l2 & E & N). destruct l1 as [|a l1].
        + cbn in E. injection E as -> -> ->. left; auto.
        + cbn in E. injection E as E1 E2. right. split.
          * intros ->. apply (N y). left. auto.
          * exists l1, l2. split; [exact E2|]. intros v' Hv. apply (N v'). right; exact Hv.
      - intros [[-> ->]|[N (l1 & l2 & -> & M)]].
        + exists [], l. split; [reflexivity|]. intros v' [].
        + exists ((x, y) :: l1), l2. split; [reflexivity|]. intros v' [Hv|Hv]; [|exact (M v' Hv)].
          injection Hv as -> _. contradiction. }
    rewrite Hs. clear Hs IH. destruct x; cbn [lookup_str];
      try (split; [intros H; right; split; [discriminate|exact H]|intros [[E _]|[_ H]]; [discriminate|exact H]]).
    destruct (str_eqb_spec k s) as [->|Hn].
    + split; [intros E; injection E as ->; left; auto|]. intros [[_ ->]|[N _]]; [reflexivity|contradiction N; reflexivity].
    + split; [intros H; right; split; [congruence|exact H]|intros [[E _]|[_ H]]; [congruence|exact H]].
Qed.
Lemma yget_iff k data v : yget k data = Some v <-> key_value data k v.
Proof.
  unfold key_value. destruct data as [| | |s|l|l]; cbn [yget];
    try (split; [discriminate|intros (l1 & l2 & E & _); discriminate]).
  rewrite lookup_str_iff. split; intros (l1 & l2 & E & N); exists l1, l2; split; try exact N; congruence.
Qed.
Lemma yget_None k data : yget k data = None <-> forall v, ~ key_value data k v.
Proof.
  split.
  - intros E v H. apply yget_iff in H. congruence.
  - intros H. destruct (yget k data) as [v|] eqn:E; [|reflexivity]. apply yget_iff in E. destruct (H v E).
Qed.

Lemma traverse_strs (key : yval) t l items : key = YStr t ->
  (traverse (fun v => f <- unwrap (as_str v) ;; t <- unwrap (as_str key) ;; Ok (Item f t)) l = Ok items <->
   exists fs, l = map YStr fs /\ items = map (fun f => Item f t) fs).
Proof.
  intros ->. rewrite traverse_Ok_inv. split.
  - induction 1 as [|x y l items H _ (fs & -> & ->)].
    + exists []. auto.
    + destruct x; cbn in H; try discriminate. injection H as <-. exists (s :: fs). auto.
  - intros (fs & -> & ->). induction fs as [|f fs IH]; cbn [map]; constructor; [reflexivity|exact IH].
Qed.
Lemma entry_iff kv items : yaml_entry_items kv = Ok items <-> entry_items kv items.
Proof.
  destruct kv as [key value]. unfold yaml_entry_items. split.
  - destruct value as [| | |f|l|l]; cbn [is_sequence as_sequence as_str unwrap bind]; try discriminate.
    + destruct key as [| | |t|l'|l']; cbn; try discriminate. intros E. injection E as <-. apply ei_one.
    + destruct l as [|v l].
      * cbn. intros E. injection E as <-. apply ei_none.
      * destruct (as_str key) as [t|] eqn:E.
        { destruct key; try discriminate. injection E as ->. intros H. 
          apply (traverse_strs (YStr t) t) in H as (fs & -> & ->); [|reflexivity]. apply ei_many. }
        { cbn [traverse]. destruct (as_str v); cbn; discriminate. }
  - intros H. inversion H; subst.
    + reflexivity.
    + cbn [is_sequence as_sequence unwrap bind]. apply (traverse_strs (YStr t) t); [reflexivity|]. exists fs. auto.
    + reflexivity.
Qed.
Lemma entry_cases kv : (exists items, yaml_entry_items kv = Ok items) \/ yaml_entry_items kv = Panic.
Proof.
  destruct kv as [key value]. unfold yaml_entry_items.
  destruct value as [| | |f|l|l]; cbn [is_sequence as_sequence as_str unwrap bind]; auto.
  - destruct (as_str key); cbn; eauto.
  - induction l as [|v l IH]; cbn [traverse]; [eauto|].
    destruct (as_str v); cbn; [|auto]. destruct (as_str key) as [t|]; cbn in *; [|auto].
    destruct IH as [(its & ->)| ->]; cbn; eauto.
Qed.
Lemma traverse_cases {A B} (f : A -> outcome B) l :
  (forall x, (exists y, f x = Ok y) \/ f x = Panic) -> (exists ys, traverse f l = Ok ys) \/ traverse f l = Panic.
Proof.
  intros H. induction l as [|x l IH]; cbn [traverse]; [eauto|].
  destruct (H x) as [(y & ->)| ->]; cbn; [|auto]. destruct IH as [(ys & ->)| ->]; cbn; eauto.
Qed.
Lemma Forall2_iff {A B} (P Q : A -> B -> Prop) l l' : (forall x y, P x y <-> Q x y) -> Forall2 P l l' <-> Forall2 Q l l'.
Proof. intros H. split; induction 1; constructor; try apply H; assumption. Qed.
Lemma yaml_items_iff data items : yaml_items data = Ok items <-> items_described data items.
Proof.
  unfold yaml_items, items_described. destruct (yget (lit "items") data) as [m|] eqn:E.
  - pose proof E as K. apply yget_iff in K. split.
    + intros H. right. apply bind_ok in H as (l & H1 & H2). apply bind_ok in H2 as (parts & H2 & H3). injection H3 as <-.
      destruct m; try discriminate. injection H1 as ->. exists l, parts. split; [exact K|]. split; [|reflexivity].
      apply traverse_Ok_inv in H2. apply (Forall2_iff _ _ _ _ entry_iff), H2.
    + intros [[N _]|(l & parts & K' & F & ->)]; [destruct (N m K)|].
      apply yget_iff in K'. rewrite E in K'. injection K' as ->. cbn [as_mapping unwrap bind].
      apply bind_ok. exists parts. split; [|reflexivity]. apply traverse_Ok_inv.
      apply (Forall2_iff _ _ _ _ entry_iff), F.
  - pose proof E as K. rewrite yget_None in K. split.
    + intros H. injection H as <-. left. auto.
    + intros [[_ ->]|(l & parts & K' & _)]; [reflexivity|]. destruct (K _ K').
Qed.
Lemma yaml_items_cases data : (exists items, yaml_items data = Ok items) \/ yaml_items data = Panic.
Proof.
  unfold yaml_items. destruct (yget _ data) as [m|]; [|eauto]. destruct (as_mapping m) as [l|]; cbn [unwrap bind]; [|auto].
  destruct (traverse_cases yaml_entry_items l entry_cases) as [(ys & ->)| ->]; cbn; eauto.
Qed.
Lemma C42_iff w p t : table_from_yaml_path w p = Ok t <->
  exists data, w_yaml w p = Some (Some data) /\ items_described data (table_items t) /\ t_origin t = OriginFile p.
Proof.
  unfold table_from_yaml_path, read_yaml. destruct (w_yaml w p) as [[data|]|]; cbn [bind].
  - rewrite bind_ok. split.
    + intros (items & E & H). injection H as <-. exists data. split; [reflexivity|]. split; [|reflexivity].
      apply yaml_items_iff, E.
    + intros (d & E & H & O). injection E as <-. exists (table_items t). split; [apply yaml_items_iff, H|].
      destruct t; cbn in *; subst; reflexivity.
  - split; [discriminate|]. intros (d & E & _). discriminate.
  - split; [discriminate|]. intros (d & E & _). discriminate.
Qed.
Lemma C42_fail w p :
  (w_yaml w p = None -> table_from_yaml_path w p = Err IoError) /\
  (w_yaml w p = Some None -> table_from_yaml_path w p = Err YamlFileLoadError) /\
  (forall data, w_yaml w p = Some (Some data) -> (forall items, ~ items_described data items) ->
    table_from_yaml_path w p = Panic).
Proof.
  unfold table_from_yaml_path, read_yaml. repeat split.
  - intros ->. reflexivity.
  - intros ->. reflexivity.
  - intros data -> N. cbn [bind]. destruct (yaml_items_cases data) as [(items & E)|E].
    + apply yaml_items_iff in E. destruct (N _ E).
    + rewrite E. reflexivity.
Qed.

Lemma export_described o c : items_described (to_serialized_corr o c) (flat_map group_items (item_map (c o))).
Proof.
  right. eexists. exists (map group_items (item_map (c o))). split.
  - exists [], []. split; [reflexivity|]. intros v [].
  - split; [|apply flat_map_concat_map].
    generalize (item_map (c o)) as m. induction m as [|[k vs] m IH]; cbn [map]; constructor; [|exact IH].
    apply ei_many.
Qed.
Lemma C41_lemma o c w p : w_yaml w p = Some (Some (to_serialized_corr o c)) ->
  exists t, table_from_yaml_path w p = Ok t /\ Permutation (table_items t) (c o).
Proof.
  intros H. exists (Table (flat_map group_items (item_map (c o))) (OriginFile p)). split.
  - apply C42_iff. exists (to_serialized_corr o c). split; [exact H|]. split; [apply export_described|reflexivity].
  - apply (C38_lemma (c o)).
Qed.
Lemma table_add_ext o o' t c c' : (forall it, In it (c (sub o 1)) <-> In it (c' (sub o' 1))) ->
  table_add o t c = table_add o' t c'.
Proof.
  intros H. unfold table_add. f_equal. rewrite !corr_add_assign_usort. apply usort_ext.
  intros it. rewrite !in_app_iff, H. reflexivity.
Qed.
Lemma C41_builder o c P w p : has_items c P -> w_yaml w p = Some (Some (to_serialized_corr o c)) ->
  forall o1 o2 t, add_from_yaml o1 w p t = Ok (table_add o2 t c).
Proof.
  intros HP H o1 o2 t. destruct (C41_lemma o c w p H) as (t' & E & Pm). unfold add_from_yaml. rewrite E. cbn [bind].
  f_equal. apply table_add_ext. intros it. unfold table_corr, synth. rewrite (HP (sub o2 1) it), <- (HP o it).
  split; apply Permutation_in; [|symmetry]; exact Pm.
Qed.
