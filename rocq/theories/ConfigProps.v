(** Lemmas for the properties of configuration files (C44-C49, C56). *)
From Verif Require Import Base BaseFacts StrOps Corr Table Charset Converter ModifierKind PathModel Yaml File ChanomaModel Configuration
  Spec ConverterFacts TableFacts ConverterProps CharsetFacts NeoProps PropsConverter PropsPipeline
  FileSpec PathSpec ConfigSpec FileProps PathProps YamlProps.

(** ** One file *)
Lemma from_tables_one t : from_tables [t] =
  if forallb nonempty_item (table_items t) then Ok (hm_collect N.eqb (pairs_of (table_items t))) else Panic.
Proof. rewrite from_tables_eq, tables_items_one. reflexivity. Qed.
Lemma no_empty_iff items : no_empty_string items <-> forallb nonempty_item items = true.
Proof.
  unfold no_empty_string. rewrite Forall_forall, forallb_forall. split; intros H it Hi; apply nonempty_item_true, H, Hi.
Qed.
Lemma load_file_order o o' w p : load_file_with_ext o w p = load_file_with_ext o' w p.
Proof.
  unfold load_file_with_ext. destruct (ext_from_path p) as [[]| |]; cbn [bind load_modifiers]; try reflexivity.
  destruct (load_items_to_character_converter w p Yaml); cbn [bind]; [|reflexivity..].
  rewrite (modifiers_path_order o o'). reflexivity.
Qed.
Lemma result_realises ms effs : Forall2 realises ms effs -> forall s out, result ms s out <-> in_sequence effs s out.
Proof.
  induction 1 as [|m e ms effs [_ H] _ IH]; intros s out; cbn [in_sequence]; [apply result_nil|].
  change (m :: ms) with ([m] ++ ms). rewrite result_app. split; intros (mid & H1 & H2); exists mid.
  - split; [apply H, H1|apply IH, H2].
  - split; [apply H, H1|apply IH, H2].
Qed.
Lemma realises_constructible ms effs : Forall2 realises ms effs -> Forall constructible ms.
Proof. induction 1 as [|m e ms effs [H _] _ IH]; constructor; assumption. Qed.
(** The table of a file, by format. *)
Definition file_items (w : world) (p : path) (ext : file_extension) (items : list item) : Prop :=
  match ext with
  | Csv => exists recs rows, w_csv w p = Some recs /\ hd_error recs <> Some CsvIoError /\ tl recs = map CsvFields rows /\ rows_items rows items
  | Yaml => exists data, w_yaml w p = Some (Some data) /\ items_described data items
  end.
Definition load_table (w : world) (p : path) (ext : file_extension) : outcome table :=
  match ext with Csv => table_from_csv_path w p | Yaml => table_from_yaml_path w p end.
Lemma load_table_iff w p ext items :
  file_items w p ext items <-> load_table w p ext = Ok (Table items (OriginFile p)).
Proof.
  destruct ext; cbn [file_items load_table].
  - rewrite C39_iff. cbn [table_items t_corr t_origin]. split.
    + intros (recs & rows & H1 & H2 & H3 & H4). exists recs, rows. auto.
    + intros (recs & rows & H1 & H2 & H3 & H4 & _). exists recs, rows. auto.
  - rewrite C42_iff. cbn [table_items t_corr t_origin]. split.
    + intros (data & H1 & H2). exists data. auto.
    + intros (data & H1 & H2 & _). exists data. auto.
Qed.
Lemma load_table_origin w p ext t : load_table w p ext = Ok t -> t = Table (table_items t) (OriginFile p).
Proof.
  intros H. destruct t as [items org]. f_equal. destruct ext; cbn [load_table] in H.
  - apply C39_iff in H as (recs & rows & _ & _ & _ & _ & H). exact H.
  - apply C42_iff in H as (data & _ & _ & H). exact H.
Qed.
Lemma load_conv_iff w p ext cc : load_items_to_character_converter w p ext = Ok cc <->
  exists items, file_items w p ext items /\ no_empty_string items /\ cc = hm_collect N.eqb (pairs_of items).
Proof.
  change (load_items_to_character_converter w p ext) with (t <- load_table w p ext ;; from_tables [t]).
  rewrite bind_ok. split.
  - intros (t & H1 & H2). exists (table_items t). pose proof (load_table_origin _ _ _ _ H1) as Ho. rewrite Ho in H1.
    apply load_table_iff in H1. rewrite from_tables_one in H2.
    destruct (forallb nonempty_item (table_items t)) eqn:E; [|discriminate]. injection H2 as <-.
    split; [exact H1|]. split; [apply no_empty_iff, E|reflexivity].
  - intros (items & H1 & H2 & ->). apply load_table_iff in H1. eexists. split; [exact H1|].
    rewrite from_tables_one. cbn [table_items t_corr]. apply no_empty_iff in H2. rewrite H2. reflexivity.
Qed.
Lemma C44_csv o w p c : has_extension p (lit "csv") -> (from_config_file o w p = Ok c <->
  exists items cc, file_items w p Csv items /\ no_empty_string items /\ c = [MConv cc] /\ cc = hm_collect N.eqb (pairs_of items)).
Proof.
  intros H. apply ext_csv_iff in H. unfold from_config_file, configuration_from_path, load_file_with_ext. rewrite H. cbn [bind load_modifiers].
  rewrite bind_ok. split.
  - intros (cc & H1 & H2). apply load_conv_iff in H1 as (items & H3 & H4 & H5). cbn in H2. injection H2 as <-. exists items, cc. auto.
  - intros (items & cc & H1 & H2 & -> & ->). eexists. split; [apply load_conv_iff; exists items; split; [exact H1|]; split; [exact H2|reflexivity]|]. reflexivity.
Qed.
Lemma C44_yaml o w p c : is_yaml p -> (from_config_file o w p = Ok c <->
  exists items ms, file_items w p Yaml items /\ no_empty_string items /\
    modifiers_from_yaml_path o w p = Ok ms /\ c = ms ++ [MConv (hm_collect N.eqb (pairs_of items))]).
Proof.
  intros H. apply ext_yaml_iff in H. unfold from_config_file, configuration_from_path, load_file_with_ext. rewrite H. cbn [bind load_modifiers].
  rewrite bind_ok. split.
  - intros (cc & H1 & H2). apply bind_ok in H2 as (ms & H2 & H3). injection H3 as <-.
    apply load_conv_iff in H1 as (items & H3 & H4 & ->). exists items, ms. auto.
  - intros (items & ms & H1 & H2 & H3 & ->). eexists. split; [apply load_conv_iff; exists items; split; [exact H1|]; split; [exact H2|reflexivity]|].
    apply bind_ok. exists ms. auto.
Qed.
Lemma ext_ok_cases p ext : ext_from_path p = Ok ext -> (ext = Csv /\ has_extension p (lit "csv")) \/ (ext = Yaml /\ is_yaml p).
Proof.
  intros H. destruct ext; [left|right]; split; try reflexivity; [apply ext_csv_iff|apply ext_yaml_iff]; exact H.
Qed.
Lemma config_ext o w p c : from_config_file o w p = Ok c -> has_extension p (lit "csv") \/ is_yaml p.
Proof.
  intros H. unfold from_config_file, configuration_from_path, load_file_with_ext in H. apply bind_ok in H as (ext & E & _).
  apply ext_ok_cases in E as [[_ E]|[_ E]]; auto.
Qed.
Lemma yaml_modifiers_iff o w p data : w_yaml w p = Some (Some data) -> modifiers_from_yaml_path o w p = modifiers_of_yaml o data.
Proof. intros H. unfold modifiers_from_yaml_path, read_yaml. rewrite H. reflexivity. Qed.
Lemma C44_ok o w p c : from_config_file o w p = Ok c ->
  Forall constructible c /\ exists e, file_effect w p e /\ forall s out, result c s out <-> e s out.
Proof.
  intros H. destruct (config_ext _ _ _ _ H) as [X|X].
  - apply (C44_csv o w p c X) in H as (items & cc & (recs & rows & H1 & H2 & H3 & H4) & H5 & -> & ->).
    destruct (realises_conv _ _ (conv_collect_rel items H5)) as [Hc Hr]. split; [constructor; [exact Hc|constructor]|].
    exists (pointwise (last_match items)). split; [eapply fe_csv; eassumption|exact Hr].
  - apply (C44_yaml o w p c X) in H as (items & ms & (data & H1 & H2) & H5 & H6 & ->).
    rewrite (yaml_modifiers_iff o w p data H1) in H6. apply modifiers_ok_inv in H6 as (effs & H6 & H7).
    destruct (realises_conv _ _ (conv_collect_rel items H5)) as [Hc Hr].
    split; [apply Forall_app; split; [eapply realises_constructible, H7|constructor; [exact Hc|constructor]]|].
    eexists. split; [eapply fe_yaml; eassumption|]. intros s out. rewrite result_app. split; intros (mid & A & B); exists mid.
    + split; [apply (result_realises _ _ H7), A|apply Hr, B].
    + split; [apply (result_realises _ _ H7), A|apply Hr, B].
Qed.
Lemma C44_if o w p e : file_effect w p e -> exists c, from_config_file o w p = Ok c.
Proof.
  intros H. destruct H as [recs rows items X H1 H2 H3 H4 H5|data items effs X H1 H2 H3 H4].
  - eexists. apply (C44_csv o w p _ X). exists items. eexists. split; [exists recs, rows; auto|]. split; [exact H5|].
    split; reflexivity.
  - destruct (modifiers_ok o data effs H4) as (ms & E). eexists. apply (C44_yaml o w p _ X). exists items, ms.
    split; [exists data; auto|]. split; [exact H3|]. split; [|reflexivity]. rewrite (yaml_modifiers_iff o w p data H1). exact E.
Qed.
(** Failures. *)
Lemma config_table_fails o w p ext : ext_from_path p = Ok ext ->
  (forall e, load_table w p ext = Err e -> from_config_file o w p = Err e) /\
  (load_table w p ext = Panic -> from_config_file o w p = Panic) /\
  (forall items, file_items w p ext items -> ~ no_empty_string items -> from_config_file o w p = Panic).
Proof.
  intros H. unfold from_config_file, configuration_from_path, load_file_with_ext. rewrite H. cbn [bind].
  change (load_items_to_character_converter w p ext) with (t <- load_table w p ext ;; from_tables [t]). repeat split.
  - intros e E. rewrite E. reflexivity.
  - intros E. rewrite E. reflexivity.
  - intros items Hi Hn. apply load_table_iff in Hi. rewrite Hi. cbn [bind]. rewrite from_tables_one. cbn [table_items t_corr].
    destruct (forallb nonempty_item items) eqn:E; [|reflexivity]. apply no_empty_iff in E. contradiction.
Qed.
Lemma config_modifiers_fail o w p items : is_yaml p -> file_items w p Yaml items -> no_empty_string items ->
  (forall e, modifiers_from_yaml_path o w p = Err e -> from_config_file o w p = Err e) /\
  (modifiers_from_yaml_path o w p = Panic -> from_config_file o w p = Panic).
Proof.
  intros X Hi Hn. apply ext_yaml_iff in X. unfold from_config_file, configuration_from_path, load_file_with_ext. rewrite X. cbn [bind load_modifiers].
  assert (E : load_items_to_character_converter w p Yaml = Ok (hm_collect N.eqb (pairs_of items))).
  { apply load_conv_iff. exists items. auto. }
  rewrite E. cbn [bind]. split; [intros e H|intros H]; rewrite H; reflexivity.
Qed.

(** ** CHANOMARC *)
Lemma load_one o w p : load_files o w 0 [p] = (c <- from_config_file (sub o 0) w p ;; Ok [c]).
Proof.
  cbn [load_files]. unfold from_config_file, configuration_from_path. destruct (load_file_with_ext (sub o 0) w p); reflexivity.
Qed.
Lemma C45_lemma o w s : w_env w = EnvUnicode s -> unicode s ->
  (w_is_file w s = false -> load_rc o w = Err (RcFileLoadError s)) /\
  (w_is_file w s = true -> has_extension s (lit "csv") \/ has_extension s (lit "yaml") -> load_rc o w = from_config_file o w s) /\
  (w_is_file w s = true -> forall e, has_extension s e -> e <> lit "csv" -> e <> lit "yaml" -> load_rc o w = Err (RcFileLoadError s)) /\
  (w_is_file w s = true -> (forall e, ~ has_extension s e) -> load_rc o w = Panic).
Proof.
  intros H U. unfold load_rc, configuration_load, file_paths, file_path_from_env. rewrite H. unfold valid_file_path.
  assert (Ue : forall e, has_extension s e -> to_str e = Some e).
  { intros e (stem & _ & _ & dir & t & -> & _). apply to_str_iff. split; [|reflexivity].
    unfold unicode in *. rewrite Forall_app in U. destruct U as [_ U]. rewrite Forall_app in U. destruct U as [U _].
    rewrite Forall_app in U. destruct U as [_ U]. rewrite Forall_app in U. apply U. }
  split; [intros ->; reflexivity|]. split; [|split].
  - intros F X. rewrite F. cbn [negb].
    assert (E : exists e, has_extension s e /\ forallb (fun ext => negb (str_eqb (ext_to_string ext) e)) all_extensions = false).
    { destruct X as [X|X]; eexists; (split; [exact X|reflexivity]). }
    destruct E as (e & Xe & E). rewrite (proj2 (extension_iff s e) Xe). cbn [unwrap bind]. rewrite (Ue e Xe). cbn [unwrap bind].
    rewrite E. cbn [bind]. rewrite load_one. unfold from_config_file, configuration_from_path. rewrite (load_file_order (sub o 0) o).
    destruct (load_file_with_ext o w s); cbn [bind concat]; rewrite ?app_nil_r; reflexivity.
  - intros F e Xe N1 N2. rewrite F. cbn [negb]. rewrite (proj2 (extension_iff s e) Xe). cbn [unwrap bind]. rewrite (Ue e Xe). cbn [unwrap bind].
    assert (E : forallb (fun ext => negb (str_eqb (ext_to_string ext) e)) all_extensions = true).
    { cbn [all_extensions forallb ext_to_string]. destruct (str_eqb_spec (lit "csv") e) as [C|_]; [congruence|].
      destruct (str_eqb_spec (lit "yaml") e) as [C|_]; [congruence|]. reflexivity. }
    rewrite E. reflexivity.
  - intros F N. rewrite F. cbn [negb]. apply extension_None in N. rewrite N. reflexivity.
Qed.

(** ** Search path *)
Lemma good_lit n : hd_error n <> None -> existsb (N.eqb slash) n = false -> str_eqb n [dot] = false -> str_eqb n [dot; dot] = false -> good_name n.
Proof.
  intros H1 H2 H3 H4. split; [intros ->; apply H1; reflexivity|]. split; [apply slash_notin, H2|]. split.
  - intros ->. discriminate.
  - intros ->. discriminate.
Qed.
Lemma paths_from_dir d : auto_load_paths_from_dir d = names_in d.
Proof.
  unfold auto_load_paths_from_dir, FILE_NAMES, all_extensions, names_in. cbn [flat_map map app ext_to_string].
  rewrite !push_in_dir by (vm_compute; discriminate).
  rewrite !set_ext_in_dir by (reflexivity || apply good_lit; (reflexivity || discriminate)). reflexivity.
Qed.
Lemma dirs_candidates w : flat_map auto_load_paths_from_dir (auto_load_dirs w) = candidates (w_home w) (w_cwd w).
Proof.
  assert (E : forall l, flat_map auto_load_paths_from_dir l = flat_map names_in l).
  { induction l as [|d l IH]; cbn [flat_map]; [reflexivity|]. rewrite IH, paths_from_dir. reflexivity. }
  rewrite E. unfold auto_load_dirs, candidates. rewrite flat_map_app. f_equal.
  - destruct (w_home w) as [h|]; [|reflexivity]. cbn [flat_map]. rewrite app_nil_r. rewrite push_in_dir by (vm_compute; discriminate). reflexivity.
  - destruct (w_cwd w) as [d|]; [|reflexivity]. cbn [flat_map]. apply app_nil_r.
Qed.
Lemma load_files_ok o w : forall ps i cs, load_files o w i ps = Ok cs <->
  Forall2 (fun p c => from_config_file o w p = Ok c) ps cs.
Proof.
  induction ps as [|p ps IH]; intros i cs; cbn [load_files].
  - split; [intros E; injection E as <-; constructor|intros F; inversion F; reflexivity].
  - rewrite bind_ok. rewrite (load_file_order (sub o i) o). split.
    + intros (ms & H1 & H2). apply bind_ok in H2 as (rest & H2 & H3). injection H3 as <-. constructor; [exact H1|]. apply (IH (S i)), H2.
    + intros F. inversion F as [|? c ? cs' F1 F2]; subst. exists c. split; [exact F1|]. apply bind_ok. exists cs'. split; [apply IH, F2|reflexivity].
Qed.
Lemma load_files_fail o w l1 p l2 : (forall q, In q l1 -> exists c, from_config_file o w q = Ok c) -> forall i,
  (forall e, from_config_file o w p = Err e -> load_files o w i (l1 ++ p :: l2) = Err e) /\
  (from_config_file o w p = Panic -> load_files o w i (l1 ++ p :: l2) = Panic).
Proof.
  induction l1 as [|q l1 IH]; intros H i; cbn [app load_files]; rewrite (load_file_order (sub o i) o).
  - split; [intros e E|intros E]; unfold from_config_file, configuration_from_path in E; rewrite E; reflexivity.
  - destruct (H q ltac:(left; reflexivity)) as (c & E). unfold from_config_file, configuration_from_path in E. rewrite E. cbn [bind].
    destruct (IH ltac:(intros q' Hq; apply H; right; exact Hq) (S i)) as [H1 H2]. split.
    + intros e Ee. rewrite (H1 e Ee). reflexivity.
    + intros Ee. rewrite (H2 Ee). reflexivity.
Qed.
Definition found (w : world) : list path := filter (w_is_file w) (candidates (w_home w) (w_cwd w)).
Lemma load_rc_files o w : chanomarc_unset w -> load_rc o w = (cs <- load_files o w 0 (found w) ;; Ok (concat cs)).
Proof.
  intros H. unfold load_rc, configuration_load.
  assert (E : file_paths w = Ok (found w)).
  { unfold file_paths, file_path_from_env. unfold exists_file_paths. rewrite dirs_candidates.
    destruct (w_env w) eqn:E; try reflexivity. destruct (H s E). }
  rewrite E. cbn [bind].
  destruct (found w) as [|p ps]; [reflexivity|].
  destruct (load_files o w 0 (p :: ps)); reflexivity.
Qed.
Lemma C46_ok o w c : chanomarc_unset w -> (load_rc o w = Ok c <->
  exists cs, Forall2 (fun p c' => from_config_file o w p = Ok c') (found w) cs /\ c = concat cs).
Proof.
  intros H. rewrite (load_rc_files o w H), bind_ok. split.
  - intros (cs & H1 & H2). injection H2 as <-. exists cs. split; [apply load_files_ok in H1; exact H1|reflexivity].
  - intros (cs & H1 & ->). exists cs. split; [apply load_files_ok, H1|reflexivity].
Qed.
Lemma C46_effects_gen o w ps cs : Forall2 (fun p c' => from_config_file o w p = Ok c') ps cs ->
  Forall constructible (concat cs) /\
  exists effs, Forall2 (file_effect w) ps effs /\ forall s out, result (concat cs) s out <-> in_sequence effs s out.
Proof.
  induction 1 as [|p c ps cs H _ (IHc & effs & F & R)]; cbn [concat].
  - split; [constructor|]. exists []. split; [constructor|]. intros s out. apply result_nil.
  - apply C44_ok in H as (Hc & e & He & Hr). split; [apply Forall_app; auto|].
    exists (e :: effs). split; [constructor; assumption|]. intros s out. rewrite result_app. cbn [in_sequence].
    split; intros (mid & A & B); exists mid; (split; [apply Hr, A|apply R, B]).
Qed.
Lemma C46_fail o w l1 p l2 : chanomarc_unset w -> found w = l1 ++ p :: l2 ->
  (forall q, In q l1 -> exists c, from_config_file o w q = Ok c) ->
  (forall e, from_config_file o w p = Err e -> load_rc o w = Err e) /\
  (from_config_file o w p = Panic -> load_rc o w = Panic).
Proof.
  intros H E Hq. rewrite (load_rc_files o w H), E. destruct (load_files_fail o w l1 p l2 Hq 0) as [H1 H2]. split.
  - intros e Ee. rewrite (H1 e Ee). reflexivity.
  - intros Ee. rewrite (H2 Ee). reflexivity.
Qed.
Lemma with_cwd_file w d o p : from_config_file o (with_cwd w d) p = from_config_file o w p.
Proof. reflexivity. Qed.
Lemma C47_lemma o w h c : chanomarc_unset w -> w_home w = Some h -> w_cwd w = Some h -> load_rc o w = Ok c ->
  exists a b, c = a ++ b ++ b /\ load_rc o (with_cwd w None) = Ok (a ++ b) /\
    exists cs, Forall2 (fun p c' => from_config_file o w p = Ok c') (filter (w_is_file w) (names_in h)) cs /\ b = concat cs.
Proof.
  intros Hu Hh Hc H. apply (C46_ok o w c Hu) in H as (cs & F & ->). unfold found, candidates in F. rewrite Hh, Hc in F.
  rewrite !filter_app in F. apply Forall2_app_inv_l in F as (cs1 & cs2 & F1 & F2 & ->).
  apply Forall2_app_inv_l in F1 as (ca & cb & Fa & Fb & ->).
  assert (cs2 = cb).
  { revert F2. generalize dependent (filter (w_is_file w) (names_in h)). intros l Fb. revert cs2.
    induction Fb as [|p c l cb Hp _ IH]; intros cs2 F2; inversion F2 as [|? c' ? cs' H1 H2]; subst; [reflexivity|].
    rewrite (IH _ H2). f_equal. congruence. }
  subst cs2. exists (concat ca), (concat cb). split; [rewrite !concat_app, app_assoc; reflexivity|]. split.
  - apply C46_ok; [exact Hu|]. exists (ca ++ cb). split; [|symmetry; apply concat_app].
    unfold found, candidates. cbn [with_cwd w_home w_cwd w_is_file]. rewrite Hh, app_nil_r, filter_app.
    apply Forall2_app; [exact Fa|exact Fb].
  - exists cb. split; [exact Fb|reflexivity].
Qed.

(** ** Extensions of the candidates *)
Lemma in_dir_extension d stem e : stem <> [] -> ~ In dot e -> good_name (stem ++ [dot] ++ e) -> has_extension (in_dir d (stem ++ [dot] ++ e)) e.
Proof. intros H1 H2 G. exists stem. split; [exact H1|]. split; [exact H2|]. apply named_in_dir, G. Qed.
Lemma names_ext d : exists a b c e, names_in d = [a; b; c; e] /\ has_extension a (lit "csv") /\ has_extension b (lit "yaml") /\
  has_extension c (lit "csv") /\ has_extension e (lit "yaml").
Proof.
  eexists. eexists. eexists. eexists. split; [reflexivity|].
  assert (Hc : ~ In dot (lit "csv")) by (vm_compute; intuition discriminate).
  assert (Hy : ~ In dot (lit "yaml")) by (vm_compute; intuition discriminate).
  split; [|split; [|split]].
  - apply (in_dir_extension d (lit "chanomarc") (lit "csv")); [discriminate|exact Hc|apply good_lit; (reflexivity || discriminate)].
  - apply (in_dir_extension d (lit "chanomarc") (lit "yaml")); [discriminate|exact Hy|apply good_lit; (reflexivity || discriminate)].
  - apply (in_dir_extension d (lit ".chanomarc") (lit "csv")); [discriminate|exact Hc|apply good_lit; (reflexivity || discriminate)].
  - apply (in_dir_extension d (lit ".chanomarc") (lit "yaml")); [discriminate|exact Hy|apply good_lit; (reflexivity || discriminate)].
Qed.
