(** Properties C44-C49 and C56: configuration files. *)
From Coq Require Import String.
From Verif Require Import Base BaseFacts StrOps Corr Table Charset Converter ModifierKind PathModel Yaml File ChanomaModel Configuration
  CharSpec Spec CorrProps TableFacts PropsConverter PropsPipeline FileSpec PathSpec ConfigSpec FileProps PathProps YamlProps ConfigProps PropsFile.
Local Open Scope string_scope.
Local Open Scope list_scope.

(** ** C44 *)
(** A loaded file does what it describes... *)
Theorem C44_loads : forall o w p c, from_config_file o w p = Ok c ->
  Forall constructible c /\ exists e, file_effect w p e /\ forall s out, result c s out <-> e s out.
Proof. exact C44_ok. Qed.
Print Assumptions C44_loads.
(** ... and every file that describes something loads. *)
Theorem C44_loads_if : forall o w p e, file_effect w p e -> exists c, from_config_file o w p = Ok c.
Proof. exact C44_if. Qed.
Print Assumptions C44_loads_if.
(** One modifier per entry, in order, and one converter at the end. *)
Theorem C44_structure : forall o w p c, from_config_file o w p = Ok c ->
  exists ms cc, c = ms ++ [MConv cc] /\
    (has_extension p (lit "csv") -> ms = []) /\ (is_yaml p -> modifiers_from_yaml_path o w p = Ok ms).
Proof.
  intros o w p c H. destruct (config_ext _ _ _ _ H) as [X|X].
  - pose proof H as H'. apply (C44_csv o w p c X) in H' as (items & cc & _ & _ & -> & _). exists [], cc. split; [reflexivity|].
    split; [reflexivity|]. intros Y. apply ext_csv_iff in X. apply ext_yaml_iff in Y. congruence.
  - pose proof H as H'. apply (C44_yaml o w p c X) in H' as (items & ms & _ & _ & Hm & ->). eexists. eexists. split; [reflexivity|].
    split; [|intros _; exact Hm]. intros Y. apply ext_yaml_iff in X. apply ext_csv_iff in Y. congruence.
Qed.
Print Assumptions C44_structure.
(** What fails first decides. *)
Theorem C44_csv_failures : forall o w p, has_extension p (lit "csv") ->
  (forall e, table_from_csv_path w p = Err e -> from_config_file o w p = Err e) /\
  (forall t, table_from_csv_path w p = Ok t -> ~ no_empty_string (table_items t) -> from_config_file o w p = Panic).
Proof.
  intros o w p X. apply ext_csv_iff in X. destruct (config_table_fails o w p Csv X) as (H1 & _ & H2). split; [exact H1|].
  intros t Ht N. apply (H2 (table_items t)); [|exact N]. apply load_table_iff. rewrite <- (load_table_origin w p Csv t Ht). exact Ht.
Qed.
Print Assumptions C44_csv_failures.
Theorem C44_yaml_failures : forall o w p, is_yaml p ->
  (forall e, table_from_yaml_path w p = Err e -> from_config_file o w p = Err e) /\
  (table_from_yaml_path w p = Panic -> from_config_file o w p = Panic) /\
  (forall t, table_from_yaml_path w p = Ok t -> ~ no_empty_string (table_items t) -> from_config_file o w p = Panic) /\
  (forall t, table_from_yaml_path w p = Ok t -> no_empty_string (table_items t) ->
    (forall e, modifiers_from_yaml_path o w p = Err e -> from_config_file o w p = Err e) /\
    (modifiers_from_yaml_path o w p = Panic -> from_config_file o w p = Panic)).
Proof.
  intros o w p X. pose proof X as Y. apply ext_yaml_iff in X. destruct (config_table_fails o w p Yaml X) as (H1 & H2 & H3).
  assert (F : forall t, table_from_yaml_path w p = Ok t -> file_items w p Yaml (table_items t)).
  { intros t Ht. apply load_table_iff. rewrite <- (load_table_origin w p Yaml t Ht). exact Ht. }
  split; [exact H1|]. split; [exact H2|]. split.
  - intros t Ht N. apply (H3 (table_items t)); [apply F, Ht|exact N].
  - intros t Ht N. apply (config_modifiers_fail o w p (table_items t)); [exact Y|apply F, Ht|exact N].
Qed.
Print Assumptions C44_yaml_failures.
Theorem C44_extension_failures : forall o w p e, ext_from_path p = Err e -> from_config_file o w p = Err e.
Proof. intros o w p e H. unfold from_config_file, configuration_from_path, load_file_with_ext. rewrite H. reflexivity. Qed.
Print Assumptions C44_extension_failures.
Theorem C44_hash_order_irrelevant : forall o o' w p, from_config_file o w p = from_config_file o' w p.
Proof. exact load_file_order. Qed.
Print Assumptions C44_hash_order_irrelevant.
Definition ex_config : yval := YMap
  [(ystr "modifiers", YMap [(ystr "trim", YNull); (ystr "consecutive_character_reducer", ystr "a")]);
   (ystr "items", YMap [(ystr "b", YSeq [ystr "a"; ystr "c"])])].
Example C44_case :
  from_config_file no_order (yaml_world ex_config) (lit "/x/c.yml") = Ok [MTrim; MRed 97%N; MConv [(97, 98); (99, 98)]%N] /\
  normalize false no_order [MTrim; MRed 97%N; MConv [(97, 98); (99, 98)]%N] (lit " aaxc ") = Ok (lit "bxb") /\
  from_config_file no_order (csv_world [fields ["h"]; fields ["a"; "b"]]) (lit "c.csv") = Ok [MConv [(97, 98)]%N] /\
  from_config_file no_order (yaml_world ex_config) (lit "/x/c.toml") = Err (UnsupportedFileExtensionError (lit "toml")).
Proof. repeat split. Qed.

(** ** C45 *)
Theorem C45_chanomarc : forall o w s, w_env w = EnvUnicode s -> unicode s ->
  (w_is_file w s = false -> load_rc o w = Err (RcFileLoadError s)) /\
  (w_is_file w s = true -> has_extension s (lit "csv") \/ has_extension s (lit "yaml") -> load_rc o w = from_config_file o w s) /\
  (w_is_file w s = true -> forall e, has_extension s e -> e <> lit "csv" -> e <> lit "yaml" -> load_rc o w = Err (RcFileLoadError s)) /\
  (w_is_file w s = true -> (forall e, ~ has_extension s e) -> load_rc o w = Panic).
Proof. exact C45_lemma. Qed.
Print Assumptions C45_chanomarc.
(** Nothing else is looked at. *)
Theorem C45_rest_ignored : forall o w s home cwd, w_env w = EnvUnicode s -> unicode s ->
  load_rc o (World (w_is_file w) (w_csv w) (w_yaml w) (w_canonicalize w) (w_env w) home cwd) = load_rc o w.
Proof.
  intros o w s home cwd H _. destruct w as [f c y k env h d]. cbn [w_env] in H. subst env. cbn [w_is_file w_csv w_yaml w_canonicalize w_env].
  unfold load_rc, configuration_load, file_paths, file_path_from_env. cbn [w_env].
  change (valid_file_path (World f c y k (EnvUnicode s) home cwd) s) with (valid_file_path (World f c y k (EnvUnicode s) h d) s).
  destruct (valid_file_path _ s) as [ps| |]; cbn [bind]; [|reflexivity..]. destruct ps as [|p ps]; [reflexivity|].
  assert (E : forall l i, load_files o (World f c y k (EnvUnicode s) home cwd) i l = load_files o (World f c y k (EnvUnicode s) h d) i l).
  { induction l as [|q l IH]; intros i; cbn [load_files]; [reflexivity|]. rewrite IH. reflexivity. }
  rewrite E. reflexivity.
Qed.
Print Assumptions C45_rest_ignored.
Definition rc_world (env : string) : world :=
  World (fun p => negb (str_eqb p (lit "/missing.csv"))) (fun _ => Some [fields ["h"]; fields ["a"; "b"]])
        (fun _ => Some (Some ex_config)) (fun p => Some p) (EnvUnicode (lit env)) (Some (lit "/h")) (Some (lit "/d")).
(** README: [CHANOMARC] may name a [.yml] file; it is refused although [from_config_file] takes it. *)
Theorem C45_yml_refuted : exists o w s c, w_env w = EnvUnicode s /\ w_is_file w s = true /\
  from_config_file o w s = Ok c /\ load_rc o w = Err (RcFileLoadError s).
Proof.
  exists no_order, (rc_world "/rc.yml"), (lit "/rc.yml"). eexists. repeat split.
Qed.
Print Assumptions C45_yml_refuted.
Example C45_case :
  load_rc no_order (rc_world "/rc.csv") = Ok [MConv [(97, 98)]%N] /\
  load_rc no_order (rc_world "/rc.yaml") = Ok [MTrim; MRed 97%N; MConv [(97, 98); (99, 98)]%N] /\
  load_rc no_order (rc_world "/missing.csv") = Err (RcFileLoadError (lit "/missing.csv")) /\
  load_rc no_order (rc_world "/etc/.rc") = Panic /\ load_rc no_order (rc_world "/x.d/rc") = Panic.
Proof. repeat split. Qed.

(** ** C46 *)
Theorem C46_search_order : forall o w c, chanomarc_unset w -> (load_rc o w = Ok c <->
  exists cs, Forall2 (fun p c' => from_config_file o w p = Ok c')
               (filter (w_is_file w) (candidates (w_home w) (w_cwd w))) cs /\ c = concat cs).
Proof. exact C46_ok. Qed.
Print Assumptions C46_search_order.
Theorem C46_effect : forall o w c, chanomarc_unset w -> load_rc o w = Ok c ->
  Forall constructible c /\
  exists effs, Forall2 (file_effect w) (filter (w_is_file w) (candidates (w_home w) (w_cwd w))) effs /\
    forall s out, result c s out <-> in_sequence effs s out.
Proof. intros o w c H L. apply (C46_ok o w c H) in L as (cs & F & ->). exact (C46_effects_gen o w _ cs F). Qed.
Print Assumptions C46_effect.
Theorem C46_first_failure : forall o w l1 p l2, chanomarc_unset w ->
  filter (w_is_file w) (candidates (w_home w) (w_cwd w)) = l1 ++ p :: l2 ->
  (forall q, In q l1 -> exists c, from_config_file o w q = Ok c) ->
  (forall e, from_config_file o w p = Err e -> load_rc o w = Err e) /\
  (from_config_file o w p = Panic -> load_rc o w = Panic).
Proof. exact C46_fail. Qed.
Print Assumptions C46_first_failure.
Theorem C46_no_file : forall o w, chanomarc_unset w ->
  (forall p, In p (candidates (w_home w) (w_cwd w)) -> w_is_file w p = false) -> load_rc o w = Ok [].
Proof.
  intros o w H N. apply C46_ok; [exact H|]. exists []. split; [|reflexivity].
  unfold found. induction (candidates (w_home w) (w_cwd w)) as [|p l IH]; cbn [filter]; [constructor|].
  rewrite (N p) by (left; reflexivity). apply IH. intros q Hq. apply N. right; exact Hq.
Qed.
Print Assumptions C46_no_file.
Definition search_world (files : list string) (home cwd : string) : world :=
  World (fun p => existsb (str_eqb p) (map lit files))
        (fun p => if str_eqb p (lit "/h/.config/chanoma/chanomarc.csv") then Some [fields ["h"]; fields ["a"; "b"]]
                  else if str_eqb p (lit "/h/chanomarc.csv") then Some [fields ["h"]; fields ["a"; "b"]; fields ["b"; "c"]]
                  else Some [fields ["h"]; fields ["c"; "d"]])
        (fun _ => Some (Some ex_config)) (fun p => Some p) EnvAbsent (Some (lit home)) (Some (lit cwd)).
(** README: [.yml] may be used for [{ext}]; such a file is never looked at. *)
Theorem C46_yml_refuted : exists o w p c, chanomarc_unset w /\ w_is_file w p = true /\
  w_home w = Some (lit "/h") /\ p = lit "/h/chanomarc.yml" /\ from_config_file o w p = Ok c /\ c <> [] /\ load_rc o w = Ok [].
Proof.
  exists no_order, (search_world ["/h/chanomarc.yml"] "/h" "/d"), (lit "/h/chanomarc.yml"). eexists.
  split; [intros s; discriminate|]. split; [reflexivity|]. split; [reflexivity|]. split; [reflexivity|].
  split; [vm_compute; reflexivity|]. split; [discriminate|]. vm_compute. reflexivity.
Qed.
Print Assumptions C46_yml_refuted.
Example C46_case :
  candidates (Some (lit "/h")) (Some (lit "/")) = map lit
    ["/h/.config/chanoma/chanomarc.csv"; "/h/.config/chanoma/chanomarc.yaml";
     "/h/.config/chanoma/.chanomarc.csv"; "/h/.config/chanoma/.chanomarc.yaml";
     "/h/chanomarc.csv"; "/h/chanomarc.yaml"; "/h/.chanomarc.csv"; "/h/.chanomarc.yaml";
     "/chanomarc.csv"; "/chanomarc.yaml"; "/.chanomarc.csv"; "/.chanomarc.yaml"] /\
  load_rc no_order (search_world ["/d/.chanomarc.csv"; "/h/.chanomarc.yaml"; "/h/.config/chanoma/chanomarc.csv"; "/x"] "/h" "/d") =
    Ok [MConv [(97, 98)]; MTrim; MRed 97; MConv [(97, 98); (99, 98)]; MConv [(99, 100)]]%N /\
  load_rc no_order (search_world [] "/h" "/d") = Ok [].
Proof. repeat split. Qed.

(** ** C47 *)
Theorem C47_home_applied_twice : forall o w h c, chanomarc_unset w -> w_home w = Some h -> w_cwd w = Some h ->
  load_rc o w = Ok c ->
  exists a b, c = a ++ b ++ b /\ load_rc o (with_cwd w None) = Ok (a ++ b) /\
    exists cs, Forall2 (fun p c' => from_config_file o w p = Ok c') (filter (w_is_file w) (names_in h)) cs /\ b = concat cs.
Proof. exact C47_lemma. Qed.
Print Assumptions C47_home_applied_twice.
(** One configuration file, yet its effect is applied twice and the text differs. *)
Theorem C47_applied_once_refuted : exists o w h p c cf s,
  chanomarc_unset w /\ w_home w = Some h /\ w_cwd w = Some h /\ (forall q, w_is_file w q = true -> q = p) /\
  from_config_file o w p = Ok cf /\ load_rc o w = Ok c /\ normalize false o c s <> normalize false o cf s.
Proof.
  exists no_order, (search_world ["/h/chanomarc.csv"] "/h" "/h"), (lit "/h"), (lit "/h/chanomarc.csv"). eexists. eexists.
  exists (lit "a"). split; [intros s; discriminate|]. split; [reflexivity|]. split; [reflexivity|]. split.
  - intros q H. cbn [search_world w_is_file map existsb] in H. rewrite orb_false_r in H. apply str_eqb_eq in H. exact H.
  - split; [vm_compute; reflexivity|]. split; [vm_compute; reflexivity|]. vm_compute. discriminate.
Qed.
Print Assumptions C47_applied_once_refuted.
Example C47_case :
  load_rc no_order (search_world ["/h/chanomarc.csv"] "/h" "/h") = Ok [MConv [(97, 98); (98, 99)]; MConv [(97, 98); (98, 99)]]%N /\
  normalize false no_order [MConv [(97, 98); (98, 99)]; MConv [(97, 98); (98, 99)]]%N (lit "ax") = Ok (lit "cx") /\
  normalize false no_order [MConv [(97, 98); (98, 99)]]%N (lit "ax") = Ok (lit "bx").
Proof. repeat split. Qed.

(** ** C48 *)
Theorem C48_csv_iff : forall p, ext_from_path p = Ok Csv <-> has_extension p (lit "csv").
Proof. exact ext_csv_iff. Qed.
Print Assumptions C48_csv_iff.
Theorem C48_yaml_iff : forall p, ext_from_path p = Ok Yaml <-> has_extension p (lit "yaml") \/ has_extension p (lit "yml").
Proof. exact ext_yaml_iff. Qed.
Print Assumptions C48_yaml_iff.
Theorem C48_errors : forall p,
  ((forall e, ~ has_extension p e) -> ext_from_path p = Err (FileExtensionNotFoundInPath p)) /\
  (forall e, has_extension p e -> ~ unicode e -> ext_from_path p = Err (FileExtensionCanNotConvertToStr p)) /\
  (forall e, has_extension p e -> unicode e -> e <> lit "csv" -> e <> lit "yaml" -> e <> lit "yml" ->
    ext_from_path p = Err (UnsupportedFileExtensionError e)).
Proof.
  intros p. split; [apply ext_path_none|]. split; [apply ext_path_nonunicode|]. intros e H U N1 N2 N3.
  rewrite (ext_path p e H U). destruct (str_eqb_spec e (lit "csv")); [contradiction|].
  destruct (str_eqb_spec e (lit "yaml")); [contradiction|]. destruct (str_eqb_spec e (lit "yml")); [contradiction|]. reflexivity.
Qed.
Print Assumptions C48_errors.
(** These cases are exhaustive and exclusive: the extension is unique. *)
Theorem C48_extension_unique : forall p e e', has_extension p e -> has_extension p e' -> e = e'.
Proof. exact has_extension_unique. Qed.
Print Assumptions C48_extension_unique.
Theorem C48_print_parse : forall ext, ext_from_str (ext_to_string ext) = Ok ext /\
  forall s, ext_from_str s = Ok ext -> In s (match ext with Csv => [lit "csv"; lit ".csv"] | Yaml => [lit "yaml"; lit ".yaml"; lit "yml"; lit ".yml"] end).
Proof.
  intros ext. split; [destruct ext; reflexivity|]. intros s. unfold ext_from_str.
  repeat match goal with |- context [str_eqb s ?x] => destruct (str_eqb_spec s x) as [Es|_]; [rewrite Es|] end;
    cbn [orb]; intros H; try discriminate; injection H as <-; vm_compute; intuition.
Qed.
Print Assumptions C48_print_parse.
Example C48_case : ext_from_path (lit "/a.b/c.x.yml/./") = Ok Yaml /\ ext_from_path (lit "c.CSV") = Err (UnsupportedFileExtensionError (lit "CSV")) /\
  ext_from_path (lit "/a.csv/b") = Err (FileExtensionNotFoundInPath (lit "/a.csv/b")) /\ ext_from_path (lit ".csv") = Err (FileExtensionNotFoundInPath (lit ".csv")) /\
  has_extension (lit "/a.b/c.x.yml/./") (lit "yml").
Proof. repeat split. apply extension_iff. reflexivity. Qed.

(** ** C49 *)
Theorem C49_candidates : forall d, auto_load_paths_from_dir d = names_in d.
Proof. exact paths_from_dir. Qed.
Print Assumptions C49_candidates.
Theorem C49_candidates_recognised : forall d, map ext_from_path (auto_load_paths_from_dir d) = [Ok Csv; Ok Yaml; Ok Csv; Ok Yaml].
Proof.
  intros d. rewrite paths_from_dir. destruct (names_ext d) as (a & b & c & e & -> & H1 & H2 & H3 & H4). cbn [map].
  apply ext_csv_iff in H1, H3. rewrite H1, H3. rewrite (proj2 (ext_yaml_iff b) (or_introl H2)), (proj2 (ext_yaml_iff e) (or_introl H4)). reflexivity.
Qed.
Print Assumptions C49_candidates_recognised.
Example C49_case : auto_load_paths_from_dir (lit "/a.b/.c/") = map lit
  ["/a.b/.c/chanomarc.csv"; "/a.b/.c/chanomarc.yaml"; "/a.b/.c/.chanomarc.csv"; "/a.b/.c/.chanomarc.yaml"].
Proof. reflexivity. Qed.

(** ** C56 *)
Theorem C56_empty_string_panics : forall o w p items, (exists it, In it items /\ (from it = [] \/ to it = [])) ->
  (has_extension p (lit "csv") -> forall recs rows, w_csv w p = Some recs -> hd_error recs <> Some CsvIoError ->
     tl recs = map CsvFields rows -> rows_items rows items -> from_config_file o w p = Panic) /\
  (is_yaml p -> forall data, w_yaml w p = Some (Some data) -> items_described data items -> from_config_file o w p = Panic).
Proof.
  intros o w p items (it & Hi & He).
  assert (N : ~ no_empty_string items).
  { unfold no_empty_string. rewrite Forall_forall. intros F. destruct (F it Hi) as [F1 F2]. destruct He; contradiction. }
  split; intros X.
  - intros recs rows H1 H2 H3 H4. apply ext_csv_iff in X. apply (config_table_fails o w p Csv X) with items; [|exact N]. exists recs, rows. auto.
  - intros data H1 H2. apply ext_yaml_iff in X. apply (config_table_fails o w p Yaml X) with items; [|exact N]. exists data. auto.
Qed.
Print Assumptions C56_empty_string_panics.
(** The last item for [x] wins. *)
Definition last_single (items : list item) (x t : char) : Prop :=
  exists l1 l2, items = l1 ++ Item [x] [t] :: l2 /\ forall t', ~ In (Item [x] t') l2.
Lemma single_match items : Forall (fun it => exists x t, it = Item [x] [t]) items ->
  forall x t, last_match items x t <-> last_single items x t.
Proof.
  intros F x t. split.
  - intros (l1 & it & l2 & -> & (r & B1) & (r' & B2) & N). rewrite Forall_app in F. destruct F as [_ F]. inversion F as [|? ? (a & b & ->) F2]; subst.
    cbn in B1, B2. injection B1 as -> _. injection B2 as -> _. exists l1, l2. split; [reflexivity|]. intros t' Ht.
    rewrite Forall_forall in N. apply (N _ Ht). exists []. reflexivity.
  - intros (l1 & l2 & -> & N). exists l1, (Item [x] [t]), l2. split; [reflexivity|]. split; [exists []; reflexivity|]. split; [exists []; reflexivity|].
    apply Forall_forall. intros it Hi (r & B). rewrite Forall_app in F. destruct F as [_ F]. inversion F as [|? ? _ F2]; subst.
    rewrite Forall_forall in F2. destruct (F2 it Hi) as (a & b & ->). cbn in B. injection B as -> _. exact (N _ Hi).
Qed.
Theorem C56_single_characters_exact : forall o w p items, Forall (fun it => exists x t, it = Item [x] [t]) items ->
  (has_extension p (lit "csv") /\ (exists recs rows, w_csv w p = Some recs /\ hd_error recs <> Some CsvIoError /\
     tl recs = map CsvFields rows /\ rows_items rows items)) \/
  (is_yaml p /\ exists data, w_yaml w p = Some (Some data) /\ items_described data items /\
     forall v, ~ key_value data (lit "modifiers") v) ->
  exists c, from_config_file o w p = Ok c /\ forall s out, result c s out <-> pointwise (last_single items) s out.
Proof.
  intros o w p items F H.
  assert (N : no_empty_string items).
  { eapply Forall_impl; [|exact F]. intros it (x & t & ->). split; discriminate. }
  assert (R : forall s out, pointwise (last_match items) s out <-> pointwise (last_single items) s out).
  { intros s out. split; apply pointwise_iff; intros x t; [|symmetry]; apply single_match, F. }
  destruct (realises_conv _ _ (conv_collect_rel items N)) as [_ Hr].
  exists [MConv (hm_collect N.eqb (pairs_of items))]. split; [|intros s out; rewrite <- R; apply Hr].
  destruct H as [[X H]|[X (data & H1 & H2 & H3)]].
  - apply (C44_csv o w p _ X). exists items. eexists. auto.
  - apply (C44_yaml o w p _ X). exists items, []. split; [exists data; auto|]. split; [exact N|]. split; [|reflexivity].
    rewrite (yaml_modifiers_iff o w p data H1). unfold modifiers_of_yaml. apply yget_None in H3. rewrite H3. reflexivity.
Qed.
Print Assumptions C56_single_characters_exact.
(** A two-character key is cut: the file says [ab -> c] only, yet a lone [a] becomes [c]. *)
Theorem C56_whole_strings_refuted : exists o w p t c, table_from_csv_path w p = Ok t /\ table_items t = [Item (lit "ab") (lit "cd")] /\
  from_config_file o w p = Ok c /\ normalize false o c (lit "ab") = Ok (lit "cb") /\ normalize false o c (lit "xa") = Ok (lit "xc").
Proof.
  exists no_order, (csv_world [fields ["h"]; fields ["ab"; "cd"]]), (lit "t.csv"). eexists. eexists.
  split; [reflexivity|]. split; [reflexivity|]. split; [reflexivity|]. split; reflexivity.
Qed.
Print Assumptions C56_whole_strings_refuted.
Example C56_case : from_config_file no_order (csv_world [fields ["h"]; fields ["a"; ""]]) (lit "t.csv") = Panic /\
  from_config_file no_order (csv_world [fields ["h"]; fields ["a"; "b"; "c"]; fields ["a"; "d"]]) (lit "t.csv") = Ok [MConv [(97, 100); (98, 99)]%N].
Proof. split; reflexivity. Qed.
