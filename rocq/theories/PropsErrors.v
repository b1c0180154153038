(** Property C67: errors and their messages. *)
From Coq Require Import String.
From Verif Require Import Base BaseFacts Utf8 StrOps Corr Table Charset Converter Neologdn ModifierKind PathModel Yaml File ChanomaModel
  Configuration Cli Python ErrorMsg Spec TableFacts CharsetFacts PropsConverter PropsPipeline CorrFacts
  FileSpec PathSpec ConfigSpec BinSpec PathProps FileProps YamlProps ConfigProps PropsFile PropsConfig BinProps PropsBin.
Local Open Scope string_scope.
Local Open Scope list_scope.

(** Errors whose text is fixed by this crate up to the text of a wrapped CSV or YAML error. *)
Inductive own_error : error -> Prop :=
| oe_csv : own_error CsvFileLoadError
| oe_yaml : own_error YamlFileLoadError
| oe_rc p : unicode p -> own_error (RcFileLoadError p)
| oe_unsupported x : own_error (UnsupportedFileExtensionError x)
| oe_modifier m : own_error (ModifierKindParseError m)
| oe_missing p : unicode p -> own_error (FileExtensionNotFoundInPath p)
| oe_nonunicode p : unicode p -> own_error (FileExtensionCanNotConvertToStr p).

Lemma path_display_id p : unicode p -> path_display p = p.
Proof.
  induction 1 as [|c p H _ IH]; [reflexivity|]. unfold path_display in *. cbn [map]. rewrite IH.
  apply N.ltb_lt in H. rewrite H. reflexivity.
Qed.
Lemma prefix_differ (a b x y : str) : (exists i, nth_error a i <> nth_error b i /\ i < length a /\ i < length b) -> a ++ x = b ++ y -> False.
Proof.
  intros (i & N & La & Lb) E. apply N. rewrite <- (nth_error_app1 a x La), <- (nth_error_app1 b y Lb), E. reflexivity.
Qed.
Ltac differ := exfalso; match goal with E : _ ++ _ = _ ++ _ |- _ => revert E; apply prefix_differ;
  first [exists 0; split; [discriminate|cbn; lia]|exists 1; split; [discriminate|cbn; lia]|exists 2; split; [discriminate|cbn; lia]|exists 4; split; [discriminate|cbn; lia]] end.
(** Different errors have different texts. *)
Theorem C67_texts_differ : forall d d' e e', own_error e -> own_error e' -> error_text d e = error_text d' e' -> e = e'.
Proof.
  intros d d' e e' He He' E.
  destruct He as [ | |p U|x|m|p U|p U], He' as [ | |p' U'|x'|m'|p' U'|p' U']; cbn [error_text] in E; try reflexivity; try differ;
    apply app_inv_head in E; rewrite ?(path_display_id _ U), ?(path_display_id _ U') in E; subst; reflexivity.
Qed.
Print Assumptions C67_texts_differ.
(** The path is shown as it is. *)
Theorem C67_path_shown : forall d, exists a b c, forall p, unicode p ->
  error_text d (RcFileLoadError p) = a ++ p /\
  error_text d (FileExtensionNotFoundInPath p) = b ++ p /\ error_text d (FileExtensionCanNotConvertToStr p) = c ++ p.
Proof.
  intros d. exists text_RcFileLoadError, text_FileExtensionNotFoundInPath, text_FileExtensionCanNotConvertToStr.
  intros q U. cbn [error_text]. rewrite (path_display_id q U). auto.
Qed.
Print Assumptions C67_path_shown.
(** What is not Unicode in a path is shown as U+FFFD, the rest as it is. *)
Definition shown_as (c c' : char) : Prop := (c < 0x110000 /\ c' = c \/ 0x110000 <= c /\ c' = 0xFFFD)%N.
Theorem C67_any_path_shown : forall d, exists a b c, forall p, exists q, Forall2 shown_as p q /\
  error_text d (RcFileLoadError p) = a ++ q /\
  error_text d (FileExtensionNotFoundInPath p) = b ++ q /\ error_text d (FileExtensionCanNotConvertToStr p) = c ++ q.
Proof.
  intros d. exists text_RcFileLoadError, text_FileExtensionNotFoundInPath, text_FileExtensionCanNotConvertToStr.
  intros p. exists (path_display p). split; [|auto]. unfold path_display. induction p as [|c p IH]; cbn [map]; constructor; [|exact IH].
  unfold shown_as. destruct (N.ltb_spec c 0x110000); [left|right]; auto.
Qed.
Print Assumptions C67_any_path_shown.
(** The texts, as bytes ([lit] gives the bytes of a string). *)
Theorem C67_messages : forall d p x, unicode p ->
  encode (error_text d CsvFileLoadError) = lit "csv ファイルの読み込みに失敗しました: " ++ encode d /\
  encode (error_text d YamlFileLoadError) = lit "yaml ファイルの読み込みに失敗しました: " ++ encode d /\
  encode (error_text d (RcFileLoadError p)) = lit "指定された設定ファイルが存在しません: " ++ encode p /\
  encode (error_text d (UnsupportedFileExtensionError x)) = lit "未対応のファイル拡張子が指定されています: " ++ encode x /\
  encode (error_text d (ModifierKindParseError x)) = lit "存在しない Modifier が指定されています: " ++ encode x /\
  encode (error_text d (FileExtensionNotFoundInPath p)) = lit "指定したパスに拡張子が含まれていません: " ++ encode p /\
  encode (error_text d (FileExtensionCanNotConvertToStr p)) = lit "拡張子の文字列を str に変換できません: " ++ encode p /\
  encode (error_text d IoError) = encode d.
Proof.
  intros d p x U. cbn [error_text]. rewrite (path_display_id p U). unfold encode. rewrite !flat_map_app.
  repeat (split; [f_equal; vm_compute; reflexivity|]). reflexivity.
Qed.
Print Assumptions C67_messages.

(** Why a CSV file is refused. *)
Definition csv_unreadable (w : world) (p : path) : Prop :=
  w_csv w p = None \/ exists recs, w_csv w p = Some recs /\
    (hd_error recs = Some CsvIoError \/ In CsvNotUtf8 (tl recs) \/ In CsvIoError (tl recs)).
Lemma csv_items_err recs e : csv_items recs = Err e -> e = CsvFileLoadError /\ (In CsvNotUtf8 recs \/ In CsvIoError recs).
Proof.
  induction recs as [|[rec| |] r IH]; cbn [csv_items]; [discriminate| |intros E; injection E as <-; cbn; auto..].
  unfold record_items. destruct (hd_error (rev rec)); cbn [unwrap bind]; [|discriminate].
  destruct (csv_items r) as [x|e'|]; cbn [bind]; try discriminate. intros E. injection E as ->. destruct (IH eq_refl) as [-> H].
  split; [reflexivity|]. cbn [In]. intuition.
Qed.
Lemma csv_table_err w p e : table_from_csv_path w p = Err e -> e = CsvFileLoadError /\ csv_unreadable w p.
Proof.
  unfold table_from_csv_path, csv_unreadable. destruct (w_csv w p) as [recs|]; [|intros E; injection E as <-; auto].
  intros H. assert (G : (hd_error recs = Some CsvIoError /\ e = CsvFileLoadError) \/ csv_items (tl recs) = Err e).
  { destruct recs as [|[rec| |] r]; cbn [tl hd_error] in *; [right|right|right|left; split; congruence];
      destruct (csv_items _); cbn [bind] in H; congruence. }
  destruct G as [[G1 G2]|G].
  - split; [exact G2|]. right. exists recs. auto.
  - apply csv_items_err in G as [G1 G2]. split; [exact G1|]. right. exists recs. tauto.
Qed.
Lemma traverse_never_err {A B} (f : A -> outcome B) l e : (forall x e, f x <> Err e) -> traverse f l <> Err e.
Proof.
  intros H. induction l as [|x l IH]; cbn [traverse]; [discriminate|]. intros E. destruct (f x) as [y|e'|] eqn:Ef; cbn [bind] in E; [|exact (H x e' Ef)|discriminate].
  destruct (traverse f l) as [ys|e'|]; cbn [bind] in E; [discriminate| |discriminate]. injection E as ->. apply IH; reflexivity.
Qed.
Lemma unwrap_never_err {A} (x : option A) e : unwrap x <> Err e.
Proof. destruct x; discriminate. Qed.
Lemma yaml_items_never_err data e : yaml_items data <> Err e.
Proof.
  unfold yaml_items. destruct (yget (lit "items") data) as [m|]; [|discriminate]. destruct (as_mapping m) as [l|]; cbn [unwrap bind]; [|discriminate].
  assert (F : forall kv e, yaml_entry_items kv <> Err e).
  { intros [k v] e'. unfold yaml_entry_items. destruct (is_sequence v).
    - destruct (as_sequence v) as [l'|]; cbn [unwrap bind]; [|discriminate]. apply traverse_never_err. intros x e2.
      destruct (as_str x); cbn [unwrap bind]; [|discriminate]. destruct (as_str k); cbn; discriminate.
    - destruct (as_str v); cbn [unwrap bind]; [|discriminate]. destruct (as_str k); cbn; discriminate. }
  destruct (traverse yaml_entry_items l) as [x|e'|] eqn:E; cbn [bind]; [discriminate| |discriminate].
  destruct (traverse_never_err _ _ _ F E).
Qed.
Lemma yaml_table_err w p e : table_from_yaml_path w p = Err e ->
  (e = IoError /\ w_yaml w p = None) \/ (e = YamlFileLoadError /\ w_yaml w p = Some None).
Proof.
  unfold table_from_yaml_path, read_yaml. destruct (w_yaml w p) as [[data|]|]; cbn [bind]; intros H.
  - destruct (yaml_items data) as [x|e'|] eqn:E; cbn [bind] in H; [discriminate| |discriminate]. destruct (yaml_items_never_err _ _ E).
  - right. split; [congruence|reflexivity].
  - left. split; [congruence|reflexivity].
Qed.
Lemma yaml_modifiers_err o i l e : yaml_modifiers o i l = Err e -> exists l1 kv l2, l = l1 ++ kv :: l2 /\ entry_error kv e.
Proof.
  revert i; induction l as [|[k v] l IH]; intros i; cbn [yaml_modifiers]; [discriminate|].
  destruct (entry_outcome (sub o i) k v) as [(m & ef & E & _)|[(er & E & Her & _)|(E & _)]]; rewrite E; cbn [bind]; intros H.
  - destruct (yaml_modifiers o (S i) l) as [x|e'|] eqn:E2; cbn [bind] in H; [discriminate| |discriminate]. injection H as ->.
    destruct (IH _ E2) as (l1 & kv & l2 & -> & He). exists ((k, v) :: l1), kv, l2. auto.
  - injection H as ->. exists [], (k, v), l. auto.
  - discriminate.
Qed.
(** The errors of [from_config_file], and what each of them means. *)
Inductive config_error (w : world) (p : path) : error -> Prop :=
| ce_none : (forall x, ~ has_extension p x) -> config_error w p (FileExtensionNotFoundInPath p)
| ce_nonunicode x : has_extension p x -> ~ unicode x -> config_error w p (FileExtensionCanNotConvertToStr p)
| ce_unsupported x : has_extension p x -> unicode x -> ~ In x [lit "csv"; lit "yaml"; lit "yml"] -> config_error w p (UnsupportedFileExtensionError x)
| ce_csv : has_extension p (lit "csv") -> csv_unreadable w p -> config_error w p CsvFileLoadError
| ce_io : is_yaml p -> w_yaml w p = None -> config_error w p IoError
| ce_yaml : is_yaml p -> w_yaml w p = Some None -> config_error w p YamlFileLoadError
| ce_modifier data l1 kv l2 m : is_yaml p -> w_yaml w p = Some (Some data) ->
    key_value data (lit "modifiers") (YMap (l1 ++ kv :: l2)) -> entry_error kv (ModifierKindParseError m) ->
    config_error w p (ModifierKindParseError m).
Lemma entry_error_kind kv e : entry_error kv e -> exists m, e = ModifierKindParseError m.
Proof. intros H. inversion H; eauto. Qed.
Theorem C67_config_file_errors : forall o w p e, from_config_file o w p = Err e -> config_error w p e.
Proof.
  intros o w p e H. unfold from_config_file, configuration_from_path, load_file_with_ext in H.
  destruct (ext_from_path p) as [ext|e'|] eqn:E; cbn [bind] in H; [| |discriminate].
  - change (load_items_to_character_converter w p ext) with (t <- load_table w p ext ;; from_tables [t]) in H.
    destruct (load_table w p ext) as [t|e'|] eqn:T; cbn [bind] in H; [| |discriminate].
    + rewrite from_tables_one in H. destruct (forallb nonempty_item (table_items t)); cbn [bind] in H; [|discriminate].
      apply ext_ok_cases in E as [[-> E]|[-> E]]; cbn [load_modifiers] in H; [discriminate|].
      destruct (modifiers_from_yaml_path o w p) as [ms|e'|] eqn:M; cbn [bind] in H; [discriminate| |discriminate].
      injection H as ->. cbn [load_table] in T. apply C42_iff in T as (data & D & _). rewrite (yaml_modifiers_iff o w p data D) in M.
      unfold modifiers_of_yaml in M. destruct (yget (lit "modifiers") data) as [v|] eqn:Y; [|discriminate].
      destruct v as [| | |s|l|l]; cbn [as_mapping unwrap bind] in M; try discriminate. apply yget_iff in Y.
      apply yaml_modifiers_err in M as (l1 & kv & l2 & -> & He). destruct (entry_error_kind _ _ He) as (m & ->).
      exact (ce_modifier w p data l1 kv l2 m E D Y He).
    + injection H as ->. apply ext_ok_cases in E as [[-> E]|[-> E]]; cbn [load_table] in T.
      * apply csv_table_err in T as [-> T]. apply ce_csv; assumption.
      * apply yaml_table_err in T as [[-> T]|[-> T]]; [apply ce_io|apply ce_yaml]; assumption.
  - injection H as ->. destruct (C48_errors p) as (E1 & E2 & E3).
    destruct (ext_from_path_cases p) as [(x & X & U)|[(x & X & U)|N]].
    + assert (D : x = lit "csv" \/ x = lit "yaml" \/ x = lit "yml" \/ ~ In x [lit "csv"; lit "yaml"; lit "yml"]).
      { destruct (list_eq_dec N.eq_dec x (lit "csv")); [auto|]. destruct (list_eq_dec N.eq_dec x (lit "yaml")); [auto|].
        destruct (list_eq_dec N.eq_dec x (lit "yml")); [auto|]. right; right; right. cbn [In]. intuition. }
      destruct D as [->|[->|[->|D]]].
      * apply ext_csv_iff in X. congruence.
      * assert (Y : ext_from_path p = Ok Yaml) by (apply ext_yaml_iff; auto). congruence.
      * assert (Y : ext_from_path p = Ok Yaml) by (apply ext_yaml_iff; auto). congruence.
      * assert (Y : ext_from_path p = Err (UnsupportedFileExtensionError x)).
        { apply E3; [exact X|exact U|..]; intros ->; apply D; cbn [In]; auto. }
        rewrite Y in E. injection E as <-. apply ce_unsupported; assumption.
    + rewrite (ext_path_nonunicode p x X U) in E. injection E as <-. apply (ce_nonunicode w p x); assumption.
    + rewrite (ext_path_none p N) in E. injection E as <-. apply ce_none, N.
Qed.
Print Assumptions C67_config_file_errors.
(** Conversely (a bad modifier is reported if everything before it in the file is good, C43). *)
Theorem C67_config_file_errors_if : forall o w p e, config_error w p e -> (forall m, e <> ModifierKindParseError m) ->
  (forall recs, w_csv w p = Some recs -> ~ In (CsvFields []) (tl recs)) -> from_config_file o w p = Err e.
Proof.
  intros o w p e H N R. destruct H as [X|x X U|x X U D|X Hc|X Hy|X Hy|data l1 kv l2 m X _ _ _]; [| | | | | |destruct (N m eq_refl)].
  - apply C44_extension_failures. apply ext_path_none, X.
  - apply C44_extension_failures. apply (ext_path_nonunicode p x X U).
  - apply C44_extension_failures. destruct (C48_errors p) as (_ & _ & E3). apply E3; [exact X|exact U|..]; intros ->; apply D; cbn [In]; auto.
  - destruct (C39_fail w p R) as [E|(t & E)]; [apply (proj1 (C44_csv_failures o w p X)), E|]. exfalso.
    apply C39_iff in E as (recs & rows & E1 & E2 & E3 & _). destruct Hc as [Hc|(recs' & Hc & Hd)]; [congruence|].
    assert (recs' = recs) by congruence. subst recs'. destruct Hd as [Hd|[Hd|Hd]]; [contradiction|..]; rewrite E3, in_map_iff in Hd; destruct Hd as (? & ? & _); discriminate.
  - apply (proj1 (C44_yaml_failures o w p X)). apply C42_fail, Hy.
  - apply (proj1 (C44_yaml_failures o w p X)). apply C42_fail, Hy.
Qed.
Print Assumptions C67_config_file_errors_if.
Definition no_extension_error (e : error) : Prop :=
  match e with
  | CsvFileLoadError | YamlFileLoadError | IoError | ModifierKindParseError _ => True
  | _ => False
  end.
Lemma good_ext_error o w p e : has_extension p (lit "csv") \/ is_yaml p -> from_config_file o w p = Err e -> config_error w p e /\ no_extension_error e.
Proof.
  intros X H. apply C67_config_file_errors in H. split; [exact H|]. destruct H as [N|x X' U|x X' U D| | | |]; cbn [no_extension_error]; try exact I.
  - destruct X as [X|[X|X]]; exact (N _ X).
  - apply U. destruct X as [X|[X|X]]; rewrite (has_extension_unique _ _ _ X' X); repeat constructor.
  - apply D. destruct X as [X|[X|X]]; rewrite (has_extension_unique _ _ _ X' X); cbn [In]; auto.
Qed.
Lemma load_files_err o w ps : forall i e, load_files o w i ps = Err e -> exists p, In p ps /\ from_config_file o w p = Err e.
Proof.
  induction ps as [|p ps IH]; intros i e; cbn [load_files]; [discriminate|]. rewrite (load_file_order (sub o i) o).
  destruct (load_file_with_ext o w p) as [ms|e'|] eqn:E; cbn [bind]; intros H; [| |discriminate].
  - destruct (load_files o w (S i) ps) as [r|e'|] eqn:E2; cbn [bind] in H; [discriminate| |discriminate]. injection H as ->.
    destruct (IH _ _ E2) as (q & Q1 & Q2). exists q. split; [right; exact Q1|exact Q2].
  - injection H as ->. exists p. split; [left; reflexivity|exact E].
Qed.
Lemma names_in_ext d p : In p (names_in d) -> has_extension p (lit "csv") \/ is_yaml p.
Proof.
  destruct (names_ext d) as (a & b & c & e & -> & A & B & C & E). unfold is_yaml. intros [<-|[<-|[<-|[<-|[]]]]]; auto.
Qed.
Lemma found_ext w p : In p (found w) -> w_is_file w p = true /\ (has_extension p (lit "csv") \/ is_yaml p).
Proof.
  unfold found, candidates. rewrite filter_In, in_app_iff. intros [H F]. split; [exact F|].
  destruct H as [H|H]; [destruct (w_home w); [apply in_app_iff in H as [H|H]|contradiction]|destruct (w_cwd w); [|contradiction]]; eapply names_in_ext, H.
Qed.
(** The errors of [load_rc]: [RcFileLoadError] only for [CHANOMARC], the extension errors never. *)
Theorem C67_load_rc_errors : forall o w e, (forall s, w_env w = EnvUnicode s -> unicode s) -> load_rc o w = Err e ->
  (exists s, e = RcFileLoadError s /\ w_env w = EnvUnicode s /\
    (w_is_file w s = false \/ exists x, has_extension s x /\ x <> lit "csv" /\ x <> lit "yaml")) \/
  (no_extension_error e /\ exists p, w_is_file w p = true /\ config_error w p e).
Proof.
  intros o w e U H. destruct (w_env w) as [|q|s] eqn:E.
  - assert (N : chanomarc_unset w) by (intros s; rewrite E; discriminate). rewrite (load_rc_files o w N) in H.
    destruct (load_files o w 0 (found w)) as [r|e'|] eqn:L; cbn [bind] in H; [discriminate| |discriminate]. injection H as ->.
    apply load_files_err in L as (p & P1 & P2). apply found_ext in P1 as [F X]. destruct (good_ext_error o w p e X P2). right. eauto.
  - assert (N : chanomarc_unset w) by (intros s; rewrite E; discriminate). rewrite (load_rc_files o w N) in H.
    destruct (load_files o w 0 (found w)) as [r|e'|] eqn:L; cbn [bind] in H; [discriminate| |discriminate]. injection H as ->.
    apply load_files_err in L as (p & P1 & P2). apply found_ext in P1 as [F X]. destruct (good_ext_error o w p e X P2). right. eauto.
  - destruct (C45_lemma o w s E (U s eq_refl)) as (C1 & C2 & C3 & C4). destruct (w_is_file w s) eqn:F.
    + destruct (extension s) as [x|] eqn:X.
      * apply extension_iff in X. destruct (list_eq_dec N.eq_dec x (lit "csv")) as [->|N1].
        { rewrite (C2 eq_refl (or_introl X)) in H. destruct (good_ext_error o w s e (or_introl X) H). right. eauto. }
        destruct (list_eq_dec N.eq_dec x (lit "yaml")) as [->|N2].
        { rewrite (C2 eq_refl (or_intror X)) in H. destruct (good_ext_error o w s e (or_intror (or_introl X)) H). right. eauto. }
        rewrite (C3 eq_refl x X N1 N2) in H. injection H as <-. left. exists s. split; [reflexivity|]. split; [reflexivity|]. right. exists x. auto.
      * rewrite (C4 eq_refl (proj1 (extension_None s) X)) in H. discriminate.
    + rewrite (C1 eq_refl) in H. injection H as <-. left. exists s. auto.
Qed.
Print Assumptions C67_load_rc_errors.
(** [indicated pre e]: the text of [e] starts with [pre] whatever library text is shown. *)
Definition says (pre : str) (e : error) : Prop := forall d, exists rest, error_text d e = pre ++ rest.
(** "The given configuration file does not exist" (in Japanese). *)
Definition says_not_exist : str :=
  [0x6307; 0x5B9A; 0x3055; 0x308C; 0x305F; 0x8A2D; 0x5B9A; 0x30D5; 0x30A1; 0x30A4; 0x30EB; 0x304C; 0x5B58; 0x5728; 0x3057; 0x307E; 0x305B; 0x3093]%N.
(** "A modifier that does not exist was given" *)
Definition says_no_modifier : str :=
  [0x5B58; 0x5728; 0x3057; 0x306A; 0x3044; 0x20; 0x4D; 0x6F; 0x64; 0x69; 0x66; 0x69; 0x65; 0x72; 0x20; 0x304C; 0x6307; 0x5B9A; 0x3055; 0x308C; 0x3066; 0x3044; 0x307E; 0x3059]%N.
Theorem C67_not_exist_exact : forall e, own_error e -> (says says_not_exist e <-> exists p, e = RcFileLoadError p).
Proof.
  intros e He. split.
  - intros S. destruct (S []) as (r & E).
    destruct He as [ | |p U|x|m|p U|p U]; cbn [error_text] in E; [..|eauto| | | |]; exfalso; try (revert E; apply prefix_differ; exists 0; split; [discriminate|cbn; lia]).
    revert E. apply prefix_differ. exists 2. split; [discriminate|cbn; lia].
  - intros (p & ->) d. cbn [error_text]. unfold text_RcFileLoadError.
    exists ([0x3A; 0x20]%N ++ path_display p). rewrite app_assoc. reflexivity.
Qed.
Print Assumptions C67_not_exist_exact.
(** An existing file is reported as not existing. *)
Theorem C67_not_exist_refuted : exists o w s e, w_env w = EnvUnicode s /\ w_is_file w s = true /\ load_rc o w = Err e /\ says says_not_exist e.
Proof.
  exists no_order, (rc_world "/rc.yml"), (lit "/rc.yml"), (RcFileLoadError (lit "/rc.yml")). split; [reflexivity|]. split; [reflexivity|].
  split; [reflexivity|]. apply C67_not_exist_exact; [constructor; repeat constructor|eauto].
Qed.
Print Assumptions C67_not_exist_refuted.
(** An existing modifier is reported as not existing. *)
Theorem C67_no_modifier_refuted : exists o w p e, w_yaml w p = Some (Some (ex_modifiers [(ystr "trim", ystr "x")])) /\
  from_config_file o w p = Err e /\ says says_no_modifier e.
Proof.
  exists no_order, (yaml_world (ex_modifiers [(ystr "trim", ystr "x")])), (lit "a.yaml"), (ModifierKindParseError (lit "Cannot specify a value.")).
  split; [reflexivity|]. split; [reflexivity|]. intros d. exists ([0x3A; 0x20]%N ++ lit "Cannot specify a value."). reflexivity.
Qed.
Print Assumptions C67_no_modifier_refuted.
(** A missing CSV file and a missing YAML file give different errors. *)
Theorem C67_missing_files : forall o w p, w_csv w p = None -> w_yaml w p = None ->
  (has_extension p (lit "csv") -> from_config_file o w p = Err CsvFileLoadError) /\ (is_yaml p -> from_config_file o w p = Err IoError).
Proof.
  intros o w p H1 H2. split; intros X; apply C67_config_file_errors_if; try discriminate; try (rewrite H1; discriminate).
  - apply ce_csv; [exact X|left; exact H1].
  - apply ce_io; assumption.
Qed.
Print Assumptions C67_missing_files.
(** The Python constructor raises exactly the text of the configuration error. *)
Theorem C67_python_text : forall d o w t neo pre rc file m,
  raised d (py_chanoma_new o w t neo pre rc file) = Some m <->
  exists e, match file with Some p => from_config_file o w p | None => if rc then load_rc o w else Ok [] end = Err e /\ m = error_text d e.
Proof.
  intros d o w t neo pre rc file m. destruct (C52_constructor_outcomes o w t neo pre rc file) as (H1 & _). cbn zeta in H1.
  unfold raised. destruct (py_chanoma_new o w t neo pre rc file) as [c|e|] eqn:E.
  - split; [discriminate|]. intros (e & H & _). apply H1 in H. discriminate.
  - split; [intros H; injection H as <-; exists e; split; [apply H1; reflexivity|reflexivity]|].
    intros (e' & H & ->). apply H1 in H. congruence.
  - split; [discriminate|]. intros (e & H & _). apply H1 in H. discriminate.
Qed.
Print Assumptions C67_python_text.
Example C67_case :
  raised (lit "x") (py_chanoma_new no_order (rc_world "/missing.csv") None false false true None) =
    Some (says_not_exist ++ [0x3A; 0x20]%N ++ lit "/missing.csv") /\
  raised (lit "x") (py_chanoma_new no_order (rc_world "") None false false false (Some (lit "/a.toml"))) =
    Some ([0x672A; 0x5BFE; 0x5FDC; 0x306E; 0x30D5; 0x30A1; 0x30A4; 0x30EB; 0x62E1; 0x5F35; 0x5B50; 0x304C; 0x6307; 0x5B9A; 0x3055; 0x308C; 0x3066; 0x3044; 0x307E; 0x3059; 0x3A; 0x20]%N ++ lit "toml") /\
  raised (lit "x") (py_chanoma_new no_order (rc_world "") None false false false (Some [0x2F; 0x61; 0x110080]%N)) =
    Some ([0x6307; 0x5B9A; 0x3057; 0x305F; 0x30D1; 0x30B9; 0x306B; 0x62E1; 0x5F35; 0x5B50; 0x304C; 0x542B; 0x307E; 0x308C; 0x3066; 0x3044; 0x307E; 0x305B; 0x3093; 0x3A; 0x20; 0x2F; 0x61; 0xFFFD]%N).
Proof. split; [reflexivity|]. split; reflexivity. Qed.
