(** Facts about the model with places: without the places it is the model, and where it panics. *)
From Verif Require Import Base BaseFacts StrOps Corr Table Converter Eliminator Reducer Ligature Neologdn ModifierKind PathModel Yaml File ChanomaModel Configuration Cli
  FileSpec FileProps PanicSpec PanicPlace.

Definition forget {A} (x : located A) : outcome A := match x with LOk a => Ok a | LErr e => Err e | LPanic _ => Panic end.
Lemma forget_bind {A B} (x : located A) (f : A -> located B) : forget (lbind x f) = bind (forget x) (fun a => forget (f a)).
Proof. destruct x; reflexivity. Qed.
Lemma forget_unwrap {A} p (x : option A) : forget (unwrap_at p x) = unwrap x.
Proof. destruct x; reflexivity. Qed.
Lemma forget_plainly {A} p (x : outcome A) : forget (plainly p x) = x.
Proof. destruct x; reflexivity. Qed.
Lemma bind_ext {A B} (x y : outcome A) (f g : A -> outcome B) : x = y -> (forall a, f a = g a) -> bind x f = bind y g.
Proof. intros -> H. destruct y; [apply H|reflexivity..]. Qed.
Lemma forget_traverse {A B} (f : A -> located B) g l : (forall a, forget (f a) = g a) -> forget (ltraverse f l) = traverse g l.
Proof.
  intros H. induction l as [|a l IH]; [reflexivity|]. cbn [ltraverse traverse]. rewrite forget_bind. apply bind_ext; [apply H|]. intros b.
  rewrite forget_bind. apply bind_ext; [exact IH|reflexivity].
Qed.
Ltac forg := repeat (rewrite forget_bind || rewrite forget_unwrap || rewrite forget_plainly); try reflexivity.
Lemma forget_insert m l : forget (insert_items_at m l) = insert_items m l.
Proof.
  revert m. induction l as [|it l IH]; intros m; [reflexivity|]. cbn [insert_items_at insert_items]. forg. apply bind_ext; [reflexivity|]. intros f. forg. apply bind_ext; [reflexivity|].
  intros t. apply IH.
Qed.
Lemma forget_conv v : forget (conv_from_yaml_at v) = conv_from_yaml v.
Proof.
  unfold conv_from_yaml_at, conv_from_yaml. forg. apply bind_ext; [reflexivity|]. intros l. forg. apply bind_ext; [|reflexivity]. apply forget_traverse. intros [k x]. unfold str_first. cbn [fst snd].
  forg. destruct (as_str k) as [s|]; [|reflexivity]. cbn [unwrap bind]. forg. destruct (first_char s); [|reflexivity]. cbn [unwrap bind]. forg. destruct (as_str x) as [t|]; [|reflexivity]. cbn [unwrap bind]. forg.
Qed.
Lemma forget_elim v : forget (elim_from_yaml_at v) = elim_from_yaml v.
Proof.
  unfold elim_from_yaml_at, elim_from_yaml. forg. apply bind_ext; [reflexivity|]. intros l. forg. apply bind_ext; [|reflexivity]. apply forget_traverse. intros x. unfold str_first. forg.
  apply bind_ext; [reflexivity|]. intros. apply forget_unwrap.
Qed.
Lemma forget_red v : forget (red_from_yaml_at v) = red_from_yaml v.
Proof. unfold red_from_yaml_at, red_from_yaml. forg. apply bind_ext; [reflexivity|]. intros. apply forget_unwrap. Qed.
Lemma forget_lig v : forget (lig_from_yaml_at v) = lig_from_yaml v.
Proof.
  unfold lig_from_yaml_at, lig_from_yaml. forg. apply bind_ext; [reflexivity|]. intros l. forg. apply bind_ext; [|reflexivity]. apply forget_traverse. intros [k x]. cbn [fst snd]. forg.
  apply bind_ext; [reflexivity|]. intros s. forg.
Qed.
Lemma forget_null {A} (x : located A) v : forget (null_only_at x v) = null_only (forget x) v.
Proof. unfold null_only_at, null_only. destruct (is_null v); reflexivity. Qed.
Lemma forget_modifier o k v : forget (modifier_from_yaml_at o k v) = modifier_from_yaml o k v.
Proof.
  unfold modifier_from_yaml_at, modifier_from_yaml. forg. apply bind_ext; [reflexivity|]. intros s.
  destruct (str_eqb s _); [forg; rewrite forget_conv; reflexivity|]. destruct (str_eqb s _); [forg; rewrite forget_elim; reflexivity|].
  destruct (str_eqb s _); [forg; rewrite forget_red; reflexivity|]. destruct (str_eqb s _); [forg; rewrite forget_lig; reflexivity|].
  destruct (str_eqb s _); [exact (forget_null (LOk MDot) v)|]. destruct (str_eqb s _); [exact (forget_null (LOk MTrim) v)|].
  destruct (str_eqb s _); [forg; rewrite forget_null; unfold neologdn_new_at; rewrite forget_plainly; reflexivity|reflexivity].
Qed.
Lemma forget_entry kv : forget (yaml_entry_items_at kv) = yaml_entry_items kv.
Proof.
  destruct kv as [key value]. unfold yaml_entry_items_at, yaml_entry_items. destruct (is_sequence value).
  - forg. apply bind_ext; [reflexivity|]. intros l. apply forget_traverse. intros v. forg. apply bind_ext; [reflexivity|]. intros f. forg.
  - forg. apply bind_ext; [reflexivity|]. intros f. forg.
Qed.
Lemma forget_items data : forget (yaml_items_at data) = yaml_items data.
Proof.
  unfold yaml_items_at, yaml_items. destruct (yget _ data) as [m|]; [|reflexivity]. forg. apply bind_ext; [reflexivity|]. intros l. forg. apply bind_ext; [|reflexivity].
  apply forget_traverse, forget_entry.
Qed.
Lemma forget_read w p : forget (read_yaml_at w p) = read_yaml w p.
Proof. unfold read_yaml_at, read_yaml. destruct (w_yaml w p) as [[]|]; reflexivity. Qed.
Lemma forget_yaml_table w p : forget (table_from_yaml_path_at w p) = table_from_yaml_path w p.
Proof. unfold table_from_yaml_path_at, table_from_yaml_path. forg. apply bind_ext; [apply forget_read|]. intros d. forg. apply bind_ext; [apply forget_items|reflexivity]. Qed.
Lemma forget_csv_items l : forget (csv_items_at l) = csv_items l.
Proof.
  induction l as [|[r| |] l IH]; try reflexivity. cbn [csv_items_at csv_items]. forg. unfold record_items_at, record_items. forg. apply bind_ext; [reflexivity|]. intros its. forg.
  apply bind_ext; [exact IH|reflexivity].
Qed.
Lemma forget_csv_table w p : forget (table_from_csv_path_at w p) = table_from_csv_path w p.
Proof.
  unfold table_from_csv_path_at, table_from_csv_path. destruct (w_csv w p) as [l|]; [|reflexivity]. destruct l as [|[r| |] l]; try reflexivity; forg; (apply bind_ext; [apply forget_csv_items|reflexivity]).
Qed.
Lemma forget_modifiers o i l : forget (yaml_modifiers_at o i l) = yaml_modifiers o i l.
Proof.
  revert i. induction l as [|[k v] l IH]; intros i; [reflexivity|]. cbn [yaml_modifiers_at yaml_modifiers]. forg. apply bind_ext; [apply forget_modifier|]. intros m. forg.
  apply bind_ext; [apply IH|reflexivity].
Qed.
Lemma forget_of_yaml o data : forget (modifiers_of_yaml_at o data) = modifiers_of_yaml o data.
Proof. unfold modifiers_of_yaml_at, modifiers_of_yaml. destruct (yget _ data); [|reflexivity]. forg. apply bind_ext; [reflexivity|]. intros l. apply forget_modifiers. Qed.
Lemma from_one t : from_tables [t] = insert_items [] (table_items t).
Proof. unfold from_tables. cbn [insert_tables]. destruct (insert_items [] (table_items t)); reflexivity. Qed.
Lemma forget_file o w p : forget (load_file_with_ext_at o w p) = load_file_with_ext o w p.
Proof.
  unfold load_file_with_ext_at, load_file_with_ext. destruct (ext_from_path p) as [ext|e|]; [|reflexivity..]. cbn [bind]. unfold load_items_to_character_converter. forg.
  assert (T : forget (match ext with Csv => table_from_csv_path_at w p | Yaml => table_from_yaml_path_at w p end) = match ext with Csv => table_from_csv_path w p | Yaml => table_from_yaml_path w p end)
    by (destruct ext; [apply forget_csv_table|apply forget_yaml_table]).
  rewrite T. clear T. destruct (match ext with Csv => table_from_csv_path w p | Yaml => table_from_yaml_path w p end) as [t|e|]; [|reflexivity..]. cbn [bind]. rewrite from_one. forg.
  apply bind_ext; [apply forget_insert|]. intros cc. forg. apply bind_ext; [|reflexivity]. destruct ext; [reflexivity|]. cbn [load_modifiers]. unfold modifiers_from_yaml_path. forg.
  apply bind_ext; [apply forget_read|]. intros d. apply forget_of_yaml.
Qed.
Lemma forget_files o w i ps : forget (load_files_at o w i ps) = load_files o w i ps.
Proof.
  revert i. induction ps as [|p ps IH]; intros i; [reflexivity|]. cbn [load_files_at load_files]. forg. apply bind_ext; [apply forget_file|]. intros ms. forg. apply bind_ext; [apply IH|reflexivity].
Qed.
Lemma forget_valid w p : forget (valid_file_path_at w p) = valid_file_path w p.
Proof.
  unfold valid_file_path_at, valid_file_path. destruct (negb (w_is_file w p)); [reflexivity|]. forg. apply bind_ext; [reflexivity|]. intros e. forg. apply bind_ext; [reflexivity|]. intros s.
  destruct (forallb _ _); reflexivity.
Qed.
Lemma forget_load o w : forget (configuration_load_at o w) = configuration_load o w.
Proof.
  unfold configuration_load_at, configuration_load. forg. apply bind_ext.
  - unfold file_paths_at, file_paths. destruct (file_path_from_env w); [apply forget_valid|reflexivity].
  - intros [|p ps]; [reflexivity|]. forg. apply bind_ext; [apply forget_files|reflexivity].
Qed.
Lemma forget_argument a b p s : forget (argument_at a b p s) = argument p s.
Proof. unfold argument_at, argument. forg. apply bind_ext; [reflexivity|]. intros. apply forget_unwrap. Qed.
Lemma forget_from_str o s : forget (modifier_from_str_at o s) = modifier_from_str o s.
Proof.
  unfold modifier_from_str_at, modifier_from_str. destruct (str_eqb s S_neologdn); [unfold neologdn_new_at; forg|].
  destruct (str_eqb s S_trim); [reflexivity|]. destruct (str_eqb s S_dotted); [reflexivity|].
  destruct (starts_with P_reducer s). { forg. apply bind_ext; [apply forget_argument|]. intros a. forg. apply bind_ext; [apply forget_unwrap|reflexivity]. }
  destruct (starts_with P_ligature s). { forg. apply bind_ext; [apply forget_argument|]. intros a. forg. }
  destruct (starts_with P_eliminator s). { forg. apply bind_ext; [apply forget_argument|]. intros a. forg. }
  destruct (starts_with P_converter s). { forg. apply bind_ext; [apply forget_argument|]. intros a. forg. }
  reflexivity.
Qed.
Lemma forget_normalize dbg o c s : forget (normalize_at dbg o c s) = normalize dbg o c s.
Proof.
  unfold normalize_at, normalize. destruct (negb dbg); [apply forget_plainly|]. forg. apply bind_ext; [reflexivity|]. intros rs. rewrite forget_unwrap. unfold records_text. destruct (rev rs); reflexivity.
Qed.
Lemma forget_cli o w op i : forget (cli_main_at o w op i) = cli_main o w op i.
Proof.
  unfold cli_main_at, cli_main. forg. apply bind_ext.
  { unfold load_rc. rewrite <- forget_load. destruct (configuration_load_at (sub o 0) w); reflexivity. }
  intros c. forg. apply bind_ext; [destruct (o_preset op); [apply forget_plainly|reflexivity]|]. intros c'. forg. apply bind_ext; [destruct (o_neologdn op); [apply forget_plainly|reflexivity]|]. intros c''.
  destruct (o_input op) as [s|]; [forg; rewrite forget_normalize; reflexivity|]. destruct i as [s|]; [|reflexivity]. forg. rewrite forget_normalize. reflexivity.
Qed.
