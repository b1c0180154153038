(** The same code once more, with the place in the source at which a panic happens (C104).
    [PanicFacts] proves that without the places these are the functions of Yaml.v, File.v, Configuration.v, ModifierKind.v and Cli.v. *)
From Verif Require Import Base StrOps Corr Table Converter Eliminator Reducer Ligature Neologdn ModifierKind PathModel Yaml File ChanomaModel Configuration Cli PanicSpec.

Inductive located A := LOk (a : A) | LErr (e : error) | LPanic (p : place).
Arguments LOk {A}. Arguments LErr {A}. Arguments LPanic {A}.
Definition lbind {A B} (x : located A) (f : A -> located B) : located B :=
  match x with LOk a => f a | LErr e => LErr e | LPanic p => LPanic p end.
Notation "x <~ e ;; k" := (lbind e (fun x => k)) (at level 61, e at next level, right associativity).
(** [Option::unwrap] called at [p]; the location is that of the method name (since Rust 1.47). *)
Definition unwrap_at {A} (p : place) (x : option A) : located A := match x with Some a => LOk a | None => LPanic p end.
(** Code without [unwrap]. *)
Definition plainly {A} (p : place) (x : outcome A) : located A := match x with Ok a => LOk a | Err e => LErr e | Panic => LPanic p end.
Fixpoint ltraverse {A B} (f : A -> located B) (l : list A) : located (list B) :=
  match l with [] => LOk [] | a :: r => b <~ f a ;; bs <~ ltraverse f r ;; LOk (b :: bs) end.

(** /repo/src/modifier/character_converter.rs:156-167 *)
Fixpoint insert_items_at (m : converter) (items : list item) : located converter :=
  match items with
  | [] => LOk m
  | it :: r =>
      f <~ unwrap_at item_from_empty (first_char (from it)) ;;
      t <~ unwrap_at item_to_empty (first_char (to it)) ;;
      insert_items_at (hm_insert N.eqb f t m) r
  end.
(** /repo/src/modifier/character_converter.rs:103-115 *)
Definition conv_from_yaml_at (v : yval) : located converter :=
  l <~ unwrap_at converter_not_mapping (as_mapping v) ;;
  kvs <~ ltraverse (fun kv =>
    k <~ unwrap_at converter_key_not_text (as_str (fst kv)) ;; k <~ unwrap_at converter_key_empty (first_char k) ;;
    x <~ unwrap_at converter_value_not_text (as_str (snd kv)) ;; x <~ unwrap_at converter_value_empty (first_char x) ;; LOk (k, x)) l ;;
  LOk (hm_collect N.eqb kvs).
(** /repo/src/modifier/character_eliminator.rs:39-47 *)
Definition elim_from_yaml_at (v : yval) : located eliminator :=
  l <~ unwrap_at eliminator_not_sequence (as_sequence v) ;;
  cs <~ ltraverse (fun v => s <~ unwrap_at eliminator_not_text (as_str v) ;; unwrap_at eliminator_empty (first_char s)) l ;;
  LOk (elim_from_chars cs).
(** /repo/src/modifier/consecutive_character_reducer.rs:91-94 *)
Definition red_from_str_at (s : str) : located char := unwrap_at reducer_empty (first_char s).
(** /repo/src/modifier/consecutive_character_reducer.rs:84-86 *)
Definition red_from_yaml_at (v : yval) : located char := s <~ unwrap_at reducer_not_text (as_str v) ;; red_from_str_at s.
(** /repo/src/modifier/ligature_translator.rs:35-47 *)
Definition lig_from_yaml_at (v : yval) : located ligature :=
  l <~ unwrap_at ligature_not_mapping (as_mapping v) ;;
  kvs <~ ltraverse (fun kv => k <~ unwrap_at ligature_key_not_text (as_str (fst kv)) ;; x <~ unwrap_at ligature_value_not_text (as_str (snd kv)) ;; LOk (k, x)) l ;;
  LOk (hm_collect str_eqb kvs).
(** Neologdn::new builds its converter from a table without empty strings (C24), so the place is never used. *)
Definition neologdn_new_at (o : sched) : located neologdn := plainly item_from_empty (neologdn_new o).
Definition null_only_at {A} (x : located A) (v : yval) : located A :=
  if is_null v then x else LErr (ModifierKindParseError (lit "Cannot specify a value.")).
(** /repo/src/modifier_kind.rs:115-143 *)
Definition modifier_from_yaml_at (o : sched) (key value : yval) : located modifier :=
  k <~ unwrap_at modifier_key_not_text (as_str key) ;;
  if str_eqb k (lit "character_converter") then x <~ conv_from_yaml_at value ;; LOk (MConv x)
  else if str_eqb k (lit "character_eliminator") then x <~ elim_from_yaml_at value ;; LOk (MElim x)
  else if str_eqb k (lit "consecutive_character_reducer") then x <~ red_from_yaml_at value ;; LOk (MRed x)
  else if str_eqb k (lit "ligature_translator") then x <~ lig_from_yaml_at value ;; LOk (MLig x)
  else if str_eqb k (lit "dotted_space_eliminator") then null_only_at (LOk MDot) value
  else if str_eqb k (lit "trim") then null_only_at (LOk MTrim) value
  else if str_eqb k (lit "neologdn") then x <~ null_only_at (neologdn_new_at o) value ;; LOk (MNeo x)
  else LErr (ModifierKindParseError (lit "specified key " ++ k ++ lit " does not exists.")).

(** /repo/src/file.rs:66-74 *)
Definition yaml_entry_items_at (kv : yval * yval) : located (list item) :=
  let '(key, value) := kv in
  if is_sequence value then
    l <~ unwrap_at items_sequence (as_sequence value) ;;
    ltraverse (fun v => f <~ unwrap_at items_element_not_text (as_str v) ;; t <~ unwrap_at items_list_key_not_text (as_str key) ;; LOk (Item f t)) l
  else
    f <~ unwrap_at items_value_not_text (as_str value) ;; t <~ unwrap_at items_key_not_text (as_str key) ;; LOk [Item f t].
Definition yaml_items_at (data : yval) : located (list item) :=
  match yget (lit "items") data with
  | None => LOk []
  | Some m => l <~ unwrap_at items_not_mapping (as_mapping m) ;; its <~ ltraverse yaml_entry_items_at l ;; LOk (concat its)
  end.
Definition read_yaml_at (w : world) (p : path) : located yval :=
  match w_yaml w p with None => LErr IoError | Some None => LErr YamlFileLoadError | Some (Some v) => LOk v end.
(** /repo/src/file.rs:61-80 *)
Definition table_from_yaml_path_at (w : world) (p : path) : located table :=
  data <~ read_yaml_at w p ;; items <~ yaml_items_at data ;; LOk (table_from_corr items (OriginFile p)).
(** /repo/src/file.rs:25-30 *)
Definition record_items_at (rec : list str) : located (list item) :=
  t <~ unwrap_at record_without_fields (hd_error (rev rec)) ;;
  LOk (map (fun f => Item f t) (firstn (length rec - 1) rec)).
Fixpoint csv_items_at (recs : list csv_record) : located (list item) :=
  match recs with
  | [] => LOk []
  | CsvNotUtf8 :: _ | CsvIoError :: _ => LErr CsvFileLoadError
  | CsvFields rec :: r => its <~ record_items_at rec ;; rest <~ csv_items_at r ;; LOk (its ++ rest)
  end.
(** /repo/src/file.rs:20-36 *)
Definition table_from_csv_path_at (w : world) (p : path) : located table :=
  match w_csv w p with
  | None => LErr CsvFileLoadError
  | Some (CsvIoError :: _) => LErr CsvFileLoadError
  | Some recs => items <~ csv_items_at (tl recs) ;; LOk (table_from_corr items (OriginFile p))
  end.
(** /repo/src/file.rs:93-97 *)
Fixpoint yaml_modifiers_at (o : sched) (i : nat) (l : list (yval * yval)) : located (list modifier) :=
  match l with
  | [] => LOk []
  | (k, v) :: r => m <~ modifier_from_yaml_at (sub o i) k v ;; ms <~ yaml_modifiers_at o (S i) r ;; LOk (m :: ms)
  end.
Definition modifiers_of_yaml_at (o : sched) (data : yval) : located (list modifier) :=
  match yget (lit "modifiers") data with
  | None => LOk []
  | Some m => l <~ unwrap_at modifiers_not_mapping (as_mapping m) ;; yaml_modifiers_at o 0 l
  end.

(** /repo/src/configuration.rs:67-95; the extension of a path is found without [unwrap] (/repo/src/file_extension.rs:48-58). *)
Definition load_file_with_ext_at (o : sched) (w : world) (p : path) : located (list modifier) :=
  match ext_from_path p with
  | Ok ext =>
      table <~ match ext with Csv => table_from_csv_path_at w p | Yaml => table_from_yaml_path_at w p end ;;
      cc <~ insert_items_at [] (table_items table) ;;
      ms <~ match ext with Yaml => data <~ read_yaml_at w p ;; modifiers_of_yaml_at o data | Csv => LOk [] end ;;
      LOk (ms ++ [MConv cc])
  | Err e => LErr e
  | Panic => LPanic nowhere
  end.
(** /repo/src/configuration.rs:108-117 *)
Definition valid_file_path_at (w : world) (p : path) : located (list path) :=
  if negb (w_is_file w p) then LErr (RcFileLoadError p)
  else
    e <~ unwrap_at rc_without_extension (extension p) ;;
    s <~ unwrap_at rc_extension_not_text (to_str e) ;;
    if forallb (fun ext => negb (str_eqb (ext_to_string ext) s)) all_extensions then LErr (RcFileLoadError p) else LOk [p].
(** /repo/src/configuration.rs:47-65 *)
Definition file_paths_at (w : world) : located (list path) :=
  match file_path_from_env w with
  | Some p => valid_file_path_at w p
  | None => LOk (exists_file_paths w (auto_load_dirs w) auto_load_paths_from_dir)
  end.
(** /repo/src/configuration.rs:31-38 *)
Fixpoint load_files_at (o : sched) (w : world) (i : nat) (ps : list path) : located (list (list modifier)) :=
  match ps with
  | [] => LOk []
  | p :: r => ms <~ load_file_with_ext_at (sub o i) w p ;; rest <~ load_files_at o w (S i) r ;; LOk (ms :: rest)
  end.
(** /repo/src/configuration.rs:21-45 *)
Definition configuration_load_at (o : sched) (w : world) : located (list modifier) :=
  paths <~ file_paths_at w ;;
  match paths with [] => LOk [] | _ => result <~ load_files_at o w 0 paths ;; LOk (concat result) end.

(** /repo/src/modifier_kind.rs:34-85 *)
Definition argument_at (a b : place) (p s : str) : located str :=
  r <~ unwrap_at a (strip_prefix p s) ;; unwrap_at b (strip_suffix_char RPAREN r).
Definition modifier_from_str_at (o : sched) (s : str) : located modifier :=
  if str_eqb s S_neologdn then n <~ neologdn_new_at o ;; LOk (MNeo n)
  else if str_eqb s S_trim then LOk MTrim
  else if str_eqb s S_dotted then LOk MDot
  else if starts_with P_reducer s then
    a <~ argument_at reducer_prefix reducer_open P_reducer s ;; c <~ red_from_str_at a ;; LOk (MRed c)
  else if starts_with P_ligature s then
    a <~ argument_at ligature_prefix ligature_open P_ligature s ;; l <~ plainly nowhere (lig_from_str a) ;; LOk (MLig l)
  else if starts_with P_eliminator s then
    a <~ argument_at eliminator_prefix eliminator_open P_eliminator s ;; e <~ plainly nowhere (elim_from_str a) ;; LOk (MElim e)
  else if starts_with P_converter s then
    a <~ argument_at converter_prefix converter_open P_converter s ;; c <~ plainly nowhere (conv_from_str a) ;; LOk (MConv c)
  else LErr (ModifierKindParseError (lit "parse error.")).

(** /repo/src/modifier.rs:74-76 and /repo/src/chanoma.rs:122-130; the modifiers themselves do not panic (C30). *)
Definition normalize_at (dbg : bool) (o : sched) (c : chanoma) (text : str) : located str :=
  if negb dbg then plainly nowhere (normalize_fold o 0 c text)
  else rs <~ plainly nowhere (normalize_with_positions o c text) ;; unwrap_at no_records (option_map r_text (hd_error (rev rs))).
(** /repo/src/main.rs:17-52 *)
Definition cli_main_at (o : sched) (w : world) (op : opts) (stdin : option str) : located cli_output :=
  let dbg := o_debug op in
  c <~ match configuration_load_at (sub o 0) w with LErr _ => LPanic configuration_refused | r => r end ;;
  c <~ (if o_preset op then plainly nowhere (use_preset (sub o 1) c) else LOk c) ;;
  c <~ (if o_neologdn op then plainly nowhere (use_neologdn (sub o 2) c) else LOk c) ;;
  match o_input op with
  | Some input => r <~ normalize_at dbg (sub o 3) c input ;; LOk (Printed r)
  | None =>
      match stdin with
      | Some input => r <~ normalize_at dbg (sub o 3) c (trim_end_matches NEWLINE (read_line input)) ;; LOk (Printed r)
      | None => LOk StdinError
      end
  end.
