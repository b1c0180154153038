(** Model of /repo/src/file.rs and of the file-reading functions of /repo/src/table.rs. *)
From Verif Require Import Base StrOps Corr Table Charset ModifierKind Yaml.

(** What the process can observe: a fixed snapshot of file system and environment.
    - [w_csv p]: [None] if the file cannot be opened, else the records the [csv] crate splits the file
      into, header record first;
    - [w_yaml p]: [None] if the file cannot be opened, [Some None] if it does not parse. *)
(** A record of a CSV file: its fields, or text that is not UTF-8, or an I/O error while reading it. *)
Inductive csv_record := CsvFields (fields : list str) | CsvNotUtf8 | CsvIoError.
Inductive env_value := EnvAbsent | EnvNotUnicode (p : path) | EnvUnicode (s : str).
Record world := World {
  w_is_file : path -> bool;
  w_csv : path -> option (list csv_record);
  w_yaml : path -> option (option yval);
  w_canonicalize : path -> option path;
  w_env : env_value;            (* CHANOMARC *)
  w_home : option path;         (* dirs::home_dir() *)
  w_cwd : option path }.        (* env::current_dir() *)

(** /repo/src/file.rs:25-30: items of one record. *)
Definition record_items (rec : list str) : outcome (list item) :=
  t <- unwrap (hd_error (rev rec)) ;;
  Ok (map (fun f => Item f t) (firstn (length rec - 1) rec)).
(** /repo/src/file.rs:24-31: loop over the records. *)
Fixpoint csv_items (recs : list csv_record) : outcome (list item) :=
  match recs with
  | [] => Ok []
  | CsvNotUtf8 :: _ | CsvIoError :: _ => Err CsvFileLoadError
  | CsvFields rec :: r => its <- record_items rec ;; rest <- csv_items r ;; Ok (its ++ rest)
  end.
(** /repo/src/file.rs:20-36; the reader's default is [has_headers = true], so the first record is
    read as bytes (only an I/O error is reported) and not returned by [records()]. *)
Definition table_from_csv_path (w : world) (p : path) : outcome table :=
  match w_csv w p with
  | None => Err CsvFileLoadError
  | Some (CsvIoError :: _) => Err CsvFileLoadError
  | Some recs => items <- csv_items (tl recs) ;; Ok (table_from_corr items (OriginFile p))
  end.

(** /repo/src/file.rs:45-52: the records written. *)
Definition to_csv_records (o : sched) (c : corr) : list (list str) :=
  map (fun kv => snd kv ++ [fst kv]) (item_map (c o)).

(** /repo/src/file.rs:66-74 *)
Definition yaml_entry_items (kv : yval * yval) : outcome (list item) :=
  let '(key, value) := kv in
  if is_sequence value then
    l <- unwrap (as_sequence value) ;;
    traverse (fun v => f <- unwrap (as_str v) ;; t <- unwrap (as_str key) ;; Ok (Item f t)) l
  else
    f <- unwrap (as_str value) ;; t <- unwrap (as_str key) ;; Ok [Item f t].
Definition yaml_items (data : yval) : outcome (list item) :=
  match yget (lit "items") data with
  | None => Ok []
  | Some m => l <- unwrap (as_mapping m) ;; its <- traverse yaml_entry_items l ;; Ok (concat its)
  end.
(** [serde_yaml::from_reader(File::open(path)?)?] *)
Definition read_yaml (w : world) (p : path) : outcome yval :=
  match w_yaml w p with
  | None => Err IoError
  | Some None => Err YamlFileLoadError
  | Some (Some v) => Ok v
  end.
(** /repo/src/file.rs:61-80 *)
Definition table_from_yaml_path (w : world) (p : path) : outcome table :=
  data <- read_yaml w p ;;
  items <- yaml_items data ;;
  Ok (table_from_corr items (OriginFile p)).

(** /repo/src/file.rs:93-97: one call of [from_yaml_key_value] per entry; entry [i] under [sub o i]. *)
Fixpoint yaml_modifiers (o : sched) (i : nat) (l : list (yval * yval)) : outcome (list modifier) :=
  match l with
  | [] => Ok []
  | (k, v) :: r =>
      m <- modifier_from_yaml (sub o i) k v ;;
      ms <- yaml_modifiers o (S i) r ;;
      Ok (m :: ms)
  end.
Definition modifiers_of_yaml (o : sched) (data : yval) : outcome (list modifier) :=
  match yget (lit "modifiers") data with
  | None => Ok []
  | Some m => l <- unwrap (as_mapping m) ;; yaml_modifiers o 0 l
  end.
(** /repo/src/file.rs:89-99 *)
Definition modifiers_from_yaml_path (o : sched) (w : world) (p : path) : outcome (list modifier) :=
  data <- read_yaml w p ;; modifiers_of_yaml o data.

(** /repo/src/file.rs:101-124: [to_serialized_corr], as the YAML value serde derives for it. *)
Definition to_serialized_corr (o : sched) (c : corr) : yval :=
  YMap [(YStr (lit "items"),
         YMap (map (fun kv => (YStr (fst kv), YSeq (map YStr (snd kv)))) (item_map (c o))))].

(** /repo/src/table.rs:221-226 *)
Definition canonicalize (w : world) (p : path) : outcome path :=
  match w_canonicalize w p with Some q => Ok q | None => Err IoError end.
Definition builder_from_yaml_path (w : world) (p : path) : outcome table :=
  q <- canonicalize w p ;; table_from_yaml_path w q.
(** /repo/src/table.rs:235-240 *)
Definition builder_from_csv_path (w : world) (p : path) : outcome table :=
  q <- canonicalize w p ;; table_from_csv_path w q.
(** /repo/src/table.rs:250-254 *)
Definition add_from_csv (o : sched) (w : world) (p : path) (t : table) : outcome table :=
  t' <- table_from_csv_path w p ;; Ok (table_add o t (table_corr t')).
(** /repo/src/table.rs:264-268 *)
Definition add_from_yaml (o : sched) (w : world) (p : path) (t : table) : outcome table :=
  t' <- table_from_yaml_path w p ;; Ok (table_add o t (table_corr t')).
