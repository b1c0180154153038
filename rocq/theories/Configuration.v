(** Model of /repo/src/configuration.rs and of the loading constructors of /repo/src/chanoma.rs. *)
From Verif Require Import Base StrOps Corr Table Converter ModifierKind PathModel Yaml File ChanomaModel.

(** Line 15 *)
Definition FILE_NAMES : list path := [lit "chanomarc"; lit ".chanomarc"].

(** Lines 67-78 *)
Definition load_items_to_character_converter (w : world) (p : path) (ext : file_extension)
  : outcome converter :=
  table <- match ext with
           | Csv => table_from_csv_path w p
           | Yaml => table_from_yaml_path w p
           end ;;
  from_tables [table].
(** Lines 80-87 *)
Definition load_modifiers (o : sched) (w : world) (p : path) (ext : file_extension)
  : outcome (list modifier) :=
  match ext with
  | Yaml => modifiers_from_yaml_path o w p
  | _ => Ok []
  end.
(** Lines 89-95 *)
Definition load_file_with_ext (o : sched) (w : world) (p : path) : outcome (list modifier) :=
  ext <- ext_from_path p ;;
  cc <- load_items_to_character_converter w p ext ;;
  ms <- load_modifiers o w p ext ;;
  Ok (ms ++ [MConv cc]).
(** Lines 17-19 *)
Definition configuration_from_path := load_file_with_ext.

(** Lines 99-105: [env::var] succeeds only for Unicode values. *)
Definition file_path_from_env (w : world) : option path :=
  match w_env w with EnvUnicode s => Some s | _ => None end.
(** Lines 108-117 *)
Definition valid_file_path (w : world) (p : path) : outcome (list path) :=
  if negb (w_is_file w p) then Err (RcFileLoadError p)
  else
    e <- unwrap (extension p) ;;
    s <- unwrap (to_str e) ;;
    if forallb (fun ext => negb (str_eqb (ext_to_string ext) s)) all_extensions
    then Err (RcFileLoadError p)
    else Ok [p].
(** Lines 120-132 *)
Definition auto_load_dirs (w : world) : list path :=
  (match w_home w with
   | Some home => [push home (lit ".config/chanoma"); home]
   | None => []
   end) ++
  (match w_cwd w with Some d => [d] | None => [] end).
(** Lines 136-150 *)
Definition auto_load_paths_from_dir (dir : path) : list path :=
  flat_map (fun file => map (fun ext => set_extension (push dir file) (ext_to_string ext)) all_extensions)
           FILE_NAMES.
(** Lines 153-162 *)
Definition exists_file_paths (w : world) (dirs : list path) (expand : path -> list path) : list path :=
  filter (w_is_file w) (flat_map expand dirs).
(** Lines 47-65 *)
Definition file_paths (w : world) : outcome (list path) :=
  match file_path_from_env w with
  | Some p => valid_file_path w p
  | None => Ok (exists_file_paths w (auto_load_dirs w) auto_load_paths_from_dir)
  end.
(** Lines 31-38: [map(..).collect::<Result<Vec<_>, _>>()], stopping at the first [Err]; file [i] is
    loaded under [sub o i]. *)
Fixpoint load_files (o : sched) (w : world) (i : nat) (ps : list path) : outcome (list (list modifier)) :=
  match ps with
  | [] => Ok []
  | p :: r =>
      ms <- load_file_with_ext (sub o i) w p ;;
      rest <- load_files o w (S i) r ;;
      Ok (ms :: rest)
  end.
(** Lines 21-45 *)
Definition configuration_load (o : sched) (w : world) : outcome (list modifier) :=
  paths <- file_paths w ;;
  match paths with
  | [] => Ok []
  | _ => result <- load_files o w 0 paths ;; Ok (concat result)
  end.

(** /repo/src/chanoma.rs:43-47 *)
Definition load_rc (o : sched) (w : world) : outcome chanoma := configuration_load o w.
(** /repo/src/chanoma.rs:56-60 *)
Definition from_config_file (o : sched) (w : world) (p : path) : outcome chanoma :=
  configuration_from_path o w p.
