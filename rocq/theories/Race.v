(** Model of configuration loading while files and environment change: every access to them sees its own world.
    (The other files of the model use one world for a whole load.) *)
From Verif Require Import Base StrOps Corr Table Converter ModifierKind PathModel Yaml File ChanomaModel Configuration.

(** The world seen by each access, numbered; a computation starts at an access number and ends at one.  Opening and reading a
    file is one access. *)
Definition history := nat -> world.
Definition timed (A : Type) : Type := history -> nat -> outcome A * nat.
Definition pure {A} (x : outcome A) : timed A := fun _ t => (x, t).
Definition look {A} (f : world -> outcome A) : timed A := fun ws t => (f (ws t), S t).
Definition and_then {A B} (x : timed A) (k : A -> timed B) : timed B := fun ws t =>
  match x ws t with
  | (Ok a, t') => k a ws t'
  | (Err e, t') => (Err e, t')
  | (Panic, t') => (Panic, t')
  end.

(** /repo/src/configuration.rs:67-78: one read. *)
Definition load_items_timed (p : path) (ext : file_extension) : timed converter :=
  look (fun w => load_items_to_character_converter w p ext).
(** /repo/src/configuration.rs:80-87: a YAML file is read again. *)
Definition load_modifiers_timed (o : sched) (p : path) (ext : file_extension) : timed (list modifier) :=
  match ext with
  | Yaml => look (fun w => modifiers_from_yaml_path o w p)
  | _ => pure (Ok [])
  end.
(** /repo/src/configuration.rs:89-95, 17-19, /repo/src/chanoma.rs:56-60 *)
Definition from_config_file_timed (o : sched) (p : path) : timed chanoma :=
  and_then (pure (ext_from_path p)) (fun ext =>
  and_then (load_items_timed p ext) (fun cc =>
  and_then (load_modifiers_timed o p ext) (fun ms => pure (Ok (ms ++ [MConv cc]))))).
(** /repo/src/configuration.rs:153-162: [is_file] of one path after the other. *)
Fixpoint filter_timed (ps : list path) : timed (list path) :=
  match ps with
  | [] => pure (Ok [])
  | p :: r =>
      and_then (look (fun w => Ok (w_is_file w p))) (fun b =>
      and_then (filter_timed r) (fun l => pure (Ok (if b then p :: l else l))))
  end.
(** /repo/src/configuration.rs:47-65, 99-132: the variable, then the file it names, or the home directory, the current
    directory and the candidates. *)
Definition file_paths_timed : timed (list path) :=
  and_then (look (fun w => Ok (file_path_from_env w))) (fun env =>
  match env with
  | Some p => look (fun w => valid_file_path w p)
  | None =>
      and_then (look (fun w => Ok (w_home w))) (fun home =>
      and_then (look (fun w => Ok (w_cwd w))) (fun cwd =>
      filter_timed (flat_map auto_load_paths_from_dir
        ((match home with Some home => [push home (lit ".config/chanoma"); home] | None => [] end) ++
         (match cwd with Some d => [d] | None => [] end)))))
  end).
(** /repo/src/configuration.rs:31-38 *)
Fixpoint load_files_timed (o : sched) (i : nat) (ps : list path) : timed (list (list modifier)) :=
  match ps with
  | [] => pure (Ok [])
  | p :: r =>
      and_then (from_config_file_timed (sub o i) p) (fun ms =>
      and_then (load_files_timed o (S i) r) (fun rest => pure (Ok (ms :: rest))))
  end.
(** /repo/src/configuration.rs:21-45, /repo/src/chanoma.rs:43-47 *)
Definition load_rc_timed (o : sched) : timed chanoma :=
  and_then file_paths_timed (fun paths =>
  match paths with
  | [] => pure (Ok [])
  | _ => and_then (load_files_timed o 0 paths) (fun result => pure (Ok (concat result)))
  end).
