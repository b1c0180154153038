(** Model of the debug log of the command line tool: which lines /repo/src/configuration.rs and /repo/src/chanoma.rs hand to
    the [log] crate, in order.  How [env_logger] formats a line is not modelled. *)
From Verif Require Import Base StrOps ModifierKind PathModel Yaml File ChanomaModel Configuration Utf8 Cli Csv Process.

(** The three debug lines: /repo/src/configuration.rs:51-56, /repo/src/configuration.rs:24, /repo/src/chanoma.rs:147. *)
Inductive event := LEnv (p : path) (ex : bool) | LFiles (ps : list path) | LRecord (r : record).

(** A computation with its log lines; a failure keeps the lines written before it. *)
Definition logged (A : Type) : Type := (list event * outcome A)%type.
Definition quiet {A} (x : outcome A) : logged A := ([], x).
Definition then_ {A B} (x : logged A) (k : A -> logged B) : logged B :=
  match snd x with
  | Ok a => let y := k a in (fst x ++ fst y, snd y)
  | Err e => (fst x, Err e)
  | Panic => (fst x, Panic)
  end.
(** [if log_enabled!(Debug) { log::debug!(..) }] *)
Definition debug (dbg : bool) (e : event) : logged unit := (if dbg then [e] else [], Ok tt).

(** /repo/src/configuration.rs:47-65; [ex] is [Path::exists]. *)
Definition file_paths_logged (dbg : bool) (ex : path -> bool) (w : world) : logged (list path) :=
  match file_path_from_env w with
  | Some p => then_ (debug dbg (LEnv p (ex p))) (fun _ => quiet (valid_file_path w p))
  | None => quiet (Ok (exists_file_paths w (auto_load_dirs w) auto_load_paths_from_dir))
  end.
(** /repo/src/configuration.rs:21-45, /repo/src/chanoma.rs:43-47 *)
Definition load_rc_logged (dbg : bool) (ex : path -> bool) (o : sched) (w : world) : logged chanoma :=
  then_ (file_paths_logged dbg ex w) (fun paths =>
  then_ (debug dbg (LFiles paths)) (fun _ =>
  match paths with
  | [] => quiet (Ok [])
  | _ => quiet (result <- load_files o w 0 paths ;; Ok (concat result))
  end)).
(** /repo/src/chanoma.rs:141-153 *)
Fixpoint normalize_records_logged (dbg : bool) (o : sched) (i : nat) (ms : list modifier) (text : str) : logged (list record) :=
  match ms with
  | [] => quiet (Ok [])
  | m :: r =>
      then_ (quiet (modify_with_positions (sub o i) m text)) (fun result =>
      then_ (debug dbg (LRecord result)) (fun _ =>
      then_ (normalize_records_logged dbg o (S i) r (r_text result)) (fun rest => quiet (Ok (result :: rest)))))
  end.
(** /repo/src/chanoma.rs:122-130 *)
Definition normalize_logged (dbg : bool) (o : sched) (c : chanoma) (text : str) : logged str :=
  if negb dbg then quiet (normalize_fold o 0 c text)
  else then_ (normalize_records_logged dbg o 0 c text) (fun rs => quiet (records_text rs)).
(** /repo/src/main.rs:17-52 *)
Definition cli_main_logged (o : sched) (w : world) (ex : path -> bool) (op : opts) (stdin : option str) : logged cli_output :=
  let dbg := o_debug op in
  let '(l, c) := load_rc_logged dbg ex (sub o 0) w in
  then_ (l, match c with Err _ => Panic | r => r end) (fun c =>
  then_ (quiet (if o_preset op then use_preset (sub o 1) c else Ok c)) (fun c =>
  then_ (quiet (if o_neologdn op then use_neologdn (sub o 2) c else Ok c)) (fun c =>
  match o_input op with
  | Some input => then_ (normalize_logged dbg (sub o 3) c input) (fun r => quiet (Ok (Printed r)))
  | None =>
      match stdin with
      | Some input =>
          then_ (normalize_logged dbg (sub o 3) c (trim_end_matches NEWLINE (read_line input))) (fun r => quiet (Ok (Printed r)))
      | None => quiet (Ok StdinError)
      end
  end))).
(** The process with its log (on standard error). *)
Definition process_logged (o : sched) (w : world) (ex : path -> bool) (args : list str) (stdin : file) : list event * process_result :=
  match parse_args args with
  | None => ([], NotRun)
  | Some op =>
      let '(l, r) := cli_main_logged o w ex op (stdin_text stdin) in
      (l, match r with Ok (Printed s) => Output (encode s ++ [NEWLINE]) | Ok StdinError => ReadFailed | _ => Panicked end)
  end.
