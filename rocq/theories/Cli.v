(** Model of /repo/src/main.rs and /repo/src/bin/output.rs (after argument parsing). *)
From Verif Require Import Base StrOps Corr Table Charset ModifierKind Yaml File ChanomaModel Configuration.

(** /repo/src/main.rs:7-15 *)
Record opts := Opts { o_input : option str; o_debug : bool; o_preset : bool; o_neologdn : bool }.

(** What the process prints: a line of text, or the stdin error message (line 47). *)
Inductive cli_output := Printed (s : str) | StdinError.

(** [Stdin::read_line]: the text up to and including the first line feed. *)
Fixpoint read_line (s : str) : str :=
  match s with
  | [] => []
  | c :: r => if N.eqb c NEWLINE then [c] else c :: read_line r
  end.
(** /repo/src/main.rs:17-52.  [stdin] is the text on standard input, [None] if reading its first line
    fails (I/O error or text that is not UTF-8).  Lines 19-21: the debug log level is enabled iff [-d]. *)
Definition cli_main (o : sched) (w : world) (op : opts) (stdin : option str) : outcome cli_output :=
  let dbg := o_debug op in
  c <- match load_rc (sub o 0) w with Err _ => Panic | r => r end ;;
  c <- (if o_preset op then use_preset (sub o 1) c else Ok c) ;;
  c <- (if o_neologdn op then use_neologdn (sub o 2) c else Ok c) ;;
  match o_input op with
  | Some input => r <- normalize dbg (sub o 3) c input ;; Ok (Printed r)
  | None =>
      match stdin with
      | Some input => r <- normalize dbg (sub o 3) c (trim_end_matches NEWLINE (read_line input)) ;; Ok (Printed r)
      | None => Ok StdinError
      end
  end.

(** /repo/src/bin/output.rs:8-19 *)
Inductive format := FCsv | FYaml.
Definition format_from_str (f : str) : format := if str_eqb f (lit "yaml") then FYaml else FCsv.
(** /repo/src/bin/output.rs:21-52: the table printed, as CSV records or as a YAML value. *)
Inductive table_output := OutCsv (rows : list (list str)) | OutYaml (v : yval).
Definition output_main (o : sched) (fmt : str) : table_output :=
  let table := builder_preset (sub o 0) table_new in
  match format_from_str fmt with
  | FCsv => OutCsv (to_csv_records (sub o 1) (table_corr table))
  | FYaml => OutYaml (to_serialized_corr (sub o 1) (table_corr table))
  end.
