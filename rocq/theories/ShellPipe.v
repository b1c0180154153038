(** Model of several runs of the command line tool (/repo/src/main.rs:17-52) joined by pipes: what one run writes to
    standard output is the standard input of the next. *)
From Coq Require Import String.
From Verif Require Import Base Csv File Cli Process Ending.
Local Open Scope string_scope.
Local Open Scope list_scope.

(** One run: its hash orders, the world it sees, its arguments, the text of the [std::io::Error] should it not be able to
    read, and clap's text should it show help or version. *)
Record run := Run { r_order : sched; r_world : world; r_args : list str; r_message : list N; r_info : list N }.
(** The bytes on standard output: /repo/src/main.rs:38, 44 and 46 ([println!]); clap shows help and version there, usage
    errors and panic messages go to standard error. *)
Definition on_stdout (r : run) (stdin : file) : list N :=
  match ending_of (r_args r) with
  | EHelp | EVersion => r_info r
  | EUsage => []
  | ERun _ => match process (r_order r) (r_world r) (r_args r) stdin with
              | Output b => b
              | ReadFailed => lit "error: " ++ r_message r ++ [0x0A%N]
              | _ => []
              end
  end.
(** The result of the last of the runs. *)
Fixpoint chain (r : run) (rs : list run) (stdin : file) : process_result :=
  match rs with
  | [] => process (r_order r) (r_world r) (r_args r) stdin
  | r' :: rs' => chain r' rs' (FileBytes (on_stdout r stdin))
  end.
(** The exit status of the last of the runs, which is the one the shell shows. *)
Fixpoint chain_status (r : run) (rs : list run) (stdin : file) : N :=
  match rs with
  | [] => exit_status (r_order r) (r_world r) (r_args r) stdin
  | r' :: rs' => chain_status r' rs' (FileBytes (on_stdout r stdin))
  end.
