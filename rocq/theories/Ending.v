(** Model of how the two tools end: help, version, usage error or a run, and the exit status (clap 3.1 as
    /repo/src/main.rs:5-18 and /repo/src/bin/output.rs:38-49 use it; [clap::Error::exit]; a panic of the main thread). *)
From Coq Require Import String.
From Verif Require Import Base StrOps Corr Table Yaml File Configuration Cli Csv Process OutputTool.
Local Open Scope string_scope.
Local Open Scope list_scope.

(** What ends the parsing before the last argument. *)
Inductive stop := SHelp | SVersion | SUsage.
(** ** The command line tool *)
(** A group of short flags is taken letter by letter. *)
Fixpoint stop_letters (s : str) : option stop :=
  match s with
  | [] => None
  | c :: r => match flag_of_letter c with
              | Some _ => stop_letters r
              | None => Some (if N.eqb c 0x68 then SHelp else if N.eqb c 0x56 then SVersion else SUsage)
              end
  end.
(** A long name; a value attached to it ([--help=x]) is a usage error. *)
Definition stop_name (n : str) : option stop :=
  match flag_of_name n with
  | Some _ => None
  | None => Some (if str_eqb n (lit "help") then SHelp else if str_eqb n (lit "version") then SVersion else SUsage)
  end.
Definition stop_word (a : str) : option stop :=
  match a with
  | c :: c' :: r => if N.eqb c DASH then
                      if N.eqb c' DASH then match r with [] => None | _ => stop_name r end else stop_letters (c' :: r)
                    else None
  | _ => None
  end.
(** The parser's loop, up to its first stop.  A second text stops it too; a flag given twice does not. *)
Fixpoint end_loop (escaped : bool) (input : option str) (args : list str) : option stop :=
  match args with
  | [] => None
  | a :: r =>
      if escaped then match take_text input a with Some i => end_loop true i r | None => Some SUsage end
      else match stop_word a with
      | Some s => Some s
      | None => match classify a with
                | WText s => match take_text input s with Some i => end_loop false i r | None => Some SUsage end
                | WEscape => end_loop true input r
                | _ => end_loop false input r
                end
      end
  end.
Inductive ending (A : Type) := EHelp | EVersion | EUsage | ERun (x : A).
Arguments EHelp {A}. Arguments EVersion {A}. Arguments EUsage {A}. Arguments ERun {A}.
Definition ending_of (args : list str) : ending opts :=
  match end_loop false None args with
  | Some SHelp => EHelp
  | Some SVersion => EVersion
  | Some SUsage => EUsage
  | None => match parse_args args with Some op => ERun op | None => EUsage end
  end.
(** The status: [exit(0)] after help and version, [exit(2)] after a usage error, 101 after a panic. *)
Definition exit_status (o : sched) (w : world) (args : list str) (stdin : file) : N :=
  match ending_of args with
  | EHelp | EVersion => 0%N
  | EUsage => 2%N
  | ERun _ => match process o w args stdin with Panicked => 101%N | _ => 0%N end
  end.

(** ** The output tool *)
Definition out_stop (a : str) : stop :=
  match a with
  | c :: c' :: r =>
      if N.eqb c' DASH then
        if str_eqb r (lit "help") then SHelp else if str_eqb r (lit "version") then SVersion else SUsage
      else if N.eqb c' 0x68 then SHelp else if N.eqb c' 0x56 then SVersion else SUsage
  | _ => SUsage
  end.
(** A missing value and a second option do not stop the loop; they are refused at its end. *)
Fixpoint out_end_loop (pending : bool) (args : list str) : option stop :=
  match args with
  | [] => None
  | a :: r =>
      match out_classify a with
      | OWith _ => out_end_loop false r
      | OPending => out_end_loop true r
      | OPlain => if pending then out_end_loop false r else Some SUsage
      | OEscape => match r with [] => None | _ => Some SUsage end
      | OStop => Some (out_stop a)
      end
  end.
Definition out_ending_of (args : list str) : ending str :=
  match out_end_loop false args with
  | Some SHelp => EHelp
  | Some SVersion => EVersion
  | Some SUsage => EUsage
  | None => match parse_format args with Some v => ERun v | None => EUsage end
  end.
Definition out_exit_status (o : sched) (args : list str) : N :=
  match out_ending_of args with
  | EHelp | EVersion => 0%N
  | EUsage => 2%N
  | ERun _ => match out_process o args with OPanicked => 101%N | _ => 0%N end
  end.
