(** Model of the command line tool as a process: its arguments (clap 3.1 as /repo/src/main.rs:5-15 configures it)
    and the bytes on its standard input and output. *)
From Coq Require Import String.
From Verif Require Import Base Utf8 StrOps Yaml File Configuration Cli Csv.
Local Open Scope string_scope.
Local Open Scope list_scope.

(** The three flags of /repo/src/main.rs:9-14: [#[clap(short, long)]] gives each its first letter and its name. *)
Inductive flag := FDebug | FPreset | FNeologdn.
Definition flag_eqb (a b : flag) : bool :=
  match a, b with FDebug, FDebug | FPreset, FPreset | FNeologdn, FNeologdn => true | _, _ => false end.
Definition flag_of_letter (c : char) : option flag :=
  if N.eqb c 0x64 then Some FDebug else if N.eqb c 0x70 then Some FPreset else if N.eqb c 0x6E then Some FNeologdn else None.
Definition flag_of_name (s : str) : option flag :=
  if str_eqb s (lit "debug") then Some FDebug
  else if str_eqb s (lit "preset") then Some FPreset
  else if str_eqb s (lit "neologdn") then Some FNeologdn
  else None.
(** A group of short flags; any other letter ([h] and [V] included) ends the parsing. *)
Fixpoint flags_of_letters (s : str) : option (list flag) :=
  match s with
  | [] => Some []
  | c :: r => match flag_of_letter c, flags_of_letters r with Some f, Some fs => Some (f :: fs) | _, _ => None end
  end.
Definition DASH : char := 0x2D%N.
(** What one argument before a [--] is. *)
Inductive word := WFlags (fs : list flag) | WText (s : str) | WEscape | WStop.
Definition classify (a : str) : word :=
  match a with
  | [] => WText a
  | c :: r =>
      if N.eqb c DASH then
        match r with
        | [] => WText a
        | c' :: r' =>
            if N.eqb c' DASH then
              match r' with
              | [] => WEscape
              | _ => match flag_of_name r' with Some f => WFlags [f] | None => WStop end
              end
            else match flags_of_letters r with Some fs => WFlags fs | None => WStop end
        end
      else WText a
  end.
(** The parser's loop: flags seen so far and the text seen so far; a second text is unexpected. *)
Definition take_text (input : option str) (s : str) : option (option str) :=
  match input with None => Some (Some s) | Some _ => None end.
Fixpoint parse_loop (escaped : bool) (fs : list flag) (input : option str) (args : list str) : option (list flag * option str) :=
  match args with
  | [] => Some (fs, input)
  | a :: r =>
      if escaped then match take_text input a with Some i => parse_loop true fs i r | None => None end
      else match classify a with
      | WFlags gs => parse_loop false (fs ++ gs) input r
      | WText s => match take_text input s with Some i => parse_loop false fs i r | None => None end
      | WEscape => parse_loop true fs input r
      | WStop => None
      end
  end.
(** The validator: a flag may be given once. *)
Definition count_flag (f : flag) (fs : list flag) : nat := List.length (filter (flag_eqb f) fs).
Definition validate (fs : list flag) (input : option str) : option opts :=
  if (Nat.leb (count_flag FDebug fs) 1 && Nat.leb (count_flag FPreset fs) 1 && Nat.leb (count_flag FNeologdn fs) 1)%bool
  then Some (Opts input (Nat.ltb 0 (count_flag FDebug fs)) (Nat.ltb 0 (count_flag FPreset fs)) (Nat.ltb 0 (count_flag FNeologdn fs)))
  else None.
(** [Opts::parse] on the arguments after the program name, which are Unicode texts.  [None]: the process ends with the
    help text, the version or a usage error before anything else happens. *)
Definition parse_args (args : list str) : option opts :=
  match parse_loop false [] None args with Some (fs, input) => validate fs input | None => None end.

(** /repo/src/main.rs:40-41: [Stdin::read_line] on bytes.  It reads to the first line feed or the end, and the bytes read
    must be UTF-8; a read error after the first line feed is never met. *)
Fixpoint line_bytes (b : list N) : list N :=
  match b with
  | [] => []
  | x :: r => if N.eqb x NEWLINE then [x] else x :: line_bytes r
  end.
Definition stdin_text (f : file) : option str :=
  match f with
  | FileBytes b => decode (line_bytes b)
  | FileFails b => if mem N.eqb NEWLINE b then decode (line_bytes b) else None
  end.

(** The process: nothing run, bytes on standard output, the message that standard input could not be read, or a panic. *)
Inductive process_result := NotRun | Output (b : list N) | ReadFailed | Panicked.
(** /repo/src/main.rs:17-52, with [println!]. *)
Definition process (o : sched) (w : world) (args : list str) (stdin : file) : process_result :=
  match parse_args args with
  | None => NotRun
  | Some op =>
      match cli_main o w op (stdin_text stdin) with
      | Ok (Printed s) => Output (encode s ++ [NEWLINE])
      | Ok StdinError => ReadFailed
      | _ => Panicked
      end
  end.
