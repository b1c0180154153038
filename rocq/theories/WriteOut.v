(** Writing to a device that may fail: [to_csv_writer] on any writer, and the standard output of the tools. *)
From Coq Require Import String List NArith Bool Arith.
From Verif Require Import Base Utf8 Corr Yaml File Configuration Cli Csv Process Ending.
Local Open Scope string_scope.
Local Open Scope list_scope.
Import ListNotations.

(** A device behind [std::io::Write]. What it does at its n-th use is arbitrary: [None] is success; [Some k] is an
    error after at most [k] bytes. [used] counts the uses, [got] are the bytes the device has taken. *)
Definition device := nat -> option nat.
Record sink := Sink { used : nat; got : list N }.
Definition fresh : sink := Sink 0 [].

(** [Write::write_all]: without bytes the device is not used; an error means that not all bytes were taken. *)
Definition write_all (d : device) (s : sink) (b : list N) : sink * bool :=
  match b with
  | [] => (s, true)
  | _ => match d (used s) with
         | None => (Sink (S (used s)) (got s ++ b), true)
         | Some k => (Sink (S (used s)) (got s ++ firstn (Nat.min k (pred (List.length b))) b), false)
         end
  end.
(** [Write::flush] of the device. *)
Definition dev_flush (d : device) (s : sink) : sink * bool :=
  (Sink (S (used s)) (got s), match d (used s) with None => true | Some _ => false end).

(** csv 1.1, [WriterBuilder::default]: the buffer holds 8 KiB. *)
Definition capacity : nat := 8 * 1024.

(** csv-core, [Writer::field], [quote], [Writer::delimiter], [Writer::terminator], [Writer::write]: the pieces that
    are put into the buffer whole or not at all. All are single bytes except the two quotes for a quote, and the two
    quotes of an empty record. *)
Definition field_units (f : list N) : list (list N) :=
  if existsb needs_quotes f
  then [QUOTE] :: map (fun b => if N.eqb b QUOTE then [QUOTE; QUOTE] else [b]) f ++ [[QUOTE]]
  else map (fun b => [b]) f.
Fixpoint fields_units (l : list (list N)) : list (list N) :=
  match l with
  | [] => []
  | [f] => field_units f
  | f :: r => field_units f ++ [COMMA] :: fields_units r
  end.
Definition record_units (l : list (list N)) : list (list N) :=
  match fields_units l with [] => [[QUOTE; QUOTE]; [LF]] | us => us ++ [[LF]] end.
(** /repo/src/file.rs:45-52 *)
Definition csv_units (o : sched) (c : corr) : list (list N) :=
  flat_map (fun row => record_units (map encode row)) (to_csv_records o c).

(** csv, [Writer::write_field_impl], [write_delimiter], [write_terminator]: a piece that does not fit is kept back
    until the buffer has been passed on ([flush_buf]). The buffers passed on, and what is left in the buffer. *)
Fixpoint fill (cap : nat) (buf : list N) (us : list (list N)) : list (list N) * list N :=
  match us with
  | [] => ([], buf)
  | u :: r =>
      if Nat.leb (List.length buf + List.length u) cap then fill cap (buf ++ u) r
      else let '(cs, rest) := fill cap u r in (buf :: cs, rest)
  end.

(** [flush_buf]: the buffer is given to the device; it is emptied only if that succeeds. [Some b]: it failed and [b]
    is still in the buffer. *)
Fixpoint pass_on (d : device) (s : sink) (cs : list (list N)) : sink * option (list N) :=
  match cs with
  | [] => (s, None)
  | b :: r => let '(s1, ok) := write_all d s b in if ok then pass_on d s1 r else (s1, Some b)
  end.
(** csv, [Writer::flush]: the buffer, then the device's own [flush]. *)
Definition flush (d : device) (s : sink) (buf : list N) : sink * bool :=
  let '(s1, ok) := write_all d s buf in if ok then dev_flush d s1 else (s1, false).

(** /repo/src/file.rs:45-53, [to_csv_writer(corr, writer)]: [write_record(..).unwrap()] panics if the buffer cannot be
    passed on. The [csv::Writer] is then dropped, and dropping it tries to [flush] once more. Otherwise it is returned
    with its buffer. *)
Inductive csv_written := CsvWriter (s : sink) (buf : list N) | CsvPanicked (s : sink).
Definition to_csv_writer_to (o : sched) (c : corr) (d : device) : csv_written :=
  let '(cs, rest) := fill capacity [] (csv_units o c) in
  match pass_on d fresh cs with
  | (s, None) => CsvWriter s rest
  | (s, Some b) => CsvPanicked (fst (flush d s b))
  end.
(** csv, [Writer::into_inner]: [flush], then the device or an error (with the writer inside, which the caller drops or
    tries again). *)
Definition into_inner (d : device) (s : sink) (buf : list N) : sink * bool := flush d s buf.
(** csv, [Drop for Writer]: [flush], whatever it returns. *)
Definition dropped (d : device) (s : sink) (buf : list N) : sink := fst (flush d s buf).

(** [println!] to a standard output that may fail: the pieces handed to the device are decided by the line buffer and
    are arbitrary here. An error is a panic of [println!] (status 101). At the exit of the process what was buffered of
    the piece that failed is tried once more ([retry]: it was buffered), without the bytes already taken. *)
Fixpoint print_pieces (d : device) (retry : bool) (s : sink) (cs : list (list N)) : sink * bool :=
  match cs with
  | [] => (s, true)
  | b :: r =>
      let '(s1, ok) := write_all d s b in
      if ok then print_pieces d retry s1 r
      else (if retry then fst (write_all d s1 (skipn (List.length (got s1) - List.length (got s)) b)) else s1, false)
  end.
(** /repo/src/main.rs:17-52 on such an output. [message]: the text of the [std::io::Error] of standard input.
    [None]: help, version or usage error; clap ignores that its text could not be written. *)
Definition printed_bytes (r : process_result) (message : list N) : option (list N) :=
  match r with
  | Output b => Some b
  | ReadFailed => Some (lit "error: " ++ message ++ [0x0A%N])
  | _ => None
  end.
Definition status_with_output (o : sched) (w : world) (args : list str) (stdin : file) (d : device) (retry : bool) (cs : list (list N)) : sink * N :=
  match process o w args stdin with
  | Output _ | ReadFailed => let '(s, ok) := print_pieces d retry fresh cs in (s, if ok then 0%N else 101%N)
  | _ => (fresh, exit_status o w args stdin)
  end.
(** The whole run: what is printed is handed to the device in the pieces [cut] makes of it. *)
Definition tool_run (o : sched) (w : world) (args : list str) (stdin : file) (message : list N) (d : device) (retry : bool) (cut : list N -> list (list N)) : sink * N :=
  match printed_bytes (process o w args stdin) message with
  | Some b => status_with_output o w args stdin d retry (cut b)
  | None => (fresh, exit_status o w args stdin)
  end.
