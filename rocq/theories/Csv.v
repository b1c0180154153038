(** Model of the bytes of CSV files: the [csv] crate's reader and writer with the options /repo sets
    (/repo/src/file.rs:22 [ReaderBuilder::new().flexible(true)], /repo/src/file.rs:46
    [WriterBuilder::new().flexible(true)]; delimiter comma, quote U+0022 doubled inside quotes, no comments,
    no trimming, reader's terminators CR, LF, CRLF, writer's terminator LF), and [str::from_utf8]. *)
From Verif Require Import Base Utf8 Corr Table Charset File Cli.

Definition COMMA : N := 0x2C.
Definition QUOTE : N := 0x22.
Definition CR : N := 0x0D.
Definition LF : N := 0x0A.
(** [Terminator::CRLF] *)
Definition is_terminator (b : N) : bool := (N.eqb b CR || N.eqb b LF)%bool.

(** The reader's automaton (csv-core, [Reader::transition_nfa]), epsilon moves removed.  The state after CR, in
    which a following LF is skipped, behaves as the start of a record, where every terminator is skipped. *)
Inductive reader_state := StartRecord | StartField | InField | InQuoted | AfterQuote.
Inductive reader_action := Discard | Copy | EndField | EndRecord.
Definition step_unquoted (b : N) : reader_state * reader_action :=
  if N.eqb b COMMA then (StartField, EndField)
  else if is_terminator b then (StartRecord, EndRecord)
  else (InField, Copy).
Definition step_field (b : N) : reader_state * reader_action :=
  if N.eqb b QUOTE then (InQuoted, Discard) else step_unquoted b.
Definition step (s : reader_state) (b : N) : reader_state * reader_action :=
  match s with
  | StartRecord => if is_terminator b then (StartRecord, Discard) else step_field b
  | StartField => step_field b
  | InField => step_unquoted b
  | InQuoted => if N.eqb b QUOTE then (AfterQuote, Discard) else (InQuoted, Copy)
  | AfterQuote => if N.eqb b QUOTE then (InQuoted, Copy) else step_unquoted b
  end.
(** [read s rec cur b]: the records of [b], read from state [s] with complete fields [rec] and the bytes [cur] of the
    current field.  At the end of the file an unfinished record is complete. *)
Fixpoint read (s : reader_state) (rec : list (list N)) (cur : list N) (b : list N) : list (list (list N)) :=
  match b with
  | [] => match s with StartRecord => [] | _ => [rec ++ [cur]] end
  | x :: r =>
      let '(s', a) := step s x in
      match a with
      | Discard => read s' rec cur r
      | Copy => read s' rec (cur ++ [x]) r
      | EndField => read s' (rec ++ [cur]) [] r
      | EndRecord => (rec ++ [cur]) :: read s' [] [] r
      end
  end.
(** As [read], when reading fails after [b]: the unfinished record is not returned. *)
Fixpoint read_complete (s : reader_state) (rec : list (list N)) (cur : list N) (b : list N) : list (list (list N)) :=
  match b with
  | [] => []
  | x :: r =>
      let '(s', a) := step s x in
      match a with
      | Discard => read_complete s' rec cur r
      | Copy => read_complete s' rec (cur ++ [x]) r
      | EndField => read_complete s' (rec ++ [cur]) [] r
      | EndRecord => (rec ++ [cur]) :: read_complete s' [] [] r
      end
  end.
(** A UTF-8 byte order mark at the start of the file is skipped (csv-core, [Reader::strip_utf8_bom]). *)
Definition BOM : list N := [0xEF; 0xBB; 0xBF]%N.
Definition strip_bom (b : list N) : list N :=
  match b with
  | x :: y :: z :: r => if (N.eqb x 0xEF && N.eqb y 0xBB && N.eqb z 0xBF)%bool then r else b
  | _ => b
  end.

(** [str::from_utf8]: [None] for bytes that are not UTF-8. *)
Definition is_cont (b : N) : bool := (N.leb 0x80 b && N.ltb b 0xC0)%bool.
Definition second3_ok (x y : N) : bool :=
  (if N.eqb x 0xE0 then N.leb 0xA0 y && N.ltb y 0xC0
   else if N.eqb x 0xED then N.leb 0x80 y && N.ltb y 0xA0
   else N.leb 0xE1 x && N.leb x 0xEF && is_cont y)%bool%N.
Definition second4_ok (x y : N) : bool :=
  (if N.eqb x 0xF0 then N.leb 0x90 y && N.ltb y 0xC0
   else if N.eqb x 0xF4 then N.leb 0x80 y && N.ltb y 0x90
   else N.leb 0xF1 x && N.leb x 0xF3 && is_cont y)%bool%N.
Fixpoint decode (b : list N) : option str :=
  match b with
  | [] => Some []
  | x :: r =>
      if N.ltb x 0x80 then option_map (cons x) (decode r)
      else match r with
      | [] => None
      | y :: r =>
          if (N.leb 0xC2 x && N.ltb x 0xE0 && is_cont y)%bool
          then option_map (cons (((x - 0xC0) * 64 + (y - 0x80))%N)) (decode r)
          else match r with
          | [] => None
          | z :: r =>
              if (second3_ok x y && is_cont z)%bool
              then option_map (cons (((x - 0xE0) * 4096 + (y - 0x80) * 64 + (z - 0x80))%N)) (decode r)
              else match r with
              | [] => None
              | u :: r =>
                  if (second4_ok x y && is_cont z && is_cont u)%bool
                  then option_map (cons (((x - 0xF0) * 262144 + (y - 0x80) * 4096 + (z - 0x80) * 64 + (u - 0x80))%N)) (decode r)
                  else None
              end
          end
      end
  end.
(** [StringRecord]: every field must be UTF-8. *)
Fixpoint decode_fields (l : list (list N)) : option (list str) :=
  match l with
  | [] => Some []
  | f :: r => match decode f, decode_fields r with Some s, Some t => Some (s :: t) | _, _ => None end
  end.
Definition record_of (l : list (list N)) : csv_record :=
  match decode_fields l with Some fs => CsvFields fs | None => CsvNotUtf8 end.

(** A file that can be opened: its bytes; or reading fails after these bytes. *)
Inductive file := FileBytes (b : list N) | FileFails (b : list N).
(** The records of a CSV file, as [w_csv] gives them to /repo/src/file.rs:22-25. *)
Definition csv_of_file (f : file) : list csv_record :=
  match f with
  | FileBytes b => map record_of (read StartRecord [] [] (strip_bom b))
  | FileFails b => map record_of (read_complete StartRecord [] [] (strip_bom b)) ++ [CsvIoError]
  end.

(** The writer (csv-core, [Writer::field], [Writer::delimiter], [Writer::terminator]): a field is quoted if it
    contains a comma, a quote, CR or LF; a record without bytes is written as a pair of quotes. *)
Definition needs_quotes (b : N) : bool := (N.eqb b COMMA || N.eqb b QUOTE || N.eqb b CR || N.eqb b LF)%bool.
Definition write_field (f : list N) : list N :=
  if existsb needs_quotes f
  then QUOTE :: flat_map (fun b => if N.eqb b QUOTE then [QUOTE; QUOTE] else [b]) f ++ [QUOTE]
  else f.
Fixpoint write_fields (l : list (list N)) : list N :=
  match l with
  | [] => []
  | [f] => write_field f
  | f :: r => write_field f ++ COMMA :: write_fields r
  end.
Definition write_record (l : list (list N)) : list N :=
  match write_fields l with [] => [QUOTE; QUOTE; LF] | b => b ++ [LF] end.
(** /repo/src/file.rs:45-52: the bytes given to the underlying writer. *)
Definition to_csv_bytes (o : sched) (c : corr) : list N :=
  flat_map (fun row => write_record (map encode row)) (to_csv_records o c).

(** /repo/src/bin/output.rs:23-26: what is printed; [println!] adds a line feed, [from_utf8] must not fail. *)
Definition output_csv_text (o : sched) (c : corr) : outcome str :=
  s <- unwrap (decode (to_csv_bytes o c)) ;; Ok (s ++ [LF]).
(** /repo/src/bin/output.rs:23-26 with 45-52: the CSV the tool prints. *)
Definition output_csv (o : sched) : outcome str := output_csv_text (sub o 1) (table_corr (builder_preset (sub o 0) table_new)).
