(** Model of the output tool as a process: its arguments (clap 3.1 as /repo/src/bin/output.rs:38-43 configures it) and what
    it prints. *)
From Coq Require Import String.
From Verif Require Import Base Utf8 StrOps Corr Table Charset Yaml File Cli Csv Process.
Local Open Scope string_scope.
Local Open Scope list_scope.

Definition EQUALS : char := 0x3D%N.
(** The part of a long argument before the first [=] and, if there is one, the part after it. *)
Fixpoint cut_equals (s : str) : str * option str :=
  match s with
  | [] => ([], None)
  | c :: r => if N.eqb c EQUALS then ([], Some r) else let '(n, v) := cut_equals r in (c :: n, v)
  end.
(** What one argument before a [--] is: the option with its value, the option whose value is the next argument, a plain
    argument, [--], or something that ends the parsing. *)
Inductive out_word := OWith (v : str) | OPending | OPlain | OEscape | OStop.
Definition out_classify (a : str) : out_word :=
  match a with
  | [] => OPlain
  | c :: r =>
      if N.eqb c DASH then
        match r with
        | [] => OPlain
        | c' :: r' =>
            if N.eqb c' DASH then
              match r' with
              | [] => OEscape
              | _ => let '(n, v) := cut_equals r' in
                     if str_eqb n (lit "format") then match v with Some v => OWith v | None => OPending end else OStop
              end
            else if N.eqb c' 0x66 then
              match r' with
              | [] => OPending
              | x :: y => if N.eqb x EQUALS then OWith y else OWith r'
              end
            else OStop
        end
      else OPlain
  end.
(** The parser's loop; [vs]: values so far, [pending]: the option was given and its value is expected.  An option given
    twice, a missing value and a plain argument that is not a value are usage errors; there are no positional arguments,
    so nothing may follow [--]. *)
Fixpoint out_loop (pending : bool) (vs : list str) (args : list str) : option (list str) :=
  match args with
  | [] => if pending then None else Some vs
  | a :: r =>
      match out_classify a with
      | OWith v => if pending then None else out_loop false (vs ++ [v]) r
      | OPending => if pending then None else out_loop true vs r
      | OPlain => if pending then out_loop false (vs ++ [a]) r else None
      | OEscape => match r with [] => if pending then None else Some vs | _ => None end
      | OStop => None
      end
  end.
(** [Opts::parse]: the value of [format], [default_value = "csv"]; [None]: help, version or a usage error. *)
Definition parse_format (args : list str) : option str :=
  match out_loop false [] args with
  | Some [] => Some (lit "csv")
  | Some [v] => Some v
  | _ => None
  end.

(** The process: nothing run, bytes printed (CSV), the YAML text of a value printed, or a panic. *)
Inductive out_result := ONotRun | OBytes (b : list N) | OYamlOf (v : yval) | OPanicked.
(** /repo/src/bin/output.rs:21-36, 45-52. *)
Definition out_process (o : sched) (args : list str) : out_result :=
  match parse_format args with
  | None => ONotRun
  | Some f =>
      match format_from_str f with
      | FCsv => match output_csv o with Ok s => OBytes (encode s) | _ => OPanicked end
      | FYaml => OYamlOf (to_serialized_corr (sub o 1) (table_corr (builder_preset (sub o 0) table_new)))
      end
  end.
