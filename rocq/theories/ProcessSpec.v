(** Specification vocabulary for the command line (C73) and the process (C74). *)
From Coq Require Import String.
From Verif Require Import Base Utf8 Cli Csv Process.
Local Open Scope string_scope.
Local Open Scope list_scope.

Definition name (f : flag) : str := lit (match f with FDebug => "debug" | FPreset => "preset" | FNeologdn => "neologdn" end).
Definition letter (f : flag) : char := match f with FDebug => 0x64%N | FPreset => 0x70%N | FNeologdn => 0x6E%N end.
(** [--name], or [-] and one or more letters. *)
Definition flag_word (a : str) (fs : list flag) : Prop :=
  (exists f, fs = [f] /\ a = lit "--" ++ name f) \/ (fs <> [] /\ a = lit "-" ++ map letter fs).
(** An argument that is a text by itself: a single hyphen, or anything not starting with a hyphen. *)
Definition plain (a : str) : Prop := a = lit "-" \/ forall r, a <> lit "-" ++ r.
(** [arguments args fs ts]: [args] gives the flags [fs] and the texts [ts]. *)
Inductive arguments : list str -> list flag -> list str -> Prop :=
| arg_end : arguments [] [] []
| arg_flags a fs r gs ts : flag_word a fs -> arguments r gs ts -> arguments (a :: r) (fs ++ gs) ts
| arg_text a r gs ts : plain a -> arguments r gs ts -> arguments (a :: r) gs (a :: ts)
| arg_escape r : arguments (lit "--" :: r) [] r.
(** No flag twice, at most one text. *)
Definition accepted (args : list str) (op : opts) : Prop :=
  exists fs ts, arguments args fs ts /\ NoDup fs /\
    match ts with [] => o_input op = None | [t] => o_input op = Some t | _ => False end /\
    (o_debug op = true <-> In FDebug fs) /\ (o_preset op = true <-> In FPreset fs) /\ (o_neologdn op = true <-> In FNeologdn fs).

(** The bytes of the first line of standard input, without the line feed, when it can be read. *)
Definition stdin_line (f : file) (line : list N) : Prop :=
  ~ In 0x0A%N line /\
  ((exists rest, f = FileBytes (line ++ 0x0A%N :: rest) \/ f = FileFails (line ++ 0x0A%N :: rest)) \/ f = FileBytes line).

(** ** The output tool (C79) *)
(** The ways of giving the format [v]. *)
Inductive format_option : list str -> str -> Prop :=
| fo_short v : plain v -> format_option [lit "-f"; v] v
| fo_short_equals v : format_option [lit "-f=" ++ v] v
| fo_short_joined c r : c <> 0x3D%N -> format_option [lit "-f" ++ c :: r] (c :: r)
| fo_long v : plain v -> format_option [lit "--format"; v] v
| fo_long_equals v : format_option [lit "--format=" ++ v] v.
(** No format, then it is [csv], or one; perhaps [--] at the end. *)
Definition format_given (args : list str) (v : str) : Prop :=
  exists a e, args = a ++ e /\ (e = [] \/ e = [lit "--"]) /\ ((a = [] /\ v = lit "csv") \/ format_option a v).
