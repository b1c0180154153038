(** Specification vocabulary for the command line tool and the Python module (C51, C52). *)
From Verif Require Import Base Corr Table Cli Spec FileSpec.

(** The first line of [s], without its line feed. *)
Definition first_line (s line : str) : Prop :=
  ~ In 0x0A%N line /\ (s = line \/ exists rest, s = line ++ [0x0A%N] ++ rest).
(** The text the tool works on. *)
Definition input_text (op : opts) (stdin : option str) (text : str) : Prop :=
  o_input op = Some text \/ (o_input op = None /\ exists s, stdin = Some s /\ first_line s text).
(** [e] if asked for. *)
Definition if_asked (b : bool) (e : effect) : effect := fun s out => if b then e s out else out = s.
Definition identity : effect := fun s out => out = s.
Definition preset_item (it : item) : Prop := exists c t, preset_rel c t /\ it = Item [c] [t].
