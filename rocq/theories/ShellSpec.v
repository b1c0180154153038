(** Vocabulary of C114. *)
From Verif Require Import Base File PathSpec ModifierKind Configuration Cli Process ProcessSpec BinSpec Spec PropsPipeline PropsOrigin ShellPipe.

(** What a run does to a text: its configuration, then the preset and neologdn if asked for; with --debug and nothing to
    do it refuses. *)
Definition treats (r : run) (op : opts) (s out : str) : Prop :=
  exists cfg a b, (forall o, load_rc o (r_world r) = Ok cfg) /\ result cfg s a /\
    if_asked (o_preset op) (pointwise preset_rel) a b /\ if_asked (o_neologdn op) neologdn_result b out /\
    (o_debug op = true -> cfg <> [] \/ o_preset op = true \/ o_neologdn op = true).
(** The same run with other hash orders. *)
Definition reordered (r : run) (o : sched) : run := Run o (r_world r) (r_args r) (r_message r) (r_info r).
(** The environment variable is Unicode if it is read, and the configured replacements are texts that bring in no line feed. *)
Definition one_line (r : run) : Prop :=
  (forall s, w_env (r_world r) = EnvUnicode s -> unicode s) /\
  forall o cfg, load_rc o (r_world r) = Ok cfg -> Forall text_replacements cfg /\ forall m, In m cfg -> ~ introduces m 0x0A%N.
(** The same options with the text [t] as the argument. *)
Definition given (op : opts) (t : str) : opts := Opts (Some t) (o_debug op) (o_preset op) (o_neologdn op).
(** A run without configured modifiers that does not refuse to work. *)
Definition bare (r : run) (op : opts) : Prop :=
  accepted (r_args r) op /\ (forall o, load_rc o (r_world r) = Ok []) /\
  (o_debug op = true -> o_preset op = true \/ o_neologdn op = true).
(** [n] times. *)
Fixpoint repeatedly {A} (n : nat) (R : A -> A -> Prop) (x z : A) : Prop :=
  match n with 0 => z = x | S m => exists y, R x y /\ repeatedly m R y z end.
