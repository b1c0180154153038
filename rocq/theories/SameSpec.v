(** Specification vocabulary for C105: small changes of a text that do not show in a result. *)
From Verif Require Import Base Utf8 CharSpec Spec.

(** [t] can be reached from [s] by changes of the kind [change], done or undone, through texts only. *)
Inductive connected (change : str -> str -> Prop) (s : str) : str -> Prop :=
| con_same : connected change s s
| con_done t u : connected change s t -> change t u -> valid_str u -> connected change s u
| con_undone t u : connected change s t -> change u t -> valid_str u -> connected change s u.

Definition ends_in (P : char -> Prop) (u : str) : Prop := exists c, hd_error (rev u) = Some c /\ P c.
Definition begins_in (P : char -> Prop) (v : str) : Prop := exists c, hd_error v = Some c /\ P c.

(** A character of [el] goes away. *)
Inductive drop_one (el : list char) : str -> str -> Prop :=
| drop_here x u v : In x el -> drop_one el (u ++ [x] ++ v) (u ++ v).
(** Of two adjacent [k], one goes away. *)
Inductive merge_two (k : char) : str -> str -> Prop :=
| merge_here u v : merge_two k (u ++ [k; k] ++ v) (u ++ [k] ++ v).
(** A space that is not between ASCII letters or digits goes away. *)
Inductive close_gap : str -> str -> Prop :=
| close_here u v : ~ (ends_in alnum u /\ begins_in alnum v) -> close_gap (u ++ [space] ++ v) (u ++ v).
(** A space at an end goes away. *)
Inductive peel : str -> str -> Prop :=
| peel_left s : peel (space :: s) s
| peel_right s : peel (s ++ [space]) s.
(** One character is exchanged as [R] says. *)
Inductive exchange (R : char -> char -> Prop) : str -> str -> Prop :=
| exchange_here c d u v : R c d -> exchange R (u ++ [c] ++ v) (u ++ [d] ++ v).
(** A key of a ligature map is exchanged for its value. *)
Inductive ligate (l : list (str * str)) : str -> str -> Prop :=
| ligate_here k w u v : In (k, w) l -> ligate l (u ++ k ++ v) (u ++ w ++ v).

(** A text without characters neologdn converts. *)
Definition settled (s : str) : Prop := forall c t, In c s -> ~ neologdn_rel c t.
(** The changes of settled texts neologdn does not show. *)
Inductive neologdn_local : str -> str -> Prop :=
| nl_long u v : neologdn_local (u ++ [prolonged_mark; prolonged_mark] ++ v) (u ++ [prolonged_mark] ++ v)
| nl_space u v : ~ (ends_in alnum u /\ begins_in alnum v) -> ~ (ends_in (eq prolonged_mark) u /\ begins_in (eq prolonged_mark) v) ->
    neologdn_local (u ++ [space] ++ v) (u ++ v)
| nl_tilde x u v : In x tilde_variants -> ~ ends_in (eq space) u -> ~ begins_in (eq space) v ->
    ~ (ends_in (eq prolonged_mark) u /\ begins_in (eq prolonged_mark) v) -> neologdn_local (u ++ [x] ++ v) (u ++ v)
| nl_between x u v : In x tilde_variants ->
    neologdn_local (u ++ [prolonged_mark; x; prolonged_mark] ++ v) (u ++ [prolonged_mark; space; prolonged_mark] ++ v)
| nl_compose a m t u v : composes a m t -> neologdn_local (u ++ [a; m] ++ v) (u ++ [t] ++ v).
Inductive neologdn_change : str -> str -> Prop :=
| nc_convert s t : exchange neologdn_rel s t -> neologdn_change s t
| nc_local s t : settled s -> settled t -> neologdn_local s t -> neologdn_change s t.
