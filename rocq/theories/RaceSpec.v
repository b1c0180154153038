(** Specification vocabulary for configuration loading while files change (C81). *)
From Verif Require Import Base Corr Yaml File Race Spec FileSpec PathSpec ConfigSpec.

(** What a configuration file does when its items are read in [w1] and its modifiers in [w2]; the number of reads. *)
Inductive file_effect_at (w1 w2 : world) (p : path) : effect -> nat -> Prop :=
| fa_csv recs rows items : has_extension p (lit "csv") -> w_csv w1 p = Some recs -> hd_error recs <> Some CsvIoError ->
    tl recs = map CsvFields rows -> rows_items rows items -> no_empty_string items ->
    file_effect_at w1 w2 p (pointwise (last_match items)) 1
| fa_yaml data1 data2 items effs : is_yaml p -> w_yaml w1 p = Some (Some data1) -> items_described data1 items ->
    no_empty_string items -> w_yaml w2 p = Some (Some data2) -> modifiers_described data2 effs ->
    file_effect_at w1 w2 p (fun s out => exists mid, in_sequence effs s mid /\ pointwise (last_match items) mid out) 2.
(** The candidates that are files when it is their turn to be looked at. *)
Inductive seen (ws : history) : nat -> list path -> list path -> nat -> Prop :=
| seen_end t : seen ws t [] [] t
| seen_yes t p l l' t' : w_is_file (ws t) p = true -> seen ws (S t) l l' t' -> seen ws t (p :: l) (p :: l') t'
| seen_no t p l l' t' : w_is_file (ws t) p = false -> seen ws (S t) l l' t' -> seen ws t (p :: l) l' t'.
(** The effects of the files, read one after the other. *)
Inductive read_in_turn (ws : history) : nat -> list path -> list effect -> nat -> Prop :=
| rt_end t : read_in_turn ws t [] [] t
| rt_file t p l e n effs t' : file_effect_at (ws t) (ws (S t)) p e n -> read_in_turn ws (t + n) l effs t' ->
    read_in_turn ws t (p :: l) (e :: effs) t'.
(** The two worlds are alike as far as loading is concerned. *)
Definition alike_for (P : path -> Prop) (w w' : world) : Prop :=
  w_env w = w_env w' /\ w_home w = w_home w' /\ w_cwd w = w_cwd w' /\
  forall p, P p -> w_is_file w p = w_is_file w' p /\ w_csv w p = w_csv w' p /\ w_yaml w p = w_yaml w' p.
(** One change at access [k]. *)
Definition switches (w1 w2 : world) (k : nat) (ws : history) : Prop := forall i, ws i = if Nat.ltb i k then w1 else w2.
