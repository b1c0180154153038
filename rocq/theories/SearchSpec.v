(** Vocabulary of C95: looking for a normalised text in a normalised text. *)
From Verif Require Import Base Position ModifierKind ChanomaModel Spec.

(** [q] ends [s].  ([occurs] and [prefix_of] are in Spec.v.) *)
Definition suffix_of (q s : str) : Prop := exists a, s = a ++ q.
(** Modifiers working character by character or on runs of one character. *)
Definition plain_stage (m : modifier) : Prop :=
  match m with MConv _ | MElim _ | MRed _ => True | _ => False end.
Definition local_stage (m : modifier) : Prop :=
  match m with MConv _ | MElim _ | MRed _ | MDot | MTrim => True | _ => False end.
Definition sound_mark (c : char) : Prop := c = voiced_mark \/ c = semivoiced_mark.
(** A character that neologdn alone turns into one character, neither a sound mark nor the prolonged sound mark. *)
Definition ordinary (c : char) : Prop := exists t, neologdn_result [c] [t] /\ t <> prolonged_mark /\ ~ sound_mark t.
(** The text is empty or its first character is ordinary. *)
Definition ordinary_start (s : str) : Prop := forall c, hd_error s = Some c -> ordinary c.
(** The characters that are not ordinary: spaces, prolonged sound marks and the dashes taken for them,
    full-width sound marks, tildes. *)
Definition special_chars : list char :=
  [0x20; 0x3000; 0x30FC; 0x309B; 0x309C]%N ++ dash_variants ++ tilde_variants.
