(** Specification vocabulary for C112: normalisations that lose nothing. *)
From Verif Require Import Base Utf8 ModifierKind Neologdn CharSpec Spec.

(** Modifiers other than ligature maps, the characters they mention being characters of texts. *)
Definition text_stage (m : modifier) : Prop :=
  match m with
  | MConv cc => NoDup (map fst cc) /\ forall a b, In (a, b) cc -> is_scalar a = true /\ is_scalar b = true
  | MElim el => valid_str el
  | MRed k => is_scalar k = true
  | MDot | MTrim => True
  | MLig _ => False
  | MNeo n => exists o, neologdn_new o = Ok n
  end.
(** The table exchanges its characters among themselves. *)
Definition exchanging (cc : list (char * char)) : Prop :=
  (forall a b, In (a, b) cc -> exists b', In (b, b') cc) /\
  (forall a a' b, In (a, b) cc -> In (a', b) cc -> a = a').
Definition reversible (m : modifier) : Prop :=
  match m with MConv cc => exchanging cc | MElim el => el = [] | _ => False end.
