(** Model of the derived equality of modifiers ([PartialEq], [Eq]). *)
From Verif Require Import Base StrOps Converter Eliminator Reducer Ligature Neologdn ModifierKind.

(** [HashMap: PartialEq]: as many entries, and each entry of the left map is found in the right one. *)
Definition hm_eqb {K V} (keq : K -> K -> bool) (veq : V -> V -> bool) (a b : list (K * V)) : bool :=
  Nat.eqb (length a) (length b) &&
  forallb (fun kv => match hm_get keq (fst kv) b with Some v => veq (snd kv) v | None => false end) a.
(** [HashSet: PartialEq] *)
Definition hs_eqb {K} (keq : K -> K -> bool) (a b : list K) : bool :=
  Nat.eqb (length a) (length b) && forallb (fun x => mem keq x b) a.

(** /repo/src/modifier/character_converter.rs:36, character_eliminator.rs:10,
    consecutive_character_reducer.rs:11, ligature_translator.rs:10, neologdn.rs:14: field by field.
    Trim and DottedSpaceEliminator (trim.rs:10, dotted_space_eliminator.rs:10) have no fields. *)
Definition converter_eqb (a b : converter) : bool := hm_eqb N.eqb N.eqb a b.
Definition eliminator_eqb (a b : eliminator) : bool := hs_eqb N.eqb a b.
Definition ligature_eqb (a b : ligature) : bool := hm_eqb str_eqb str_eqb a b.
Definition neologdn_eqb (a b : neologdn) : bool :=
  converter_eqb (neo_conv a) (neo_conv b) && N.eqb (neo_red a) (neo_red b) &&
  eliminator_eqb (neo_elim a) (neo_elim b) && ligature_eqb (neo_lig a) (neo_lig b).

(** /repo/src/modifier_kind.rs:13 *)
Definition modifier_eqb (a b : modifier) : bool :=
  match a, b with
  | MConv x, MConv y => converter_eqb x y
  | MElim x, MElim y => eliminator_eqb x y
  | MRed x, MRed y => N.eqb x y
  | MDot, MDot => true
  | MLig x, MLig y => ligature_eqb x y
  | MTrim, MTrim => true
  | MNeo x, MNeo y => neologdn_eqb x y
  | _, _ => false
  end.
(** [Vec<ModifierKind>: PartialEq] *)
Fixpoint modifiers_eqb (a b : list modifier) : bool :=
  match a, b with
  | [], [] => true
  | x :: a', y :: b' => modifier_eqb x y && modifiers_eqb a' b'
  | _, _ => false
  end.
