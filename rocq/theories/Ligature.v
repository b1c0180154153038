(** Model of /repo/src/modifier/ligature_translator.rs. *)
From Verif Require Import Base StrOps.

(** Lines 11-13: [map: HashMap<String, String>] *)
Definition ligature := list (str * str).

(** Lines 16-22: [LigatureTranslator::modify]; the map is traversed in hash order. *)
Definition lig_modify (o : sched) (m : ligature) (input : str) : str :=
  fold_left (fun text ft => replace (fst ft) (snd ft) text) (hash_iter o m) input.

(** Lines 50-69: [FromStr for LigatureTranslator] *)
Definition lig_from_str (s : str) : outcome ligature :=
  match split COMMA s with
  | [f; t] => Ok (hm_collect str_eqb [(f, t)])
  | _ => Err (ModifierKindParseError (lit "Only two values."))
  end.
