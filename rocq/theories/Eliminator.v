(** Model of /repo/src/modifier/character_eliminator.rs. *)
From Verif Require Import Base StrOps.

(** Lines 11-13: [chars: HashSet<char>] *)
Definition eliminator := list char.

(** Lines 16-26: [CharacterEliminator::modify] *)
Fixpoint elim_modify (el : eliminator) (input : str) : str :=
  match input with
  | [] => []
  | c :: r => if mem N.eqb c el then elim_modify el r else c :: elim_modify el r
  end.

(** Lines 79-85: [from_chars] *)
Definition elim_from_chars (chs : list char) : eliminator := hs_insert_all N.eqb chs [].
(** Lines 73-77: [from_char] *)
Definition elim_from_char (c : char) : eliminator := hs_insert N.eqb c [].

(** Lines 50-63: [FromStr for CharacterEliminator] *)
Definition elim_from_str (s : str) : outcome eliminator :=
  let chars := flat_map (fun st => match first_char (trim_ws st) with Some x => [x] | None => [] end)
                        (split COMMA s) in
  match chars with
  | [] => Err (ModifierKindParseError (lit "require value."))
  | _ => Ok (elim_from_chars chars)
  end.
