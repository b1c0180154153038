(** Specification vocabulary for C101: texts and ligature maps read backwards. *)
From Verif Require Import Base.

(** The map with every key and every value read backwards. *)
Definition backward_map (l : list (str * str)) : list (str * str) := map (fun p => (rev (fst p), rev (snd p))) l.
