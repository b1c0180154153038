(** Model of /repo/src/modifier/dotted_space_eliminator.rs. *)
From Verif Require Import Base StrOps.

(** Lines 15-36: loop of [modify]; state: [prev], [space] flag, output buffer. *)
Fixpoint dot_loop (prev : char) (space : bool) (text : str) (input : str) : str :=
  match input with
  | [] => text
  | c :: r =>
      if N.eqb c SPACE then
        dot_loop c (if is_ascii_alphanumeric prev then true else space) text r
      else
        let text := if space then (if is_ascii_alphanumeric c then text ++ [SPACE] else text) else text in
        dot_loop c false (text ++ [c]) r
  end.
(** Lines 14-37: [DottedSpaceEliminator::modify] *)
Definition dot_modify (input : str) : str := dot_loop SPACE false [] input.
