(** Model of /repo/src/modifier_kind.rs, /repo/src/modifier.rs (without YAML, see Yaml.v). *)
From Verif Require Import Base StrOps Position
  Converter Eliminator Reducer Dotted Ligature TrimMod Neologdn.

(** /repo/src/modifier_kind.rs:13-29 *)
Inductive modifier :=
| MConv (x : converter)
| MElim (x : eliminator)
| MRed (x : char)
| MDot
| MLig (x : ligature)
| MTrim
| MNeo (x : neologdn).

(** /repo/src/modifier.rs:25-40: [ModifiedRecord] *)
Record record := Record { r_kind : modifier; r_text : str; r_positions : list position }.

(** /repo/src/modifier_kind.rs:89-99 *)
Definition modify (o : sched) (m : modifier) (input : str) : outcome str :=
  match m with
  | MConv x => conv_modify o x input
  | MElim x => Ok (elim_modify x input)
  | MRed x => Ok (red_modify x input)
  | MDot => Ok (dot_modify input)
  | MLig x => Ok (lig_modify o x input)
  | MTrim => Ok (trim_modify input)
  | MNeo x => neo_modify o x input
  end.

(** /repo/src/modifier_kind.rs:101-111.  For the eliminator, the dotted-space eliminator and the
    ligature translator: character_eliminator.rs:28-35, dotted_space_eliminator.rs:39-46,
    ligature_translator.rs:24-31 (no positions, text from [modify]). *)
Definition modify_with_positions (o : sched) (m : modifier) (input : str) : outcome record :=
  match m with
  | MConv x => r <- conv_modify_with_positions o x input ;; Ok (Record m (fst r) (snd r))
  | MElim x => Ok (Record m (elim_modify x input) [])
  | MRed x => r <- red_modify_with_positions x input ;; Ok (Record m (fst r) (snd r))
  | MDot => Ok (Record m (dot_modify input) [])
  | MLig x => Ok (Record m (lig_modify o x input) [])
  | MTrim => r <- trim_modify_with_positions input ;; Ok (Record m (fst r) (snd r))
  | MNeo x => r <- neo_modify_with_positions o x input ;; Ok (Record m (fst r) (snd r))
  end.

(** The literals of /repo/src/modifier_kind.rs:36-80. *)
Definition S_neologdn := lit "neologdn".
Definition S_trim := lit "trim".
Definition S_dotted := lit "dotted_space_eliminator".
Definition P_reducer := lit "consecutive_character_reducer(".
Definition P_ligature := lit "ligature_translator(".
Definition P_eliminator := lit "character_eliminator(".
Definition P_converter := lit "character_converter(".

(** [s.strip_prefix(p).unwrap().strip_suffix(')').unwrap()] *)
Definition argument (p s : str) : outcome str :=
  r <- unwrap (strip_prefix p s) ;; unwrap (strip_suffix_char RPAREN r).

(** /repo/src/modifier_kind.rs:34-85: [FromStr for ModifierKind] *)
Definition modifier_from_str (o : sched) (s : str) : outcome modifier :=
  if str_eqb s S_neologdn then n <- neologdn_new o ;; Ok (MNeo n)
  else if str_eqb s S_trim then Ok MTrim
  else if str_eqb s S_dotted then Ok MDot
  else if starts_with P_reducer s then
    a <- argument P_reducer s ;; c <- red_from_str a ;; Ok (MRed c)
  else if starts_with P_ligature s then
    a <- argument P_ligature s ;; l <- lig_from_str a ;; Ok (MLig l)
  else if starts_with P_eliminator s then
    a <- argument P_eliminator s ;; e <- elim_from_str a ;; Ok (MElim e)
  else if starts_with P_converter s then
    a <- argument P_converter s ;; c <- conv_from_str a ;; Ok (MConv c)
  else Err (ModifierKindParseError (lit "parse error.")).

(** /repo/src/modifier/trim.rs:65-76, dotted_space_eliminator.rs:61-70, neologdn.rs:61-72: [FromStr] of the modifiers
    without arguments ([from_str] above does not use them). *)
Definition no_value {A} (s : str) (new : outcome A) : outcome A :=
  match s with [] => new | _ => Err (ModifierKindParseError (lit "Cannot specify a value.")) end.
Definition trim_from_str (s : str) : outcome modifier := no_value s (Ok MTrim).
Definition dot_from_str (s : str) : outcome modifier := no_value s (Ok MDot).
Definition neo_from_str (o : sched) (s : str) : outcome neologdn := no_value s (neologdn_new o).
