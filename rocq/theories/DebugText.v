(** Model of the text of the debug lines: the derived [Debug] implementations as [{:?}] prints them.
    Sources: [#[derive(Debug)]] at /repo/src/modifier.rs:25, /repo/src/modifier_kind.rs:13, /repo/src/position.rs:6 and on the
    modifiers; the format strings at /repo/src/configuration.rs:24, /repo/src/configuration.rs:51-56 and /repo/src/chanoma.rs:147.
    The standard library's table of characters shown as they are (printable and not grapheme-extending) is a parameter [sh];
    whether a path escapes single quotation marks (older versions do) is a parameter [sq]. *)
From Verif Require Import Base StrOps Position Converter Eliminator Reducer Ligature Neologdn ModifierKind PathModel Yaml File
  ChanomaModel Configuration Utf8 Cli Csv Process Log.

(** Digits of [n] in base [b] (at most 16), most significant first. *)
Definition digit_char (d : N) : char := if N.ltb d 10 then (48 + d)%N else (87 + d)%N.
Fixpoint digits_fuel (b : N) (fuel : nat) (n : N) : str :=
  match fuel with
  | 0 => []
  | S f => if N.ltb n b then [digit_char n] else digits_fuel b f (n / b)%N ++ [digit_char (n mod b)%N]
  end.
Definition digits (b n : N) : str := digits_fuel b (S (N.to_nat (N.size n))) n.
(** [usize: Debug] *)
Definition show_nat (n : nat) : str := digits 10 (N.of_nat n).
(** [char::escape_debug_ext]; [sq], [dq]: whether single and double quotation marks are escaped. *)
Definition escape_debug (sh : char -> bool) (sq dq : bool) (c : char) : str :=
  if N.eqb c 0 then lit "\0"
  else if N.eqb c 9 then lit "\t"
  else if N.eqb c 13 then lit "\r"
  else if N.eqb c 10 then lit "\n"
  else if N.eqb c 92 then lit "\\"
  else if N.eqb c 34 && dq then [92; 34]%N
  else if N.eqb c 39 && sq then [92; 39]%N
  else if sh c then [c]
  else lit "\u{" ++ digits 16 c ++ lit "}".
(** [str: Debug], [char: Debug], [Path: Debug] for Unicode paths, [bool: Debug] *)
Definition show_text (sh : char -> bool) (sq : bool) (s : str) : str := [34%N] ++ flat_map (escape_debug sh sq true) s ++ [34%N].
Definition show_char (sh : char -> bool) (c : char) : str := [39%N] ++ escape_debug sh true false c ++ [39%N].
Definition show_bool (b : bool) : str := if b then lit "true" else lit "false".
(** Elements with a comma and a space between them. *)
Fixpoint commas {A} (f : A -> str) (l : list A) : str :=
  match l with
  | [] => []
  | [x] => f x
  | x :: r => f x ++ lit ", " ++ commas f r
  end.
(** [Vec: Debug]; [HashSet: Debug] and [HashMap: Debug] of the entries in order. *)
Definition show_list {A} (f : A -> str) (l : list A) : str := lit "[" ++ commas f l ++ lit "]".
Definition show_set {A} (f : A -> str) (l : list A) : str := lit "{" ++ commas f l ++ lit "}".
Definition show_entry {A B} (f : A -> str) (g : B -> str) (e : A * B) : str := f (fst e) ++ lit ": " ++ g (snd e).

(** Derived [Debug] of the modifiers: /repo/src/modifier/character_converter.rs:36-39, character_eliminator.rs:10-13,
    consecutive_character_reducer.rs:11-14, dotted_space_eliminator.rs:10-11, ligature_translator.rs:10-13, trim.rs:10-11,
    neologdn.rs:14-21. *)
Definition show_converter sh (x : converter) : str :=
  lit "CharacterConverter { items_map: " ++ show_set (show_entry (show_char sh) (show_char sh)) x ++ lit " }".
Definition show_eliminator sh (x : eliminator) : str := lit "CharacterEliminator { chars: " ++ show_set (show_char sh) x ++ lit " }".
Definition show_reducer sh (c : char) : str := lit "ConsecutiveCharacterReducer { c: " ++ show_char sh c ++ lit " }".
Definition show_ligature sh (x : ligature) : str :=
  lit "LigatureTranslator { map: " ++ show_set (show_entry (show_text sh false) (show_text sh false)) x ++ lit " }".
Definition show_neologdn sh (n : neologdn) : str :=
  lit "Neologdn { character_converter: " ++ show_converter sh (neo_conv n) ++ lit ", consecutive: " ++ show_reducer sh (neo_red n) ++
  lit ", space_eliminater: DottedSpaceEliminator, character_eliminator: " ++ show_eliminator sh (neo_elim n) ++
  lit ", ligature_translator: " ++ show_ligature sh (neo_lig n) ++ lit " }".
(** /repo/src/modifier_kind.rs:13-29 *)
Definition show_modifier sh (m : modifier) : str :=
  match m with
  | MConv x => lit "CharacterConverter(" ++ show_converter sh x ++ lit ")"
  | MElim x => lit "CharacterEliminator(" ++ show_eliminator sh x ++ lit ")"
  | MRed c => lit "ConsecutiveCharacterReducer(" ++ show_reducer sh c ++ lit ")"
  | MDot => lit "DottedSpaceEliminator(DottedSpaceEliminator)"
  | MLig x => lit "LigatureTranslator(" ++ show_ligature sh x ++ lit ")"
  | MTrim => lit "Trim(Trim)"
  | MNeo x => lit "Neologdn(" ++ show_neologdn sh x ++ lit ")"
  end.
(** The contents of the hash containers in iteration order. *)
Definition arranged (o : sched) (m : modifier) : modifier :=
  match m with
  | MConv x => MConv (hash_iter o x)
  | MElim x => MElim (hash_iter o x)
  | MLig x => MLig (hash_iter o x)
  | MNeo n => MNeo (Neo (hash_iter (sub o 0) (neo_conv n)) (neo_red n) (hash_iter (sub o 1) (neo_elim n)) (hash_iter (sub o 2) (neo_lig n)))
  | _ => m
  end.
(** /repo/src/position.rs:6-14 *)
Definition show_position sh (p : position) : str :=
  lit "Position { from: " ++ show_text sh false (p_from p) ++ lit ", to: " ++ show_text sh false (p_to p) ++
  lit ", index: " ++ show_nat (p_index p) ++ lit ", length: " ++ show_nat (p_length p) ++
  lit ", utf8_index: " ++ show_nat (p_utf8_index p) ++ lit ", utf8_length: " ++ show_nat (p_utf8_length p) ++ lit " }".
(** /repo/src/modifier.rs:25-30 *)
Definition show_record sh (o : sched) (r : record) : str :=
  lit "ModifiedRecord { kind: " ++ show_modifier sh (arranged o (r_kind r)) ++ lit ", text: " ++ show_text sh false (r_text r) ++
  lit ", positions: " ++ show_list (show_position sh) (r_positions r) ++ lit " }".
(** The message of each log line: /repo/src/configuration.rs:51-56, /repo/src/configuration.rs:24, /repo/src/chanoma.rs:147. *)
Definition event_line sh (sq : bool) (o : sched) (e : event) : str :=
  match e with
  | LEnv p ex => lit "CHANOMARC: " ++ show_text sh sq p ++ lit "; (exists: " ++ show_bool ex ++ lit ")"
  | LFiles ps => lit "load files: " ++ show_list (show_text sh sq) ps
  | LRecord r => show_record sh o r
  end.
