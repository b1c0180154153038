(** Model of /repo/src/modifier/character_converter.rs. *)
From Verif Require Import Base Utf8 StrOps Corr Position Table.

(** /repo/src/modifier/character_converter.rs:37-39: [items_map: HashMap<char, char>] *)
Definition converter := list (char * char).
Definition conv_get (cc : converter) (c : char) : option char := hm_get N.eqb c cc.

(** Checked vector store [refs[i] = x]; an index out of range panics. *)
Fixpoint vec_set {A} (l : list A) (i : nat) (x : A) : outcome (list A) :=
  match l, i with
  | [], _ => Panic
  | _ :: r, O => Ok (x :: r)
  | y :: r, S i' => r' <- vec_set r i' x ;; Ok (y :: r')
  end.

(** Lines 43-48: one entry per distinct character with all its indices, in order of occurrence. *)
Definition index_chars (input : str) : list (char * list nat) :=
  fold_left (fun m ic => hm_entry_update N.eqb (snd ic) [] (fun v => v ++ [fst ic]) m)
            (enumerate input) [].

(** Lines 54-56: write [to] at every index. *)
Fixpoint write_all (refs : str) (indices : list nat) (t : char) : outcome str :=
  match indices with
  | [] => Ok refs
  | i :: r => refs' <- vec_set refs i t ;; write_all refs' r t
  end.

(** Lines 50-58: loop over the index map in hash order. *)
Fixpoint convert_loop (cc : converter) (entries : list (char * list nat)) (refs : str) : outcome str :=
  match entries with
  | [] => Ok refs
  | (c, indices) :: r =>
      refs' <- match conv_get cc c with
               | Some t => write_all refs indices t
               | None => Ok refs
               end ;;
      convert_loop cc r refs'
  end.

(** Lines 42-60: [CharacterConverter::modify] *)
Definition conv_modify (o : sched) (cc : converter) (input : str) : outcome str :=
  convert_loop cc (hash_iter o (index_chars input)) input.

(** Lines 14-34: [CharPos] *)
Record char_pos := CharPos { cp_length : nat; cp_indices : list nat; cp_utf8_indices : list nat }.
Definition UTF8_LEN : nat := 1.
Definition char_pos_new (len : nat) : char_pos := CharPos len [] [].
Definition push_indexes (index utf8_index : nat) (p : char_pos) : char_pos :=
  CharPos (cp_length p) (cp_indices p ++ [index]) (cp_utf8_indices p ++ [utf8_index]).

(** Lines 66-73 *)
Definition index_char_pos (input : str) : list (char * char_pos) :=
  fold_left (fun m x =>
               let '(index, (i, c)) := x in
               hm_entry_update N.eqb c (char_pos_new (len_utf8 c)) (push_indexes index i) m)
            (enumerate (char_indices input)) [].

(** Lines 80-90: inner loop of the positions variant over one character's occurrences. *)
Fixpoint write_positions (c t : char) (cp : char_pos) (idx : list (nat * nat))
  (st : str * list position) : outcome (str * list position) :=
  match idx with
  | [] => Ok st
  | (i, c_index) :: r =>
      refs' <- vec_set (fst st) c_index t ;;
      u <- unwrap (nth_error (cp_utf8_indices cp) i) ;;
      write_positions c t cp r
        (refs', snd st ++ [position_new [c] [t] c_index u (cp_length cp) UTF8_LEN])
  end.

(** Lines 75-92 *)
Fixpoint convert_pos_loop (cc : converter) (entries : list (char * char_pos))
  (st : str * list position) : outcome (str * list position) :=
  match entries with
  | [] => Ok st
  | (c, cp) :: r =>
      st' <- match conv_get cc c with
             | Some t => write_positions c t cp (enumerate (cp_indices cp)) st
             | None => Ok st
             end ;;
      convert_pos_loop cc r st'
  end.

(** Lines 62-99: [CharacterConverter::modify_with_positions] (text and positions). *)
Definition conv_modify_with_positions (o : sched) (cc : converter) (input : str)
  : outcome (str * list position) :=
  convert_pos_loop cc (hash_iter o (index_char_pos input)) (input, []).

(** Lines 158-165: inserting the items of the tables, in order. *)
Fixpoint insert_items (m : converter) (items : list item) : outcome converter :=
  match items with
  | [] => Ok m
  | it :: r =>
      f <- unwrap (first_char (from it)) ;;
      t <- unwrap (first_char (to it)) ;;
      insert_items (hm_insert N.eqb f t m) r
  end.
Fixpoint insert_tables (m : converter) (tables : list table) : outcome converter :=
  match tables with
  | [] => Ok m
  | t :: r => m' <- insert_items m (table_items t) ;; insert_tables m' r
  end.
(** Lines 156-167: [CharacterConverter::from_tables] *)
Definition from_tables (tables : list table) : outcome converter := insert_tables [] tables.

(** Lines 118-147: [FromStr for CharacterConverter] *)
Definition conv_pair_of (st : str) : option (char * char) :=
  let cs := flat_map (fun c => match first_char (trim_ws c) with Some x => [x] | None => [] end)
                     (split COLON (trim_ws st)) in
  match cs with
  | [a; b] => Some (a, b)
  | _ => None
  end.
Definition conv_from_str (s : str) : outcome converter :=
  let chars := flat_map (fun st => match conv_pair_of st with Some p => [p] | None => [] end)
                        (split COMMA s) in
  match chars with
  | [] => Err (ModifierKindParseError (lit "specified empty chars."))
  | _ => Ok (hm_collect N.eqb chars)
  end.
