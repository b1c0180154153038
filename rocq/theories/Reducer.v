(** Model of /repo/src/modifier/consecutive_character_reducer.rs. *)
From Verif Require Import Base Utf8 StrOps Position.

(** Lines 18-34: loop of [modify]; state: [consecutive] flag and output buffer. *)
Fixpoint red_loop (c : char) (consecutive : bool) (text : str) (input : str) : str :=
  match input with
  | [] => text
  | ch :: r =>
      if N.eqb c ch then
        if consecutive then red_loop c true text r
        else red_loop c true (text ++ [ch]) r
      else red_loop c false (text ++ [ch]) r
  end.
(** Lines 17-35: [ConsecutiveCharacterReducer::modify] *)
Definition red_modify (c : char) (input : str) : str := red_loop c false [] input.

(** Lines 52-59: the position pushed for a run of [counter] characters. *)
Definition run_position (c : char) (counter index utf8_index : nat) : position :=
  {| p_from := repeat c counter; p_to := [c]; p_index := index;
     p_length := len_utf8 c * counter; p_utf8_index := utf8_index; p_utf8_length := counter |}.

(** Lines 38-63: loop of [modify_with_positions]; [i] is the character index. *)
Fixpoint red_pos_loop (c : char) (i counter : nat) (text : str) (positions : list position)
  (input : str) : nat * str * list position :=
  match input with
  | [] => (counter, text, positions)
  | ch :: r =>
      if N.eqb c ch then
        if Nat.ltb 0 counter then red_pos_loop c (S i) (counter + 1) text positions r
        else red_pos_loop c (S i) 1 (text ++ [ch]) positions r
      else if Nat.ltb 0 counter then
        red_pos_loop c (S i) 0 (text ++ [ch])
          (positions ++ [run_position c counter (blen text) i]) r
      else red_pos_loop c (S i) counter (text ++ [ch]) positions r
  end.

(** Checked [usize] subtraction (panics on underflow in debug builds). *)
Definition checked_sub (a b : nat) : outcome nat := if Nat.leb b a then Ok (a - b) else Panic.

(** Lines 37-80: [modify_with_positions] (text and positions). *)
Definition red_modify_with_positions (c : char) (input : str) : outcome (str * list position) :=
  let '(counter, text, positions) := red_pos_loop c 0 0 [] [] input in
  if Nat.ltb 0 counter then
    u <- checked_sub (blen input) counter ;;
    Ok (text, positions ++ [run_position c counter (blen text) u])
  else Ok (text, positions).

(** Lines 89-95: [FromStr for ConsecutiveCharacterReducer] *)
Definition red_from_str (s : str) : outcome char := unwrap (first_char s).
