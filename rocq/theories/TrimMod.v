(** Model of /repo/src/modifier/trim.rs. *)
From Verif Require Import Base Utf8 StrOps Position Reducer.

(** Lines 14-16: [Trim::modify] *)
Definition trim_modify (input : str) : str := trim_matches SPACE input.

(** Lines 18-50: [Trim::modify_with_positions] (text and positions). *)
Definition trim_modify_with_positions (input : str) : outcome (str * list position) :=
  let t := trim_start_matches SPACE input in
  ps1 <- (if str_eqb t input then Ok []
          else len <- checked_sub (blen input) (blen t) ;;
               Ok [{| p_from := repeat SPACE len; p_to := []; p_index := 0; p_length := len;
                      p_utf8_index := 0; p_utf8_length := len |}]) ;;
  let text := trim_end_matches SPACE t in
  ps2 <- (if str_eqb text t then Ok []
          else len <- checked_sub (blen t) (blen text) ;;
               index <- checked_sub (blen input) len ;;
               utf8_index <- checked_sub (length input) len ;;
               Ok [{| p_from := repeat SPACE len; p_to := []; p_index := index; p_length := len;
                      p_utf8_index := utf8_index; p_utf8_length := len |}]) ;;
  Ok (text, ps1 ++ ps2).
