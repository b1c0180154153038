(** Specification vocabulary for modifier descriptions (C50). *)
From Verif Require Import Base Spec FileSpec.

(** Unicode White_Space. *)
Definition white_spaces : list char :=
  [0x9; 0xA; 0xB; 0xC; 0xD; 0x20; 0x85; 0xA0; 0x1680; 0x2000; 0x2001; 0x2002; 0x2003; 0x2004; 0x2005; 0x2006; 0x2007;
   0x2008; 0x2009; 0x200A; 0x2028; 0x2029; 0x202F; 0x205F; 0x3000]%N.
Definition blank (c : char) : Prop := In c white_spaces.
Definition comma : char := 0x2C%N.
Definition colon : char := 0x3A%N.
Definition rparen : char := 0x29%N.
(** [s] is [ps] joined by [sep]. *)
Inductive pieces (sep : char) : str -> list str -> Prop :=
| pieces_one p : ~ In sep p -> pieces sep p [p]
| pieces_more p s ps : ~ In sep p -> pieces sep s ps -> pieces sep (p ++ [sep] ++ s) (p :: ps).
(** The first non-blank characters of the pieces that have one. *)
Inductive firsts : list str -> list char -> Prop :=
| firsts_nil : firsts [] []
| firsts_blank p ps cs : Forall blank p -> firsts ps cs -> firsts (p :: ps) cs
| firsts_char a c r ps cs : Forall blank a -> ~ blank c -> firsts ps cs -> firsts ((a ++ c :: r) :: ps) (c :: cs).
(** The pairs [x : y] among the pieces; other pieces count for nothing. *)
Inductive colon_pairs : list str -> list (char * char) -> Prop :=
| cp_nil : colon_pairs [] []
| cp_pair p subs x y ps kvs : pieces colon p subs -> firsts subs [x; y] -> colon_pairs ps kvs ->
    colon_pairs (p :: ps) ((x, y) :: kvs)
| cp_other p subs cs ps kvs : pieces colon p subs -> firsts subs cs -> length cs <> 2 -> colon_pairs ps kvs ->
    colon_pairs (p :: ps) kvs.
Definition last_pair (kvs : list (char * char)) (x t : char) : Prop :=
  exists l1 l2, kvs = l1 ++ (x, t) :: l2 /\ ~ In x (map fst l2).

Definition call_of (name arg : str) : str := name ++ [0x28%N] ++ arg ++ [rparen].
(** The described modifier, by its effect. *)
Inductive describes : str -> effect -> Prop :=
| d_neologdn : describes (lit "neologdn") neologdn_result
| d_trim : describes (lit "trim") trimmed
| d_dotted : describes (lit "dotted_space_eliminator") (undotted None)
| d_reducer c r : describes (call_of (lit "consecutive_character_reducer") (c :: r)) (collapsed c)
| d_ligature a b : ~ In comma a -> ~ In comma b ->
    describes (call_of (lit "ligature_translator") (a ++ [comma] ++ b)) (applied_in_turn [(a, b)])
| d_eliminator arg ps cs : pieces comma arg ps -> firsts ps cs -> cs <> [] ->
    describes (call_of (lit "character_eliminator") arg) (removed (fun c => In c cs))
| d_converter arg ps kvs : pieces comma arg ps -> colon_pairs ps kvs -> kvs <> [] ->
    describes (call_of (lit "character_converter") arg) (pointwise (last_pair kvs)).
Definition function_names : list str :=
  [lit "consecutive_character_reducer"; lit "ligature_translator"; lit "character_eliminator"; lit "character_converter"].
Definition plain_names : list str := [lit "neologdn"; lit "trim"; lit "dotted_space_eliminator"].
(** Descriptions that make the parser panic. *)
Inductive description_panics : str -> Prop :=
| dp_open name r : In name function_names -> (forall a, r <> a ++ [rparen]) -> description_panics (name ++ [0x28%N] ++ r)
| dp_reducer : description_panics (call_of (lit "consecutive_character_reducer") []).
(** Descriptions refused with an error. *)
Inductive description_error : str -> error -> Prop :=
| de_unknown s : ~ In s plain_names -> (forall name r, In name function_names -> s <> name ++ [0x28%N] ++ r) ->
    description_error s (ModifierKindParseError (lit "parse error."))
| de_ligature arg ps : pieces comma arg ps -> length ps <> 2 ->
    description_error (call_of (lit "ligature_translator") arg) (ModifierKindParseError (lit "Only two values."))
| de_eliminator arg ps : pieces comma arg ps -> firsts ps [] ->
    description_error (call_of (lit "character_eliminator") arg) (ModifierKindParseError (lit "require value."))
| de_converter arg ps : pieces comma arg ps -> colon_pairs ps [] ->
    description_error (call_of (lit "character_converter") arg) (ModifierKindParseError (lit "specified empty chars.")).
