(** What Rust's [{:?}] prints (C96), as a grammar: a value is a structure of named parts, and a text is what it prints. *)
From Verif Require Import Base Position Converter Eliminator Ligature Neologdn ModifierKind ChanomaModel PathModel Configuration Log.

(** ** Numerals: [numeral b n t] if [t] is [n] in base [b], without leading zeros. *)
Definition DIGITS : str := lit "0123456789abcdef".
Inductive numeral (b : nat) : nat -> str -> Prop :=
| num_digit n c : n < b -> nth_error DIGITS n = Some c -> numeral b n [c]
| num_more q r t c : 0 < q -> r < b -> numeral b q t -> nth_error DIGITS r = Some c -> numeral b (q * b + r) (t ++ [c]).

(** ** Characters, in texts with [dq] (double quotation marks escaped) or [sq] (single ones escaped) *)
Inductive shown (sh : char -> bool) (sq dq : bool) : char -> str -> Prop :=
| sh_name c k : In (c, k) [(0, 48); (9, 116); (10, 110); (13, 114); (92, 92)]%N -> shown sh sq dq c [92; k]%N
| sh_double : dq = true -> shown sh sq dq 34%N [92; 34]%N
| sh_single : sq = true -> shown sh sq dq 39%N [92; 39]%N
| sh_itself c : ~ In c [0; 9; 10; 13; 92]%N -> (c = 34%N -> dq = false) -> (c = 39%N -> sq = false) -> sh c = true -> shown sh sq dq c [c]
| sh_code c t : ~ In c [0; 9; 10; 13; 92]%N -> (c = 34%N -> dq = false) -> (c = 39%N -> sq = false) -> sh c = false ->
    numeral 16 (N.to_nat c) t -> shown sh sq dq c (lit "\u{" ++ t ++ lit "}").
Inductive all_shown (sh : char -> bool) (sq dq : bool) : str -> str -> Prop :=
| as_nil : all_shown sh sq dq [] []
| as_cons c s t u : shown sh sq dq c t -> all_shown sh sq dq s u -> all_shown sh sq dq (c :: s) (t ++ u).

(** ** Values *)
Inductive dval :=
| DWord (w : str)                            (* a unit structure, true or false *)
| DText (sq : bool) (s : str) | DChar (c : char) | DNum (n : nat)
| DTuple (name : str) (d : dval)             (* Name(..) *)
| DStruct (name : str) (fs : list (str * dval))   (* Name { field: .., .. } *)
| DList (l : list dval) | DSet (l : list dval) | DMap (l : list (dval * dval)).
Inductive prints (sh : char -> bool) : dval -> str -> Prop :=
| p_word w : prints sh (DWord w) w
| p_text sq s t : all_shown sh sq true s t -> prints sh (DText sq s) ([34%N] ++ t ++ [34%N])
| p_char c t : shown sh true false c t -> prints sh (DChar c) ([39%N] ++ t ++ [39%N])
| p_num n t : numeral 10 n t -> prints sh (DNum n) t
| p_tuple name d t : prints sh d t -> prints sh (DTuple name d) (name ++ lit "(" ++ t ++ lit ")")
| p_struct name fs t : prints_fields sh fs t -> prints sh (DStruct name fs) (name ++ lit " { " ++ t ++ lit " }")
| p_list l t : prints_all sh l t -> prints sh (DList l) (lit "[" ++ t ++ lit "]")
| p_set l t : prints_all sh l t -> prints sh (DSet l) (lit "{" ++ t ++ lit "}")
| p_map l t : prints_pairs sh l t -> prints sh (DMap l) (lit "{" ++ t ++ lit "}")
with prints_all (sh : char -> bool) : list dval -> str -> Prop :=
| pa_nil : prints_all sh [] []
| pa_one d t : prints sh d t -> prints_all sh [d] t
| pa_more d d' l t u : prints sh d t -> prints_all sh (d' :: l) u -> prints_all sh (d :: d' :: l) (t ++ lit ", " ++ u)
with prints_pairs (sh : char -> bool) : list (dval * dval) -> str -> Prop :=
| pp_nil : prints_pairs sh [] []
| pp_one d e t u : prints sh d t -> prints sh e u -> prints_pairs sh [(d, e)] (t ++ lit ": " ++ u)
| pp_more d e p l t u v : prints sh d t -> prints sh e u -> prints_pairs sh (p :: l) v ->
    prints_pairs sh ((d, e) :: p :: l) (t ++ lit ": " ++ u ++ lit ", " ++ v)
with prints_fields (sh : char -> bool) : list (str * dval) -> str -> Prop :=
| pf_one f d t : prints sh d t -> prints_fields sh [(f, d)] (f ++ lit ": " ++ t)
| pf_more f d p l t u : prints sh d t -> prints_fields sh (p :: l) u ->
    prints_fields sh ((f, d) :: p :: l) (f ++ lit ": " ++ t ++ lit ", " ++ u).

(** ** What the structures of the crate are made of; hash containers in any order. *)
Definition chars_map (l : list (char * char)) : dval := DMap (map (fun p => (DChar (fst p), DChar (snd p))) l).
Definition texts_map (l : list (str * str)) : dval := DMap (map (fun p => (DText false (fst p), DText false (snd p))) l).
Definition converter_value l := DStruct (lit "CharacterConverter") [(lit "items_map", chars_map l)].
Definition eliminator_value l := DStruct (lit "CharacterEliminator") [(lit "chars", DSet (map DChar l))].
Definition reducer_value c := DStruct (lit "ConsecutiveCharacterReducer") [(lit "c", DChar c)].
Definition ligature_value l := DStruct (lit "LigatureTranslator") [(lit "map", texts_map l)].
Inductive kind_value : modifier -> dval -> Prop :=
| kv_conv x l : Permutation x l -> kind_value (MConv x) (DTuple (lit "CharacterConverter") (converter_value l))
| kv_elim x l : Permutation x l -> kind_value (MElim x) (DTuple (lit "CharacterEliminator") (eliminator_value l))
| kv_red c : kind_value (MRed c) (DTuple (lit "ConsecutiveCharacterReducer") (reducer_value c))
| kv_dot : kind_value MDot (DTuple (lit "DottedSpaceEliminator") (DWord (lit "DottedSpaceEliminator")))
| kv_lig x l : Permutation x l -> kind_value (MLig x) (DTuple (lit "LigatureTranslator") (ligature_value l))
| kv_trim : kind_value MTrim (DTuple (lit "Trim") (DWord (lit "Trim")))
| kv_neo n a b c : Permutation (neo_conv n) a -> Permutation (neo_elim n) b -> Permutation (neo_lig n) c ->
    kind_value (MNeo n) (DTuple (lit "Neologdn") (DStruct (lit "Neologdn")
      [(lit "character_converter", converter_value a); (lit "consecutive", reducer_value (neo_red n));
       (lit "space_eliminater", DWord (lit "DottedSpaceEliminator")); (lit "character_eliminator", eliminator_value b);
       (lit "ligature_translator", ligature_value c)])).
Definition position_value (p : position) : dval :=
  DStruct (lit "Position")
    [(lit "from", DText false (p_from p)); (lit "to", DText false (p_to p)); (lit "index", DNum (p_index p)); (lit "length", DNum (p_length p));
     (lit "utf8_index", DNum (p_utf8_index p)); (lit "utf8_length", DNum (p_utf8_length p))].

(** ** The log lines; [sq]: whether paths escape single quotation marks. *)
Inductive line (sh : char -> bool) (sq : bool) : event -> str -> Prop :=
| li_env p (ex : bool) t : prints sh (DText sq p) t ->
    line sh sq (LEnv p ex) (lit "CHANOMARC: " ++ t ++ lit "; (exists: " ++ (if ex then lit "true" else lit "false") ++ lit ")")
| li_files ps t : prints sh (DList (map (DText sq) ps)) t -> line sh sq (LFiles ps) (lit "load files: " ++ t)
| li_record m text ps k t : kind_value m k ->
    prints sh (DStruct (lit "ModifiedRecord") [(lit "kind", k); (lit "text", DText false text); (lit "positions", DList (map position_value ps))]) t ->
    line sh sq (LRecord (Record m text ps)) t.
