(** What a part of YAML texts stands for, stated without the reader of YamlText.v: the assumption C87, C88 and C91 make about
    [serde_yaml]. *)
From Coq Require Import String.
From Verif Require Import Base StrOps Yaml File ParseProps.
Local Open Scope string_scope.
Local Open Scope list_scope.

(** ** Texts and numbers *)
Definition digit (c : char) : Prop := (0x30 <= c <= 0x39)%N.
(** Texts that start like a number in base 2, 8 or 16. *)
Definition based_number (s : str) : Prop := exists sign base r,
  (sign = [] \/ sign = lit "+" \/ sign = lit "-") /\ (base = lit "0x" \/ base = lit "0o" \/ base = lit "0b") /\ s = sign ++ base ++ r.
Definition any_case (s w : str) : Prop := Forall2 (fun c d => c = d \/ (c + 0x20 = d)%N) s w.
(** Texts that Rust reads as a floating point number. *)
Definition sign (s : str) : Prop := s = [] \/ s = lit "+" \/ s = lit "-".
Definition decimal (s : str) : Prop := exists before after exponent, s = before ++ after ++ exponent /\ Forall digit before /\
  (after = [] /\ before <> [] \/ exists ds, after = lit "." ++ ds /\ Forall digit ds /\ before ++ ds <> []) /\
  (exponent = [] \/ exists e g ds, exponent = [e] ++ g ++ ds /\ (e = 0x65%N \/ e = 0x45%N) /\ sign g /\ Forall digit ds /\ ds <> []).
Definition float (s : str) : Prop := exists g r, s = g ++ r /\ sign g /\ (decimal r \/ any_case r (lit "inf") \/ any_case r (lit "infinity") \/ any_case r (lit "nan")).
(** Words that some readers take for something else than a text. *)
Definition word (s : str) : Prop := In s (map lit ["yes"; "Yes"; "YES"; "no"; "No"; "NO"; "on"; "On"; "ON"; "off"; "Off"; "OFF";
  "true"; "True"; "TRUE"; "false"; "False"; "FALSE"; "null"; "Null"; "NULL"; "~"]).
(** Between double quotation marks [b] stands for [s]: characters stand for themselves, or there are escapes. *)
Definition shown (c : char) : Prop := (0x20 <= c <= 0x7E \/ (0xA0 <= c /\ c <> 0x2028 /\ c <> 0x2029 /\ c <> 0xFEFF))%N.
Definition quotable (c : char) : Prop := shown c /\ c <> 0x22%N /\ c <> 0x5C%N.
Definition hex (d : char) (n : nat) : Prop := nth_error (lit "0123456789abcdef") n = Some d \/ nth_error (lit "0123456789ABCDEF") n = Some d.
Definition escapes : list (char * char) := combine (lit """\btnfr") [0x22; 0x5C; 0x08; 0x09; 0x0A; 0x0C; 0x0D]%N.
Inductive quoted : str -> str -> Prop :=
| q_end : quoted [] []
| q_char c b s : quotable c -> quoted b s -> quoted (c :: b) (c :: s)
| q_escape e c b s : In (e, c) escapes -> quoted b s -> quoted (lit "\" ++ [e] ++ b) (c :: s)
| q_code c d1 d2 d3 d4 n1 n2 n3 n4 b s : hex d1 n1 -> hex d2 n2 -> hex d3 n3 -> hex d4 n4 ->
    c = N.of_nat (n1 * 4096 + n2 * 256 + n3 * 16 + n4) -> (c < 0xD800 \/ 0xE000 <= c)%N -> quoted b s ->
    quoted (lit "\u" ++ [d1; d2; d3; d4] ++ b) (c :: s).
(** Between single quotation marks everything stands for itself, but a quotation mark is written twice. *)
Inductive single : str -> str -> Prop :=
| s_end : single [] []
| s_char c b s : shown c -> c <> 0x27%N -> single b s -> single (c :: b) (c :: s)
| s_mark b s : single b s -> single (lit "''" ++ b) (0x27%N :: s).
(** Plain words: no indicator at the start, none of [: { } [ ] , #], quotation marks and backslashes anywhere, no space at an end,
    and not what some readers take for a number, a truth value or nothing. *)
Definition plain_word (s : str) : Prop := exists c r, s = c :: r /\ ~ In c (lit " &*?|-<>=!%@.") /\ last s c <> 0x20%N /\
  Forall (fun x => shown x /\ ~ In x (lit ":{}[],#`'""\")) s /\ ~ word s /\ ~ based_number s /\ ~ float s.
Definition written (t s : str) : Prop :=
  (exists b, t = [0x22%N] ++ b ++ [0x22%N] /\ quoted b s) \/ (exists b, t = [0x27%N] ++ b ++ [0x27%N] /\ single b s) \/ (t = s /\ plain_word s).
(** Decimal numbers without superfluous zeros. *)
Definition number (t : str) : Prop := exists sign ds fraction, t = sign ++ ds ++ fraction /\ (sign = [] \/ sign = lit "+") /\
  ds <> [] /\ Forall digit ds /\ (hd 0%N ds = 0x30%N -> ds = [0x30%N]) /\ (fraction = [] \/ exists f, fraction = lit "." ++ f /\ Forall digit f).
(** Not a text, for lack of quotation marks: a decimal number, a truth value or null. *)
Definition no_text (t : str) : Prop := number t \/ t = lit "true" \/ t = lit "false" \/ t = lit "null" \/ t = lit "~".
(** One text or number as it is written: [Some s] for the text [s], [None] for what is not a text. *)
Definition scalar (t : str) (o : option str) : Prop := match o with Some s => written t s | None => no_text t /\ List.length t <= 150 end.

(** ** Documents *)
Definition spaces (n : nat) : str := repeat 0x20%N n.
(** What one piece of text stands for: a text (quoted or plain), a number, a truth value, nothing. *)
Inductive scalar_is : str -> yval -> Prop :=
| sc_text t s : written t s -> scalar_is t (YStr s)
| sc_number t : number t -> List.length t <= 150 -> scalar_is t YNum
| sc_bool t : t = lit "true" \/ t = lit "false" -> scalar_is t YBool
| sc_null t : t = lit "null" \/ t = lit "~" -> scalar_is t YNull.
(** Keys: at most 999 characters; of the keys of a mapping no two are the same text, and at most one is not a text. *)
Definition key_is (t : str) (k : yval) : Prop := scalar_is t k /\ List.length t < 1000.
Definition key_text (k : yval) : option str := match k with YStr s => Some s | _ => None end.
Definition apart (ks : list yval) : Prop := NoDup (map key_text ks).
(** Sequences in brackets, mappings in braces, nested at will, on one line.  Within them, plain words do not contain question marks. *)
Definition fits (t : str) : Prop := (exists c r, t = c :: r /\ In c (lit "'""[{")) \/ ~ In 0x3F%N t.
Inductive inline_is : str -> yval -> Prop :=
| in_scalar t v : scalar_is t v -> inline_is t v
| in_no_seq i : inline_is (lit "[" ++ spaces i ++ lit "]") (YSeq [])
| in_seq t vs : listed_in t vs -> inline_is (lit "[" ++ t ++ lit "]") (YSeq vs)
| in_no_map i : inline_is (lit "{" ++ spaces i ++ lit "}") (YMap [])
| in_map t kvs : paired_in t kvs -> apart (map fst kvs) -> inline_is (lit "{" ++ t ++ lit "}") (YMap kvs)
with listed_in : str -> list yval -> Prop :=
| li_last i t v j : inline_is t v -> fits t -> listed_in (spaces i ++ t ++ spaces j) [v]
| li_more i t v j r vs : inline_is t v -> fits t -> listed_in r vs -> listed_in (spaces i ++ t ++ spaces j ++ lit "," ++ r) (v :: vs)
with paired_in : str -> list (yval * yval) -> Prop :=
| pi_last i K k q m V v j : scalar_is K k -> fits K -> List.length K + q < 1000 -> inline_is V v -> fits V ->
    paired_in (spaces i ++ K ++ spaces q ++ lit ":" ++ spaces (S m) ++ V ++ spaces j) [(k, v)]
| pi_more i K k q m V v j r kvs : scalar_is K k -> fits K -> List.length K + q < 1000 -> inline_is V v -> fits V -> paired_in r kvs ->
    paired_in (spaces i ++ K ++ spaces q ++ lit ":" ++ spaces (S m) ++ V ++ spaces j ++ lit "," ++ r) ((k, v) :: kvs).
Scheme inline_mut := Induction for inline_is Sort Prop with listed_mut := Induction for listed_in Sort Prop with paired_mut := Induction for paired_in Sort Prop.
Combined Scheme inline_ind3 from inline_mut, listed_mut, paired_mut.
(** Lines, given by their indentation and what follows it: a value at indentation [n], the elements of a sequence, the pairs of a mapping.
    The sequence after a key may stand at the indentation of the key. *)
Inductive block : nat -> list (nat * str) -> yval -> Prop :=
| b_inline n t v : inline_is t v -> block n [(n, t)] v
| b_seq n ls vs : vs <> [] -> elements n ls vs -> block n ls (YSeq vs)
| b_map n ls kvs : kvs <> [] -> apart (map fst kvs) -> pairs n ls kvs -> block n ls (YMap kvs)
with elements : nat -> list (nat * str) -> list yval -> Prop :=
| e_nil n : elements n [] []
| e_cons n i t child v ls vs : block (n + (2 + i)) ((n + (2 + i), t) :: child) v -> elements n ls vs -> elements n ((n, lit "- " ++ spaces i ++ t) :: child ++ ls) (v :: vs)
| e_null n ls vs : elements n ls vs -> elements n ((n, lit "-") :: ls) (YNull :: vs)
| e_block n m child v ls vs : n < m -> block m child v -> elements n ls vs -> elements n ((n, lit "-") :: child ++ ls) (v :: vs)
with pairs : nat -> list (nat * str) -> list (yval * yval) -> Prop :=
| p_nil n : pairs n [] []
| p_inline n K k i V v ls kvs : key_is K k -> inline_is V v -> pairs n ls kvs -> pairs n ((n, K ++ lit ":" ++ spaces (S i) ++ V) :: ls) ((k, v) :: kvs)
| p_null n K k ls kvs : key_is K k -> pairs n ls kvs -> pairs n ((n, K ++ lit ":") :: ls) ((k, YNull) :: kvs)
| p_block n K k m child v ls kvs : key_is K k -> n < m -> block m child v -> pairs n ls kvs -> pairs n ((n, K ++ lit ":") :: child ++ ls) ((k, v) :: kvs)
| p_seq n K k child vs ls kvs : key_is K k -> vs <> [] -> elements n child vs -> pairs n ls kvs -> pairs n ((n, K ++ lit ":") :: child ++ ls) ((k, YSeq vs) :: kvs).
Scheme block_mut := Induction for block Sort Prop with elements_mut := Induction for elements Sort Prop with pairs_mut := Induction for pairs Sort Prop.
Combined Scheme block_ind3 from block_mut, elements_mut, pairs_mut.
(** The lines of a text: these lines, and among them any number of blank lines and comments.  A line may end with spaces or a
    comment, and with a carriage return. *)
Definition line_end (e : str) : Prop := e = [] \/ e = [0x0D%N].
Inductive line_tail : str -> Prop :=
| lt_spaces i e : line_end e -> line_tail (spaces i ++ e)
| lt_comment i c e : Forall shown c -> line_end e -> line_tail (spaces (S i) ++ lit "#" ++ c ++ e).
Inductive layout : list (nat * str) -> list str -> Prop :=
| l_nil : layout [] []
| l_line n s e ls raw : line_tail e -> layout ls raw -> layout ((n, s) :: ls) ((spaces n ++ s ++ e) :: raw)
| l_blank n e ls raw : line_end e -> layout ls raw -> layout ls ((spaces n ++ e) :: raw)
| l_comment n c e ls raw : Forall shown c -> line_end e -> layout ls raw -> layout ls ((spaces n ++ lit "#" ++ c ++ e) :: raw).
(** Sequences and mappings nested at most [d] deep. *)
Inductive nested : nat -> yval -> Prop :=
| ns_scalar d v : (forall l, v <> YSeq l) -> (forall l, v <> YMap l) -> nested d v
| ns_seq d l : Forall (nested d) l -> nested (S d) (YSeq l)
| ns_map d l : Forall (fun kv => nested d (snd kv)) l -> nested (S d) (YMap l).
(** The text [t] stands for the value [v]; the first line may be [---]. *)
Definition document_text (t : str) (v : yval) : Prop := exists ls raw,
  nested 100 v /\ (exists n, block n ls v) /\ (layout ls raw \/ layout ((0, lit "---") :: ls) raw) /\ t = joined [0x0A%N] raw.

(** The file [p] contains the text [t]: if [t] stands for a value, [serde_yaml] finds that value. *)
Definition yaml_file (w : world) (p : path) (t : str) : Prop := forall v, document_text t v -> w_yaml w p = Some (Some v).
