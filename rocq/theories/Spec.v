(** Specification vocabulary, written without reference to the algorithms of the model. *)
From Verif Require Import Base Utf8 Corr Table Position CharSpec.

(** ** Substitution tables *)

(** The first character of a string is [c]. *)
Definition begins (s : str) (c : char) : Prop := exists r, s = c :: r.

(** Among [items] (in order), the last one whose [from] begins with [c] exists and its [to] begins
    with [t]. *)
Definition last_match (items : list item) (c t : char) : Prop :=
  exists l1 it l2, items = l1 ++ it :: l2 /\ begins (from it) c /\ begins (to it) t /\
    Forall (fun it' => ~ begins (from it') c) l2.
(** No item has a [from] beginning with [c]. *)
Definition no_match (items : list item) (c : char) : Prop :=
  Forall (fun it => ~ begins (from it) c) items.

(** [out] is [s] with every character replaced according to the relation [R] (a character without
    an [R]-image stays), same length, nothing reordered. *)
Definition pointwise (R : char -> char -> Prop) (s out : str) : Prop :=
  Forall2 (fun c d => R c d \/ (d = c /\ forall t, ~ R c t)) s out.

(** Byte and character slices of an input. *)
Definition cut {A} (i n : nat) (l : list A) : list A := firstn n (skipn i l).

(** All items of a list of tables, in order. *)
Definition tables_items (ts : list table) : list item := concat (map t_corr ts).

(** ** Runs *)

(** Every maximal run of [c] becomes one [c]; everything else stays. *)
Inductive collapsed (c : char) : str -> str -> Prop :=
| col_nil : collapsed c [] []
| col_other x s out : x <> c -> collapsed c s out -> collapsed c (x :: s) (x :: out)
| col_run n s out : n > 0 -> hd_error s <> Some c -> collapsed c s out ->
    collapsed c (repeat c n ++ s) (c :: out).

(** Characters [i .. i+n) of [s] are a maximal run of [c]. *)
Definition maximal_run (c : char) (s : str) (i n : nat) : Prop :=
  n > 0 /\ i + n <= length s /\ cut i n s = repeat c n /\
  (i = 0 \/ nth_error s (i - 1) <> Some c) /\ nth_error s (i + n) <> Some c.

Fixpoint increasing (l : list nat) : Prop :=
  match l with
  | [] => True
  | x :: r => (match r with [] => True | y :: _ => x < y end) /\ increasing r
  end.

(** The list of all maximal runs (start, length), from left to right. *)
Definition all_runs (c : char) (s : str) (rs : list (nat * nat)) : Prop :=
  increasing (map fst rs) /\ forall i n, In (i, n) rs <-> maximal_run c s i n.

(** ** Spaces *)
Definition space : char := 0x20%N.
(** ASCII letters and digits *)
Definition alnum (c : char) : Prop :=
  (48 <= c <= 57)%N \/ (65 <= c <= 90)%N \/ (97 <= c <= 122)%N.
Definition alnum_opt (x : option char) : Prop := exists c, x = Some c /\ alnum c.

(** [undotted p s out]: [out] is [s], preceded by [p], with every maximal run of spaces replaced by
    one space if it is between ASCII letters/digits and removed otherwise. *)
Inductive undotted : option char -> str -> str -> Prop :=
| und_nil p : undotted p [] []
| und_char p x s out : x <> space -> undotted (Some x) s out -> undotted p (x :: s) (x :: out)
| und_keep p n s out : n > 0 -> hd_error s <> Some space ->
    alnum_opt p -> alnum_opt (hd_error s) -> undotted (Some space) s out ->
    undotted p (repeat space n ++ s) (space :: out)
| und_drop p n s out : n > 0 -> hd_error s <> Some space ->
    ~ (alnum_opt p /\ alnum_opt (hd_error s)) -> undotted (Some space) s out ->
    undotted p (repeat space n ++ s) out.

(** Every space stands between two ASCII letters/digits. *)
Definition spaces_between (s : str) : Prop :=
  forall a b, s = a ++ space :: b -> alnum_opt (hd_error (rev a)) /\ alnum_opt (hd_error b).

(** [out] is [s] without its leading and trailing spaces. *)
Definition trimmed (s out : str) : Prop :=
  hd_error out <> Some space /\ hd_error (rev out) <> Some space /\
  exists a b, s = repeat space a ++ out ++ repeat space b.

(** ** Positions of a table conversion *)
(** The entry for the character number [i] of [s]. *)
Definition substitution_entry (R : char -> char -> Prop) (s : str) (p : position) : Prop :=
  exists i c t, nth_error s i = Some c /\ R c t /\
    p_from p = [c] /\ p_to p = [t] /\ p_index p = i /\ p_utf8_index p = length (encode (firstn i s)) /\
    p_length p = length (encode [c]) /\ p_utf8_length p = 1.
(** All substituted characters, each exactly once. *)
Definition exact_positions (R : char -> char -> Prop) (s : str) (ps : list position) : Prop :=
  NoDup ps /\ forall p, In p ps <-> substitution_entry R s p.
(** Replace the character number [index] by [to]. *)
Definition apply_entry (s : str) (p : position) : str :=
  firstn (p_index p) s ++ p_to p ++ skipn (p_index p + 1) s.

(** ** Trim *)
(** [s] is [a] spaces, [out], [b] spaces; a text of spaces only counts as leading. *)
Definition trim_parts (s : str) (a : nat) (out : str) (b : nat) : Prop :=
  s = repeat space a ++ out ++ repeat space b /\ hd_error out <> Some space /\
  hd_error (rev out) <> Some space /\ (out = [] -> b = 0).

(** Entries (from, to, index, length, utf8_index, utf8_length) for a removed prefix of [a] spaces and
    a removed suffix of [b] spaces: [index]/[length] in bytes, [utf8_index]/[utf8_length] in characters. *)
Definition trim_positions (a : nat) (out : str) (b : nat) : list position :=
  (if Nat.eqb a 0 then [] else [Pos (repeat space a) [] 0 a 0 a]) ++
  (if Nat.eqb b 0 then [] else
     [Pos (repeat space b) [] (length (encode (repeat space a ++ out))) b (length (repeat space a ++ out)) b]).

(** Cut out the range of an entry: by character offsets, by byte offsets. *)
Definition delete_chars (p : position) (s : str) : str :=
  firstn (p_utf8_index p) s ++ skipn (p_utf8_index p + p_utf8_length p) s.
Definition delete_bytes (p : position) (s : list N) : list N :=
  firstn (p_index p) s ++ skipn (p_index p + p_length p) s.


(** ** Order of strings and items *)
Inductive lex_lt : str -> str -> Prop :=
| lex_nil x b : lex_lt [] (x :: b)
| lex_head x y a b : (x < y)%N -> lex_lt (x :: a) (y :: b)
| lex_tail x a b : lex_lt a b -> lex_lt (x :: a) (x :: b).
Definition item_lt (a b : item) : Prop :=
  lex_lt (from a) (from b) \/ (from a = from b /\ lex_lt (to a) (to b)).
Definition item_le (a b : item) : Prop := a = b \/ item_lt a b.
Fixpoint ordered {A} (R : A -> A -> Prop) (l : list A) : Prop :=
  match l with [] => True | x :: r => Forall (R x) r /\ ordered R r end.

(** The set of items of a correspondence, for every hash order. *)
Definition has_items (c : corr) (P : item -> Prop) : Prop := forall o it, In it (c o) <-> P it.

(** Tables built from an empty builder by adding and removing correspondences, with the set of items
    they should have.  ([preset] is adding [ALL].) *)
Inductive built : table -> (item -> Prop) -> Prop :=
| built_new : built table_new (fun _ => False)
| built_add o t P c Q : built t P -> has_items c Q -> built (table_add o t c) (fun it => P it \/ Q it)
| built_remove o t P c Q : built t P -> has_items c Q ->
    built (table_remove o t c) (fun it => P it /\ ~ Q it).

(** The greatest item of [P] whose [from] begins with [c] has a [to] beginning with [t]. *)
Definition greatest_match (P : item -> Prop) (c t : char) : Prop :=
  exists it, P it /\ begins (from it) c /\ begins (to it) t /\
    forall it', P it' -> begins (from it') c -> item_le it' it.

(** ** Character maps of the presets *)
(** Full-width ASCII covered by the preset. *)
Definition fullwidth_ascii (c : char) : Prop :=
  (0xFF01 <= c <= 0xFF5D)%N /\ c <> 0xFF02%N /\ c <> 0xFF07%N.
(** [preset_rel c t]: the preset turns [c] into [t]. *)
Inductive preset_rel : char -> char -> Prop :=
| pr_fullwidth c : fullwidth_ascii c -> preset_rel c (c - 0xFEE0)%N
| pr_halfwidth i t : nth_error halfwidth_forms i = Some t -> i <> 15 -> preset_rel (0xFF61 + N.of_nat i)%N t
| pr_yen : preset_rel 0xFFE5%N 0xA5%N
| pr_quote : preset_rel 0x201D%N 0x22%N
| pr_apostrophe : preset_rel 0x2019%N 0x27%N
| pr_tilde : preset_rel 0x301C%N 0x7E%N
| pr_space : preset_rel 0x3000%N 0x20%N.
(** [neologdn_rel c t]: the conversion stage of neologdn turns [c] into [t]. *)
Definition dash_variants : list char := [0xFE63; 0xFF70; 0x2014; 0x2015; 0x2500; 0x2501]%N.
Definition hyphen_variants : list char :=
  [0x2D7; 0x58A; 0x2010; 0x2011; 0x2012; 0x2013; 0x2043; 0x207B; 0x208B; 0x2212; 0xFF0D]%N.
Definition tilde_variants : list char := [0x7E; 0x223C; 0x223E; 0x301C; 0x3030; 0xFF5E]%N.
Definition prolonged_mark : char := 0x30FC%N.
Inductive neologdn_rel : char -> char -> Prop :=
| nr_preset c t : c <> 0xFF1D%N -> preset_rel c t -> neologdn_rel c t
| nr_dash c : In c dash_variants -> neologdn_rel c prolonged_mark
| nr_hyphen c : In c hyphen_variants -> neologdn_rel c 0x2D%N.

(** ** Simultaneous replacement *)
Definition prefix_of (p s : str) : Prop := exists r, s = p ++ r.
(** [replaced R s out]: scanning [s] from the left, a key of [R] found at the current place is replaced
    by its value and the scan resumes after it; a character where no key begins is copied. *)
Inductive replaced (R : str -> str -> Prop) : str -> str -> Prop :=
| rep_nil : replaced R [] []
| rep_hit k v s out : k <> [] -> R k v -> replaced R s out -> replaced R (k ++ s) (v ++ out)
| rep_miss x s out : (forall k v, R k v -> ~ prefix_of k (x :: s)) -> replaced R s out ->
    replaced R (x :: s) (x :: out).
(** [p] occurs in [s] at offset [i]. *)
Definition occurs_at (p s : str) (i : nat) : Prop := exists a b, s = a ++ p ++ b /\ length a = i.
Definition occurs (p s : str) : Prop := exists i, occurs_at p s i.
(** Occurrences of [p] and [q] in one text never share a character. *)
Definition never_overlap (p q : str) : Prop :=
  forall s i j, occurs_at p s i -> occurs_at q s j -> i + length p <= j \/ j + length q <= i.
(** Keys and values of a map do not interfere. *)
Definition non_interfering (m : list (str * str)) : Prop :=
  (forall k v, In (k, v) m -> k <> [] /\ v <> []) /\
  (forall k v k' v', In (k, v) m -> In (k', v') m -> k <> k' -> never_overlap k k') /\
  (forall k v k' v' x, In (k, v) m -> In (k', v') m -> In x v -> ~ In x k').

(** ** Composition of kana and sound marks *)
Definition voiced_mark : char := 0x309B%N.
Definition semivoiced_mark : char := 0x309C%N.
(** Kana with a voiced form that neologdn does not compose: iteration marks and wa-row katakana. *)
Definition uncomposed : list char := [0x309D; 0x30FD; 0x30EF; 0x30F0; 0x30F1; 0x30F2]%N.
Definition composes (a m t : char) : Prop :=
  (m = voiced_mark /\ In (a, t) voiced_forms /\ ~ In a uncomposed) \/
  (m = semivoiced_mark /\ In (a, t) semivoiced_forms).
(** The entries applied one after the other, each by a left-to-right replacement; an empty key inserts
    its value before every character and at the end. *)
Definition inserted (v s out : str) : Prop := out = concat (map (fun c => v ++ [c]) s) ++ v.
Inductive applied_in_turn : list (str * str) -> str -> str -> Prop :=
| ait_nil s : applied_in_turn [] s s
| ait_key k v l s t out : k <> [] -> replaced (fun k' v' => k' = k /\ v' = v) s t ->
    applied_in_turn l t out -> applied_in_turn ((k, v) :: l) s out
| ait_empty v l s t out : inserted v s t -> applied_in_turn l t out -> applied_in_turn (([], v) :: l) s out.

(** ** Neologdn *)
Definition not_tilde (c : char) : bool := negb (existsb (N.eqb c) tilde_variants).
Definition composition (k v : str) : Prop := exists a m t, k = [a; m] /\ v = [t] /\ composes a m t.
(** The documented result: convert characters, collapse prolonged sound marks, remove spaces, remove
    tildes, compose kana with sound marks. *)
Definition neologdn_result (s out : str) : Prop :=
  exists a b c, pointwise neologdn_rel s a /\ collapsed prolonged_mark a b /\ undotted None b c /\
    replaced composition (filter not_tilde c) out.
(** Shape of a neologdn result. *)
Definition neologdn_shape (s : str) : Prop :=
  (forall c t, In c s -> ~ neologdn_rel c t) /\
  (forall c, In c s -> ~ In c tilde_variants) /\
  (forall a m t, composes a m t -> ~ occurs [a; m] s) /\
  spaces_between s.
(** No two adjacent prolonged sound marks. *)
Definition no_double_mark (s : str) : Prop := ~ occurs [prolonged_mark; prolonged_mark] s.

(** ** CJK compatibility squares *)
(** Replacements that differ from NFKC (Unicode): all replacements of the listed character. *)
Definition cjk_override : list (char * list str) :=
  (** micro sign instead of Greek mu *)
  [(0x3382, [[0xB5; 0x41]]); (0x338C, [[0xB5; 0x46]]); (0x338D, [[0xB5; 0x67]]); (0x3395, [[0xB5; 0x6C]]);
   (0x339B, [[0xB5; 0x6D]]); (0x33B2, [[0xB5; 0x73]]); (0x33B6, [[0xB5; 0x56]]); (0x33BC, [[0xB5; 0x57]]);
   (** ASCII slash instead of the division slash *)
   (0x33A7, [lit "m/s"]); (0x33A8, [lit "m/s2"]); (0x33AE, [lit "rad/s"]); (0x33AF, [lit "rad/s2"]);
   (0x33C6, [lit "C/kg"]); (0x33DE, [lit "V/m"]); (0x33DF, [lit "A/m"]);
   (** other letter case *)
   (0x33D7, [lit "pH"]); (0x33D9, [lit "ppm"]);
   (** wrong *)
   (0x339F, [lit "mm"]); (0x33CD, [lit "K."]); (0x33A3, [lit "mm3"; lit "cm3"]); (0x33A4, [])]%N.
Definition cjk_rel (c : char) (v : str) : Prop :=
  (exists i, c = (0x3300 + N.of_nat i)%N /\ nth_error cjk_forms i = Some v /\ ~ In c (map fst cjk_override)) \/
  (exists l, In (c, l) cjk_override /\ In v l).
