(** Specification vocabulary for C104: places in the source, and the defects of a configuration that lead to a panic there. *)
From Verif Require Import Base Utf8 Corr Table Yaml File Spec FileSpec PathSpec ConfigSpec ParseSpec.

(** What the panic message names: file, line, column. *)
Record place := Place { in_file : str; line : nat; column : nat }.
Definition FILE := lit "src/file.rs".
Definition CONFIGURATION := lit "src/configuration.rs".
Definition MODIFIER_KIND := lit "src/modifier_kind.rs".
Definition CONVERTER := lit "src/modifier/character_converter.rs".
Definition ELIMINATOR := lit "src/modifier/character_eliminator.rs".
Definition REDUCER := lit "src/modifier/consecutive_character_reducer.rs".
Definition LIGATURE := lit "src/modifier/ligature_translator.rs".

Definition rc_without_extension := Place CONFIGURATION 112 51.
Definition rc_extension_not_text := Place CONFIGURATION 112 69.
Definition record_without_fields := Place FILE 26 39.
Definition items_not_mapping := Place FILE 66 46.
Definition items_sequence := Place FILE 68 46.
Definition items_element_not_text := Place FILE 69 53.
Definition items_list_key_not_text := Place FILE 69 76.
Definition items_value_not_text := Place FILE 72 53.
Definition items_key_not_text := Place FILE 72 76.
Definition modifiers_not_mapping := Place FILE 94 46.
Definition modifier_key_not_text := Place MODIFIER_KIND 119 28.
Definition converter_not_mapping := Place CONVERTER 106 14.
Definition converter_key_not_text := Place CONVERTER 109 38.
Definition converter_key_empty := Place CONVERTER 109 62.
Definition converter_value_not_text := Place CONVERTER 110 40.
Definition converter_value_empty := Place CONVERTER 110 64.
Definition item_from_empty := Place CONVERTER 161 46.
Definition item_to_empty := Place CONVERTER 162 44.
Definition eliminator_not_sequence := Place ELIMINATOR 42 14.
Definition eliminator_not_text := Place ELIMINATOR 44 33.
Definition eliminator_empty := Place ELIMINATOR 44 57.
Definition reducer_not_text := Place REDUCER 85 39.
Definition reducer_empty := Place REDUCER 92 34.
Definition ligature_not_mapping := Place LIGATURE 38 14.
Definition ligature_key_not_text := Place LIGATURE 41 38.
Definition ligature_value_not_text := Place LIGATURE 42 40.
Definition reducer_prefix := Place MODIFIER_KIND 46 26.
Definition reducer_open := Place MODIFIER_KIND 48 26.
Definition ligature_prefix := Place MODIFIER_KIND 57 26.
Definition ligature_open := Place MODIFIER_KIND 59 26.
Definition eliminator_prefix := Place MODIFIER_KIND 66 26.
Definition eliminator_open := Place MODIFIER_KIND 68 26.
Definition converter_prefix := Place MODIFIER_KIND 75 26.
Definition converter_open := Place MODIFIER_KIND 77 26.
Definition no_records := Place (lit "src/modifier.rs") 75 30.
Definition configuration_refused := Place (lit "src/main.rs") 25 9.
Definition nowhere := Place [] 0 0.

Definition text (v : yval) : Prop := exists s, v = YStr s.
Definition empty_text (v : yval) : Prop := v = YStr [].
Definition mapping (v : yval) : Prop := exists l, v = YMap l.
Definition sequence (v : yval) : Prop := exists l, v = YSeq l.
(** The first defect among [l]. *)
Definition first_bad {A} (bad : A -> place -> Prop) (l : list A) (p : place) : Prop :=
  exists pre x post, l = pre ++ x :: post /\ (forall y q, In y pre -> ~ bad y q) /\ bad x p.

(** An entry of [items]: the key is the replacement. *)
Inductive item_bad : yval * yval -> place -> Prop :=
| ib_element key pre v post : Forall text pre -> ~ text v -> pre = [] \/ text key -> item_bad (key, YSeq (pre ++ v :: post)) items_element_not_text
| ib_list_key key v post : text v -> ~ text key -> item_bad (key, YSeq (v :: post)) items_list_key_not_text
| ib_value key v : ~ sequence v -> ~ text v -> item_bad (key, v) items_value_not_text
| ib_key key v : text v -> ~ text key -> item_bad (key, v) items_key_not_text.
Definition items_bad (data : yval) (p : place) : Prop :=
  exists m, key_value data (lit "items") m /\ ((~ mapping m /\ p = items_not_mapping) \/ exists l, m = YMap l /\ first_bad item_bad l p).
(** An item with an empty side. *)
Inductive side_bad : item -> place -> Prop :=
| sb_from t : side_bad (Item [] t) item_from_empty
| sb_to f : f <> [] -> side_bad (Item f []) item_to_empty.

(** Entries below a modifier. *)
Inductive conversion_bad : yval * yval -> place -> Prop :=
| cb_key k v : ~ text k -> conversion_bad (k, v) converter_key_not_text
| cb_key_empty k v : empty_text k -> conversion_bad (k, v) converter_key_empty
| cb_value k v : text k -> ~ empty_text k -> ~ text v -> conversion_bad (k, v) converter_value_not_text
| cb_value_empty k v : text k -> ~ empty_text k -> empty_text v -> conversion_bad (k, v) converter_value_empty.
Inductive eliminated_bad : yval -> place -> Prop :=
| eb_text v : ~ text v -> eliminated_bad v eliminator_not_text
| eb_empty v : empty_text v -> eliminated_bad v eliminator_empty.
Inductive ligature_bad : yval * yval -> place -> Prop :=
| lb_key k v : ~ text k -> ligature_bad (k, v) ligature_key_not_text
| lb_value k v : text k -> ~ text v -> ligature_bad (k, v) ligature_value_not_text.
(** A modifier: name and value. *)
Inductive modifier_bad : yval * yval -> place -> Prop :=
| mb_key k v : ~ text k -> modifier_bad (k, v) modifier_key_not_text
| mb_conv v : ~ mapping v -> modifier_bad (YStr (lit "character_converter"), v) converter_not_mapping
| mb_conv_entry l p : first_bad conversion_bad l p -> modifier_bad (YStr (lit "character_converter"), YMap l) p
| mb_elim v : ~ sequence v -> modifier_bad (YStr (lit "character_eliminator"), v) eliminator_not_sequence
| mb_elim_entry l p : first_bad eliminated_bad l p -> modifier_bad (YStr (lit "character_eliminator"), YSeq l) p
| mb_red v : ~ text v -> modifier_bad (YStr (lit "consecutive_character_reducer"), v) reducer_not_text
| mb_red_empty v : empty_text v -> modifier_bad (YStr (lit "consecutive_character_reducer"), v) reducer_empty
| mb_lig v : ~ mapping v -> modifier_bad (YStr (lit "ligature_translator"), v) ligature_not_mapping
| mb_lig_entry l p : first_bad ligature_bad l p -> modifier_bad (YStr (lit "ligature_translator"), YMap l) p.
(** A modifier refused with an error: an unknown name, or a value where none may stand. *)
Definition without_value : list str := [lit "dotted_space_eliminator"; lit "trim"; lit "neologdn"].
Definition with_value : list str := [lit "character_converter"; lit "character_eliminator"; lit "consecutive_character_reducer"; lit "ligature_translator"].
Inductive modifier_refused : yval * yval -> Prop :=
| mr_unknown s v : ~ In s without_value -> ~ In s with_value -> modifier_refused (YStr s, v)
| mr_value s v : In s without_value -> v <> YNull -> modifier_refused (YStr s, v).
Definition modifiers_bad (data : yval) (p : place) : Prop :=
  exists m, key_value data (lit "modifiers") m /\ ((~ mapping m /\ p = modifiers_not_mapping) \/
    exists pre x post, m = YMap (pre ++ x :: post) /\ (forall y, In y pre -> ~ modifier_refused y /\ forall q, ~ modifier_bad y q) /\ modifier_bad x p).

(** A configuration file. *)
Inductive file_bad (w : world) (f : path) : place -> Prop :=
| fb_record h pre post : has_extension f (lit "csv") -> w_csv w f = Some (h :: map CsvFields pre ++ CsvFields [] :: post) -> h <> CsvIoError -> ~ In [] pre ->
    file_bad w f record_without_fields
| fb_row recs rows items p : has_extension f (lit "csv") -> w_csv w f = Some recs -> hd_error recs <> Some CsvIoError -> tl recs = map CsvFields rows -> rows_items rows items ->
    first_bad side_bad items p -> file_bad w f p
| fb_items data p : is_yaml f -> w_yaml w f = Some (Some data) -> items_bad data p -> file_bad w f p
| fb_side data items p : is_yaml f -> w_yaml w f = Some (Some data) -> items_described data items -> first_bad side_bad items p -> file_bad w f p
| fb_modifiers data items p : is_yaml f -> w_yaml w f = Some (Some data) -> items_described data items -> no_empty_string items -> modifiers_bad data p -> file_bad w f p.
(** All that is loaded at start. *)
Inductive configuration_bad (w : world) : place -> Prop :=
| kb_extension s : w_env w = EnvUnicode s -> w_is_file w s = true -> (forall e, ~ has_extension s e) -> configuration_bad w rc_without_extension
| kb_env s p : w_env w = EnvUnicode s -> w_is_file w s = true -> has_extension s (lit "csv") \/ has_extension s (lit "yaml") -> file_bad w s p -> configuration_bad w p
| kb_found pre f post p : chanomarc_unset w -> filter (w_is_file w) (candidates (w_home w) (w_cwd w)) = pre ++ f :: post -> (forall q, In q pre -> exists e, file_effect w q e) ->
    file_bad w f p -> configuration_bad w p.

(** A description of a modifier. *)
Inductive string_bad : str -> place -> Prop :=
| xb_reducer r : (forall a, r <> a ++ [rparen]) -> string_bad (lit "consecutive_character_reducer(" ++ r) reducer_open
| xb_reducer_empty : string_bad (lit "consecutive_character_reducer()") reducer_empty
| xb_ligature r : (forall a, r <> a ++ [rparen]) -> string_bad (lit "ligature_translator(" ++ r) ligature_open
| xb_eliminator r : (forall a, r <> a ++ [rparen]) -> string_bad (lit "character_eliminator(" ++ r) eliminator_open
| xb_converter r : (forall a, r <> a ++ [rparen]) -> string_bad (lit "character_converter(" ++ r) converter_open.
