(** Specification vocabulary for tables read from files. *)
From Verif Require Import Base Corr Table Yaml Spec.

(** A CSV row [f1, ..., fn, t] stands for the items [fi -> t]. *)
Definition row_of (row : list str) (part : list item) : Prop :=
  exists fs t, row = fs ++ [t] /\ part = map (fun f => Item f t) fs.
Definition rows_items (rows : list (list str)) (items : list item) : Prop :=
  exists parts, Forall2 row_of rows parts /\ items = concat parts.

(** The (first) value of the string key [k] of a YAML document. *)
Definition key_value (data : yval) (k : str) (v : yval) : Prop :=
  exists l1 l2, data = YMap (l1 ++ (YStr k, v) :: l2) /\ forall v', ~ In (YStr k, v') l1.
(** One entry of [items]: replacement string, and the string or strings to be replaced. *)
Inductive entry_items : yval * yval -> list item -> Prop :=
| ei_one t f : entry_items (YStr t, YStr f) [Item f t]
| ei_many t fs : entry_items (YStr t, YSeq (map YStr fs)) (map (fun f => Item f t) fs)
| ei_none k : entry_items (k, YSeq []) [].
(** The items a YAML document describes. *)
Definition items_described (data : yval) (items : list item) : Prop :=
  ((forall v, ~ key_value data (lit "items") v) /\ items = []) \/
  exists l parts, key_value data (lit "items") (YMap l) /\ Forall2 entry_items l parts /\ items = concat parts.

(** ** Modifiers described in YAML *)
(** [out] is [s] without the characters in [P]. *)
Inductive removed (P : char -> Prop) : str -> str -> Prop :=
| rem_nil : removed P [] []
| rem_keep c s out : ~ P c -> removed P s out -> removed P (c :: s) (c :: out)
| rem_drop c s out : P c -> removed P s out -> removed P (c :: s) out.
(** [m] lists every key of [l] once, with its last value. *)
Definition last_bindings (l m : list (str * str)) : Prop :=
  NoDup (map fst m) /\
  forall k v, In (k, v) m <-> exists l1 l2, l = l1 ++ (k, v) :: l2 /\ ~ In k (map fst l2).
(** What an entry of [modifiers] does to a text. *)
Definition effect := str -> str -> Prop.
Inductive entry_effect : yval * yval -> effect -> Prop :=
| ee_converter items : Forall (fun it => from it <> [] /\ to it <> []) items ->
    entry_effect (YStr (lit "character_converter"), YMap (map (fun it => (YStr (from it), YStr (to it))) items))
                 (pointwise (last_match items))
| ee_eliminator ss : Forall (fun x => x <> []) ss ->
    entry_effect (YStr (lit "character_eliminator"), YSeq (map YStr ss))
                 (removed (fun c => exists x, In x ss /\ begins x c))
| ee_reducer c r : entry_effect (YStr (lit "consecutive_character_reducer"), YStr (c :: r)) (collapsed c)
| ee_ligature l :
    entry_effect (YStr (lit "ligature_translator"), YMap (map (fun kv => (YStr (fst kv), YStr (snd kv))) l))
                 (fun s out => exists m, last_bindings l m /\ applied_in_turn m s out)
| ee_dotted : entry_effect (YStr (lit "dotted_space_eliminator"), YNull) (undotted None)
| ee_trim : entry_effect (YStr (lit "trim"), YNull) trimmed
| ee_neologdn : entry_effect (YStr (lit "neologdn"), YNull) neologdn_result.
Definition modifier_names : list str :=
  [lit "character_converter"; lit "character_eliminator"; lit "consecutive_character_reducer";
   lit "ligature_translator"; lit "dotted_space_eliminator"; lit "trim"; lit "neologdn"].
Definition names_without_value : list str := [lit "dotted_space_eliminator"; lit "trim"; lit "neologdn"].
(** Entries refused with an error. *)
Inductive entry_error : yval * yval -> error -> Prop :=
| er_unknown name v : ~ In name modifier_names ->
    entry_error (YStr name, v) (ModifierKindParseError (lit "specified key " ++ name ++ lit " does not exists."))
| er_value name v : In name names_without_value -> v <> YNull ->
    entry_error (YStr name, v) (ModifierKindParseError (lit "Cannot specify a value.")).
(** The effects a YAML document describes. *)
Definition modifiers_described (data : yval) (effs : list effect) : Prop :=
  ((forall v, ~ key_value data (lit "modifiers") v) /\ effs = []) \/
  exists l, key_value data (lit "modifiers") (YMap l) /\ Forall2 entry_effect l effs.
(** Effects one after the other. *)
Fixpoint in_sequence (effs : list effect) (s out : str) : Prop :=
  match effs with
  | [] => out = s
  | e :: r => exists mid, e s mid /\ in_sequence r mid out
  end.

(** ** Items *)
Definition no_empty_string (items : list item) : Prop := Forall (fun it => from it <> [] /\ to it <> []) items.
