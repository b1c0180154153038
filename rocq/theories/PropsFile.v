(** Properties C39-C43: tables and modifiers read from files. *)
From Coq Require Import String.
From Verif Require Import Base BaseFacts StrOps Corr Table Charset Converter ModifierKind Yaml File ChanomaModel
  CharSpec Spec CorrProps PropsConverter PropsPipeline FileSpec FileProps YamlProps.

Local Open Scope string_scope.
Local Open Scope list_scope.
Definition ex_path : path := lit "/t".
(** A world in which every path is the given file. *)
Definition csv_world (recs : list csv_record) : world :=
  World (fun _ => true) (fun _ => Some recs) (fun _ => None) (fun p => Some p) EnvAbsent None None.
Definition yaml_world (data : yval) : world :=
  World (fun _ => true) (fun _ => None) (fun _ => Some (Some data)) (fun p => Some p) EnvAbsent None None.
Definition fields (l : list string) : csv_record := CsvFields (map lit l).

(** ** C39 *)
Theorem C39_csv_loads_iff : forall w p t, table_from_csv_path w p = Ok t <->
  exists recs rows, w_csv w p = Some recs /\ hd_error recs <> Some CsvIoError /\ tl recs = map CsvFields rows /\
    rows_items rows (table_items t) /\ t_origin t = OriginFile p.
Proof. exact C39_iff. Qed.
Print Assumptions C39_csv_loads_iff.
(** The CSV reader yields no record without fields. *)
Theorem C39_csv_otherwise_error : forall w p, (forall recs, w_csv w p = Some recs -> ~ In (CsvFields []) (tl recs)) ->
  table_from_csv_path w p = Err CsvFileLoadError \/ exists t, table_from_csv_path w p = Ok t.
Proof. exact C39_fail. Qed.
Print Assumptions C39_csv_otherwise_error.
Theorem C39_unreadable_row : forall w p recs r, w_csv w p = Some recs -> In r (tl recs) ->
  r = CsvNotUtf8 \/ r = CsvIoError -> (~ In (CsvFields []) (tl recs)) -> table_from_csv_path w p = Err CsvFileLoadError.
Proof.
  intros w p recs r H Hr E Hn. destruct (C39_fail w p) as [F|(t & F)]; [|exact F|].
  - intros recs' H'. rewrite H in H'. injection H' as <-. exact Hn.
  - apply C39_iff in F as (recs' & rows & H' & _ & F & _). rewrite H in H'. injection H' as <-. rewrite F in Hr.
    apply in_map_iff in Hr as (x & <- & _). destruct E; discriminate.
Qed.
Print Assumptions C39_unreadable_row.
Example C39_case :
  table_from_csv_path (csv_world [fields ["x"; "y"]; fields ["a"; "b"; "c"]; fields ["q"]; fields ["d"; "e"]]) ex_path =
    Ok (Table [Item (lit "a") (lit "c"); Item (lit "b") (lit "c"); Item (lit "d") (lit "e")] (OriginFile ex_path)) /\
  table_from_csv_path (csv_world [fields ["x"; "y"]; fields ["a"; "b"; "c"]; CsvNotUtf8]) ex_path = Err CsvFileLoadError /\
  table_from_csv_path (csv_world [CsvNotUtf8; fields ["a"; "b"]]) ex_path = Ok (Table [Item (lit "a") (lit "b")] (OriginFile ex_path)).
Proof. repeat split. Qed.

(** ** C40 *)
Theorem C40_export_drops_first_group : forall o c w p, w_csv w p = Some (map CsvFields (to_csv_records o c)) ->
  exists t lost, table_from_csv_path w p = Ok t /\ Permutation (table_items t ++ lost) (c o) /\
    (c o <> [] -> lost <> []) /\
    (forall a b, In a lost -> In b lost -> to a = to b) /\
    (forall a b, In a lost -> In b (table_items t) -> lex_lt (to a) (to b)).
Proof. exact C40_drop. Qed.
Print Assumptions C40_export_drops_first_group.
Theorem C40_with_header : forall o c w p h, h <> CsvIoError ->
  w_csv w p = Some (h :: map CsvFields (to_csv_records o c)) ->
  exists t, table_from_csv_path w p = Ok t /\ Permutation (table_items t) (c o).
Proof. exact C40_header. Qed.
Print Assumptions C40_with_header.
Definition ex_items : list item := [Item (lit "b") (lit "z"); Item (lit "a") (lit "y"); Item (lit "c") (lit "y")].
Theorem C40_roundtrip_refuted : exists o c w p t, w_csv w p = Some (map CsvFields (to_csv_records o c)) /\
  table_from_csv_path w p = Ok t /\ ~ Permutation (table_items t) (c o).
Proof.
  exists no_order, (synth ex_items), (csv_world (map CsvFields (to_csv_records no_order (synth ex_items)))), ex_path.
  eexists. split; [reflexivity|]. split; [vm_compute; reflexivity|]. intros P. apply Permutation_length in P. discriminate.
Qed.
Print Assumptions C40_roundtrip_refuted.
Example C40_case : to_csv_records no_order (synth ex_items) = [map lit ["a"; "c"; "y"]; map lit ["b"; "z"]] /\
  table_from_csv_path (csv_world (map CsvFields (to_csv_records no_order (synth ex_items)))) ex_path =
    Ok (Table [Item (lit "b") (lit "z")] (OriginFile ex_path)).
Proof. split; vm_compute; reflexivity. Qed.

(** ** C41 *)
Theorem C41_yaml_roundtrip : forall o c w p, w_yaml w p = Some (Some (to_serialized_corr o c)) ->
  exists t, table_from_yaml_path w p = Ok t /\ Permutation (table_items t) (c o).
Proof. exact C41_lemma. Qed.
Print Assumptions C41_yaml_roundtrip.
Theorem C41_builder_roundtrip : forall o c P w p, has_items c P -> w_yaml w p = Some (Some (to_serialized_corr o c)) ->
  forall o1 o2 t, add_from_yaml o1 w p t = Ok (table_add o2 t c).
Proof. exact C41_builder. Qed.
Print Assumptions C41_builder_roundtrip.
Example C41_case : table_from_yaml_path (yaml_world (to_serialized_corr no_order (synth ex_items))) ex_path =
    Ok (Table [Item (lit "a") (lit "y"); Item (lit "c") (lit "y"); Item (lit "b") (lit "z")] (OriginFile ex_path)) /\
  (exists P, has_items (synth ex_items) P) /\
  add_from_yaml no_order (yaml_world (to_serialized_corr no_order (synth ex_items))) ex_path table_new =
    Ok (table_add other_order table_new (synth ex_items)).
Proof.
  split; [vm_compute; reflexivity|]. split; [|vm_compute; reflexivity].
  exists (fun it => In it ex_items). intros o it. reflexivity.
Qed.

(** ** C42 *)
Theorem C42_yaml_loads_iff : forall w p t, table_from_yaml_path w p = Ok t <->
  exists data, w_yaml w p = Some (Some data) /\ items_described data (table_items t) /\ t_origin t = OriginFile p.
Proof. exact C42_iff. Qed.
Print Assumptions C42_yaml_loads_iff.
Theorem C42_otherwise : forall w p,
  (w_yaml w p = None -> table_from_yaml_path w p = Err IoError) /\
  (w_yaml w p = Some None -> table_from_yaml_path w p = Err YamlFileLoadError) /\
  (forall data, w_yaml w p = Some (Some data) -> (forall items, ~ items_described data items) ->
    table_from_yaml_path w p = Panic).
Proof. exact C42_fail. Qed.
Print Assumptions C42_otherwise.
(** Every document whose [items] is a list, in particular the documented list of [{from, to}]. *)
Theorem C42_list_format_panics : forall w p data l, w_yaml w p = Some (Some data) -> key_value data (lit "items") (YSeq l) ->
  table_from_yaml_path w p = Panic.
Proof.
  intros w p data l H K. apply (C42_fail w p) with data; [exact H|]. intros items [[N _]|(m & parts & K' & _)].
  - exact (N _ K).
  - pose proof (key_value_det _ _ _ _ K K'). discriminate.
Qed.
Print Assumptions C42_list_format_panics.
Definition documented_item (f t : string) : yval := YMap [(YStr (lit "from"), YStr (lit f)); (YStr (lit "to"), YStr (lit t))].
Definition documented_items : yval := YMap [(YStr (lit "items"), YSeq [documented_item "a" "b"; documented_item "c" "d"])].
Theorem C42_documented_format_refuted : exists w p, w_yaml w p = Some (Some documented_items) /\ table_from_yaml_path w p = Panic.
Proof. exists (yaml_world documented_items), ex_path. split; reflexivity. Qed.
Print Assumptions C42_documented_format_refuted.
Example C42_case : table_from_yaml_path
    (yaml_world (YMap [(YStr (lit "modifiers"), YNull);
       (YStr (lit "items"), YMap [(YStr (lit "x"), YSeq [YStr (lit "a"); YStr (lit "b")]); (YNum, YSeq []); (YStr (lit "y"), YStr (lit "c"))])])) ex_path =
  Ok (Table [Item (lit "a") (lit "x"); Item (lit "b") (lit "x"); Item (lit "c") (lit "y")] (OriginFile ex_path)) /\
  table_from_yaml_path (yaml_world (YMap [(YStr (lit "items"), YMap [(YNum, YStr (lit "c"))])])) ex_path = Panic.
Proof. split; reflexivity. Qed.

(** ** C43 *)
(** Loaded modifiers are the described ones, in document order. *)
Theorem C43_loads : forall o w p ms, modifiers_from_yaml_path o w p = Ok ms ->
  exists data effs, w_yaml w p = Some (Some data) /\ modifiers_described data effs /\
    Forall2 (fun m e => constructible m /\ forall s out, result [m] s out <-> e s out) ms effs.
Proof. exact C43_ok. Qed.
Print Assumptions C43_loads.
Theorem C43_loads_if : forall o w p data effs, w_yaml w p = Some (Some data) -> modifiers_described data effs ->
  exists ms, modifiers_from_yaml_path o w p = Ok ms.
Proof.
  intros o w p data effs H D. unfold modifiers_from_yaml_path, read_yaml. rewrite H. exact (modifiers_ok o data effs D).
Qed.
Print Assumptions C43_loads_if.
(** The first entry that is not a description decides: the documented errors, else a panic. *)
Theorem C43_first_bad_entry : forall o w p data l1 kv l2, w_yaml w p = Some (Some data) ->
  key_value data (lit "modifiers") (YMap (l1 ++ kv :: l2)) ->
  Forall (fun x => exists e, entry_effect x e) l1 -> (forall e, ~ entry_effect kv e) ->
  (forall er, entry_error kv er -> modifiers_from_yaml_path o w p = Err er) /\
  ((forall er, ~ entry_error kv er) -> modifiers_from_yaml_path o w p = Panic).
Proof.
  intros o w p data l1 kv l2 H K F N. unfold modifiers_from_yaml_path, read_yaml. rewrite H. cbn [bind].
  unfold modifiers_of_yaml. apply yget_iff in K. rewrite K. cbn [as_mapping unwrap bind]. apply entries_fail; assumption.
Qed.
Print Assumptions C43_first_bad_entry.
Theorem C43_other_failures : forall o w p,
  (w_yaml w p = None -> modifiers_from_yaml_path o w p = Err IoError) /\
  (w_yaml w p = Some None -> modifiers_from_yaml_path o w p = Err YamlFileLoadError) /\
  (forall data v, w_yaml w p = Some (Some data) -> key_value data (lit "modifiers") v -> (forall l, v <> YMap l) ->
    modifiers_from_yaml_path o w p = Panic).
Proof.
  intros o w p. unfold modifiers_from_yaml_path, read_yaml. split; [|split].
  - intros ->. reflexivity.
  - intros ->. reflexivity.
  - intros data v -> K N. cbn [bind]. unfold modifiers_of_yaml. apply yget_iff in K. rewrite K.
    destruct v; try reflexivity. destruct (N l eq_refl).
Qed.
Print Assumptions C43_other_failures.
Theorem C43_hash_order_irrelevant : forall o o' w p, modifiers_from_yaml_path o w p = modifiers_from_yaml_path o' w p.
Proof. exact modifiers_path_order. Qed.
Print Assumptions C43_hash_order_irrelevant.
Definition ex_modifiers (l : list (yval * yval)) : yval := YMap [(YStr (lit "modifiers"), YMap l)].
Definition ystr (s : string) : yval := YStr (lit s).
Example C43_case :
  modifiers_from_yaml_path no_order (yaml_world (ex_modifiers
    [(ystr "trim", YNull); (ystr "consecutive_character_reducer", ystr "-x");
     (ystr "character_converter", YMap [(ystr "a", ystr "b"); (ystr "cc", ystr "dd")]);
     (ystr "character_eliminator", YSeq [ystr "q"; ystr "rr"]);
     (ystr "ligature_translator", YMap [(ystr "ab", ystr "c"); (ystr "ab", ystr "")]);
     (ystr "dotted_space_eliminator", YNull)])) ex_path =
  Ok [MTrim; MRed 45%N; MConv [(97, 98); (99, 100)]%N; MElim [113; 114]%N; MLig [(lit "ab", [])]; MDot] /\
  modifiers_from_yaml_path no_order (yaml_world (ex_modifiers [(ystr "trim", YNull); (ystr "trin", YNull); (YNull, YNull)])) ex_path =
  Err (ModifierKindParseError (lit "specified key trin does not exists.")) /\
  modifiers_from_yaml_path no_order (yaml_world (ex_modifiers [(ystr "trim", ystr "x")])) ex_path =
  Err (ModifierKindParseError (lit "Cannot specify a value.")) /\
  modifiers_from_yaml_path no_order (yaml_world (ex_modifiers [(ystr "character_eliminator", YSeq [ystr ""])])) ex_path = Panic /\
  entry_error (ystr "trin", YNull) (ModifierKindParseError (lit "specified key trin does not exists.")).
Proof.
  repeat split. apply (er_unknown (lit "trin")). vm_compute. intuition discriminate.
Qed.
