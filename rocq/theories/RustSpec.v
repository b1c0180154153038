(** Specification vocabulary for programs using the library (C92). *)
From Verif Require Import Base Corr CorrProps Yaml File ModifierKind Spec FileSpec PathSpec ConfigSpec BinSpec RustProgram.

(** What a program's objects are: a table is a list of items, a [Chanoma] a list of stages. *)
Record r_view := RView { rv_tables : list (list item); rv_chanomas : list (list effect) }.
Definition csv_lists (w : world) (p : path) (items : list item) : Prop :=
  exists recs rows, w_csv w p = Some recs /\ hd_error recs <> Some CsvIoError /\ tl recs = map CsvFields rows /\ rows_items rows items.
Definition yaml_lists (w : world) (p : path) (items : list item) : Prop :=
  exists data, w_yaml w p = Some (Some data) /\ items_described data items.
(** Adding makes a table a sorted list without repetitions; removing sorts it and takes every copy away. *)
Definition union_of (l items l' : list item) : Prop :=
  ordered item_lt l' /\ forall it, In it l' <-> In it l \/ In it items.
Definition difference_of (l items l' : list item) : Prop :=
  ordered item_le l' /\ forall it, count_occ item_eq_dec l' it = if in_dec item_eq_dec it items then 0 else count_occ item_eq_dec l it.
Definition replaces (items : list item) : effect := pointwise (last_match items).
(** The stages of a configuration file and of the automatically loaded files. *)
Inductive file_stages (w : world) (p : path) : list effect -> Prop :=
| fs_csv items : has_extension p (lit "csv") -> csv_lists w p items -> no_empty_string items -> file_stages w p [replaces items]
| fs_yaml data items effs : is_yaml p -> w_yaml w p = Some (Some data) -> items_described data items -> no_empty_string items ->
    modifiers_described data effs -> file_stages w p (effs ++ [replaces items]).
Definition rc_stages (w : world) (effs : list effect) : Prop :=
  (exists s, w_env w = EnvUnicode s /\ w_is_file w s = true /\ (has_extension s (lit "csv") \/ has_extension s (lit "yaml")) /\
     file_stages w s effs) \/
  (chanomarc_unset w /\ exists parts, Forall2 (file_stages w) (filter (w_is_file w) (candidates (w_home w) (w_cwd w))) parts /\
     effs = concat parts).

(** Calls that make or change an object, and what it is afterwards. *)
Inductive makes_table (v : r_view) (w : world) : r_call -> list item -> Prop :=
| mt_new : makes_table v w RTableNew []
| mt_of items : makes_table v w (RTableOf items) items
| mt_csv p q items : w_canonicalize w p = Some q -> csv_lists w q items -> makes_table v w (RTableCsv p) items
| mt_yaml p q items : w_canonicalize w p = Some q -> yaml_lists w q items -> makes_table v w (RTableYaml p) items
| mt_clone i l : nth_error (rv_tables v) i = Some l -> makes_table v w (RTableClone i) l.
Inductive changes_table (v : r_view) (w : world) : r_call -> nat -> list item -> list item -> Prop :=
| ct_add i l items l' : union_of l items l' -> changes_table v w (RAdd i items) i l l'
| ct_add_table i j l lj l' : nth_error (rv_tables v) j = Some lj -> union_of l lj l' -> changes_table v w (RAddTable i j) i l l'
| ct_preset i l items l' : (forall it, In it items <-> preset_item it) -> union_of l items l' -> changes_table v w (RAddPreset i) i l l'
| ct_csv i p l items l' : csv_lists w p items -> union_of l items l' -> changes_table v w (RAddCsv i p) i l l'
| ct_yaml i p l items l' : yaml_lists w p items -> union_of l items l' -> changes_table v w (RAddYaml i p) i l l'
| ct_remove i l items l' : difference_of l items l' -> changes_table v w (RRemove i items) i l l'
| ct_remove_table i j l lj l' : nth_error (rv_tables v) j = Some lj -> difference_of l lj l' -> changes_table v w (RRemoveTable i j) i l l'.
Inductive makes_chanoma (v : r_view) (w : world) : r_call -> list effect -> Prop :=
| mc_new : makes_chanoma v w RNew []
| mc_preset : makes_chanoma v w RPreset [pointwise preset_rel]
| mc_neologdn : makes_chanoma v w RNeologdn [neologdn_result]
| mc_table i l : nth_error (rv_tables v) i = Some l -> no_empty_string l -> makes_chanoma v w (RFromTable i) [replaces l]
| mc_rc effs : rc_stages w effs -> makes_chanoma v w RLoadRc effs
| mc_config p effs : file_stages w p effs -> makes_chanoma v w (RConfig p) effs.
Inductive adds_stage (v : r_view) : r_call -> nat -> effect -> Prop :=
| as_preset n : adds_stage v (RUsePreset n) n (pointwise preset_rel)
| as_neologdn n : adds_stage v (RUseNeologdn n) n neologdn_result
| as_table n i l : nth_error (rv_tables v) i = Some l -> no_empty_string l -> adds_stage v (RUseTable n i) n (replaces l).
(** Records of a run through the stages. *)
Fixpoint records_of (effs : list effect) (s : str) (rs : list record) : Prop :=
  match effs, rs with
  | [], [] => True
  | e :: effs', r :: rs' => e s (r_text r) /\ records_of effs' (r_text r) rs'
  | _, _ => False
  end.
(** The objects a call names. *)
Definition tables_named (k : r_call) : list nat :=
  match k with
  | RTableClone i | RAdd i _ | RAddPreset i | RAddCsv i _ | RAddYaml i _ | RRemove i _ | RItems i | RFromTable i | RUseTable _ i => [i]
  | RAddTable i j | RRemoveTable i j => [i; j]
  | _ => []
  end.
Definition chanomas_named (k : r_call) : list nat :=
  match k with RUsePreset n | RUseNeologdn n | RUseTable n _ | RNormalize n _ | RPositions n _ => [n] | _ => [] end.
Definition objects_exist (v : r_view) (k : r_call) : Prop :=
  (forall i, In i (tables_named k) -> i < length (rv_tables v)) /\ (forall n, In n (chanomas_named k) -> n < length (rv_chanomas v)).
(** Calls that read files, and calls that build a converter. *)
Definition reads_files (k : r_call) : Prop :=
  match k with RTableCsv _ | RTableYaml _ | RAddCsv _ _ | RAddYaml _ _ | RLoadRc | RConfig _ => True | _ => False end.
Definition replaced {A} (l : list A) (i : nat) (x : A) (l' : list A) : Prop :=
  exists a y b, l = a ++ y :: b /\ length a = i /\ l' = a ++ x :: b.

(** [r_allowed v w dbg k a v']: the call [k] may answer [a], and what the objects are afterwards. *)
Inductive r_allowed (v : r_view) (w : world) (dbg : bool) : r_call -> r_answer -> r_view -> Prop :=
| ra_new_table k l : makes_table v w k l -> r_allowed v w dbg k RDone (RView (rv_tables v ++ [l]) (rv_chanomas v))
| ra_table k i l l' ts : nth_error (rv_tables v) i = Some l -> changes_table v w k i l l' ->
    replaced (rv_tables v) i l' ts -> r_allowed v w dbg k RDone (RView ts (rv_chanomas v))
| ra_new_chanoma k effs : makes_chanoma v w k effs -> r_allowed v w dbg k RDone (RView (rv_tables v) (rv_chanomas v ++ [effs]))
| ra_stage k n effs e cs : nth_error (rv_chanomas v) n = Some effs -> adds_stage v k n e ->
    replaced (rv_chanomas v) n (effs ++ [e]) cs -> r_allowed v w dbg k RDone (RView (rv_tables v) cs)
| ra_items i l : nth_error (rv_tables v) i = Some l -> r_allowed v w dbg (RItems i) (RItemsAre l) v
| ra_text n effs s out : nth_error (rv_chanomas v) n = Some effs -> (dbg = true -> effs <> []) -> in_sequence effs s out ->
    r_allowed v w dbg (RNormalize n s) (RText out) v
| ra_no_text n s : nth_error (rv_chanomas v) n = Some [] -> dbg = true -> r_allowed v w dbg (RNormalize n s) RPanic v
| ra_records n effs s rs : nth_error (rv_chanomas v) n = Some effs -> records_of effs s rs ->
    r_allowed v w dbg (RPositions n s) (RRecords rs) v
| ra_unreadable k a : reads_files k -> objects_exist v k -> (forall l, ~ makes_table v w k l) -> (forall i l l', ~ changes_table v w k i l l') ->
    (forall effs, ~ makes_chanoma v w k effs) -> (exists e, a = RErr e) \/ a = RPanic -> r_allowed v w dbg k a v
| ra_empty_string k i l : objects_exist v k -> k = RFromTable i \/ (exists n, k = RUseTable n i) -> nth_error (rv_tables v) i = Some l ->
    ~ no_empty_string l -> r_allowed v w dbg k RPanic v
| ra_unknown k : ~ objects_exist v k -> r_allowed v w dbg k RNoObject v.
Inductive r_allowed_run (v : r_view) : list (world * bool * r_call) -> list r_answer -> Prop :=
| rr_nil : r_allowed_run v [] []
| rr_cons w dbg k prog a answers v' : r_allowed v w dbg k a v' -> r_allowed_run v' prog answers ->
    r_allowed_run v ((w, dbg, k) :: prog) (a :: answers).
(** The same answer, up to the reason of a failed reading and the positions of records. *)
Definition r_same (k : r_call) (a b : r_answer) : Prop :=
  a = b \/
  (reads_files k /\ ((exists e, a = RErr e) \/ a = RPanic) /\ ((exists e, b = RErr e) \/ b = RPanic)) \/
  exists rs rs', a = RRecords rs /\ b = RRecords rs' /\ map r_text rs = map r_text rs'.
Definition r_sane (prog : list (world * bool * r_call)) : Prop :=
  Forall (fun x => forall s, w_env (fst (fst x)) = EnvUnicode s -> unicode s) prog.
Fixpoint same_run (prog : list (world * bool * r_call)) (a b : list r_answer) : Prop :=
  match prog, a, b with
  | [], [], [] => True
  | (_, _, k) :: prog, x :: a, y :: b => r_same k x y /\ same_run prog a b
  | _, _, _ => False
  end.
(** The object a call is a method of, if it may change it; calls that only ask. *)
Definition table_modified (k : r_call) : option nat :=
  match k with RAdd i _ | RAddTable i _ | RAddPreset i | RAddCsv i _ | RAddYaml i _ | RRemove i _ | RRemoveTable i _ => Some i | _ => None end.
Definition chanoma_modified (k : r_call) : option nat :=
  match k with RUsePreset n | RUseNeologdn n | RUseTable n _ => Some n | _ => None end.
Definition questions (k : r_call) : Prop := match k with RItems _ | RNormalize _ _ | RPositions _ _ => True | _ => False end.
