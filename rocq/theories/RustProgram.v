(** Model of programs using the library (/repo/src/lib.rs): the tables and the [Chanoma]s a program has made and the methods
    it calls on them.  A builder is its table (/repo/src/table.rs:124-126); a value moved into a call is a copy, which the
    program may not use again. *)
From Verif Require Import Base Corr Table Charset Converter ModifierKind Yaml File ChanomaModel Configuration PyProgram.

(** /repo/src/table.rs:42-120, 142-268; /repo/src/chanoma.rs:30-184.  Objects are named by the order in which they were
    made.  A correspondence given to a call is what its [items()] returns; [RAddTable] and [RRemoveTable] are given
    [table.corr()]. *)
Inductive r_call :=
| RTableNew | RTableOf (items : list item) | RTableCsv (p : path) | RTableYaml (p : path) | RTableClone (i : nat)
| RAdd (i : nat) (items : list item) | RAddTable (i j : nat) | RAddPreset (i : nat) | RAddCsv (i : nat) (p : path)
| RAddYaml (i : nat) (p : path) | RRemove (i : nat) (items : list item) | RRemoveTable (i j : nat) | RItems (i : nat)
| RNew | RPreset | RNeologdn | RFromTable (i : nat) | RLoadRc | RConfig (p : path)
| RUsePreset (k : nat) | RUseNeologdn (k : nat) | RUseTable (k i : nat)
| RNormalize (k : nat) (s : str) | RPositions (k : nat) (s : str).
(** What the program sees: the call is done, items, a text, records, an error, a panic; [RNoObject]: there is no object of
    that name, so this is no program. *)
Inductive r_answer := RDone | RItemsAre (l : list item) | RText (s : str) | RRecords (rs : list record) | RErr (e : error) | RPanic | RNoObject.
Record r_state := RState { r_tables : list table; r_chanomas : list chanoma }.
Definition r_start : r_state := RState [] [].

(** A result that is kept, or the state as it was: an error is returned before anything is changed, and a panic also comes
    first ([from_tables] before [push], reading before [add]). *)
Definition r_made {A} (st : r_state) (x : outcome A) (keep : A -> r_state) : r_state * r_answer :=
  match x with Ok v => (keep v, RDone) | Err e => (st, RErr e) | Panic => (st, RPanic) end.
Definition new_table (st : r_state) (x : outcome table) : r_state * r_answer :=
  r_made st x (fun t => RState (r_tables st ++ [t]) (r_chanomas st)).
Definition new_chanoma (st : r_state) (x : outcome chanoma) : r_state * r_answer :=
  r_made st x (fun c => RState (r_tables st) (r_chanomas st ++ [c])).
(** A method of a named object. *)
Definition on_table (st : r_state) (i : nat) (k : table -> r_state * r_answer) : r_state * r_answer :=
  match nth_error (r_tables st) i with Some t => k t | None => (st, RNoObject) end.
Definition on_chanoma (st : r_state) (i : nat) (k : chanoma -> r_state * r_answer) : r_state * r_answer :=
  match nth_error (r_chanomas st) i with Some c => k c | None => (st, RNoObject) end.
Definition set_table (st : r_state) (i : nat) (x : outcome table) : r_state * r_answer :=
  r_made st x (fun t => RState (update i t (r_tables st)) (r_chanomas st)).
Definition set_chanoma (st : r_state) (i : nat) (x : outcome chanoma) : r_state * r_answer :=
  r_made st x (fun c => RState (r_tables st) (update i c (r_chanomas st))).
Definition answered {A} (st : r_state) (x : outcome A) (show : A -> r_answer) : r_state * r_answer :=
  (st, match x with Ok v => show v | Err e => RErr e | Panic => RPanic end).

(** One call; [dbg] is [log_enabled!(Debug)]. *)
Definition r_step (o : sched) (w : world) (dbg : bool) (k : r_call) (st : r_state) : r_state * r_answer :=
  match k with
  | RTableNew => new_table st (Ok table_new)
  | RTableOf items => new_table st (Ok (table_from_corr items OriginNew))
  | RTableCsv p => new_table st (builder_from_csv_path w p)
  | RTableYaml p => new_table st (builder_from_yaml_path w p)
  | RTableClone i => on_table st i (fun t => new_table st (Ok t))
  | RAdd i items => on_table st i (fun t => set_table st i (Ok (table_add o t (synth items))))
  | RAddTable i j => on_table st i (fun t => on_table st j (fun t' => set_table st i (Ok (table_add o t (table_corr t')))))
  | RAddPreset i => on_table st i (fun t => set_table st i (Ok (builder_preset o t)))
  | RAddCsv i p => on_table st i (fun t => set_table st i (add_from_csv o w p t))
  | RAddYaml i p => on_table st i (fun t => set_table st i (add_from_yaml o w p t))
  | RRemove i items => on_table st i (fun t => set_table st i (Ok (table_remove o t (synth items))))
  | RRemoveTable i j => on_table st i (fun t => on_table st j (fun t' => set_table st i (Ok (table_remove o t (table_corr t')))))
  | RItems i => on_table st i (fun t => (st, RItemsAre (table_items t)))
  | RNew => new_chanoma st (Ok chanoma_new)
  | RPreset => new_chanoma st (chanoma_preset o)
  | RNeologdn => new_chanoma st (chanoma_neologdn o)
  | RFromTable i => on_table st i (fun t => new_chanoma st (chanoma_from_table t))
  | RLoadRc => new_chanoma st (load_rc o w)
  | RConfig p => new_chanoma st (from_config_file o w p)
  | RUsePreset n => on_chanoma st n (fun c => set_chanoma st n (use_preset o c))
  | RUseNeologdn n => on_chanoma st n (fun c => set_chanoma st n (use_neologdn o c))
  | RUseTable n i => on_chanoma st n (fun c => on_table st i (fun t => set_chanoma st n (add_table t c)))
  | RNormalize n s => on_chanoma st n (fun c => answered st (normalize dbg o c s) RText)
  | RPositions n s => on_chanoma st n (fun c => answered st (normalize_with_positions o c s) RRecords)
  end.
(** A program: calls, each with the files and environment and the log level it sees; a program may catch a panic. *)
Fixpoint r_run (o : sched) (prog : list (world * bool * r_call)) (st : r_state) : list r_answer :=
  match prog with
  | [] => []
  | (w, dbg, k) :: r => let '(st', a) := r_step (sub o 0) w dbg k st in a :: r_run (sub o 1) r st'
  end.
