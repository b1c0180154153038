(** Specification vocabulary for Python programs (C78). *)
From Verif Require Import Base Corr Yaml File Spec FileSpec PathSpec ConfigSpec BinSpec PyProgram.

(** What a program's objects are: a table is a set of items, a [Chanoma] a relation between texts. *)
Record view := View { v_tables : list (item -> Prop); v_chanomas : list effect }.
(** The items of a CSV file and of a YAML file. *)
Definition csv_has (w : world) (p : path) (P : item -> Prop) : Prop :=
  exists recs rows items, w_csv w p = Some recs /\ hd_error recs <> Some CsvIoError /\ tl recs = map CsvFields rows /\
    rows_items rows items /\ forall it, P it <-> In it items.
Definition yaml_has (w : world) (p : path) (P : item -> Prop) : Prop :=
  exists data items, w_yaml w p = Some (Some data) /\ items_described data items /\ forall it, P it <-> In it items.
Definition given {A B} (has : A -> (B -> Prop) -> Prop) (a : option A) (P : B -> Prop) : Prop :=
  match a with Some x => has x P | None => forall b, ~ P b end.
(** [Table(preset, csv, yaml)] *)
Definition table_made (w : world) (preset : bool) (csv yaml : option path) (P : item -> Prop) : Prop :=
  exists C Y, given (csv_has w) csv C /\ given (yaml_has w) yaml Y /\
    forall it, P it <-> (preset = true /\ preset_item it) \/ C it \/ Y it.
(** What the automatically loaded files do. *)
Definition rc_effect (w : world) (e : effect) : Prop :=
  (exists s, w_env w = EnvUnicode s /\ w_is_file w s = true /\
     (has_extension s (lit "csv") \/ has_extension s (lit "yaml")) /\ file_effect w s e) \/
  (chanomarc_unset w /\ exists effs, Forall2 (file_effect w) (filter (w_is_file w) (candidates (w_home w) (w_cwd w))) effs /\
     e = in_sequence effs).
Definition config_effect (w : world) (rc : bool) (file : option path) (e : effect) : Prop :=
  match file with
  | Some p => file_effect w p e
  | None => if rc then rc_effect w e else e = identity
  end.
(** [Chanoma(table, neologdn, preset, rc, configfile)], the table being the set [P]: it replaces characters as the
    greatest matching item says. *)
Definition no_empty_item (P : item -> Prop) : Prop := forall it, P it -> from it <> [] /\ to it <> [].
Definition table_part (P : option (item -> Prop)) : effect :=
  match P with Some P => pointwise (greatest_match P) | None => identity end.
Definition chanoma_made (w : world) (P : option (item -> Prop)) (neologdn preset rc : bool) (file : option path) (e : effect) : Prop :=
  (forall Q, P = Some Q -> no_empty_item Q) /\
  exists cfg, config_effect w rc file cfg /\
    forall s out, e s out <-> exists a b d, cfg s a /\ table_part P a b /\ if_asked preset (pointwise preset_rel) b d /\
      if_asked neologdn neologdn_result d out.
Definition failed (a : py_answer) : Prop := (exists e, a = PyOSError e) \/ a = PyPanic.

(** [allowed v w k a v']: the call [k] may answer [a], and what the objects are afterwards. *)
Inductive allowed (v : view) (w : world) : py_call -> py_answer -> view -> Prop :=
| al_table preset csv yaml P : table_made w preset csv yaml P ->
    allowed v w (PyNewTable preset csv yaml) PyObject (View (v_tables v ++ [P]) (v_chanomas v))
| al_table_fails preset csv yaml a : (forall P, ~ table_made w preset csv yaml P) -> failed a ->
    allowed v w (PyNewTable preset csv yaml) a v
| al_add l1 P l2 items : v_tables v = l1 ++ P :: l2 ->
    allowed v w (PyAdd (length l1) (Some items)) PyNone (View (l1 ++ (fun it => P it \/ In it items) :: l2) (v_chanomas v))
| al_add_wrong_type i : allowed v w (PyAdd i None) PyOther v
| al_add_unknown i obj : length (v_tables v) <= i -> allowed v w (PyAdd i obj) PyOther v
| al_chanoma P t neologdn preset rc file e :
    match t with Some i => exists Q, nth_error (v_tables v) i = Some Q /\ P = Some Q | None => P = None end ->
    chanoma_made w P neologdn preset rc file e ->
    allowed v w (PyNewChanoma t neologdn preset rc file) PyObject (View (v_tables v) (v_chanomas v ++ [e]))
| al_chanoma_fails P t neologdn preset rc file a :
    match t with Some i => exists Q, nth_error (v_tables v) i = Some Q /\ P = Some Q | None => P = None end ->
    (forall e, ~ chanoma_made w P neologdn preset rc file e) -> failed a ->
    allowed v w (PyNewChanoma t neologdn preset rc file) a v
| al_chanoma_unknown i neologdn preset rc file : length (v_tables v) <= i ->
    allowed v w (PyNewChanoma (Some i) neologdn preset rc file) PyOther v
| al_text i e s out : nth_error (v_chanomas v) i = Some e -> e s out -> allowed v w (PyNormalize i s) (PyText out) v
| al_text_unknown i s : length (v_chanomas v) <= i -> allowed v w (PyNormalize i s) PyOther v.
(** Answers of a whole program. *)
Inductive allowed_run (v : view) : list (world * py_call) -> list py_answer -> Prop :=
| ar_nil : allowed_run v [] []
| ar_cons w k prog a answers v' : allowed v w k a v' -> allowed_run v' prog answers -> allowed_run v ((w, k) :: prog) (a :: answers).
(** The same answer, up to the reason of a failure. *)
Definition same_answer (a b : py_answer) : Prop := a = b \/ (failed a /\ failed b).
Definition sane (prog : list (world * py_call)) : Prop :=
  Forall (fun wk => forall s, w_env (fst wk) = EnvUnicode s -> unicode s) prog.
