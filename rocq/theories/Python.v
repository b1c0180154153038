(** Model of /repo/bindings/python3/src/lib.rs.  [Err e] stands for the [PyOSError] raised with the
    text of [e]; a panic stays a panic. *)
From Verif Require Import Base Corr CharsetData Table Charset ModifierKind File ChanomaModel Configuration.

(** Lines 23-48: [Chanoma.__new__] *)
Definition py_chanoma_new (o : sched) (w : world) (table : option table) (neologdn preset rc : bool)
  (configfile : option path) : outcome chanoma :=
  c <- match configfile with
       | Some file => from_config_file (sub o 0) w file
       | None => if rc then load_rc (sub o 0) w else Ok chanoma_new
       end ;;
  c <- match table with Some t => add_table t c | None => Ok c end ;;
  c <- (if preset then use_preset (sub o 1) c else Ok c) ;;
  if neologdn then use_neologdn (sub o 2) c else Ok c.
(** Lines 50-52 (no logger is installed by the binding, so the log level is off). *)
Definition py_normalize (o : sched) (c : chanoma) (text : str) : outcome str := normalize false o c text.

(** Lines 133-149: [Table.__new__] *)
Definition py_table_new (o : sched) (w : world) (preset : bool) (csv yaml : option path) : outcome table :=
  let t := table_new in
  let t := if preset then builder_preset (sub o 0) t else t in
  t <- match csv with Some p => add_from_csv (sub o 1) w p t | None => Ok t end ;;
  match yaml with Some p => add_from_yaml (sub o 2) w p t | None => Ok t end.
(** Lines 113-122, 151-155: [Table.add] with any object that has [items]. *)
Definition py_table_add (o : sched) (items : list item) (t : table) : table :=
  table_add o t (synth items).

(** /repo/bindings/python3/src/characters_set.rs:5-103: the classes of [chanoma.characters_set]; the
    attribute [items] is a copy of the items of the set of the same name. *)
Inductive py_set := PyAlphabets | PyDigits | PyPunctuations | PyKanas | PyCjkCompatibilities.
Definition py_set_items (o : sched) (s : py_set) : list item :=
  match s with
  | PyAlphabets => ALPHABETS o
  | PyDigits => DIGITS o
  | PyPunctuations => PUNCTUATIONS o
  | PyKanas => KANAS o
  | PyCjkCompatibilities => CJK_COMPATIBILITIES o
  end.
(** A Python script calling [Table.add] with new objects of the given classes in turn. *)
Fixpoint py_add_sets (o : sched) (l : list py_set) (t : table) : table :=
  match l with
  | [] => t
  | s :: r => py_add_sets (sub o 2) r (py_table_add (sub o 1) (py_set_items (sub o 0) s) t)
  end.
