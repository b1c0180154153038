(** Model of programs using the Python module (/repo/bindings/python3/src/lib.rs): the objects a program has made
    and the methods it calls on them. *)
From Verif Require Import Base Corr Table ModifierKind File ChanomaModel Configuration Python.

(** Lines 23-48, 50-52, 133-155: the calls.  Objects are named by the order in which they were made.  A call of
    [add] gets the value of the attribute [items], or [None] for an object that does not have a list of [Item]s there. *)
Inductive py_call :=
| PyNewTable (preset : bool) (csv yaml : option path)
| PyAdd (i : nat) (obj : option (list item))
| PyNewChanoma (table : option nat) (neologdn preset rc : bool) (configfile : option path)
| PyNormalize (i : nat) (text : str).
(** What the program sees: a new object, [None], a string, an [OSError], another exception of Python's own
    (unknown name, wrong type), a panic (pyo3's [PanicException]). *)
Inductive py_answer := PyObject | PyNone | PyText (s : str) | PyOSError (e : error) | PyOther | PyPanic.
(** Lines 8-11, 124-127: the fields [c] and [t] of the objects made so far. *)
Record py_state := PyState { py_tables : list table; py_chanomas : list chanoma }.
Definition py_start : py_state := PyState [] [].

Fixpoint update {A} (i : nat) (x : A) (l : list A) : list A :=
  match l, i with
  | [], _ => []
  | _ :: r, 0 => x :: r
  | y :: r, S j => y :: update j x r
  end.
(** The outcome of a constructor: the object is kept only if there is one. *)
Definition py_made {A} (st : py_state) (x : outcome A) (keep : A -> py_state) : py_state * py_answer :=
  match x with
  | Ok v => (keep v, PyObject)
  | Err e => (st, PyOSError e)
  | Panic => (st, PyPanic)
  end.
(** One call. *)
Definition py_step (o : sched) (w : world) (k : py_call) (st : py_state) : py_state * py_answer :=
  match k with
  | PyNewTable preset csv yaml =>
      py_made st (py_table_new o w preset csv yaml) (fun t => PyState (py_tables st ++ [t]) (py_chanomas st))
  | PyAdd i obj =>
      match nth_error (py_tables st) i, obj with
      | Some t, Some items => (PyState (update i (py_table_add o items t) (py_tables st)) (py_chanomas st), PyNone)
      | _, _ => (st, PyOther)
      end
  | PyNewChanoma table neologdn preset rc configfile =>
      let make t := py_made st (py_chanoma_new o w t neologdn preset rc configfile)
                            (fun c => PyState (py_tables st) (py_chanomas st ++ [c])) in
      match table with
      | None => make None
      | Some i => match nth_error (py_tables st) i with Some t => make (Some t) | None => (st, PyOther) end
      end
  | PyNormalize i text =>
      match nth_error (py_chanomas st) i with
      | Some c => match py_normalize o c text with
                  | Ok s => (st, PyText s)
                  | Err e => (st, PyOSError e)
                  | Panic => (st, PyPanic)
                  end
      | None => (st, PyOther)
      end
  end.
(** A program: calls, each with the files and environment it sees; the answers. *)
Fixpoint py_run (o : sched) (prog : list (world * py_call)) (st : py_state) : list py_answer :=
  match prog with
  | [] => []
  | (w, k) :: r => let '(st', a) := py_step (sub o 0) w k st in a :: py_run (sub o 1) r st'
  end.
