(** Vocabulary of C115. *)
From Verif Require Import Base File FileSpec PathSpec.

(** The file [p] is a CSV file with these rows below its first. *)
Definition csv_file (w : world) (p : path) (rows : list (list str)) : Prop :=
  has_extension p (lit "csv") /\ exists h, w_csv w p = Some (h :: map CsvFields rows) /\ h <> CsvIoError.
(** A row says that [x] becomes [t]. *)
Definition sends (row : list str) (x t : char) : Prop := exists fs f g, row = fs ++ [t :: g] /\ In (x :: f) fs.
Definition names (row : list str) (x : char) : Prop := exists t, sends row x t.
(** A row of one field says nothing; other rows have no empty field. *)
Definition usable (row : list str) : Prop := length row = 1 \/ (length row > 1 /\ ~ In [] row).
(** What becomes of [x]: what the last row naming it says, or it stays. *)
Inductive target (rows : list (list str)) (x : char) : char -> Prop :=
| tg_row before row after t : rows = before ++ row :: after -> sends row x t -> (forall r, In r after -> ~ names r x) -> target rows x t
| tg_stays : (forall r, In r rows -> ~ names r x) -> target rows x x.
(** Two lists of rows say the same. *)
Definition same_rows (a b : list (list str)) : Prop := forall x t, target a x t <-> target b x t.
(** The rows turn [x] into something else, that perhaps into something else again, and so on, up to [t]. *)
Inductive leads (rows : list (list str)) : char -> char -> Prop :=
| ld_one x t : target rows x t -> x <> t -> leads rows x t
| ld_more x t u : target rows x t -> x <> t -> leads rows t u -> leads rows x u.
