(** Specification vocabulary for CSV texts (as RFC 4180, with any of the three line ends). *)
From Verif Require Import Base.

(** [b] is [f] with every quotation mark written twice. *)
Inductive doubled : list N -> list N -> Prop :=
| db_nil : doubled [] []
| db_quote f b : doubled f b -> doubled (0x22 :: f)%N (0x22 :: 0x22 :: b)%N
| db_other x f b : x <> 0x22%N -> doubled f b -> doubled (x :: f) (x :: b).
(** A field is written as it is, if it contains no comma and no line end and does not begin with a quotation mark;
    or between quotation marks. *)
Inductive field_text (f : list N) : list N -> Prop :=
| ft_plain : Forall (fun x => x <> 0x2C /\ x <> 0x0D /\ x <> 0x0A)%N f -> hd_error f <> Some 0x22%N -> field_text f f
| ft_quoted b : doubled f b -> field_text f (0x22%N :: b ++ [0x22%N]).
(** Fields of a row are separated by commas. *)
Inductive row_text : list (list N) -> list N -> Prop :=
| rt_one f b : field_text f b -> row_text [f] b
| rt_more f b row r : field_text f b -> row_text row r -> row_text (f :: row) (b ++ 0x2C%N :: r).
Inductive line_end : list N -> Prop :=
| le_lf : line_end [0x0A]%N
| le_cr : line_end [0x0D]%N
| le_crlf : line_end [0x0D; 0x0A]%N.
(** Rows end with a line end, which the last may lack; lines without text are no rows. *)
Inductive csv_text : list (list (list N)) -> list N -> Prop :=
| ct_nil : csv_text [] []
| ct_last row b : row_text row b -> b <> [] -> csv_text [row] b
| ct_row row b e rows t : row_text row b -> b <> [] -> line_end e -> csv_text rows t -> csv_text (row :: rows) (b ++ e ++ t)
| ct_blank e rows t : line_end e -> csv_text rows t -> csv_text rows (e ++ t).
