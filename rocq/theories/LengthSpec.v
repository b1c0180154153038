(** Specification vocabulary for C102: how often a key fits into a text. *)
From Verif Require Import Base.

(** The text can be cut up into [n] pieces that are the key and other pieces of one character. *)
Inductive cut_up (k : str) : str -> nat -> Prop :=
| cu_nil : cut_up k [] 0
| cu_char x s n : cut_up k s n -> cut_up k (x :: s) n
| cu_key s n : cut_up k s n -> cut_up k (k ++ s) (S n).
(** The greatest number of places without common characters at which the key stands. *)
Definition most (k s : str) (n : nat) : Prop := cut_up k s n /\ forall m, cut_up k s m -> m <= n.
