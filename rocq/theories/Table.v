(** Model of /repo/src/table.rs (file-reading constructors are in File.v). *)
From Verif Require Import Base Corr.

(** /repo/src/table.rs:12-17 *)
Inductive origin := OriginNew | OriginFile (p : path).
(** /repo/src/table.rs:21-26 *)
Record table := Table { t_corr : list item; t_origin : origin }.

(** /repo/src/table.rs:42-47 *)
Definition table_new : table := Table [] OriginNew.
(** /repo/src/table.rs:68-70 *)
Definition table_from_corr (items : list item) (org : origin) : table := Table items org.
(** /repo/src/table.rs:81-83 *)
Definition table_add (o : sched) (t : table) (c : corr) : table :=
  Table (corr_add_assign o (t_corr t) c) (t_origin t).
(** /repo/src/table.rs:94-96 *)
Definition table_remove (o : sched) (t : table) (c : corr) : table :=
  Table (corr_sub_assign o (t_corr t) c) (t_origin t).
(** /repo/src/table.rs:106-108: [corr()] clones the inner correspondence. *)
Definition table_corr (t : table) : corr := synth (t_corr t).
(** /repo/src/table.rs:118-120 *)
Definition table_items (t : table) : list item := t_corr t.
