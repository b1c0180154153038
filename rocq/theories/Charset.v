(** Model of /repo/src/characters_set.rs and of [TableBuilder::preset]. *)
From Verif Require Import Base Corr CharsetData Table.

(** /repo/src/characters_set.rs:23-28: [All::items]. *)
Definition ALL : corr := fun o => add_chain o 0 DIGITS [PUNCTUATIONS; ALPHABETS; KANAS].

(** /repo/src/table.rs:167-170: [TableBuilder::preset] *)
Definition builder_preset (o : sched) (t : table) : table := table_add o t ALL.
