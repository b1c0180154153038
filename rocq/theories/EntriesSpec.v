(** Vocabulary of C117. *)
From Verif Require Import Base Yaml File PathSpec.

(** An entry of [items] says what a row of a CSV file says: its key is the last field, its value, one text or a list of
    texts, the fields before it. *)
Inductive written : yval * yval -> list str -> Prop :=
| wr_one f t : written (YStr t, YStr f) [f; t]
| wr_list fs t : written (YStr t, YSeq (map YStr fs)) (fs ++ [t]).
(** The file [p] is a YAML file with nothing but [items], whose entries say what these rows say. *)
Definition yaml_file (w : world) (p : path) (rows : list (list str)) : Prop :=
  (has_extension p (lit "yaml") \/ has_extension p (lit "yml")) /\
  exists es, w_yaml w p = Some (Some (YMap [(YStr (lit "items"), YMap es)])) /\ Forall2 written es rows.
(** The keys of the entries are pairwise different, as a YAML mapping demands. *)
Definition distinct_keys (rows : list (list str)) : Prop := NoDup (map (fun r => last r []) rows).
