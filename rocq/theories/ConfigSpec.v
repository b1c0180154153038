(** Specification vocabulary for configuration files. *)
From Verif Require Import Base Corr Yaml File Spec FileSpec PathSpec.

Definition is_yaml (p : path) : Prop := has_extension p (lit "yaml") \/ has_extension p (lit "yml").
(** What a configuration file does to a text. *)
Inductive file_effect (w : world) (p : path) : effect -> Prop :=
| fe_csv recs rows items : has_extension p (lit "csv") -> w_csv w p = Some recs -> hd_error recs <> Some CsvIoError ->
    tl recs = map CsvFields rows -> rows_items rows items -> no_empty_string items ->
    file_effect w p (pointwise (last_match items))
| fe_yaml data items effs : is_yaml p -> w_yaml w p = Some (Some data) -> items_described data items ->
    no_empty_string items -> modifiers_described data effs ->
    file_effect w p (fun s out => exists mid, in_sequence effs s mid /\ pointwise (last_match items) mid out).
(** The documented candidates, in order. *)
Definition names_in (d : path) : list path :=
  [in_dir d (lit "chanomarc.csv"); in_dir d (lit "chanomarc.yaml");
   in_dir d (lit ".chanomarc.csv"); in_dir d (lit ".chanomarc.yaml")].
Definition candidates (home cwd : option path) : list path :=
  (match home with Some h => names_in (in_dir h (lit ".config/chanoma")) ++ names_in h | None => [] end) ++
  (match cwd with Some d => names_in d | None => [] end).
Definition chanomarc_unset (w : world) : Prop := forall s, w_env w <> EnvUnicode s.
(** The same world seen from another current directory. *)
Definition with_cwd (w : world) (d : option path) : world :=
  World (w_is_file w) (w_csv w) (w_yaml w) (w_canonicalize w) (w_env w) (w_home w) d.
