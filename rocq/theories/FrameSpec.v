(** Specification vocabulary for C111: when two worlds look alike to the loading of a configuration. *)
From Verif Require Import Base Corr Yaml File Spec FileSpec PathSpec ConfigSpec.

(** Two readings of a CSV file that differ at most in the first record. *)
Definition csv_alike (a b : option (list csv_record)) : Prop :=
  a = b \/ exists ra rb, a = Some ra /\ b = Some rb /\
    hd_error ra <> Some CsvIoError /\ hd_error rb <> Some CsvIoError /\ tl ra = tl rb.
(** Two readings of a YAML file that differ at most outside [items] and [modifiers]. *)
Definition yaml_alike (a b : option (option yval)) : Prop :=
  a = b \/ exists da db, a = Some (Some da) /\ b = Some (Some db) /\
    forall v, (key_value da (lit "items") v <-> key_value db (lit "items") v) /\
              (key_value da (lit "modifiers") v <-> key_value db (lit "modifiers") v).
(** The file is read in the format its name says, and in no other. *)
Definition file_alike (w w' : world) (p : path) : Prop :=
  (has_extension p (lit "csv") -> csv_alike (w_csv w p) (w_csv w' p)) /\
  (is_yaml p -> yaml_alike (w_yaml w p) (w_yaml w' p)).
(** A place that is looked at: a file in both worlds or in neither. *)
Definition place_alike (w w' : world) (p : path) : Prop :=
  w_is_file w p = w_is_file w' p /\ (w_is_file w p = true -> file_alike w w' p).
Definition configured_alike (w w' : world) : Prop :=
  (exists s, w_env w = EnvUnicode s /\ w_env w' = EnvUnicode s /\ place_alike w w' s) \/
  (chanomarc_unset w /\ chanomarc_unset w' /\
   candidates (w_home w) (w_cwd w) = candidates (w_home w') (w_cwd w') /\
   Forall (place_alike w w') (candidates (w_home w) (w_cwd w))).
(** The worlds differ at most in the file [p]. *)
Definition only_at (p : path) (w w' : world) : Prop :=
  w_env w = w_env w' /\ w_home w = w_home w' /\ w_cwd w = w_cwd w' /\ w_canonicalize w = w_canonicalize w' /\
  forall q, q <> p -> w_is_file w q = w_is_file w' q /\ w_csv w q = w_csv w' q /\ w_yaml w q = w_yaml w' q.
